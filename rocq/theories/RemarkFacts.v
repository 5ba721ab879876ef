(** Facts for C89: what comments, notes and formats do not change. *)
From Coq Require Import Lia.
From Verif Require Import Base BaseFacts Numerals Money Alist Comment Txn Expr Filter Price Tokens Ledger Reports App Spec SpecText SpecTokens PropTags
  SpecLedger SpecSame SpecRemark SameFacts.
Open Scope Qc_scope.

(** ** Lists *)
Lemma f2_app {A B} (R : A -> B -> Prop) a b c d : Forall2 R a b -> Forall2 R c d -> Forall2 R (a ++ c) (b ++ d).
Proof. intros H K. apply Forall2_app; auto. Qed.
Lemma f2_filter {A} (R : A -> A -> Prop) (f : A -> bool) xs ys : (forall x y, R x y -> f x = f y) -> Forall2 R xs ys -> Forall2 R (filter f xs) (filter f ys).
Proof. intros H F. induction F as [|x y xs ys HR F IH]; cbn; auto. rewrite <- (H _ _ HR). destruct (f x); auto. Qed.
Lemma f2_len {A B} (R : A -> B -> Prop) xs ys : Forall2 R xs ys -> length xs = length ys.
Proof. induction 1; cbn; auto. Qed.
Lemma f2_map {A B C D} (R : A -> B -> Prop) (Q : C -> D -> Prop) f g xs ys : (forall x y, R x y -> Q (f x) (g y)) -> Forall2 R xs ys -> Forall2 Q (map f xs) (map g ys).
Proof. intros H F. induction F; cbn; auto. Qed.
Lemma f2_map_eq {A B C} (R : A -> B -> Prop) (f : A -> C) g xs ys : (forall x y, R x y -> f x = g y) -> Forall2 R xs ys -> map f xs = map g ys.
Proof. intros H F. induction F as [|x y xs ys HR F IH]; cbn; auto. f_equal; auto. Qed.
Lemma f2_flat {A B C D} (R : A -> B -> Prop) (Q : C -> D -> Prop) f g xs ys : (forall x y, R x y -> Forall2 Q (f x) (g y)) -> Forall2 R xs ys -> Forall2 Q (flat_map f xs) (flat_map g ys).
Proof. intros H F. induction F as [|x y xs ys HR F IH]; cbn; auto. apply f2_app; auto. Qed.
Lemma f2_flat_eq {A B C} (R : A -> B -> Prop) (f : A -> list C) g xs ys : (forall x y, R x y -> f x = g y) -> Forall2 R xs ys -> flat_map f xs = flat_map g ys.
Proof. intros H F. induction F as [|x y xs ys HR F IH]; cbn; auto. f_equal; auto. Qed.
Lemma f2_sort {A} (R : A -> A -> Prop) (le : A -> A -> bool) xs ys : (forall x x' y y', R x x' -> R y y' -> le x y = le x' y') ->
  Forall2 R xs ys -> Forall2 R (stable_sort le xs) (stable_sort le ys).
Proof.
  intros H F. induction F as [|x y xs ys HR F IH]; [constructor|]. change (stable_sort le (x :: xs)) with (insert_sorted le x (stable_sort le xs)).
  change (stable_sort le (y :: ys)) with (insert_sorted le y (stable_sort le ys)). clear F. revert IH. generalize (stable_sort le xs) (stable_sort le ys). intros l l' IH.
  induction IH as [|a b l l' HR' F IH]; cbn [insert_sorted]; [auto|]. rewrite <- (H x y a b); auto. destruct (le x a); auto.
Qed.
Lemma agree_mapM {A B} (P : A -> A -> Prop) (R : B -> B -> Prop) (f f' : A -> res B) l l' : Forall2 P l l' -> (forall x x', P x x' -> agree R (f x) (f' x')) ->
  agree (Forall2 R) (mapM f l) (mapM f' l').
Proof.
  intros F H. induction F as [|x x' l l' HP F IH]; cbn [mapM]; [constructor|]. eapply agree_bind; [apply H; auto|]. intros a b HR. eapply agree_bind; [exact IH|]. intros c d HF. cbn. auto.
Qed.
Lemma agree_foldM2 {A S} (P : A -> A -> Prop) (R : S -> S -> Prop) (f f' : S -> A -> res S) l l' : (forall s s' x x', P x x' -> R s s' -> agree R (f s x) (f' s' x')) ->
  Forall2 P l l' -> forall s s', R s s' -> agree R (foldM f s l) (foldM f' s' l').
Proof.
  intros H F. induction F as [|x x' l l' HP F IH]; intros s s' HR; cbn [foldM]; [auto|]. eapply agree_bind; [apply H; eauto|]. intros a b HR'. apply IH; auto.
Qed.
Lemma f2_mapM_eq {A B} (P : A -> A -> Prop) (f f' : A -> res B) l l' : (forall x x', P x x' -> f x = f' x') -> Forall2 P l l' -> mapM f l = mapM f' l'.
Proof. intros H F. induction F as [|x x' l l' HP F IH]; cbn [mapM]; auto. rewrite (H x x' HP), IH. auto. Qed.
Lemma unwrap_eq {A} (x y : option A) : x = y -> agree eq (unwrap x) (unwrap y).
Proof. intros ->. apply agree_eq. auto. Qed.

(** ** Tags *)
Lemma same_tags_tags cs cs' : same_tags cs cs' -> flat_map get_tags cs = flat_map get_tags cs'.
Proof.
  assert (X : forall l, flat_map get_tags l = flat_map get_tags (filter has_colon l)).
  { induction l as [|c l IH]; cbn; auto. destruct (has_colon c) eqn:E; cbn; rewrite IH; auto. rewrite (C45_no_colon_no_tags c); auto.
    intros I. unfold has_colon in E. assert (Y : existsb (N.eqb c_colon) c = true) by (apply existsb_exists; exists c_colon; split; auto; apply N.eqb_refl). congruence. }
  intros H. rewrite (X cs), (X cs'). unfold same_tags in H. rewrite H. auto.
Qed.

(** ** Lists of names *)
Section Lists.
Context {T : Type} (w : world) (name : T -> str) (aliases : T -> list str) (R : T -> T -> Prop).
Context (RN : forall a b, R a b -> name a = name b) (RA : forall a b, R a b -> aliases a = aliases b).
Notation keyed := (Forall2 (fun x y : str * T => fst x = fst y /\ R (snd x) (snd y))).
Lemma hget_alike k m m' : keyed m m' -> match hget str_eqb k m, hget str_eqb k m' with Some a, Some b => R a b | None, None => True | _, _ => False end.
Proof using Type. induction 1 as [|[a b] [a' b'] m m' [E HR] F IH]; cbn in *; auto. subst a'. destruct (str_eqb k a); auto. Qed.
Lemma hset_alike k a b m m' : R a b -> keyed m m' -> keyed (hset str_eqb k a m) (hset str_eqb k b m').
Proof using Type. intros H. induction 1 as [|[x y] [x' y'] m m' [E HR] F IH]; cbn in *; auto. subst x'. destruct (str_eqb k x); constructor; auto. Qed.
Lemma get_alike n l l' : list_alike R l l' -> agree R (l_get w n l) (l_get w n l').
Proof using Type.
  intros [A F]. unfold l_get. rewrite <- A. pose proof (hget_alike (w_lower w n) _ _ F) as H. destruct (hget str_eqb (w_lower w n) (l_list l)), (hget str_eqb (w_lower w n) (l_list l')); cbn; try contradiction; auto.
  destruct (hget str_eqb (w_lower w n) (l_aliases l)) as [x|]; [|reflexivity]. pose proof (hget_alike x _ _ F) as K. destruct (hget str_eqb x (l_list l)), (hget str_eqb x (l_list l')); cbn; auto; contradiction.
Qed.
Lemma insert_alike a b l l' : R a b -> list_alike R l l' -> list_alike R (l_insert w name aliases a l) (l_insert w name aliases b l').
Proof using RN RA.
  intros HR [A F]. unfold l_insert. rewrite <- (RN _ _ HR), <- (RA _ _ HR). pose proof (hget_alike (w_lower w (name a)) _ _ F) as H.
  destruct (hget str_eqb (w_lower w (name a)) (l_list l)), (hget str_eqb (w_lower w (name a)) (l_list l')); try contradiction; [split; auto|]. split; cbn; [rewrite A; auto|]. apply hset_alike; auto.
Qed.
Lemma ensure_alike mk n l l' : (forall x, R (mk x) (mk x)) -> list_alike R l l' ->
  agree (list_alike R) (ensure w (l_insert w name aliases) mk l n) (ensure w (l_insert w name aliases) mk l' n).
Proof using RN RA.
  intros HM HL. unfold ensure. pose proof (get_alike n _ _ HL) as H. destruct (l_get w n l), (l_get w n l'); cbn in *; try contradiction; auto. apply insert_alike; auto.
Qed.
Lemma unwrapped_alike n l l' : list_alike R l l' -> agree R (get_unwrap w n l) (get_unwrap w n l').
Proof using Type. intros HL. unfold get_unwrap. pose proof (get_alike n _ _ HL) as H. destruct (l_get w n l), (l_get w n l'); cbn in *; try contradiction; auto. Qed.
Lemma values_alike l l' : list_alike R l l' -> Forall2 R (l_values l) (l_values l').
Proof using Type. intros [_ F]. unfold l_values. eapply f2_map; [|exact F]. cbn. tauto. Qed.
End Lists.
Notation accs_alike := (list_alike account_alike).
Notation curs_alike := (list_alike commodity_alike).
Lemma ensure_acc_alike w n l l' : accs_alike l l' -> agree accs_alike (ensure_acc w l n) (ensure_acc w l' n).
Proof. apply ensure_alike; unfold account_alike; intuition. Qed.
Lemma ensure_cur_alike w n l l' : curs_alike l l' -> agree curs_alike (ensure_cur w l n) (ensure_cur w l' n).
Proof. apply ensure_alike; unfold commodity_alike; intuition. Qed.

(** ** Orders *)
Lemma order_alike {A} w site (R : A -> A -> Prop) l l' : world_ok w -> order_blind w -> Forall2 R l l' -> Forall2 R (w_ord w site A l) (w_ord w site A l').
Proof.
  intros [W _] OB F. assert (X : exists z : list (A * A), l = map fst z /\ l' = map snd z /\ Forall (fun p => R (fst p) (snd p)) z).
  { induction F as [|x y l l' HR F IH]; [exists []; auto|]. destruct IH as (z & -> & -> & Hz). exists ((x, y) :: z). repeat split; auto. }
  destruct X as (z & -> & -> & Hz). rewrite !OB. assert (Y : Forall (fun p => R (fst p) (snd p)) (w_ord w site (A * A) z)) by (eapply Permutation_Forall; [symmetry; apply W|auto]).
  clear Hz. induction Y; cbn; auto.
Qed.

(** ** Names used *)
Lemma fold_alike {A S} (P : A -> A -> Prop) (f : S -> A -> S) l l' : (forall s x y, P x y -> f s x = f s y) -> Forall2 P l l' -> forall s, fold_left f l s = fold_left f l' s.
Proof. intros H F. induction F as [|x y l l' HP F IH]; intros s; cbn; auto. rewrite (H s x y HP). auto. Qed.
Lemma all_postings_alike nb ts ts' : Forall2 (txn_alike nb) ts ts' -> Forall2 posting_alike (all_postings ts) (all_postings ts').
Proof. intros F. unfold all_postings. eapply f2_flat; [|exact F]. unfold txn_alike. tauto. Qed.
Lemma names_alike nb l l' : journal_alike nb l l' -> commodity_names l = commodity_names l' /\ account_names l = account_names l' /\ payee_names l = payee_names l'.
Proof.
  intros (_ & _ & _ & EP & F). apply all_postings_alike in F. unfold commodity_names, account_names, payee_names. rewrite <- EP. split; [|split].
  - f_equal. apply (fold_alike posting_alike); auto. intros s x y (H1 & H2 & H3 & H4 & H5 & H6). rewrite H2, H4, H5. auto.
  - apply (fold_alike posting_alike); auto. intros s x y (H1 & H2). rewrite H1. auto.
  - apply (fold_alike posting_alike); auto. intros s x y (H1 & H2 & H3 & H4 & H5 & H6 & H7 & H8 & H9). rewrite H8. auto.
Qed.

(** ** Postings and transactions of the ledger *)
Definition psim (p p' : posting) : Prop :=
  p_account p = p_account p' /\ p_amount p = p_amount p' /\ p_balance p = p_balance p' /\ p_cost p = p_cost p' /\ p_kind p = p_kind p' /\
  p_tags p = p_tags p' /\ p_payee p = p_payee p' /\ p_origin p = p_origin p'.
Lemma psim_refl p : psim p p.
Proof. unfold psim. tauto. Qed.
Lemma psims_refl l : Forall2 psim l l.
Proof. induction l; auto using psim_refl. Qed.
Section Notes.
Context (nb : bool).
Definition tsim (t t' : txn posting) : Prop :=
  t_date t = t_date t' /\ t_desc t = t_desc t' /\ t_tags t = t_tags t' /\ Forall2 psim (t_postings t) (t_postings t') /\ (nb = true -> t_comments t = t_comments t').
Lemma tsim_set t t' ps ps' : tsim t t' -> Forall2 psim ps ps' -> tsim (set_postings t ps) (set_postings t' ps').
Proof using Type. unfold tsim. cbn. tauto. Qed.

Lemma price_alike w cs cs' p : curs_alike cs cs' -> agree eq (price_of w cs p) (price_of w cs' p).
Proof using Type.
  intros H. unfold price_of. eapply agree_bind; [apply (unwrapped_alike w commodity_alike); eauto|]. intros a b [E _].
  eapply agree_bind; [apply (unwrapped_alike w commodity_alike); eauto|]. intros a' b' [E' _]. cbn. congruence.
Qed.
Lemma account_of_alike w accs accs' al al' n pay : Forall2 account_alike accs accs' -> accs_alike al al' ->
  agree account_alike (posting_account w accs al n pay) (posting_account w accs' al' n pay).
Proof using Type.
  intros F H. unfold posting_account. destruct (ends_with _ _); [|apply get_alike; auto].
  assert (X : forall r r', match r, r' with Some a, Some b => account_alike a b | None, None => True | _, _ => False end ->
    match fold_left (fun r a => if existsb (fun rx => w_rx w rx pay) (ac_payees a) then Some a else r) accs r,
          fold_left (fun r a => if existsb (fun rx => w_rx w rx pay) (ac_payees a) then Some a else r) accs' r' with Some a, Some b => account_alike a b | None, None => True | _, _ => False end).
  { induction F as [|a b accs accs' HR F IH]; intros r r' HH; cbn [fold_left]; auto. apply IH. rewrite <- (proj2 (proj2 HR)). destruct (existsb _ _); auto. }
  specialize (X None None I). destruct (fold_left _ accs None), (fold_left _ accs' None); try contradiction; auto. apply get_alike; auto.
Qed.
Lemma money_alike w cs cs' m : curs_alike cs cs' -> agree eq (money_of_raw w cs m) (money_of_raw w cs' m).
Proof using Type. intros H. unfold money_of_raw. eapply agree_bind; [apply (unwrapped_alike w commodity_alike); eauto|]. intros a b [E _]. cbn. congruence. Qed.
Lemma cost_alike w cs cs' d p p' c : curs_alike cs cs' -> posting_alike p p' -> agree eq (cost_of_raw w cs d p c) (cost_of_raw w cs' d p' c).
Proof using Type.
  intros H (H1 & H2 & H3 & H4 & _). unfold cost_of_raw. eapply agree_bind; [apply unwrap_eq; eauto|]. intros mc ? <-.
  eapply agree_bind; [apply (unwrapped_alike w commodity_alike); eauto|]. intros a b [E _]. eapply agree_bind; [apply (unwrapped_alike w commodity_alike); eauto|]. intros a' b' [E' _].
  rewrite <- H3. eapply agree_bind; [apply unwrap_eq; eauto|]. intros ty ? <-. rewrite <- E, <- E'. apply agree_eq. auto.
Qed.
Lemma posting_read_alike w accs accs' al al' pays cs cs' d desc tg p p' : Forall2 account_alike accs accs' -> accs_alike al al' -> curs_alike cs cs' -> posting_alike p p' ->
  posting_of_raw w accs al pays cs d desc tg p = posting_of_raw w accs' al' pays cs' d desc tg p'.
Proof using Type.
  intros F HA HC HP. pose proof HP as (H1 & H2 & H3 & H4 & H5 & H6 & H7 & H8 & H9). apply agree_eq. unfold posting_of_raw. rewrite <- H8, <- H1, <- H2, <- H4, <- H5, <- H7, <- (same_tags_tags _ _ H9).
  eapply agree_bind; [apply agree_eq; reflexivity|]. intros pay ? <-. eapply agree_bind; [apply account_of_alike; eauto|]. intros a b (E & _).
  eapply (agree_bind eq). { destruct (rp_money p); [|reflexivity]. eapply agree_bind; [apply money_alike; eauto|]. intros x ? <-. reflexivity. } intros amt ? <-.
  eapply (agree_bind eq). { destruct (rp_cost p); [|reflexivity]. eapply agree_bind; [apply cost_alike; eauto|]. intros [x y] ? <-. reflexivity. } intros [cst prs] ? <-.
  eapply (agree_bind eq). { destruct (rp_balance p); [|reflexivity]. eapply agree_bind; [apply money_alike; eauto|]. intros x ? <-. reflexivity. } intros bal ? <-.
  cbn. rewrite E. auto.
Qed.
Definition rsim (x y : list (txn posting) * list (txn rposting) * list price) : Prop :=
  Forall2 tsim (fst (fst x)) (fst (fst y)) /\ Forall2 (txn_alike nb) (snd (fst x)) (snd (fst y)) /\ snd x = snd y.
Lemma txn_read_alike w accs accs' al al' pays cs cs' t t' : Forall2 account_alike accs accs' -> accs_alike al al' -> curs_alike cs cs' -> txn_alike nb t t' ->
  agree rsim (txn_of_raw w accs al pays cs t) (txn_of_raw w accs' al' pays cs' t').
Proof using Type.
  intros F HA HC HT. pose proof HT as (H1 & H2 & H3 & H4 & H5 & H6 & H7 & H8). unfold txn_of_raw. rewrite <- H1. destruct (t_type t).
  - eapply agree_bind; [apply unwrap_eq; eauto|]. intros d ? <-. rewrite <- H3, <- (same_tags_tags _ _ H7).
    rewrite <- (f2_mapM_eq posting_alike (posting_of_raw w accs al pays cs d (t_desc t) (flat_map get_tags (t_comments t)))
                 (posting_of_raw w accs' al' pays cs' d (t_desc t) (flat_map get_tags (t_comments t))) (t_postings t) (t_postings t')); auto; [|intros; apply posting_read_alike; auto].
    eapply agree_bind; [apply agree_eq; reflexivity|]. intros l ? <-. unfold is_balanced. cbn [t_postings]. eapply agree_bind; [apply agree_eq; reflexivity|]. intros b ? <-.
    cbn [agree]. split; [|split]; cbn [fst snd]; auto. constructor; auto. unfold tsim. cbn. auto using psims_refl.
  - cbn. split; [|split]; cbn; auto.
  - cbn. split; [|split]; cbn; auto.
Qed.

(** ** Balancing *)
Lemma total_alike ps ps' k : Forall2 psim ps ps' -> total_balance ps k = total_balance ps' k.
Proof using Type.
  intros F. apply agree_eq. unfold total_balance. apply (agree_foldM2 psim eq); auto. intros s ? x y (H1 & H2 & H3 & H4 & H5 & _) <-. rewrite H2, H4, H5. apply agree_eq. auto.
Qed.
Definition ssim (s s' : bstate) : Prop := bs_bals s = bs_bals s' /\ bs_tb s = bs_tb s' /\ Forall2 psim (bs_out s) (bs_out s') /\ bs_fill s = bs_fill s'.
Lemma pushed_alike p p' m : psim p p' -> psim (pushed p m) (pushed p' m).
Proof using Type. unfold psim. cbn. tauto. Qed.
Lemma step_alike skip s s' p p' : psim p p' -> ssim s s' -> agree ssim (bal_step skip s p) (bal_step skip s' p').
Proof using Type.
  intros HP (S1 & S2 & S3 & S4). pose proof HP as (H1 & H2 & H3 & H4 & H5 & H6 & H7 & H8). unfold bal_step. rewrite <- H1, <- H2, <- H3, <- H4, <- H5, <- H7, <- S1, <- S2, <- S4.
  destruct (negb (kind_eqb (p_kind p) Real)); [split; auto|]. destruct (p_amount p) as [m|].
  - eapply agree_bind; [apply agree_eq; reflexivity|]. intros old ? <-. destruct (_ && _); [reflexivity|]. eapply agree_bind; [apply agree_eq; reflexivity|]. intros v ? <-. cbn. unfold ssim. cbn.
    repeat split; auto. apply f2_app; auto using pushed_alike.
  - destruct (p_balance p) as [b|]; [|cbn; unfold ssim; cbn; auto]. destruct skip; [cbn; unfold ssim; cbn; auto|]. eapply agree_bind; [apply agree_eq; reflexivity|]. intros old ? <-.
    eapply agree_bind; [apply agree_eq; reflexivity|]. intros m ? <-. cbn. unfold ssim. cbn. repeat split; auto. apply f2_app; auto using pushed_alike.
Qed.
Lemma fill_alike t t' acc pay es bals out out' : t_tags t = t_tags t' -> Forall2 psim out out' ->
  agree (fun x y => fst x = fst y /\ Forall2 psim (snd x) (snd y)) (fill_loop t acc pay es (bals, out)) (fill_loop t' acc pay es (bals, out')).
Proof using Type.
  intros HT F. unfold fill_loop. apply (agree_foldM (fun x y => fst x = fst y /\ Forall2 psim (snd x) (snd y))); [|auto]. intros [b o] [b' o'] e _ [E FO]. cbn in E, FO. subst b'.
  eapply agree_bind; [apply agree_eq; reflexivity|]. intros old ? <-. cbn. split; auto. apply f2_app; auto. constructor; auto. unfold psim. cbn. rewrite HT. tauto.
Qed.
Lemma balance_alike ord skip t t' bals : tsim t t' ->
  agree (fun x y => fst (fst x) = fst (fst y) /\ tsim (snd (fst x)) (snd (fst y)) /\ snd x = snd y) (txn_balance ord skip t bals) (txn_balance ord skip t' bals).
Proof using Type.
  intros HT. pose proof HT as (H1 & H2 & H3 & F & H5). unfold txn_balance. rewrite <- (total_alike _ _ VirtualMustBalance F). eapply agree_bind; [apply agree_eq; reflexivity|]. intros vb ? <-.
  destruct (negb (can_be_zero vb)); [reflexivity|]. eapply (agree_bind ssim). { apply (agree_foldM2 psim ssim); auto; [intros; apply step_alike; auto|]. unfold ssim. cbn. auto. }
  intros s s' (S1 & S2 & S3 & S4). rewrite <- S1, <- S2, <- S4, <- (f2_len _ _ _ S3).
  assert (FR : Forall2 psim (real (t_postings t)) (real (t_postings t'))) by (apply f2_filter; auto; intros x y (_ & _ & _ & _ & K & _); rewrite K; auto).
  assert (FN : Forall2 psim (non_real (t_postings t)) (non_real (t_postings t'))) by (apply f2_filter; auto; intros x y (_ & _ & _ & _ & K & _); rewrite K; auto).
  rewrite <- (f2_len _ _ _ FR). destruct (_ - _)%nat as [|[|n]]; [| |reflexivity].
  - destruct (can_be_zero (bs_tb s)); [|reflexivity]. cbn. repeat split; auto. cbn. apply f2_app; auto.
  - eapply agree_bind; [apply fill_alike; eauto|]. intros [b o] [b' o'] [E FO]. cbn in E, FO. subst b'. cbn. repeat split; auto. cbn. apply f2_app; auto.
Qed.
Lemma balance_all_alike w skip ts ts' : Forall2 tsim ts ts' -> forall site bals prices,
  agree (fun x y => Forall2 tsim (fst (fst x)) (fst (fst y)) /\ snd (fst x) = snd (fst y) /\ snd x = snd y) (balance_all w site skip ts bals prices) (balance_all w site skip ts' bals prices).
Proof using Type.
  induction 1 as [|t t' ts ts' HT F IH]; intros site bals prices; cbn [balance_all]; [cbn; auto|]. eapply agree_bind; [apply unwrap_eq; apply HT|]. intros d ? <-.
  eapply agree_bind; [apply balance_alike; eauto|]. intros [[b t1] bs] [[b' t1'] bs'] (E1 & E2 & E3). cbn in E1, E2, E3. subst b' bs'.
  eapply agree_bind; [apply agree_eq; reflexivity|]. intros prs ? <-. eapply agree_bind; [apply IH|]. intros [[r b2] pr] [[r' b2'] pr'] (Y1 & Y2 & Y3). cbn in *. subst. auto.
Qed.
Lemma fresh_alike al al' : accs_alike al al' -> fresh_balances al = fresh_balances al'.
Proof using Type. intros H. unfold fresh_balances. eapply f2_map_eq; [|apply (values_alike account_alike); eauto]. intros x y (E & _). rewrite E. auto. Qed.
Lemma sort_alike ts ts' : Forall2 tsim ts ts' -> Forall2 tsim (sort_txns ts) (sort_txns ts').
Proof using Type. apply f2_sort. intros x x' y y' (H & _) (K & _). unfold date_of. rewrite H, K. auto. Qed.

(** ** Expressions *)
Definition vsim (x y : value * alist currency) : Prop := fst x = fst y /\ curs_alike (snd x) (snd y).
Lemma binary_alike w t t' op l r : nb = true \/ l <> VNote -> tsim t t' -> eval_binary w t op l r = eval_binary w t' op l r.
Proof using Type.
  intros HN (_ & _ & _ & _ & HC). unfold eval_binary. destruct op; auto. destruct r; auto. unfold eval_match. destruct l; auto. destruct HN as [HN|HN]; [|congruence]. rewrite (HC HN). auto.
Qed.
Lemma binary_no_note w t op l r v : eval_binary w t op l r = Ok v -> v <> VNote.
Proof using Type.
  unfold eval_binary. destruct op; intros H; try discriminate.
  all: repeat match type of H with
       | bind ?x _ = _ => destruct x; cbn in H; try discriminate
       | match ?x with _ => _ end = _ => destruct x; cbn in H; try discriminate
       end; inversion H; discriminate.
Qed.
Lemma unary_no_note w p op v x : eval_unary w p op v = Ok x -> x <> VNote.
Proof using Type.
  unfold eval_unary. destruct op, v; intros H; try discriminate;
  repeat match type of H with
       | bind ?x _ = _ => destruct x; cbn in H; try discriminate
       | match ?x with _ => _ end = _ => destruct x; cbn in H; try discriminate
       end; inversion H; discriminate.
Qed.
Lemma unary_alike w p p' op v : psim p p' -> eval_unary w p op v = eval_unary w p' op v.
Proof using Type. intros (_ & _ & _ & _ & _ & H & _). unfold eval_unary, has_tag, get_tag, get_exact_tag. rewrite H. auto. Qed.
Lemma any_alike (ev ev' : posting -> alist currency -> res (value * alist currency)) ps ps' : (forall p p' cs cs', psim p p' -> curs_alike cs cs' -> agree vsim (ev p cs) (ev' p' cs')) ->
  Forall2 psim ps ps' -> forall cs cs', curs_alike cs cs' -> agree (fun x y => fst x = fst y /\ curs_alike (snd x) (snd y)) (any_loop ev ps cs) (any_loop ev' ps' cs').
Proof using Type.
  intros H F. induction F as [|p p' ps ps' HP F IH]; intros cs cs' HC; cbn [any_loop]; [cbn; auto|]. eapply agree_bind; [apply H; eauto|]. intros [v c] [v' c'] [E HC']. cbn in E, HC'. subst v'.
  destruct v; try reflexivity. match goal with b : bool |- _ => destruct b end; [cbn; auto|auto].
Qed.
Lemma eval_no_note w n : note_free n -> forall p t cs v cs', eval w n p t cs = Ok (v, cs') -> v <> VNote.
Proof using Type.
  destruct n; cbn [note_free eval]; intros NF p t cs v cs' H; try (inversion H; subst; discriminate).
  - destruct (p_amount p); cbn in H; [|discriminate]. inversion H. discriminate.
  - destruct (p_payee p); cbn in H; [|discriminate]. inversion H. discriminate.
  - contradiction.
  - destruct (t_date t); cbn in H; [|discriminate]. inversion H. discriminate.
  - destruct (l_get _ _ _); inversion H; discriminate.
  - destruct (eval w n p t cs) as [[v1 c1]|e|e]; cbn [bind] in H; try discriminate.
    assert (X : forall r, eval_unary w p op v1 = r -> (r <- eval_unary w p op v1 ;; Ok (r, c1)) = Ok (v, cs') -> v <> VNote).
    { intros r Er K. destruct (eval_unary w p op v1) eqn:EU; cbn in K; try discriminate. inversion K; subst. eapply unary_no_note; eauto. }
    destruct op; try (eapply X; [reflexivity|exact H]). destruct (any_loop _ _ _) as [[b c2]|e|e]; cbn in H; try discriminate. inversion H. discriminate.
  - destruct (eval w n1 p t cs) as [[v1 c1]|e|e]; cbn [bind] in H; try discriminate. destruct (eval w n2 p t c1) as [[v2 c2]|e|e]; cbn [bind] in H; try discriminate.
    destruct (eval_binary w t op v1 v2) eqn:EB; cbn in H; try discriminate. inversion H; subst. eapply binary_no_note; eauto.
Qed.
Lemma eval_alike w n : nb = true \/ note_free n -> forall p p' t t' cs cs', psim p p' -> tsim t t' -> curs_alike cs cs' -> agree vsim (eval w n p t cs) (eval w n p' t' cs').
Proof using Type.
  induction n; cbn [eval note_free]; intros HN p p' t t' cs cs' HP HT HC; pose proof HP as (P1 & P2 & P3 & P4 & P5 & P6 & P7 & P8); pose proof HT as (T1 & T2 & T3 & T4 & T5); try (split; auto; fail).
  - rewrite <- P2. eapply agree_bind; [apply agree_eq; reflexivity|]. intros m ? <-. split; auto.
  - rewrite <- P1. split; auto.
  - rewrite <- P7. eapply agree_bind; [apply agree_eq; reflexivity|]. intros m ? <-. split; auto.
  - rewrite <- T1. eapply agree_bind; [apply agree_eq; reflexivity|]. intros m ? <-. split; auto.
  - pose proof (get_alike w commodity_alike cur _ _ HC) as G. destruct (l_get w cur cs), (l_get w cur cs'); cbn in G; try contradiction.
    + split; cbn; auto. destruct G as [-> _]. auto.
    + split; cbn; auto. unfold cur_insert. apply (insert_alike w cu_name cu_aliases commodity_alike); auto; unfold commodity_alike; intuition.
    + cbn. auto.
  - eapply agree_bind; [apply IHn; eauto|]. intros [v c] [v' c'] [E HC']. cbn in E, HC'. subst v'.
    assert (X : agree vsim (r <- eval_unary w p op v ;; Ok (r, c)) (r <- eval_unary w p' op v ;; Ok (r, c'))).
    { rewrite <- (unary_alike w p p' op v HP). eapply agree_bind; [apply agree_eq; reflexivity|]. intros r ? <-. split; auto. }
    destruct op; try exact X. eapply agree_bind. { apply any_alike; [|exact T4|exact HC']. intros q q' x x' HQ HX. apply IHn; auto. }
    intros [b c2] [b' c2'] [E2 HC2]. cbn in E2, HC2. subst b'. split; auto.
  - assert (N1 : nb = true \/ note_free n1) by tauto. assert (N2 : nb = true \/ note_free n2) by tauto.
    pose proof (IHn1 N1 p p' t t' cs cs' HP HT HC) as A1. destruct (eval w n1 p t cs) as [[v c]|e|e] eqn:E1; destruct (eval w n1 p' t' cs') as [[v' c']|e'|e']; cbn in A1; try contradiction; [|subst; reflexivity..].
    destruct A1 as [E HC']. cbn in E, HC'. subst v'. cbn [bind]. eapply agree_bind; [apply IHn2; eauto|]. intros [v2 c2] [v2' c2'] [E2 HC2]. cbn in E2, HC2. subst v2'.
    rewrite <- (binary_alike w t t' op v v2); auto; [|destruct N1; [auto|right; eapply eval_no_note; eauto]]. eapply agree_bind; [apply agree_eq; reflexivity|]. intros x ? <-. split; auto.
Qed.
Lemma filter_alike w n p p' t t' cs cs' : nb = true \/ note_free n -> psim p p' -> tsim t t' -> curs_alike cs cs' ->
  agree (fun x y => fst x = fst y /\ curs_alike (snd x) (snd y)) (filter_expression w n p t cs) (filter_expression w n p' t' cs').
Proof using Type.
  intros HN HP HT HC. unfold filter_expression. eapply agree_bind; [apply eval_alike; eauto|]. intros [v c] [v' c'] [E HC']. cbn in E, HC'. subst v'. destruct v; cbn; auto.
Qed.
Lemma value_alike w e p p' t t' cs cs' : nb = true \/ (forall n, build_root w e = Ok n -> note_free n) -> psim p p' -> tsim t t' -> curs_alike cs cs' ->
  agree (fun x y => fst x = fst y /\ curs_alike (snd x) (snd y)) (eval_value_expression w e p t cs) (eval_value_expression w e p' t' cs').
Proof using Type.
  intros HN HP HT HC. unfold eval_value_expression. destruct (build_root w e) as [n|x|x] eqn:EB; cbn [bind]; [|reflexivity..].
  eapply agree_bind; [apply eval_alike; eauto; destruct HN; auto|]. intros [v c] [v' c'] [E HC']. cbn in E, HC'. subst v'. destruct v; try reflexivity.
  - rewrite <- (proj1 (proj2 HP)). eapply agree_bind; [apply agree_eq; reflexivity|]. intros m ? <-. cbn. auto.
  - cbn. auto.
Qed.

(** ** Rules *)
Definition asim (s s' : astate) : Prop := accs_alike (as_accs s) (as_accs s') /\ curs_alike (as_curs s) (as_curs s') /\ as_pays s = as_pays s'.
Definition quiet (w : world) (ap : rposting) : Prop := nb = true \/ forall e n, rp_expr ap = Some e -> build_root w e = Ok n -> note_free n.
Lemma auto_posting_alike w t t' p p' s s' ap ap' : quiet w ap -> posting_alike ap ap' -> psim p p' -> tsim t t' -> asim s s' ->
  agree (fun x y => fst x = fst y /\ asim (snd x) (snd y)) (auto_posting w t p s ap) (auto_posting w t' p' s' ap').
Proof using Type.
  intros Q HA HP HT (S1 & S2 & S3). pose proof HA as (H1 & H2 & H3 & H4 & H5 & H6 & H7 & H8 & H9). pose proof HP as (P1 & P2 & P3 & P4 & P5 & P6 & P7 & P8).
  unfold auto_posting. rewrite <- H1, <- H2, <- H6, <- H7, <- H8, <- S3, <- P2, <- P7.
  eapply agree_bind; [apply ensure_acc_alike; eauto|]. intros al al' HAL. eapply agree_bind; [apply agree_eq; reflexivity|]. intros [pay pl] ? <-.
  eapply agree_bind; [apply (unwrapped_alike w account_alike); eauto|]. intros a b (E & _).
  eapply (agree_bind (fun x y => fst x = fst y /\ curs_alike (snd x) (snd y))).
  - destruct (rp_money ap) as [[q c]|].
    + destruct c as [|x c].
      * eapply agree_bind; [apply agree_eq; reflexivity|]. intros m ? <-. eapply agree_bind; [apply agree_eq; reflexivity|]. intros cur ? <-. cbn. auto.
      * eapply agree_bind; [apply ensure_cur_alike; eauto|]. intros c1 c2 HC. eapply agree_bind; [apply (unwrapped_alike w commodity_alike); eauto|]. intros x1 x2 [E2 _]. cbn. rewrite E2. auto.
    + destruct (rp_expr ap) as [e|] eqn:EE; cbn [unwrap bind]; [|reflexivity]. apply value_alike; auto. destruct Q as [Q|Q]; auto. right. intros n. apply Q. auto.
  - intros [m cs] [m' cs'] [E2 HC]. cbn in E2, HC. subst m'. cbn. rewrite E. split; auto. split; auto.
Qed.
Lemma auto_postings_alike w t t' p p' aps aps' : Forall (quiet w) aps -> Forall2 posting_alike aps aps' -> psim p p' -> tsim t t' -> forall s s', asim s s' ->
  agree (fun x y => fst x = fst y /\ asim (snd x) (snd y)) (auto_postings w t p s aps) (auto_postings w t' p' s' aps').
Proof using Type.
  intros Q F HP HT. induction F as [|ap ap' aps aps' HA F IH]; intros s s' HS; cbn [auto_postings]; [cbn; auto|]. inversion Q; subst.
  eapply agree_bind; [apply auto_posting_alike; eauto|]. intros [x s1] [x' s1'] [E HS1]. cbn in E, HS1. subst x'. eapply agree_bind; [apply IH; eauto|].
  intros [xs s2] [xs' s2'] [E HS2]. cbn in E, HS2. subst xs'. cbn. auto.
Qed.
Lemma auto_scan_alike w t t' node auto auto' : nb = true \/ note_free node -> Forall (quiet w) (t_postings auto) -> txn_alike nb auto auto' -> tsim t t' ->
  forall todo todo', Forall2 psim todo todo' -> forall s s' dn dn' extra extra', asim s s' -> Forall2 psim dn dn' -> Forall2 psim extra extra' ->
  agree (fun x y => Forall2 psim (fst (fst x)) (fst (fst y)) /\ Forall2 psim (snd (fst x)) (snd (fst y)) /\ asim (snd x) (snd y))
    (auto_scan w t node auto s dn todo extra) (auto_scan w t' node auto' s' dn' todo' extra').
Proof using Type.
  intros HN Q HA HT todo todo' F. induction F as [|p p' todo todo' HP F IH]; intros s s' dn dn' extra extra' HS FD FE; cbn [auto_scan]; [cbn; auto|].
  pose proof HP as (P1 & P2 & P3 & P4 & P5 & P6 & P7 & P8). pose proof HA as (A1 & A2 & A3 & A4 & A5 & A6 & A7 & A8). rewrite <- P8. destruct (negb (is_from_txn (p_origin p))); [apply IH; auto; apply f2_app; auto|].
  eapply agree_bind; [apply filter_alike; eauto; [apply tsim_set; auto; apply f2_app; auto|apply HS]|]. intros [b c] [b' c'] [E HC]. cbn in E, HC. subst b'.
  assert (HS1 : asim (with_curs s c) (with_curs s' c')) by (destruct HS as (S1 & S2 & S3); split; [|split]; cbn; auto).
  destruct b; [|apply IH; auto; apply f2_app; auto].
  assert (HP' : psim (add_tags (flat_map get_tags (t_comments auto)) p) (add_tags (flat_map get_tags (t_comments auto')) p')) by (rewrite <- (same_tags_tags _ _ A7); unfold psim; cbn; rewrite P6; tauto).
  eapply agree_bind; [apply auto_postings_alike; eauto; apply tsim_set; auto; apply f2_app; auto|]. intros [new s2] [new' s2'] [E HS2]. cbn in E, HS2. subst new'.
  apply IH; auto; apply f2_app; auto using psims_refl.
Qed.
Definition nsim (w : world) (x y : node * txn rposting) : Prop :=
  fst x = fst y /\ txn_alike nb (snd x) (snd y) /\ (nb = true \/ note_free (fst x)) /\ Forall (quiet w) (t_postings (snd x)).
Lemma auto_one_alike w st st' x y : nsim w x y -> tsim (fst st) (fst st') /\ asim (snd st) (snd st') ->
  agree (fun a b => tsim (fst a) (fst b) /\ asim (snd a) (snd b)) (auto_one w st x) (auto_one w st' y).
Proof using Type.
  intros (N1 & N2 & N3 & N4) [HT HS]. destruct st as [t s], st' as [t' s']. cbn [fst snd] in *. unfold auto_one. rewrite <- N1.
  eapply agree_bind; [apply auto_scan_alike; eauto; apply HT|]. intros [[ps ex] s1] [[ps' ex'] s1'] (H1 & H2 & H3). cbn in *. split; auto. apply tsim_set; auto. apply f2_app; auto.
Qed.
Lemma auto_all_alike w autos autos' : Forall2 (nsim w) autos autos' -> forall ts ts', Forall2 tsim ts ts' -> forall s s', asim s s' ->
  agree (fun x y => Forall2 tsim (fst x) (fst y) /\ asim (snd x) (snd y)) (auto_all w autos ts s) (auto_all w autos' ts' s').
Proof using Type.
  intros FA ts ts' F. induction F as [|t t' ts ts' HT F IH]; intros s s' HS; cbn [auto_all]; [cbn; auto|].
  eapply agree_bind; [apply (agree_foldM2 (nsim w) (fun a b => tsim (fst a) (fst b) /\ asim (snd a) (snd b))); [intros; apply auto_one_alike; auto|exact FA|cbn; auto]|].
  intros [t1 s1] [t1' s1'] [H1 H2]. cbn in H1, H2. eapply agree_bind; [apply IH; eauto|]. intros [r s2] [r' s2'] [H3 H4]. cbn in *. auto.
Qed.

(** ** The ledger *)
Definition lsim (a b : ledger) : Prop :=
  accs_alike (lg_accounts a) (lg_accounts b) /\ curs_alike (lg_commodities a) (lg_commodities b) /\ Forall2 tsim (lg_txns a) (lg_txns b) /\
  lg_prices a = lg_prices b /\ lg_payees a = lg_payees b.
Lemma rules_kept w accs al pays cs ts raw : mapM (txn_of_raw w accs al pays cs) ts = Ok raw -> forall r, In r (flat_map (fun x => snd (fst x)) raw) -> In r ts /\ is_rule r = true.
Proof using Type.
  revert raw. induction ts as [|t ts IH]; cbn [mapM]; intros raw H r Hr; [inversion H; subst; destruct Hr|].
  destruct (txn_of_raw w accs al pays cs t) as [x|e|e] eqn:E; cbn [bind] in H; try discriminate. destruct (mapM _ ts) as [xs|e|e]; cbn [bind] in H; try discriminate. inversion H; subst.
  cbn [flat_map] in Hr. apply in_app_or in Hr. destruct Hr as [Hr|Hr]; [|destruct (IH _ eq_refl r Hr); split; [right|]; auto].
  unfold txn_of_raw in E. destruct (t_type t) eqn:ET.
  - destruct (unwrap (t_date t)); cbn [bind] in E; try discriminate. destruct (mapM _ (t_postings t)); cbn [bind] in E; try discriminate. destruct (is_balanced _); cbn [bind] in E; try discriminate. inversion E; subst. destruct Hr.
  - inversion E; subst. destruct Hr as [<-|[]]. split; [left; auto|]. unfold is_rule. rewrite ET. auto.
  - inversion E; subst. destruct Hr.
Qed.
Lemma nodes_alike w autos autos' nodes : Forall2 (txn_alike nb) autos autos' ->
  (nb = true \/ forall r, In r autos -> (forall n, build_root w (get_filter_query r) = Ok n -> note_free n) /\ forall p e n, In p (t_postings r) -> rp_expr p = Some e -> build_root w e = Ok n -> note_free n) ->
  mapM (fun a => build_root w (get_filter_query a)) autos = Ok nodes -> Forall2 (nsim w) (combine nodes autos) (combine nodes autos').
Proof using Type.
  intros F. revert nodes. induction F as [|a a' autos autos' HA F IH]; intros nodes HQ H; cbn [mapM] in H; [inversion H; constructor|].
  destruct (build_root w (get_filter_query a)) as [n|e|e] eqn:E; cbn [bind] in H; try discriminate. destruct (mapM _ autos) as [ns|e|e]; cbn [bind] in H; try discriminate. inversion H; subst.
  cbn [combine]. constructor; [|apply IH; auto; destruct HQ as [HQ|HQ]; auto; right; intros r Hr; apply HQ; right; auto]. unfold nsim. cbn [fst snd]. split; auto. split; auto. destruct HQ as [HQ|HQ].
  - split; auto. apply Forall_forall. intros p _. left. auto.
  - destruct (HQ a (or_introl eq_refl)) as [Q1 Q2]. split; [right; auto|]. apply Forall_forall. intros p Hp. right. intros e0 n0. apply Q2. auto.
Qed.
Lemma ledger_alike w skip l l' : world_ok w -> order_blind w -> journal_alike nb l l' ->
  (nb = true \/ forall r, In r (rules l) -> (forall n, build_root w (get_filter_query r) = Ok n -> note_free n) /\ forall p e n, In p (t_postings r) -> rp_expr p = Some e -> build_root w e = Ok n -> note_free n) ->
  agree lsim (to_ledger w skip l) (to_ledger w skip l').
Proof using Type.
  intros W OB J HQ. pose proof J as (J1 & J2 & J3 & J4 & J5). destruct (names_alike nb l l' J) as (N1 & N2 & N3). unfold to_ledger. rewrite <- N1, <- N2, <- N3, <- J3, <- J4.
  eapply agree_bind; [apply (agree_foldM curs_alike); [intros; apply ensure_cur_alike; auto|exact J2]|]. intros cs cs' HC.
  eapply agree_bind; [apply (agree_foldM accs_alike); [intros; apply ensure_acc_alike; auto|exact J1]|]. intros al al' HA.
  eapply agree_bind; [apply agree_eq; reflexivity|]. intros pays ? <-.
  eapply (agree_bind eq). { apply agree_eq. eapply (f2_mapM_eq eq); [intros x ? <-; apply agree_eq, price_alike; auto|]. clear. induction (pl_prices l); auto. } intros prices1 ? <-.
  assert (HV : Forall2 account_alike (w_ord w 4 _ (l_values al)) (w_ord w 4 _ (l_values al'))) by (apply order_alike; auto; apply values_alike; auto).
  assert (HR : agree (Forall2 rsim) (mapM (txn_of_raw w (w_ord w 4 account (l_values al)) al pays cs) (pl_txns l)) (mapM (txn_of_raw w (w_ord w 4 account (l_values al')) al' pays cs') (pl_txns l'))).
  { eapply agree_mapM; [exact J5|]. intros; apply txn_read_alike; auto. }
  destruct (mapM (txn_of_raw w (w_ord w 4 account (l_values al)) al pays cs) (pl_txns l)) as [raw|e|e] eqn:ER; destruct (mapM _ (pl_txns l')) as [raw'|e'|e']; cbn in HR; try contradiction; [|subst; reflexivity..].
  cbn [bind]. pose proof (rules_kept _ _ _ _ _ _ _ ER) as RK.
  assert (F1 : Forall2 tsim (flat_map (fun x => fst (fst x)) raw) (flat_map (fun x => fst (fst x)) raw')) by (eapply f2_flat; [|exact HR]; intros x y (H & _); exact H).
  assert (F2 : Forall2 (txn_alike nb) (flat_map (fun x => snd (fst x)) raw) (flat_map (fun x => snd (fst x)) raw')) by (eapply f2_flat; [|exact HR]; intros x y (_ & H & _); exact H).
  assert (F3 : flat_map snd raw = flat_map snd raw') by (eapply f2_flat_eq; [|exact HR]; intros x y (_ & _ & H); exact H). rewrite <- F3. pose proof (sort_alike _ _ F1) as FS. rewrite <- (f2_len _ _ _ FS), <- (fresh_alike _ _ HA).
  eapply agree_bind; [apply balance_all_alike; exact FS|]. intros [[ts1 b1] pr1] [[ts1' b1'] pr1'] (E1 & E2 & E3). cbn [fst snd] in E1, E2, E3. subst b1' pr1'.
  assert (HQ' : nb = true \/ forall r, In r (flat_map (fun x => snd (fst x)) raw) -> (forall n, build_root w (get_filter_query r) = Ok n -> note_free n) /\
    forall p e n, In p (t_postings r) -> rp_expr p = Some e -> build_root w e = Ok n -> note_free n).
  { destruct HQ as [HQ|HQ]; auto. right. intros r Hr. apply HQ. unfold rules. apply filter_In. apply RK. auto. }
  clear RK HQ. revert HQ' F2. generalize (flat_map (fun x : list (txn posting) * list (txn rposting) * list price => snd (fst x)) raw)
    (flat_map (fun x : list (txn posting) * list (txn rposting) * list price => snd (fst x)) raw'). intros autos autos' HQ' F2.
  assert (EN : mapM (fun a => build_root w (get_filter_query a)) autos = mapM (fun a => build_root w (get_filter_query a)) autos').
  { eapply f2_mapM_eq; [|exact F2]. intros x y (_ & _ & H & _). unfold get_filter_query. rewrite H. auto. }
  destruct autos as [|a autos]; destruct autos' as [|a' autos']; try (inversion F2; fail); [cbn; unfold lsim; cbn; auto|]. rewrite <- EN.
  destruct (mapM (fun a => build_root w (get_filter_query a)) (a :: autos)) as [nodes|e|e] eqn:EM; cbn [bind]; [|reflexivity..].
  pose proof (nodes_alike w _ _ nodes F2 HQ' EM) as FN.
  eapply agree_bind; [apply (auto_all_alike w _ _ FN _ _ E1); split; [|split]; cbn; auto|]. intros [ts2 s] [ts2' s'] [H1 (S1 & S2 & S3)]. cbn [fst snd] in H1, S1, S2, S3.
  rewrite <- (fresh_alike _ _ S1). eapply agree_bind; [apply balance_all_alike; exact H1|]. intros [[ts3 b3] pr3] [[ts3' b3'] pr3'] (K1 & K2 & K3). cbn [fst snd] in K1, K2, K3. subst b3' pr3'.
  cbn. unfold lsim. cbn. auto.
Qed.

(** ** The reports *)
Definition selsim (x y : txn posting * list posting) : Prop := tsim (fst x) (fst y) /\ Forall2 psim (snd x) (snd y).
Lemma filter_posting_alike w o n t t' p p' cs cs' : (forall m, n = Some m -> nb = true \/ note_free m) -> psim p p' -> tsim t t' -> curs_alike cs cs' ->
  agree (fun x y => fst x = fst y /\ curs_alike (snd x) (snd y)) (filter_posting w o n t p cs) (filter_posting w o n t' p' cs').
Proof using Type.
  intros HN HP HT HC. pose proof HP as (_ & _ & _ & _ & P5 & _). pose proof HT as (T1 & _). unfold filter_posting. rewrite <- P5, <- T1. destruct (_ && _); [cbn; auto|].
  eapply agree_bind; [apply agree_eq; reflexivity|]. intros b ? <-. destruct b; [cbn; auto|]. eapply agree_bind; [apply agree_eq; reflexivity|]. intros b ? <-. destruct b; [cbn; auto|].
  destruct n as [m|]; [|cbn; auto]. apply filter_alike; auto.
Qed.
Lemma select_alike w o n t t' : (forall m, n = Some m -> nb = true \/ note_free m) -> tsim t t' -> forall ps ps', Forall2 psim ps ps' -> forall cs cs', curs_alike cs cs' ->
  agree (fun x y => Forall2 psim (fst x) (fst y) /\ curs_alike (snd x) (snd y)) (select_postings w o n t ps cs) (select_postings w o n t' ps' cs').
Proof using Type.
  intros HN HT ps ps' F. induction F as [|p p' ps ps' HP F IH]; intros cs cs' HC; cbn [select_postings]; [cbn; auto|].
  eapply agree_bind; [apply filter_posting_alike; eauto|]. intros [b c] [b' c'] [E HC1]. cbn in E, HC1. subst b'. eapply agree_bind; [apply IH; eauto|].
  intros [l c2] [l' c2'] [FL HC2]. cbn in *. destruct b; auto.
Qed.
Lemma select_all_alike w o n : (forall m, n = Some m -> nb = true \/ note_free m) -> forall ts ts', Forall2 tsim ts ts' -> forall cs cs', curs_alike cs cs' ->
  agree (fun x y => Forall2 selsim (fst x) (fst y) /\ curs_alike (snd x) (snd y)) (select_txns w o n ts cs) (select_txns w o n ts' cs').
Proof using Type.
  intros HN ts ts' F. induction F as [|t t' ts ts' HT F IH]; intros cs cs' HC; cbn [select_txns]; [cbn; auto|].
  eapply agree_bind; [apply select_alike; eauto; apply HT|]. intros [ps c] [ps' c'] [FP HC1]. cbn in FP, HC1. eapply agree_bind; [apply IH; eauto|].
  intros [l c2] [l' c2'] [FL HC2]. cbn in *. split; auto. constructor; auto. split; auto.
Qed.
Lemma sums_alike sel sel' : Forall2 selsim sel sel' -> account_balances sel = account_balances sel'.
Proof using Type.
  intros F. unfold account_balances. apply agree_eq. apply (agree_foldM2 psim eq); auto; [|eapply f2_flat; [|exact F]; intros x y (_ & H); exact H].
  intros s ? x y (H1 & H2 & _) <-. unfold add_posting. rewrite <- H1, <- H2. apply agree_eq. auto.
Qed.
Lemma report_alike w site o flat tot lg lg' : (forall m, query_node w o = Ok (Some m) -> nb = true \/ note_free m) -> lsim lg lg' ->
  balance_report w site o flat tot lg = balance_report w site o flat tot lg'.
Proof using Type.
  intros HN (L1 & L2 & L3 & L4 & L5). apply agree_eq. unfold balance_report. rewrite <- L4. destruct (query_node w o) as [n|e|e]; cbn [bind]; [|reflexivity..].
  eapply agree_bind; [apply select_all_alike; eauto; intros m ->; auto|]. intros [sel cs] [sel' cs'] [FS HC]. cbn in FS, HC. rewrite <- (sums_alike _ _ FS).
  eapply agree_bind; [apply agree_eq; reflexivity|]. intros bals ? <-. eapply agree_bind; [apply agree_eq; reflexivity|]. intros vb ? <-.
  eapply (agree_bind eq).
  { destruct (o_exchange o) as [x|]; [|reflexivity]. pose proof (get_alike w commodity_alike x _ _ HC) as G. destruct (l_get w x cs), (l_get w x cs'); cbn in G; try contradiction; [|reflexivity|subst; reflexivity].
    destruct G as [-> _]. apply agree_eq. auto. }
  intros [mults vb1] ? <-. destruct (_ && _); [|apply agree_eq; reflexivity]. eapply (agree_bind eq); [|intros x ? <-; apply agree_eq; reflexivity].
  destruct mults; [reflexivity|]. eapply agree_bind; [apply agree_eq; reflexivity|]. intros x ? <-. eapply agree_bind; [apply (unwrapped_alike w commodity_alike); eauto|]. intros a b [-> _]. apply agree_eq. auto.
Qed.
Lemma register_txn_alike w t t' : tsim t t' -> forall ps ps', Forall2 psim ps ps' -> forall site first b pays, register_postings w site t first ps b pays = register_postings w site t' first ps' b pays.
Proof using Type.
  intros (T1 & T2 & _) ps ps' F. induction F as [|p p' ps ps' HP F IH]; intros site first b pays; cbn [register_postings]; auto. pose proof HP as (P1 & P2 & P3 & P4 & P5 & _). apply agree_eq. rewrite <- T1, <- T2, <- P2.
  eapply agree_bind; [apply agree_eq; reflexivity|]. intros [head pays1] ? <-. eapply agree_bind; [apply agree_eq; reflexivity|]. intros m ? <-. rewrite <- IH. unfold account_label. rewrite <- P5, <- P1. apply agree_eq. auto.
Qed.
Lemma register_all_alike w sel sel' : Forall2 selsim sel sel' -> forall site b pays, register_txns w site sel b pays = register_txns w site sel' b pays.
Proof using Type.
  induction 1 as [|[t ps] [t' ps'] sel sel' [HT HP] F IH]; intros site b pays; cbn [register_txns]; auto. cbn [fst snd] in HT, HP. rewrite <- (register_txn_alike w t t' HT ps ps' HP). apply agree_eq.
  eapply agree_bind; [apply agree_eq; reflexivity|]. intros [[rows b1] pays1] ? <-. rewrite <- (f2_len _ _ _ HP), <- IH. apply agree_eq. auto.
Qed.
Lemma register_alike w site o lg lg' : (forall m, query_node w o = Ok (Some m) -> nb = true \/ note_free m) -> lsim lg lg' -> register_report w site o lg = register_report w site o lg'.
Proof using Type.
  intros HN (L1 & L2 & L3 & L4 & L5). apply agree_eq. unfold register_report. rewrite <- L5. destruct (query_node w o) as [n|e|e]; cbn [bind]; [|reflexivity..].
  eapply agree_bind; [apply select_all_alike; eauto; intros m ->; auto|]. intros [sel cs] [sel' cs'] [FS HC]. cbn in FS, HC. rewrite (register_all_alike w _ _ FS). apply agree_eq. auto.
Qed.
Lemma lists_alike w site lg lg' : lsim lg lg' -> accounts_report w site lg = accounts_report w site lg' /\ payees_report w site lg = payees_report w site lg' /\
  commodities_report w site lg = commodities_report w site lg' /\ prices_report lg = prices_report lg' /\ report_site lg = report_site lg'.
Proof using Type.
  intros (L1 & L2 & L3 & L4 & L5). unfold accounts_report, payees_report, commodities_report, prices_report, report_site. rewrite L4, L5, (f2_len _ _ _ L3). repeat split.
  - do 2 f_equal. eapply f2_map_eq; [|apply (values_alike account_alike); eauto]. intros x y (E & _). auto.
  - do 2 f_equal. eapply f2_map_eq; [|apply (values_alike commodity_alike); eauto]. intros x y (E & _). auto.
Qed.
End Notes.
