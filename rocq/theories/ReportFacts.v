(** Facts about the reports: sums of balances by account, the tree, the flat list, conversion. *)
From Coq Require Import Lia Sorting.Sorted.
From Verif Require Import Base BaseFacts Numerals Money Alist Txn Expr Filter Price Ledger Reports Spec MoneyFacts SpecQuery SpecReports.
Open Scope Qc_scope.

(** ** Sums over the entries of a map from accounts to balances *)
Definition entries_sum (P : str -> bool) (m : balances) (c : str) : Qc :=
  qsum (map (fun x => bal_amt (snd x) c) (filter (fun x => P (fst x)) m)).
Lemma entries_sum_cons P x m c : entries_sum P (x :: m) c = (if P (fst x) then bal_amt (snd x) c else 0) + entries_sum P m c.
Proof. unfold entries_sum. cbn [filter]. destruct (P (fst x)); [reflexivity|]. symmetry. apply Qcplus_0_l. Qed.
Lemma entries_sum_perm P m m' c : Permutation m m' -> entries_sum P m c = entries_sum P m' c.
Proof.
  intros H. unfold entries_sum. apply qsum_perm. apply Permutation_map.
  induction H; cbn; auto.
  - destruct (P (fst x)); auto.
  - destruct (P (fst x)), (P (fst y)); auto. constructor.
  - eapply perm_trans; eauto.
Qed.
Definition held (m : balances) (a c : str) : Qc := match hget str_eqb a m with Some b => bal_amt b c | None => 0 end.
Lemma entries_sum_hset P k v m c : entries_sum P (hset str_eqb k v m) c = entries_sum P m c + (if P k then bal_amt v c - held m k c else 0).
Proof.
  induction m as [|[k0 v0] m IH]; cbn [hset].
  - rewrite !entries_sum_cons. unfold held. cbn [hget fst snd]. destruct (P k); ring.
  - unfold held in *. cbn [hget]. destruct (str_eqb_spec k k0) as [->|Hn].
    + rewrite !entries_sum_cons. cbn [fst snd]. destruct (P k0); ring.
    + rewrite !entries_sum_cons, IH. cbn [fst snd]. ring.
Qed.
Lemma entries_sum_none P m c : (forall x, In x m -> P (fst x) = false) -> entries_sum P m c = 0.
Proof.
  induction m as [|x m IH]; intros H; [reflexivity|]. rewrite entries_sum_cons, (H x (or_introl eq_refl)), IH; [ring|]. intros y Hy. apply H. right. auto.
Qed.
Lemma entries_sum_one m a c : NoDup (hkeys m) -> entries_sum (fun n => str_eqb n a) m c = held m a c.
Proof.
  intros Hn. induction m as [|[k v] m IH]; [reflexivity|]. rewrite entries_sum_cons. unfold held. cbn [hget fst snd].
  inversion Hn as [|? ? N1 N2]; subst. destruct (str_eqb_spec a k) as [->|Hk].
  - rewrite str_eqb_refl, entries_sum_none; [ring|]. intros x Hx. destruct (str_eqb_spec (fst x) k) as [E|]; auto.
    exfalso. apply N1. rewrite <- E. apply in_map. auto.
  - destruct (str_eqb_spec k a); [congruence|]. rewrite IH by auto. unfold held. ring.
Qed.
Lemma entries_sum_ext P Q m c : (forall x, In x m -> P (fst x) = Q (fst x)) -> entries_sum P m c = entries_sum Q m c.
Proof.
  induction m as [|x m IH]; intros H; [reflexivity|]. rewrite !entries_sum_cons, IH, (H x (or_introl eq_refl)); auto.
  intros y Hy. apply H. right. auto.
Qed.

(** ** Balances of the accounts *)
Definition good_bal (b : balance) : Prop := wf_bal b /\ nz_bal b.
Definition good_map (m : balances) : Prop := NoDup (hkeys m) /\ forall a b, In (a, b) m -> good_bal b.
Lemma good_new : good_bal bal_new.
Proof. split; [apply wf_nil|constructor]. Qed.
Lemma good_add a b : wf_bal a -> wf_bal b -> good_bal (bal_add a b).
Proof. intros. split; [apply wf_add; auto|apply nz_add]. Qed.
Lemma good_zero b : good_bal b -> (bal_is_zero b = true <-> b = []).
Proof.
  intros [_ H]. split; [|intros ->; reflexivity]. unfold bal_is_zero. destruct b as [|e b]; auto. cbn. intros X. apply andb_prop in X.
  inversion H; subst. destruct X as [X _]. congruence.
Qed.
Lemma good_zero_amt b : good_bal b -> (bal_is_zero b = true <-> forall c, bal_amt b c = 0).
Proof.
  intros H. rewrite good_zero by auto. split; [intros -> c; reflexivity|]. intros E. destruct b as [|e b]; auto.
  destruct H as [H1 H2]. destruct (nz_entry_shape _ e H1 H2 (or_introl eq_refl)) as (c & a & ->).
  destruct (proj1 (nz_entry_iff _ c a H1 H2) (or_introl eq_refl)) as [X Y]. rewrite E in X. congruence.
Qed.
Lemma good_shown b : good_bal b -> shown_amounts (map snd b).
Proof.
  intros [[H1 H2] H3]. split.
  - rewrite map_map. replace (map (fun x => m_commodity (snd x)) b) with (hkeys b); auto.
    unfold hkeys. apply map_ext_in. intros [k m] Hi. rewrite Forall_forall in H2. apply H2 in Hi. exact Hi.
  - apply Forall_forall. intros m Hm. apply in_map_iff in Hm. destruct Hm as (e & <- & He). unfold nz_bal in H3. rewrite Forall_forall in H3. auto.
Qed.
Lemma good_perm b b' : good_bal b -> Permutation b b' -> good_bal b'.
Proof.
  intros [H1 H2] P. split; [eapply wf_perm; eauto|]. unfold nz_bal in *. eapply Permutation_Forall; eauto.
Qed.
Lemma moneys_bal b c : moneys_amt (map snd b) c = bal_amt b c.
Proof. unfold moneys_amt, bal_amt. rewrite map_map. auto. Qed.

Lemma subtotal_cons p ps P c : subtotal (p :: ps) P c = (if P (p_account p) then amount_in c p else 0) + subtotal ps P c.
Proof. unfold subtotal. cbn [filter]. destruct (P (p_account p)); [reflexivity|]. symmetry. apply Qcplus_0_l. Qed.
Lemma account_balances_ok ps : forall m0 m, foldM add_posting m0 ps = Ok m -> good_map m0 ->
  good_map m /\ (forall P c, entries_sum P m c = entries_sum P m0 c + subtotal ps P c) /\
  (forall a, In a (hkeys m) <-> In a (hkeys m0) \/ exists p, In p ps /\ p_account p = a) /\
  (forall p, In p ps -> p_amount p <> None).
Proof.
  induction ps as [|p ps IH]; cbn [foldM]; intros m0 m H G.
  - inv H. split; auto. split; [intros; change (subtotal [] P c) with 0; ring|]. split; [|intros p []]. intros a. split; auto. intros [X|(p & [] & _)]; auto.
  - bind_inv H. unfold add_posting in Hb. bind_inv Hb. inv Hb. rename a0 into mo.
    assert (Ea : p_amount p = Some mo) by (destruct (p_amount p); inv Hb0; auto).
    set (old := match hget str_eqb (p_account p) m0 with Some b => b | None => bal_new end) in *.
    assert (Go : good_bal old).
    { unfold old. destruct (hget str_eqb (p_account p) m0) eqn:E; [|apply good_new]. apply (hget_In _ str_eqb_spec) in E. eapply G; eauto. }
    assert (Gn : good_bal (bal_add old (bal_of mo))) by (apply good_add; [apply Go|apply wf_of]).
    apply IH in H.
    + destruct H as (H1 & H2 & H3 & H4). split; [auto|]. split; [|split].
      * intros P c. rewrite H2, entries_sum_hset, subtotal_cons.
        destruct (P (p_account p)); [|ring].
        assert (Eo : bal_amt old c = held m0 (p_account p) c) by (unfold old, held; destruct (hget _ _ m0); reflexivity).
        rewrite bal_amt_add by (try apply Go; apply wf_of). rewrite bal_amt_of, Eo. unfold amount_in. rewrite Ea. ring.
      * intros a. rewrite H3. rewrite In_hkeys_hset by apply str_eqb_spec. cbn [In]. split.
        -- intros [[X|X]|(q & Q1 & Q2)]; auto; right; [exists p; auto|exists q; auto].
        -- intros [X|(q & [Q1|Q1] & Q2)]; auto; [subst; auto|]. right. eauto.
      * intros q [<-|Q]; auto. congruence.
    + split; [apply NoDup_hset; [apply str_eqb_spec|apply G]|]. intros a b Hi. apply In_hset_inv in Hi; [|apply str_eqb_spec].
      destruct Hi as [X|X]; [inv X; auto|eapply G; eauto].
Qed.

Lemma sum_balances_ok l : (forall b, In b l -> wf_bal b) -> forall b0, wf_bal b0 ->
  wf_bal (fold_left bal_add l b0) /\ (forall c, bal_amt (fold_left bal_add l b0) c = bal_amt b0 c + qsum (map (fun b => bal_amt b c) l)) /\
  (nz_bal b0 -> nz_bal (fold_left bal_add l b0)).
Proof.
  induction l as [|b l IH]; intros H b0 H0; cbn [fold_left].
  - split; auto. split; auto. intros c. cbn [map]. change (qsum []) with 0. ring.
  - destruct (IH (fun x X => H x (or_intror X)) (bal_add b0 b) (wf_add _ _ H0 (H b (or_introl eq_refl)))) as (H1 & H2 & H3).
    split; auto. split.
    + intros c. rewrite H2, bal_amt_add by (auto; apply H; left; auto). cbn [map]. rewrite qsum_cons. ring.
    + intros _. apply H3. apply nz_add.
Qed.
Lemma sum_entries_ok P m : (forall a b, In (a, b) m -> good_bal b) ->
  good_bal (sum_balances (map snd (filter (fun x => P (fst x)) m))) /\
  forall c, bal_amt (sum_balances (map snd (filter (fun x => P (fst x)) m))) c = entries_sum P m c.
Proof.
  intros G. unfold sum_balances.
  assert (W : forall b, In b (map snd (filter (fun x => P (fst x)) m)) -> wf_bal b).
  { intros b Hb. apply in_map_iff in Hb. destruct Hb as ([a b'] & <- & Hi). apply filter_In in Hi. destruct Hi as [Hi _]. apply (G a b' Hi). }
  destruct (sum_balances_ok _ W bal_new wf_nil) as (H1 & H2 & H3). split; [split; auto; apply H3; constructor|].
  intros c. rewrite H2. unfold entries_sum. rewrite map_map. change (bal_amt bal_new c) with 0. ring.
Qed.

(** ** Sub-accounts *)
Lemma starts_with_iff p s : starts_with p s = true <-> exists r, s = p ++ r.
Proof.
  revert s. induction p as [|x p IH]; intros s; cbn.
  - split; eauto.
  - destruct s as [|y s]; [split; [discriminate|intros (r & X); discriminate]|].
    destruct (N.eqb_spec x y) as [->|Hn]; cbn [andb].
    + rewrite IH. split; intros (r & E); [exists r; congruence|]. inv E. eauto.
    + split; [discriminate|]. intros (r & E). inv E. congruence.
Qed.
Lemma inside_iff a n : inside a n = true <-> n = a \/ exists r, n = a ++ L ":" ++ r.
Proof.
  unfold inside. rewrite orb_true_iff, starts_with_iff. destruct (str_eqb_spec n a).
  - tauto.
  - split; intros [X|(r & X)]; try discriminate; try (left; auto; fail); right; exists r; rewrite X, <- app_assoc; auto.
Qed.
Lemma under_inside a n : under a n = inside a n.
Proof. reflexivity. Qed.
Lemma colons_app a b : count_colons (a ++ b) = (count_colons a + count_colons b)%nat.
Proof. unfold count_colons. rewrite filter_app, app_length. auto. Qed.
Lemma under_deeper a n : under a n = true -> n = a \/ (count_colons a < count_colons n)%nat.
Proof.
  rewrite under_inside, inside_iff. intros [->|(r & ->)]; auto. right. rewrite !colons_app. cbn. lia.
Qed.

(** ** Rolling up *)
Lemma perm_filter_same (P : str -> bool) (m m' : balances) : NoDup (hkeys m) -> NoDup (hkeys m') ->
  (forall a, P a = true -> hget str_eqb a m = hget str_eqb a m') ->
  Permutation (filter (fun x => P (fst x)) m) (filter (fun x => P (fst x)) m').
Proof.
  intros H1 H2 H. apply NoDup_Permutation.
  - apply NoDup_filter. eapply NoDup_map_inv. exact H1.
  - apply NoDup_filter. eapply NoDup_map_inv. exact H2.
  - intros [a b]. rewrite !filter_In. cbn. split; intros [X Y]; split; auto.
    + apply (hget_In _ str_eqb_spec). rewrite <- H by auto. apply (In_hget _ str_eqb_spec); auto.
    + apply (hget_In _ str_eqb_spec). rewrite H by auto. apply (In_hget _ str_eqb_spec); auto.
Qed.
Lemma roll_up_ok w (Hw : world_ok w) nb0 : good_map nb0 -> forall accs site nb done,
  good_map nb -> NoDup (done ++ accs) ->
  StronglySorted (fun a b => (count_colons a <= count_colons b)%nat) accs ->
  (forall d a, In d done -> In a accs -> (count_colons d <= count_colons a)%nat) ->
  (forall a, ~ In a done -> hget str_eqb a nb = hget str_eqb a nb0) ->
  (forall a, In a done -> exists b, hget str_eqb a nb = Some b /\ forall c, bal_amt b c = entries_sum (inside a) nb0 c) ->
  let r := roll_up w site accs nb in
  good_map r /\
  (forall a, ~ In a (done ++ accs) -> hget str_eqb a r = hget str_eqb a nb0) /\
  (forall a, In a (done ++ accs) -> exists b, hget str_eqb a r = Some b /\ forall c, bal_amt b c = entries_sum (inside a) nb0 c).
Proof.
  intros G0. induction accs as [|a accs IH]; intros site nb done G Hn Hs Hd H1 H2; cbn [roll_up].
  - rewrite app_nil_r in *. auto.
  - assert (Hp : Permutation (w_ord w site _ nb) nb) by (apply Hw).
    set (l := w_ord w site _ nb) in *.
    assert (Gl : forall x b, In (x, b) l -> good_bal b) by (intros x b Hi; apply (proj2 G x); eapply Permutation_in; eauto).
    destruct (sum_entries_ok (under a) l Gl) as [S1 S2].
    set (b := sum_balances (map snd (filter (fun x => under a (fst x)) l))) in *.
    assert (Hna : ~ In a done /\ ~ In a accs).
    { apply NoDup_remove_2 in Hn. split; intros X; apply Hn; apply in_or_app; auto. }
    assert (E : forall c, bal_amt b c = entries_sum (inside a) nb0 c).
    { intros c. rewrite S2, (entries_sum_perm _ l nb) by auto. unfold entries_sum. apply qsum_perm. apply Permutation_map.
      apply perm_filter_same; [apply G|apply G0|]. intros n Hu. apply H1. intros X. apply under_deeper in Hu.
      destruct Hu as [->|Hu]; [tauto|]. specialize (Hd n a X (or_introl eq_refl)). lia. }
    destruct (IH (S site) (hset str_eqb a b nb) (done ++ [a])) as (I1 & I2 & I3).
    + split; [apply NoDup_hset; [apply str_eqb_spec|apply G]|]. intros x y Hi. apply In_hset_inv in Hi; [|apply str_eqb_spec].
      destruct Hi as [X|X]; [inv X; auto|eapply G; eauto].
    + rewrite <- app_assoc. auto.
    + inversion Hs; auto.
    + intros d x Hi Hx. inversion Hs as [|? ? S3 S4]; subst. rewrite Forall_forall in S4. apply in_app_or in Hi.
      destruct Hi as [Hi|[<-|[]]]; [apply Hd; auto; right; auto|apply S4; auto].
    + intros x Hx. rewrite hget_hset by apply str_eqb_spec. destruct (str_eqb_spec x a) as [->|]; [exfalso; apply Hx; apply in_or_app; right; left; auto|].
      apply H1. intros X. apply Hx. apply in_or_app. auto.
    + intros x Hx. rewrite hget_hset by apply str_eqb_spec. destruct (str_eqb_spec x a) as [->|Hxa]; [eauto|].
      apply in_app_or in Hx. destruct Hx as [Hx|[Hx|[]]]; [auto|congruence].
    + rewrite <- app_assoc in I2, I3. auto.
Qed.

(** ** The tree *)
Lemma split_nonempty s : split_char c_colon s <> [].
Proof. induction s as [|x s IH]; cbn; [discriminate|]. destruct (x =? c_colon)%N; [discriminate|]. destruct (split_char c_colon s); discriminate. Qed.
Lemma join_split s : join [c_colon] (split_char c_colon s) = s.
Proof.
  induction s as [|x s IH]; [reflexivity|]. cbn [split_char]. destruct (N.eqb_spec x c_colon) as [->|Hx].
  - pose proof (split_nonempty s). destruct (split_char c_colon s) eqn:E; [congruence|]. cbn [join] in *. rewrite IH. auto.
  - pose proof (split_nonempty s). destruct (split_char c_colon s) as [|p ps] eqn:E; [congruence|]. destruct ps as [|q ps]; cbn [join] in *; rewrite <- IH; auto.
Qed.
Lemma prefixes_from_join l : forall pre, pre <> [] -> l <> [] ->
  In (pre ++ [c_colon] ++ join [c_colon] l) (prefixes_from pre l).
Proof.
  induction l as [|x l IH]; intros pre Hp Hl; [congruence|]. cbn [prefixes_from].
  destruct pre as [|y pre]; [congruence|]. destruct l as [|z l]; [left; auto|]. right.
  change (join [c_colon] (x :: z :: l)) with (x ++ [c_colon] ++ join [c_colon] (z :: l)).
  replace ((y :: pre) ++ [c_colon] ++ x ++ [c_colon] ++ join [c_colon] (z :: l)) with
    (((y :: pre) ++ [c_colon] ++ x) ++ [c_colon] ++ join [c_colon] (z :: l)) by (rewrite <- !app_assoc; auto).
  apply IH; discriminate.
Qed.
Lemma prefixes_self n : (forall r, n <> L ":" ++ r) -> In n (prefixes n).
Proof.
  intros H. unfold prefixes, parts. pose proof (join_split n) as J. pose proof (split_nonempty n) as N0.
  destruct (split_char c_colon n) as [|x l] eqn:E; [congruence|]. cbn [prefixes_from].
  destruct l as [|y l].
  - left. cbn in J. auto.
  - right. change (join [c_colon] (x :: y :: l)) with (x ++ [c_colon] ++ join [c_colon] (y :: l)) in J. rewrite <- J. apply prefixes_from_join; [|discriminate].
    intros ->. apply (H (join [c_colon] (y :: l))). rewrite <- J. auto.
Qed.
Lemma prefixes_inside n p : In p (prefixes n) -> (exists r, n = p ++ L ":" ++ r) \/ n = p \/ exists r, n = L ":" ++ r.
Proof.
  unfold prefixes, parts. pose proof (join_split n) as J. pose proof (split_nonempty n) as N0.
  destruct (split_char c_colon n) as [|x l] eqn:E; [congruence|]. cbn [prefixes_from].
  assert (G : forall l pre, pre <> [] -> In p (prefixes_from pre l) -> forall t, t = match l with [] => pre | _ => pre ++ [c_colon] ++ join [c_colon] l end ->
    (exists r, t = p ++ L ":" ++ r) \/ t = p).
  { clear. induction l as [|x l IH]; intros pre Hp Hi t ->; [destruct Hi|]. cbn [prefixes_from] in Hi.
    destruct pre as [|y pre]; [congruence|]. destruct Hi as [<-|Hi].
    - destruct l as [|z l]; [right; auto|]. left. exists (join [c_colon] (z :: l)). change (join [c_colon] (x :: z :: l)) with (x ++ [c_colon] ++ join [c_colon] (z :: l)). rewrite <- !app_assoc. auto.
    - eapply IH; [|exact Hi|]; [discriminate|]. destruct l as [|z l]; [reflexivity|].
      change (join [c_colon] (x :: z :: l)) with (x ++ [c_colon] ++ join [c_colon] (z :: l)). rewrite <- !app_assoc. auto. }
  intros [<-|Hi].
  - destruct l as [|y l]; [cbn in J; auto|]. left. exists (join [c_colon] (y :: l)). rewrite <- J. auto.
  - destruct x as [|c x].
    + destruct l as [|y l]; [destruct Hi|]. right. right. exists (join [c_colon] (y :: l)). rewrite <- J. auto.
    + assert (En : n = match l with [] => c :: x | _ => (c :: x) ++ [c_colon] ++ join [c_colon] l end) by (rewrite <- J; destruct l; auto).
      destruct (G l (c :: x) ltac:(discriminate) Hi n En) as [X|X]; auto.
Qed.

Lemma fold_sadd_In (f : str * balance -> list str) l : forall s x,
  In x (fold_left (fun s e => fold_left (fun s p => sadd str_eqb p s) (f e) s) l s) <-> In x s \/ exists e, In e l /\ In x (f e).
Proof.
  assert (G : forall ps s x, In x (fold_left (fun s p => sadd str_eqb p s) ps s) <-> In x s \/ In x ps).
  { induction ps as [|p ps IH]; intros s x; cbn; [tauto|]. rewrite IH, (sadd_In _ str_eqb_spec). intuition congruence. }
  induction l as [|e l IH]; intros s x; cbn [fold_left].
  - split; auto. intros [X|(e & [] & _)]; auto.
  - rewrite IH, G. cbn. split.
    + intros [[X|X]|(y & Y1 & Y2)]; auto; right; eauto.
    + intros [X|(y & [<-|Y1] & Y2)]; auto. right. eauto.
Qed.
Lemma fold_sadd_NoDup (f : str * balance -> list str) l : forall s, NoDup s ->
  NoDup (fold_left (fun s e => fold_left (fun s p => sadd str_eqb p s) (f e) s) l s).
Proof.
  assert (G : forall ps s, NoDup s -> NoDup (fold_left (fun s p => sadd str_eqb p s) ps s)).
  { induction ps as [|p ps IH]; intros s Hs; cbn; auto. apply IH. apply (sadd_NoDup _ str_eqb_spec). auto. }
  induction l as [|e l IH]; intros s Hs; cbn [fold_left]; auto.
Qed.
Lemma fold_hset_perm (l : balances) : NoDup (hkeys l) -> Permutation (fold_left (fun m x => hset str_eqb (fst x) (snd x) m) l []) l.
Proof.
  assert (G : forall (l m : balances), NoDup (hkeys (m ++ l)) -> fold_left (fun m x => hset str_eqb (fst x) (snd x) m) l m = m ++ l).
  { clear l. induction l as [|[k v] l0 IH]; intros m Hn; cbn [fold_left]; [rewrite app_nil_r; auto|].
    assert (E : hset str_eqb (fst (k, v)) (snd (k, v)) m = m ++ [(k, v)]).
    { cbn [fst snd]. clear IH. unfold hkeys in Hn. rewrite map_app in Hn. cbn in Hn. apply NoDup_remove_2 in Hn.
      assert (Hk : ~ In k (map fst m)) by (intros X; apply Hn; apply in_or_app; auto). clear Hn.
      induction m as [|[k' v'] m IH]; cbn; auto. destruct (str_eqb_spec k k') as [->|]; [exfalso; apply Hk; left; auto|].
      rewrite IH; auto. intros X. apply Hk. right. auto. }
    rewrite E, IH; [rewrite <- app_assoc; auto|]. rewrite <- app_assoc. exact Hn. }
  intros Hn. rewrite G by exact Hn. apply Permutation_refl.
Qed.
Lemma good_map_perm m m' : Permutation m m' -> good_map m -> good_map m'.
Proof.
  intros P [G1 G2]. split.
  - eapply Permutation_NoDup; [|exact G1]. apply Permutation_map. auto.
  - intros a b Hi. eapply G2. eapply Permutation_in; [symmetry; exact P|exact Hi].
Qed.
Lemma good_nonzero m : good_map m -> good_map (nonzero m).
Proof.
  intros [X Y]. split.
  - unfold nonzero. clear Y. induction m as [|[k v] l IH]; [constructor|]. cbn [filter snd]. inversion X as [|? ? X1 X2]; subst.
    destruct (bal_is_zero v); cbn [negb]; [auto|]. cbn [hkeys map fst]. constructor; [|apply IH; auto]. intros Z. apply X1.
    apply in_map_iff in Z. destruct Z as (e & <- & Z). apply filter_In in Z. apply in_map. apply Z.
  - intros a b Hi. apply filter_In in Hi. eapply Y; apply Hi.
Qed.
Definition no_lead (n : str) : Prop := forall r, n <> L ":" ++ r.
Lemma tree_balances_ok w (Hw : world_ok w) site m : good_map m ->
  good_map (tree_balances w site m) /\
  (forall a b, In (a, b) (tree_balances w site m) -> bal_is_zero b = false /\ (no_lead a -> forall c, bal_amt b c = entries_sum (inside a) m c)) /\
  (forall a, (exists n, In n (hkeys m) /\ In a (prefixes n)) -> (exists c, entries_sum (inside a) m c <> 0) -> In a (hkeys (tree_balances w site m))) /\
  (forall a, In a (hkeys (tree_balances w site m)) -> exists n, In n (hkeys m) /\ (n = a \/ In a (prefixes n))).
Proof.
  intros G. unfold tree_balances.
  set (b0 := w_ord w site _ m). assert (P0 : Permutation b0 m) by apply Hw.
  set (accs := fold_left _ b0 []).
  set (srt := stable_sort _ (w_ord w (S site) _ accs)).
  assert (Ps : Permutation srt accs) by (unfold srt; rewrite stable_sort_perm; apply Hw).
  set (nb := fold_left (fun m x => hset str_eqb (fst x) (snd x) m) b0 []).
  assert (G0 : good_map b0) by (eapply good_map_perm; [symmetry; exact P0|exact G]).
  assert (Pn : Permutation nb m) by (unfold nb; rewrite fold_hset_perm by apply G0; auto).
  assert (Gn : good_map nb) by (eapply good_map_perm; [symmetry; exact Pn|exact G]).
  assert (Na : NoDup accs) by (unfold accs; apply fold_sadd_NoDup; constructor).
  assert (Ia : forall x, In x accs <-> exists n, In n (hkeys m) /\ In x (prefixes n)).
  { intros x. unfold accs. rewrite fold_sadd_In. split.
    - intros [[]|([n b] & H1 & H2)]. exists n. split; [|exact H2]. apply (in_map fst m (n, b)). eapply Permutation_in; [exact P0|exact H1].
    - intros (n & H1 & H2). right. apply in_map_iff in H1. destruct H1 as ([n' b] & <- & H1). exists (n', b). split; auto.
      eapply Permutation_in; [symmetry; exact P0|exact H1]. }
  destruct (roll_up_ok w Hw nb Gn srt (3 + site) nb []) as (R1 & R2 & R3); auto.
  { cbn. eapply Permutation_NoDup; [symmetry; exact Ps|exact Na]. }
  { assert (S1 : StronglySorted (fun a b => Nat.leb (count_colons a) (count_colons b) = true) srt).
    { unfold srt. apply stable_sort_sorted.
      - intros a b. rewrite !Nat.leb_le. lia.
      - intros a b c. rewrite !Nat.leb_le. lia. }
    clear - S1. induction S1; constructor; auto. eapply Forall_impl; [|exact H]. intros b. cbn beta. rewrite Nat.leb_le. auto. }
  { intros d a []. }
  { intros a []. }
  cbn [app] in *. set (r := roll_up w (3 + site) srt nb) in *.
  set (r' := w_ord w (S (S site)) _ r). assert (Pr : Permutation r' r) by apply Hw.
  assert (Gr : good_map r') by (eapply good_map_perm; [symmetry; exact Pr|exact R1]).
  assert (Hmem : forall a b, In (a, b) r' <-> hget str_eqb a r = Some b).
  { intros a b. split; intros X.
    - apply (In_hget _ str_eqb_spec); [apply R1|]. eapply Permutation_in; [exact Pr|exact X].
    - eapply Permutation_in; [symmetry; exact Pr|]. apply (hget_In _ str_eqb_spec). auto. }
  assert (Hamt : forall a b, hget str_eqb a r = Some b -> In a srt -> forall c, bal_amt b c = entries_sum (inside a) m c).
  { intros a b E Hi c. destruct (R3 a Hi) as (b' & E' & X). rewrite E in E'. inv E'. rewrite X. apply entries_sum_perm. auto. }
  assert (Hkey : forall a b, hget str_eqb a r = Some b -> In a srt \/ In a (hkeys m)).
  { intros a b E. destruct (in_dec (list_eq_dec N.eq_dec) a srt) as [X|X]; auto. right. rewrite R2 in E by auto.
    pose proof (proj2 (hget_Some_key _ str_eqb_spec a nb) (ex_intro _ b E)) as E'. eapply Permutation_in; [|exact E']. apply Permutation_map. auto. }
  split; [|split; [|split]].
  - apply good_nonzero. exact Gr.
  - intros a b Hi. apply filter_In in Hi. destruct Hi as [Hi Hz]. cbn [snd] in Hz. apply negb_true_iff in Hz. split; auto.
    intros Hl c. apply Hmem in Hi. apply Hamt; auto. destruct (Hkey a b Hi) as [X|X]; auto.
    eapply Permutation_in; [symmetry; exact Ps|]. apply Ia. exists a. split; auto. apply prefixes_self. auto.
  - intros a Hp (c & Hc). apply Ia in Hp. assert (Hp' : In a srt) by (eapply Permutation_in; [symmetry; exact Ps|exact Hp]).
    destruct (R3 a Hp') as (b & E & X). apply (in_map fst _ (a, b)). apply filter_In. split; [apply Hmem; auto|].
    cbn [snd]. apply negb_true_iff. destruct (bal_is_zero b) eqn:Z; auto. exfalso. apply Hc.
    rewrite <- (Hamt a b E Hp' c). apply good_zero_amt; auto. eapply R1. apply (hget_In _ str_eqb_spec). exact E.
  - intros a Hi. apply in_map_iff in Hi. destruct Hi as ([k b] & <- & Hi). apply filter_In in Hi. destruct Hi as [Hi _]. cbn [fst].
    apply Hmem in Hi. destruct (Hkey k b Hi) as [X|X]; [|exists k; auto].
    eapply Permutation_in in X; [|exact Ps]. apply Ia in X. destruct X as (n & N1 & N2). eauto.
Qed.

(** ** Cutting names *)
Lemma levels_parts s : levels s = length (parts s).
Proof.
  unfold levels, parts. induction s as [|x s IH]; [reflexivity|]. cbn [filter split_char]. rewrite N.eqb_sym.
  pose proof (split_nonempty s) as N0. destruct (x =? c_colon)%N.
  - cbn [length]. rewrite IH. auto.
  - rewrite IH. destruct (split_char c_colon s); [congruence|reflexivity].
Qed.
Lemma levels_app a r : levels (a ++ L ":" ++ r) = (levels a + levels r)%nat.
Proof. unfold levels. rewrite !filter_app, !app_length. cbn. lia. Qed.
Lemma levels_pos s : (1 <= levels s)%nat.
Proof. unfold levels. lia. Qed.
Lemma join_app a b : a <> [] -> b <> [] -> join [c_colon] (a ++ b) = join [c_colon] a ++ L ":" ++ join [c_colon] b.
Proof.
  intros Ha Hb. induction a as [|x a IH]; [congruence|]. destruct a as [|y a].
  - cbn [app]. destruct b; [congruence|]. reflexivity.
  - change ((x :: y :: a) ++ b) with (x :: (y :: a) ++ b). 
    assert (E : join [c_colon] (x :: (y :: a) ++ b) = x ++ [c_colon] ++ join [c_colon] ((y :: a) ++ b)) by reflexivity.
    rewrite E, IH by discriminate. change (join [c_colon] (x :: y :: a)) with (x ++ [c_colon] ++ join [c_colon] (y :: a)).
    rewrite <- !app_assoc. auto.
Qed.
Lemma parts_no_colon s p : In p (parts s) -> filter (N.eqb c_colon) p = [].
Proof.
  unfold parts. revert p. induction s as [|x s IH]; intros p; cbn [split_char].
  - intros [<-|[]]. auto.
  - destruct (N.eqb_spec x c_colon) as [->|Hx].
    + intros [<-|Hi]; auto.
    + destruct (split_char c_colon s) as [|q ps]; intros [<-|Hi]; try (destruct Hi; fail).
      * cbn [filter]. destruct (N.eqb_spec c_colon x); [congruence|]. auto.
      * cbn [filter]. destruct (N.eqb_spec c_colon x); [congruence|]. apply IH. left. auto.
      * apply IH. right. auto.
Qed.
Lemma levels_join l : l <> [] -> (forall p, In p l -> filter (N.eqb c_colon) p = []) -> levels (join [c_colon] l) = length l.
Proof.
  induction l as [|x l IH]; intros Hl H; [congruence|]. destruct l as [|y l].
  - unfold levels. cbn [join]. rewrite (H x (or_introl eq_refl)). auto.
  - change (join [c_colon] (x :: y :: l)) with (x ++ L ":" ++ join [c_colon] (y :: l)). rewrite levels_app, IH by (discriminate || (intros; apply H; right; auto)).
    unfold levels. rewrite (H x (or_introl eq_refl)). auto.
Qed.
Lemma truncate_shortened d name : shortened d name (truncate_name d name).
Proof.
  unfold truncate_name. destruct (Nat.leb_spec (levels name) d) as [H|H].
  - left. split; auto. rewrite firstn_all2 by (rewrite <- levels_parts; auto). apply join_split.
  - destruct d as [|d]; [right; right; auto|]. right. left.
    assert (Hl : (S d < length (parts name))%nat) by (rewrite <- levels_parts; auto).
    assert (H1 : firstn (S d) (parts name) <> []) by (destruct (parts name); [cbn in Hl; lia|discriminate]).
    assert (H2 : skipn (S d) (parts name) <> []) by (intros X; apply (f_equal (@length _)) in X; rewrite skipn_length in X; cbn in X; lia).
    exists (join [c_colon] (skipn (S d) (parts name))). split.
    + rewrite <- join_app by auto. rewrite firstn_skipn. symmetry. apply join_split.
    + rewrite levels_join; auto; [rewrite firstn_length; lia|]. intros p Hi. eapply parts_no_colon. rewrite <- (firstn_skipn (S d)). apply in_or_app. left. exact Hi.
Qed.
Lemma shortened_unique d name n n' : shortened d name n -> shortened d name n' -> n = n'.
Proof.
  assert (G : forall n n' r r', n ++ L ":" ++ r = n' ++ L ":" ++ r' -> levels n = levels n' -> n = n').
  { clear. induction n as [|x n IH]; intros [|y n'] r r' E Hl; auto.
    - cbn in E. inv E. unfold levels in Hl. cbn in Hl. lia.
    - cbn in E. inv E. unfold levels in Hl. cbn in Hl. lia.
    - cbn in E. inv E. f_equal. eapply IH; [exact H1|]. unfold levels in *. cbn [filter] in Hl. destruct (N.eqb c_colon y); cbn [length] in Hl; lia. }
  intros [[H1 ->]|[(r & E & H1)|[-> ->]]] [[H1' ->]|[(r' & E' & H1')|[H1' ->]]]; auto.
  - rewrite E' in H1. rewrite levels_app in H1. pose proof (levels_pos r'). lia.
  - pose proof (levels_pos name). lia.
  - rewrite E, levels_app in H1'. pose proof (levels_pos r). lia.
  - subst. eapply G; [exact E'|lia].
  - subst. pose proof (levels_pos n). lia.
  - pose proof (levels_pos name). lia.
  - subst. pose proof (levels_pos n'). lia.
Qed.
Lemma shortened_levels d name n : (1 <= d)%nat -> shortened d name n -> (levels n <= d)%nat.
Proof. intros Hd [[H1 ->]|[(r & E & H1)|[-> ->]]]; lia. Qed.

(** ** Runs of equal names *)
Lemma str_ltb_leb a b : str_ltb a b = true <-> str_leb a b = true /\ a <> b.
Proof.
  unfold str_ltb, str_leb. destruct (str_cmp a b) eqn:E; split; try discriminate; try (intros [X _]; discriminate X); auto.
  - intros [_ X]. apply str_cmp_eq in E. congruence.
  - intros _. split; auto. intros ->. rewrite (proj2 (str_cmp_eq b b) eq_refl) in E. discriminate.
Qed.
Lemma ascending_app l a b : ascending (l ++ [a]) -> str_ltb a b = true -> ascending ((l ++ [a]) ++ [b]).
Proof.
  induction l as [|x l IH]; intros H1 H2.
  - cbn. auto.
  - destruct l as [|y l].
    + cbn in *. tauto.
    + change (ascending ((x :: y :: l) ++ [a])) with (str_ltb x y = true /\ ascending ((y :: l) ++ [a])) in H1.
      change (ascending (((x :: y :: l) ++ [a]) ++ [b])) with (str_ltb x y = true /\ ascending (((y :: l) ++ [a]) ++ [b])).
      destruct H1. split; auto.
Qed.
Lemma merge_runs_ok l : forall account acc r, merge_runs l account acc = Ok r ->
  StronglySorted (fun a b => name_le a b = true) l ->
  (acc = [] /\ account = [] \/ exists acc' b, acc = acc' ++ [(account, b)]) ->
  (forall a b, In (a, b) (acc ++ l) -> good_bal b) ->
  (forall x, In x l -> str_leb account (fst x) = true) ->
  ascending (hkeys acc) ->
  ascending (hkeys r) /\ (forall a b, In (a, b) r -> good_bal b) /\
  (forall P c, entries_sum P r c = entries_sum P acc c + entries_sum P l c) /\
  (forall a, In a (hkeys r) <-> In a (hkeys acc) \/ In a (hkeys l)).
Proof.
  assert (Happ : forall P (m m' : balances) c, entries_sum P (m ++ m') c = entries_sum P m c + entries_sum P m' c).
  { intros. unfold entries_sum. rewrite filter_app, map_app. apply qsum_app. }
  induction l as [|[a v] l IH]; cbn [merge_runs]; intros account acc r H Hs Hacc Hg Hle Ha.
  - inv H. rewrite app_nil_r in Hg. split; auto. split; auto. split; [intros; change (entries_sum P [] c) with 0; ring|]. intros. cbn. tauto.
  - inversion Hs as [|? ? S1 S2]; subst. rewrite Forall_forall in S2.
    assert (Gv : good_bal v) by (eapply Hg; apply in_or_app; right; left; reflexivity).
    destruct (str_eqb_spec a account) as [->|Hn].
    + destruct Hacc as [[-> ->]|(acc' & b & ->)]; [discriminate|]. rewrite rev_app_distr in H. cbn [rev app] in H. rewrite rev_involutive in H.
      assert (Gb : good_bal b) by (eapply Hg; apply in_or_app; left; apply in_or_app; right; left; reflexivity).
      apply IH in H; auto.
      * destruct H as (H1 & H2 & H3 & H4). split; auto. split; auto. split.
        -- intros P c. rewrite H3, !Happ, !entries_sum_cons. change (entries_sum P [] c) with 0. cbn [fst snd].
           destruct (P account); [|ring]. rewrite bal_amt_add by (apply Gb || apply Gv). ring.
        -- intros x. rewrite H4. unfold hkeys. rewrite !map_app. cbn [map fst]. rewrite !in_app_iff. cbn [In]. tauto.
      * right. eauto.
      * intros x y Hi. rewrite <- app_assoc in Hi. apply in_app_or in Hi. destruct Hi as [Hi|Hi].
        -- eapply Hg. apply in_or_app. left. apply in_or_app. left. exact Hi.
        -- cbn in Hi. destruct Hi as [Hi|Hi]; [inv Hi; apply good_add; [apply Gb|apply Gv]|]. eapply Hg. apply in_or_app. right. right. exact Hi.
      * unfold hkeys in *. rewrite map_app in *. exact Ha.
    + apply IH in H; auto.
      * destruct H as (H1 & H2 & H3 & H4). split; auto. split; auto. split.
        -- intros P c. rewrite H3, !Happ, !entries_sum_cons. change (entries_sum P [] c) with 0. ring.
        -- intros x. rewrite H4. unfold hkeys. rewrite !map_app. cbn [map fst]. rewrite !in_app_iff. cbn [In]. tauto.
      * right. eauto.
      * intros x y Hi. eapply Hg. rewrite <- app_assoc in Hi. exact Hi.
      * unfold hkeys in *. rewrite map_app. destruct Hacc as [[-> ->]|(acc' & b & ->)]; [cbn; auto|]. rewrite map_app in *. cbn [map fst] in *.
        apply ascending_app; auto. apply str_ltb_leb. split; [|congruence]. apply (Hle (a, v)). left. auto.
Qed.
Lemma merge_runs_total l : forall account acc, account <> [] \/ acc = [] ->
  (account <> [] -> exists acc' b, acc = acc' ++ [(account, b)]) -> (forall x, In x l -> fst x <> []) -> exists r, merge_runs l account acc = Ok r.
Proof.
  induction l as [|[a v] l IH]; cbn [merge_runs]; intros account acc H0 H1 H; eauto.
  assert (Ha : a <> []) by (apply (H (a, v)); left; auto).
  destruct (str_eqb_spec a account) as [->|Hn].
  - destruct (H1 Ha) as (acc' & b & ->). rewrite rev_app_distr. cbn [rev app]. apply IH; auto; [intros _; eauto|]. intros x Hx. apply H. right. auto.
  - apply IH; auto; [intros _; eauto|]. intros x Hx. apply H. right. auto.
Qed.

(** ** The flat list *)
Lemma held_in m a b c : NoDup (hkeys m) -> In (a, b) m -> entries_sum (fun n => str_eqb n a) m c = bal_amt b c.
Proof. intros Hn Hi. rewrite entries_sum_one by auto. unfold held. rewrite (In_hget _ str_eqb_spec a b) by auto. auto. Qed.
Lemma entries_nonzero P m c : (forall a b, In (a, b) m -> good_bal b) -> entries_sum P (nonzero m) c = entries_sum P m c.
Proof.
  induction m as [|[a b] m IH]; intros G; [reflexivity|]. unfold nonzero in *. cbn [filter snd]. 
  assert (G' : forall x y, In (x, y) m -> good_bal y) by (intros x y Hi; apply (G x); right; exact Hi).
  rewrite entries_sum_cons. cbn [fst snd].
  destruct (bal_is_zero b) eqn:Z; cbn [negb]; [|rewrite entries_sum_cons; cbn [fst snd]; rewrite IH; auto].
  assert (Gb : good_bal b) by (apply (G a); left; auto). apply (proj1 (good_zero_amt b Gb)) with (c := c) in Z. rewrite IH by auto.
  destruct (P a); rewrite ?Z; ring.
Qed.
Lemma ascending_NoDup l : ascending l -> NoDup l.
Proof.
  intros H. assert (G : forall l a, ascending (a :: l) -> forall x, In x l -> str_ltb a x = true).
  { clear. induction l as [|b l IH]; intros a H x []; destruct H as [H1 H2]; subst; auto.
    apply IH with (x := x) in H2; auto. apply str_ltb_leb in H1, H2. destruct H1 as [A1 A2], H2 as [B1 B2]. apply str_ltb_leb.
    pose proof (str_leb_trans _ _ _ A1 B1). split; auto. intros ->. apply A2. apply str_leb_antisym; auto. }
  induction l as [|a l IH]; constructor.
  - intros X. pose proof (G l a H a X) as Y. apply str_ltb_leb in Y. destruct Y. congruence.
  - apply IH. destruct l; [constructor|]. apply H.
Qed.
Definition cut_to (d : option nat) (n : str) : str := match d with Some k => truncate_name k n | None => n end.
Lemma flat_balances_ok w (Hw : world_ok w) site d m r : flat_balances w site d m = Ok r -> good_map m ->
  good_map r /\
  (forall a b, In (a, b) r -> forall c, bal_amt b c = entries_sum (fun n => str_eqb (cut_to d n) a) m c) /\
  (forall P c, entries_sum P r c = entries_sum (fun n => P (cut_to d n)) m c) /\
  (forall a, (exists c, entries_sum (fun n => str_eqb (cut_to d n) a) m c <> 0) -> In a (hkeys r)) /\
  (forall a, In a (hkeys r) -> exists n, In n (hkeys m) /\ a = cut_to d n).
Proof.
  intros H G. unfold flat_balances in H. set (b0 := nonzero (w_ord w site _ m)) in *.
  assert (P0 : Permutation (w_ord w site _ m) m) by apply Hw.
  assert (G1 : good_map (w_ord w site _ m)) by (eapply good_map_perm; [symmetry; exact P0|exact G]).
  assert (G0 : good_map b0) by (apply good_nonzero; auto).
  assert (E0 : forall P c, entries_sum P b0 c = entries_sum P m c).
  { intros P c. unfold b0. rewrite entries_nonzero by apply G1. apply entries_sum_perm. auto. }
  assert (K0 : forall a, In a (hkeys b0) -> In a (hkeys m)).
  { intros a Hi. apply in_map_iff in Hi. destruct Hi as (e & <- & Hi). apply filter_In in Hi. destruct Hi as [Hi _]. apply in_map. eapply Permutation_in; [exact P0|exact Hi]. }
  assert (HH : good_map r /\ (forall P c, entries_sum P r c = entries_sum (fun n => P (cut_to d n)) m c) /\ (forall a, In a (hkeys r) -> exists n, In n (hkeys m) /\ a = cut_to d n)).
  { destruct d as [d|]; [|inv H; split; [auto|]; split; [intros; apply E0|intros a Hi; exists a; auto]].
    set (l := map (fun x => (truncate_name d (fst x), snd x)) b0) in *.
    assert (Pl : Permutation (stable_sort name_le l) l) by apply stable_sort_perm.
    apply merge_runs_ok in H.
    - destruct H as (H1 & H2 & H3 & H4). split; [split; [apply ascending_NoDup; auto|auto]|]. split.
      + intros P c. rewrite H3. change (entries_sum P [] c) with 0. rewrite (entries_sum_perm _ _ l) by auto. rewrite <- E0.
        unfold l, entries_sum. clear. induction b0 as [|x b0 IH]; cbn [map filter fst]; [ring|]. cbn [cut_to].
        destruct (P (truncate_name d (fst x))); cbn [map snd]; rewrite ?qsum_cons; rewrite Qcplus_0_l in *; rewrite IH; auto.
      + intros a Hi. apply H4 in Hi. destruct Hi as [[]|Hi]. apply in_map_iff in Hi. destruct Hi as (e & <- & Hi).
        eapply Permutation_in in Hi; [|exact Pl]. apply in_map_iff in Hi. destruct Hi as (x & <- & Hi). exists (fst x). split; auto. apply K0. apply in_map. auto.
    - apply stable_sort_sorted; [intros; apply str_leb_total|intros a b c; apply str_leb_trans].
    - auto.
    - intros a b Hi. cbn [app] in Hi. eapply Permutation_in in Hi; [|exact Pl]. apply in_map_iff in Hi. destruct Hi as ([x y] & E & Hi). inv E. eapply G0. exact Hi.
    - intros x _. destruct (fst x); reflexivity.
    - constructor. }
  destruct HH as (H1 & H2 & H3). split; auto. split.
  - intros a b Hi c. rewrite <- (H2 (fun n => str_eqb n a)). symmetry. apply held_in; auto. apply H1.
  - split; auto. split; auto. intros a (c & Hc). rewrite <- (H2 (fun n => str_eqb n a)) in Hc. rewrite entries_sum_one in Hc by apply H1. unfold held in Hc.
    destruct (hget str_eqb a r) eqn:E; [|congruence]. apply (hget_Some_key _ str_eqb_spec). eauto.
Qed.

(** ** Printed rows *)
Lemma collapse_text account : forall rest n text, exists ext, fst (collapse account n text rest) = text ++ ext.
Proof.
  induction rest as [|[name b] rest IH]; intros n text; cbn [collapse]; [exists []; rewrite app_nil_r; auto|].
  destruct (negb _); [exists []; rewrite app_nil_r; auto|]. destruct (sibling_ahead _ _ _); [exists []; rewrite app_nil_r; auto|].
  destruct (IH (n + 1)%nat (text ++ [c_colon] ++ leaf name)) as (ext & E). rewrite E. exists ([c_colon] ++ leaf name ++ ext). rewrite <- !app_assoc. auto.
Qed.
Lemma collapse_suffix account : forall rest n text, exists pre, rest = pre ++ snd (collapse account n text rest).
Proof.
  induction rest as [|[name b] rest IH]; intros n text; cbn [collapse]; [exists []; auto|].
  destruct (negb _); [exists []; auto|]. destruct (sibling_ahead _ _ _); [exists []; auto|].
  destruct (IH (n + 1)%nat (text ++ [c_colon] ++ leaf name)) as (pre & E). exists ((name, b) :: pre). cbn. f_equal. exact E.
Qed.
Lemma print_tree_sound f w site d l r : In r (print_rows f w site false d l) ->
  exists a b, In (a, b) l /\ bal_is_zero b = false /\ br_indent r = nparts a /\ (exists ext, br_label r = leaf a ++ ext) /\
    (forall k, d = Some k -> (nparts a <= k)%nat) /\ exists s, br_moneys r = map snd (w_ord w s _ b).
Proof.
  revert site l. induction f as [|f IH]; intros site l; cbn [print_rows]; [intros []|]. destruct l as [|[a b] l]; [intros []|].
  assert (Hrec : forall l', (exists pre, l = pre ++ l') -> In r (print_rows f w (S site) false d l') ->
    exists a0 b0, In (a0, b0) ((a, b) :: l) /\ bal_is_zero b0 = false /\ br_indent r = nparts a0 /\ (exists ext, br_label r = leaf a0 ++ ext) /\
      (forall k, d = Some k -> (nparts a0 <= k)%nat) /\ exists s, br_moneys r = map snd (w_ord w s _ b0)).
  { intros l' (pre & ->) Hi. destruct (IH _ _ Hi) as (x & y & Hx & Hr). exists x, y. split; auto. right. apply in_or_app. auto. }
  destruct (match d with Some k => Nat.ltb k (nparts a) | None => false end) eqn:Ed; [apply Hrec; exists []; auto|].
  destruct (bal_is_zero b) eqn:Ez; [apply Hrec; exists []; auto|].
  destruct (collapse a (nparts a) (leaf a) l) as [text rest'] eqn:Ec. intros [<-|Hi].
  - exists a, b. split; [left; auto|]. split; auto. cbn [br_indent br_label br_moneys]. split; auto. split; [|split; eauto].
    + destruct (collapse_text a l (nparts a) (leaf a)) as (ext & E). rewrite Ec in E. cbn in E. eauto.
    + intros k ->. apply Nat.ltb_ge in Ed. auto.
  - apply (Hrec rest'); auto. destruct (collapse_suffix a l (nparts a) (leaf a)) as (pre & E). rewrite Ec in E. eauto.
Qed.
Lemma print_flat f w site d l : (length l <= f)%nat ->
  (forall a b k, In (a, b) l -> d = Some k -> (nparts a <= k)%nat) ->
  Forall2 (fun x r => br_label r = fst x /\ br_indent r = O /\ exists s, br_moneys r = map snd (w_ord w s _ (snd x)))
          (nonzero l) (print_rows f w site true d l).
Proof.
  revert site l. induction f as [|f IH]; intros site l Hl Hd.
  - destruct l; [constructor|cbn in Hl; lia].
  - destruct l as [|[a b] l]; [constructor|]. cbn [print_rows]. cbn in Hl.
    assert (Ed : match d with Some k => Nat.ltb k (nparts a) | None => false end = false).
    { destruct d as [k|]; auto. apply Nat.ltb_ge. eapply Hd; [left; reflexivity|auto]. }
    rewrite Ed. unfold nonzero. cbn [filter snd]. 
    assert (IH' : Forall2 (fun x r => br_label r = fst x /\ br_indent r = O /\ exists s, br_moneys r = map snd (w_ord w s _ (snd x)))
          (nonzero l) (print_rows f w (S site) true d l)) by (apply IH; [lia|intros x y k Hx; eapply Hd; right; exact Hx]).
    destruct (bal_is_zero b); cbn [negb]; [exact IH'|]. constructor; [|exact IH']. cbn [br_label br_indent br_moneys fst snd]. eauto.
Qed.

(** ** Conversion *)
Definition convert_step (mults : list (str * Qc)) (cur : str) (acc : balance) (e : bkey * money) : res balance :=
  c <- unwrap (fst e) ;;
  match hget str_eqb c mults with
  | Some m => Ok (bal_add acc (bal_of (M (m_amount (snd e) * m)%Qc cur)))
  | None => Ok (bal_add acc (bal_of (snd e)))
  end.
Lemma convert_balance_ok mults cur b : good_bal b ->
  exists b', convert_balance b mults cur = Ok b' /\ good_bal b' /\ forall c, bal_amt b' c = converted (fun k => hget str_eqb k mults) cur (map snd b) c.
Proof.
  intros [[H1 H2] H3]. unfold convert_balance. change (foldM _ bal_new b) with (foldM (convert_step mults cur) bal_new b).
  assert (G : forall b b0, Forall (fun e => m_commodity (snd e) = fst e) b -> nz_bal b -> good_bal b0 ->
    exists b', foldM (convert_step mults cur) b0 b = Ok b' /\ good_bal b' /\ forall c, bal_amt b' c = bal_amt b0 c + converted (fun k => hget str_eqb k mults) cur (map snd b) c).
  { clear. induction b as [|[k m] b IH]; intros b0 Hk Hn G; cbn [foldM].
    - exists b0. split; auto. split; auto. intros c. change (converted _ cur (map snd []) c) with 0. ring.
    - inversion Hk as [|? ? K1 K2]; subst. inversion Hn as [|? ? N1 N2]; subst. cbn [snd fst] in *.
      destruct m as [|a k0]; [discriminate|]. cbn in K1. subst k.
      assert (E : exists m, convert_step mults cur b0 (Some k0, M a k0) = Ok (bal_add b0 (bal_of m)) /\
        forall c, money_amt m c = match hget str_eqb k0 mults with Some r => if str_eqb cur c then a * r else 0 | None => if str_eqb k0 c then a else 0 end).
      { unfold convert_step. cbn [fst snd unwrap bind m_amount]. destruct (hget str_eqb k0 mults); eexists; split; try reflexivity; intros c; reflexivity. }
      destruct E as (m & E & Em). rewrite E. cbn [bind].
      destruct (IH (bal_add b0 (bal_of m))) as (b' & I1 & I2 & I3); auto; [apply good_add; [apply G|apply wf_of]|].
      exists b'. split; auto. split; auto. intros c. rewrite I3, bal_amt_add by (try apply G; apply wf_of). rewrite bal_amt_of, Em.
      unfold converted. cbn [map snd]. rewrite qsum_cons. cbv beta iota. apply Qcplus_assoc || (symmetry; apply Qcplus_assoc). }
  assert (H2' : Forall (fun e : bkey * money => m_commodity (snd e) = fst e) b) by (eapply Forall_impl; [|exact H2]; intros e He; symmetry; apply He || apply He).
  destruct (G b bal_new H2' H3 good_new) as (b' & E & Gb & Ea). exists b'. split; auto. split; auto. intros c. rewrite Ea. change (bal_amt bal_new c) with 0. apply Qcplus_0_l.
Qed.
(** Σ amount * f(commodity) only depends on the amounts held of each commodity. *)
Definition weigh (f : str -> Qc) (ms : list money) : Qc := qsum (map (fun m => match m with MZero => 0 | M a k => a * f k end) ms).
Lemma weigh_sum f ms (K : list str) : NoDup K -> (forall m a k, In m ms -> m = M a k -> In k K) ->
  weigh f ms = qsum (map (fun k => moneys_amt ms k * f k) K).
Proof.
  intros HK. induction ms as [|m ms IH]; intros H.
  - unfold weigh. cbn [map]. change (qsum []) with 0. unfold moneys_amt. cbn [map]. change (qsum []) with 0. clear. induction K; cbn [map]; [reflexivity|]. rewrite qsum_cons, <- IHK. ring.
  - unfold weigh in *. cbn [map]. rewrite qsum_cons, IH by (intros; eapply H; [right; eassumption|eauto]).
    assert (E : forall k, moneys_amt (m :: ms) k * f k = money_amt m k * f k + moneys_amt ms k * f k) by (intros k; unfold moneys_amt; cbn [map]; rewrite qsum_cons; ring).
    rewrite (map_ext _ _ E).
    assert (S : forall g h (K : list str), qsum (map (fun k => g k + h k) K) = qsum (map g K) + qsum (map h K)).
    { clear. intros g h K. induction K; cbn [map]; rewrite ?qsum_cons; [change (qsum []) with 0; ring|]. rewrite IHK. ring. }
    rewrite S. f_equal. destruct m as [|a k0].
    + clear. induction K; cbn [map]; [reflexivity|]. rewrite qsum_cons, <- IHK. change (money_amt MZero a) with 0. ring.
    + assert (Hk : In k0 K) by (eapply H; [left; reflexivity|reflexivity]). clear - HK Hk.
      induction K as [|k K IH]; [destruct Hk|]. inversion HK as [|? ? K1 K2]; subst. cbn [map]. rewrite qsum_cons.
      assert (Z : ~ In k0 K -> qsum (map (fun k => money_amt (M a k0) k * f k) K) = 0).
      { clear. induction K as [|k K IH]; intros H; [reflexivity|]. cbn [map]. rewrite qsum_cons, IH by (intros X; apply H; right; auto).
        cbn [money_amt]. destruct (str_eqb_spec k0 k) as [->|]; [exfalso; apply H; left; auto|]. ring. }
      destruct Hk as [<-|Hk].
      * rewrite (Z K1). cbn [money_amt]. rewrite str_eqb_refl. ring.
      * rewrite <- IH by auto. cbn [money_amt]. destruct (str_eqb_spec k0 k) as [->|]; [tauto|]. ring.
Qed.
Lemma weigh_same f ms ms' : (forall c, moneys_amt ms c = moneys_amt ms' c) -> weigh f ms = weigh f ms'.
Proof.
  intros E. set (K := nodup (list_eq_dec N.eq_dec) (flat_map (fun m => match m with MZero => [] | M _ k => [k] end) (ms ++ ms'))).
  assert (HK : forall m a k, In m (ms ++ ms') -> m = M a k -> In k K).
  { intros m a k Hi ->. apply nodup_In. apply in_flat_map. exists (M a k). split; auto. left. auto. }
  rewrite (weigh_sum f ms K), (weigh_sum f ms' K); try apply NoDup_nodup.
  - f_equal. apply map_ext. intros k. rewrite E. auto.
  - intros m a k Hi. apply HK. apply in_or_app. auto.
  - intros m a k Hi. apply HK. apply in_or_app. auto.
Qed.
Lemma converted_weigh rate cur ms c : converted rate cur ms c =
  weigh (fun k => match rate k with Some r => if str_eqb cur c then r else 0 | None => if str_eqb k c then 1 else 0 end) ms.
Proof.
  unfold converted, weigh. f_equal. apply map_ext. intros [|a k]; auto. destruct (rate k); [destruct (str_eqb cur c)|destruct (str_eqb k c)]; ring.
Qed.
Lemma converted_app rate cur ms ms' c : converted rate cur (ms ++ ms') c = converted rate cur ms c + converted rate cur ms' c.
Proof. unfold converted. rewrite map_app. apply qsum_app. Qed.
Lemma converted_concat rate cur l c : converted rate cur (concat l) c = qsum (map (fun ms => converted rate cur ms c) l).
Proof. induction l; cbn [concat map]; [reflexivity|]. rewrite converted_app, qsum_cons, IHl. auto. Qed.
Lemma converted_same rate cur ms ms' c : (forall c, moneys_amt ms c = moneys_amt ms' c) -> converted rate cur ms c = converted rate cur ms' c.
Proof. intros H. rewrite !converted_weigh. apply weigh_same. auto. Qed.

(** ** The register *)
Lemma running_ok b m : wf_bal b -> wf_bal (running_add b m) /\ forall c, bal_amt (running_add b m) c = bal_amt b c + money_amt m c.
Proof.
  intros W. unfold running_add. assert (G : good_bal (bal_add b (bal_of m))) by (apply good_add; [auto|apply wf_of]).
  assert (E : forall c, bal_amt (bal_add b (bal_of m)) c = bal_amt b c + money_amt m c) by (intros c; rewrite bal_amt_add, bal_amt_of by (auto; apply wf_of); auto).
  destruct (bal_is_zero (bal_add b (bal_of m))) eqn:Z.
  - split; [apply wf_of|]. intros c. rewrite bal_amt_of. rewrite <- E. pose proof (proj1 (good_zero_amt _ G) Z c) as X. rewrite X. auto.
  - split; [apply G|auto].
Qed.
