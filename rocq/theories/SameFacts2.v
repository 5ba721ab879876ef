(** Facts for C79, continued: the reports. *)
From Coq Require Import Lia Sorting.Sorted.
From Verif Require Import Base BaseFacts Numerals Money Alist Comment Txn Expr Filter Price Tokens Ledger Reports Spec MoneyFacts SpecList SpecTxn TxnFacts SpecLedger AlistFacts JournalFacts
  LedgerFacts LedgerFacts2 EvalFacts SpecQuery SpecReports ReportFacts ReportFacts2 SpecBook SpecSame SameFacts SameRead.
Open Scope Qc_scope.

(** ** Failures *)
Lemma agree_both {A} (R : A -> A -> Prop) r r' : agree R r r' -> both R r r'.
Proof. destruct r, r'; cbn; auto. Qed.
Lemma both_bind {A B} (R : A -> A -> Prop) (Q : B -> B -> Prop) r r' f f' :
  both R r r' -> (forall a b, R a b -> both Q (f a) (f' b)) -> both Q (bind r f) (bind r' f').
Proof. destruct r, r'; cbn; auto; contradiction. Qed.

(** ** Queries *)
Definition cssame (w : world) (cs cs' : alist currency) : Prop :=
  buildable w cu_name cu_aliases cs /\ buildable w cu_name cu_aliases cs' /\ forall k, l_get w k cs' = l_get w k cs.
Lemma insert_same {T} w (name : T -> str) aliases l l' e : buildable w name aliases l -> buildable w name aliases l' -> (forall k, l_get w k l' = l_get w k l) ->
  (forall x, l_get w (name e) l <> Ok x) -> aliases e = [] ->
  forall k, l_get w k (l_insert w name aliases e l') = l_get w k (l_insert w name aliases e l).
Proof.
  intros B B' H N A k. assert (N' : forall x, l_get w (name e) l' <> Ok x) by (intros; rewrite H; auto).
  pose proof (buildable_insert w name aliases e l B) as C. pose proof (buildable_insert w name aliases e l' B') as C'.
  destruct (insert_new_grows w name aliases e l B N A) as [[G _] (x & R & _)]. destruct (insert_new_grows w name aliases e l' B' N' A) as [[G' _] (x' & R' & _)].
  assert (Ex : x = e). { destruct (insert_new_get w name aliases e l (name e) x B N A R) as [Y|[_ Y]]; auto. edestruct N; eauto. }
  assert (Ex' : x' = e). { destruct (insert_new_get w name aliases e l' (name e) x' B' N' A R') as [Y|[_ Y]]; auto. edestruct N'; eauto. }
  subst x x'.
  destruct (lwf_get_cases w name k _ (buildable_lwf _ _ _ _ C)) as [(y & _ & E)|E].
  - rewrite E. destruct (insert_new_get w name aliases e l k y B N A E) as [Y|[Y ->]].
    + apply G'. rewrite H. auto.
    + eapply get_lower; [exact Y|]. auto.
  - rewrite E. destruct (lwf_get_cases w name k _ (buildable_lwf _ _ _ _ C')) as [(y & _ & E')|E']; auto. exfalso.
    destruct (insert_new_get w name aliases e l' k y B' N' A E') as [Y|[Y ->]].
    + rewrite H in Y. apply G in Y. congruence.
    + pose proof (get_lower w _ _ _ _ Y R). congruence.
Qed.
Lemma any_same w ev ev' : (forall p cs cs', cssame w cs cs' -> agree (fun x y : value * alist currency => fst x = fst y /\ cssame w (snd x) (snd y)) (ev p cs) (ev' p cs')) ->
  forall ps cs cs', cssame w cs cs' -> agree (fun x y : bool * alist currency => fst x = fst y /\ cssame w (snd x) (snd y)) (any_loop ev ps cs) (any_loop ev' ps cs').
Proof.
  intros H. induction ps as [|p ps IH]; intros cs cs' S; cbn [any_loop]; [cbn; auto|]. eapply agree_bind; [apply H; auto|].
  intros [v c] [v' c'] [E S']. cbn in E, S'. subst v'. destruct v as [| |b| | | | | |]; try reflexivity. destruct b; [cbn; auto|apply IH; auto].
Qed.
Definition same_head (t t' : txn posting) : Prop := set_postings t' (@nil posting) = set_postings t [].
Lemma eval_same w o t t' : same_head t t' -> forall n, no_any n \/ t_postings t = t_postings t' -> forall p cs cs', cssame w cs cs' ->
  agree (fun x y => fst x = fst y /\ cssame w (snd x) (snd y)) (eval w n p t cs) (eval (with_order w o) n p t' cs').
Proof.
  intros Hd. assert (E1 : t_date t' = t_date t /\ t_comments t' = t_comments t) by (injection Hd; auto). destruct E1 as [E1 E2].
  induction n as [| | | | |q|cur q|op n IH|op a IHa b IHb|rx|s]; intros Ha p cs cs' S; cbn [eval]; try (cbn; auto; fail).
  - destruct (p_amount p); cbn; auto.
  - destruct (p_payee p); cbn; auto.
  - rewrite E1. destruct (t_date t); cbn; auto.
  - destruct S as (B & B' & G). change (l_get (with_order w o) cur cs') with (l_get w cur cs'). rewrite G.
    destruct (lwf_get_cases w cu_name cur cs (buildable_lwf _ _ _ _ B)) as [(c & _ & E)|E]; rewrite E; cbn; (split; [reflexivity|]).
    + repeat (split; auto).
    + split; [apply buildable_insert; auto|]. split; [apply (buildable_insert w); auto|].
      apply (insert_same w cu_name cu_aliases cs cs' (currency_from cur)); auto. cbn. rewrite E. discriminate.
  - assert (Ha' : no_any n \/ t_postings t = t_postings t') by (destruct Ha as [[_ Ha]|]; auto).
    eapply agree_bind; [apply IH; auto|]. intros [v c] [v' c'] [Ev Sc]. cbn [fst snd] in *. subst v'.
    assert (U : agree (fun x y : value * alist currency => fst x = fst y /\ cssame w (snd x) (snd y)) (r <- eval_unary w p op v ;; Ok (r, c)) (r <- eval_unary (with_order w o) p op v ;; Ok (r, c'))).
    { change (eval_unary (with_order w o) p op v) with (eval_unary w p op v). destruct (eval_unary w p op v); cbn; auto. }
    destruct op; try exact U. destruct Ha as [[Ha _]|Ha]; [congruence|]. rewrite <- Ha.
    eapply agree_bind; [apply (any_same w (fun p' cs0 => eval w n p' t cs0) (fun p' cs0 => eval (with_order w o) n p' t' cs0)); [intros; apply IH; auto|exact Sc]|].
    intros [b1 c1] [b2 c2] [Eb Sb]. cbn in *. subst. auto.
  - assert (Ha' : (no_any a \/ t_postings t = t_postings t') /\ (no_any b \/ t_postings t = t_postings t')) by (destruct Ha as [[? ?]|]; auto). destruct Ha' as [Ha1 Ha2].
    eapply agree_bind; [apply IHa; auto|]. intros [v c] [v' c'] [Ev Sc]. cbn [fst snd] in *. subst v'.
    eapply agree_bind; [apply IHb; auto|]. intros [u d] [u' d'] [Eu Sd]. cbn [fst snd] in *. subst u'.
    assert (E : eval_binary (with_order w o) t' op v u = eval_binary w t op v u).
    { unfold eval_binary, eval_match. rewrite E2. reflexivity. }
    rewrite E. destruct (eval_binary w t op v u); cbn; auto.
Qed.
Lemma filter_same w o op n t t' p cs cs' : same_head t t' -> (forall m, n = Some m -> no_any m) \/ t_postings t = t_postings t' -> cssame w cs cs' ->
  agree (fun x y => fst x = fst y /\ cssame w (snd x) (snd y)) (filter_posting w op n t p cs) (filter_posting (with_order w o) op n t' p cs').
Proof.
  intros Hd Ha S. assert (E1 : t_date t' = t_date t) by (injection Hd; auto). unfold filter_posting. rewrite E1.
  destruct (_ && _); [cbn; auto|]. destruct (match o_end op with Some d => _ | None => _ end) as [ae|e|x]; cbn [bind]; try reflexivity. destruct ae; [cbn; auto|].
  destruct (match o_begin op with Some d => _ | None => _ end) as [bb|e|x]; cbn [bind]; try reflexivity. destruct bb; [cbn; auto|].
  destruct n as [n|]; [|cbn; auto]. unfold filter_expression. eapply agree_bind; [apply eval_same; eauto|].
  - destruct Ha as [Ha|Ha]; auto.
  - intros [v c] [v' c'] [Ev Sc]. cbn in *. subst v'. destruct v; cbn; auto.
Qed.
(** All transactions the same: the same selection. *)
Lemma select_postings_same w o op n t ps : forall cs cs', cssame w cs cs' ->
  agree (fun x y => fst x = fst y /\ cssame w (snd x) (snd y)) (select_postings w op n t ps cs) (select_postings (with_order w o) op n t ps cs').
Proof.
  induction ps as [|p ps IH]; intros cs cs' S; cbn [select_postings]; [cbn; auto|]. eapply agree_bind; [apply filter_same; auto; reflexivity|].
  intros [b c] [b' c'] [E Sc]. cbn [fst snd] in *. subst b'. eapply agree_bind; [apply IH; auto|]. intros [l d] [l' d'] [E Sd]. cbn in *. subst l'. auto.
Qed.
Lemma select_txns_same w o op n ts : forall cs cs', cssame w cs cs' ->
  agree (fun x y => fst x = fst y /\ cssame w (snd x) (snd y)) (select_txns w op n ts cs) (select_txns (with_order w o) op n ts cs').
Proof.
  induction ts as [|t ts IH]; intros cs cs' S; cbn [select_txns]; [cbn; auto|]. eapply agree_bind; [apply select_postings_same; auto|].
  intros [b c] [b' c'] [E Sc]. cbn [fst snd] in *. subst b'. eapply agree_bind; [apply IH; auto|]. intros [l d] [l' d'] [E Sd]. cbn in *. subst l'. auto.
Qed.
(** In general: the same postings, in another order. *)
Definition verdict (w : world) (op : opts) (n : option node) (cs : alist currency) (t : txn posting) (p : posting) : option bool :=
  match filter_posting w op n t p cs with Ok (b, _) => Some b | _ => None end.
Definition kept (w : world) (op : opts) (n : option node) (cs : alist currency) (t : txn posting) (p : posting) : bool :=
  match verdict w op n cs t p with Some b => b | None => false end.
Lemma select_verdict w op n cs0 t : buildable w cu_name cu_aliases cs0 -> forall ps cs, between w n cs0 cs ->
  ((forall p, In p ps -> verdict w op n cs0 t p <> None) -> exists cs', select_postings w op n t ps cs = Ok (filter (kept w op n cs0 t) ps, cs') /\ between w n cs0 cs') /\
  ((exists p, In p ps /\ verdict w op n cs0 t p = None) -> forall x, select_postings w op n t ps cs <> Ok x).
Proof.
  intros B. induction ps as [|p ps IH]; intros cs Hc; cbn [select_postings].
  - split; [intros _; exists cs; auto|intros (p & [] & _)].
  - pose proof (filter_between w op n t p cs0 cs B Hc) as F. unfold kept, verdict in *. cbn [filter].
    destruct (filter_posting w op n t p cs0) as [[b c1]|e|x] eqn:E.
    + destruct F as (c2 & -> & Hc2). cbn [bind]. destruct (IH c2 Hc2) as [I1 I2]. split.
      * intros H. destruct I1 as (c3 & -> & H3); [intros; apply H; right; auto|]. cbn [bind]. exists c3. destruct b; auto.
      * intros (q & [<-|Hq] & K) x; [rewrite E in K; discriminate|].
        pose proof (I2 (ex_intro _ q (conj Hq K))) as J. destruct (select_postings w op n t ps c2); cbn; try discriminate. edestruct J; eauto.
    + rewrite F. cbn. split; [intros H; specialize (H p (or_introl eq_refl)); rewrite E in H; congruence|discriminate].
    + rewrite F. cbn. split; [intros H; specialize (H p (or_introl eq_refl)); rewrite E in H; congruence|discriminate].
Qed.
Definition selsame (s s' : txn posting * list posting) : Prop := Permutation (snd s) (snd s').
Lemma same_txn_perm t t' : same_txn t t' -> Permutation (t_postings t) (t_postings t').
Proof. intros (_ & k & f & f' & r & acc & -> & -> & P & _). apply Permutation_app_head. apply Permutation_app_tail. auto. Qed.
Lemma select_same w o op n : (forall m, n = Some m -> no_any m) -> forall ts ts' cs0 cs0' cs cs', cssame w cs0 cs0' -> between w n cs0 cs -> between w n cs0' cs' -> Forall2 same_txn ts ts' ->
  both (fun x y => Forall2 selsame (fst x) (fst y)) (select_txns w op n ts cs) (select_txns (with_order w o) op n ts' cs').
Proof.
  intros Ha ts ts' cs0 cs0' cs cs' S Hc Hc' F. revert cs cs' Hc Hc'. induction F as [|t t' ts ts' Ht F IH]; intros cs cs' Hc Hc'; cbn [select_txns]; [cbn; auto|].
  assert (V : forall p, verdict (with_order w o) op n cs0' t' p = verdict w op n cs0 t p).
  { intros p. unfold verdict. pose proof (filter_same w o op n t t' p cs0 cs0' (proj1 Ht) (or_introl Ha) S) as X.
    destruct (filter_posting w op n t p cs0) as [[b c]|e|x], (filter_posting (with_order w o) op n t' p cs0') as [[b' c']|e'|x']; cbn in X; try contradiction; auto. destruct X as [-> _]. auto. }
  pose proof (same_txn_perm _ _ Ht) as P. destruct S as (B & B' & G).
  destruct (select_verdict w op n cs0 t B (t_postings t) cs Hc) as [Y N].
  destruct (select_verdict (with_order w o) op n cs0' t' (proj1 (buildable_order _ _ _ _ _) B') (t_postings t') cs' Hc') as [Y' N'].
  destruct (Exists_dec (fun p => verdict w op n cs0 t p = None) (t_postings t)) as [X|X]; [intros p; destruct (verdict w op n cs0 t p); [right; discriminate|left; auto]| |].
  - apply Exists_exists in X. specialize (N X). destruct X as (p & Hp & X).
    assert (X' : exists p, In p (t_postings t') /\ verdict (with_order w o) op n cs0' t' p = None) by (exists p; rewrite V; split; auto; eapply Permutation_in; eauto).
    specialize (N' X'). destruct (select_postings w op n t _ cs) as [y| |]; [edestruct N; eauto| |];
      (destruct (select_postings (with_order w o) op n t' _ cs') as [y'| |]; [edestruct N'; eauto| |]); cbn; auto.
  - destruct Y as (c1 & -> & H1). { intros p Hp E. apply X. apply Exists_exists. eauto. }
    destruct Y' as (c1' & -> & H1'). { intros p Hp E. rewrite V in E. apply X. apply Exists_exists. exists p. split; auto. eapply Permutation_in; [symmetry; exact P|auto]. }
    cbn [bind]. eapply both_bind; [apply IH; auto|]. intros [l c2] [l' c2'] L. cbn in *. constructor; auto. unfold selsame. cbn.
    replace (filter (kept (with_order w o) op n cs0' t') (t_postings t')) with (filter (kept w op n cs0 t) (t_postings t')).
    + apply perm_filter. auto.
    + apply filter_ext. intros p. unfold kept. rewrite V. auto.
Qed.
Lemma select_either w o op n ts ts' cs cs' : (forall m, n = Some m -> no_any m) \/ ts = ts' -> cssame w cs cs' -> Forall2 same_txn ts ts' ->
  both (fun x y => Forall2 selsame (fst x) (fst y)) (select_txns w op n ts cs) (select_txns (with_order w o) op n ts' cs').
Proof.
  intros [H|<-] S F.
  - apply (select_same w o op n) with (cs0 := cs) (cs0' := cs'); auto; left; auto.
  - apply agree_both. eapply agree_mono; [|apply select_txns_same; exact S]. intros x y [E _]. rewrite E. clear. induction (fst y); constructor; auto. apply Permutation_refl.
Qed.

(** ** Balances of the accounts *)
Definition mapeq (m m' : balances) : Prop :=
  good_map m /\ good_map m' /\ (forall a, In a (hkeys m) <-> In a (hkeys m')) /\ forall P c, entries_sum P m c = entries_sum P m' c.
Lemma subtotal_perm ps ps' P c : Permutation ps ps' -> subtotal ps P c = subtotal ps' P c.
Proof. intros H. unfold subtotal. apply qsum_perm. apply Permutation_map. apply perm_filter. auto. Qed.
Lemma add_total ps : (forall p, In p ps -> p_amount p <> None) -> forall m, exists m', foldM add_posting m ps = Ok m'.
Proof.
  induction ps as [|p ps IH]; intros H m; cbn [foldM]; [eauto|]. unfold add_posting at 1. destruct (p_amount p) eqn:E; [|edestruct (H p); [left; auto|auto]]. cbn [unwrap bind].
  apply IH. intros. apply H. right. auto.
Qed.
Lemma account_same ps ps' : Permutation ps ps' -> both mapeq (foldM add_posting [] ps) (foldM add_posting [] ps').
Proof.
  intros P.
  assert (T : forall qs qs' m, Permutation qs qs' -> foldM add_posting [] qs = Ok m -> exists m', foldM add_posting [] qs' = Ok m').
  { intros qs qs' m Q E. apply account_balances_ok in E; [|apply empty_good]. destruct E as (_ & _ & _ & A). apply add_total. intros p Hp. apply A. eapply Permutation_in; [symmetry; exact Q|auto]. }
  destruct (foldM add_posting [] ps) as [m|e|x] eqn:E.
  - destruct (T _ _ _ P E) as (m' & E'). rewrite E'. cbn. apply account_balances_ok in E; [|apply empty_good]. apply account_balances_ok in E'; [|apply empty_good].
    destruct E as (G & S & K & _), E' as (G' & S' & K' & _). split; auto. split; auto. split.
    + intros a. rewrite K, K'. pose proof (Permutation_sym P) as P'. split; (intros [X|(p & Hp & X)]; [auto|right; exists p; split; auto; eapply Permutation_in; eauto]).
    + intros Q c. rewrite S, S'. f_equal. apply subtotal_perm. auto.
  - destruct (foldM add_posting [] ps') as [m'| |] eqn:E'; cbn; auto. symmetry in P. destruct (T _ _ _ P E'). congruence.
  - destruct (foldM add_posting [] ps') as [m'| |] eqn:E'; cbn; auto. symmetry in P. destruct (T _ _ _ P E'). congruence.
Qed.
Lemma same_amounts b b' : good_bal b -> good_bal b' -> (forall c, bal_amt b c = bal_amt b' c) -> bsame b b'.
Proof. intros [W Z] [W' Z'] E. split; auto. apply nz_perm; auto. Qed.
Lemma mapeq_held m m' a c : mapeq m m' -> held m a c = held m' a c.
Proof. intros (G & G' & _ & S). rewrite <- !entries_sum_one by (try apply G; apply G'). apply S. Qed.
Lemma mapeq_ord m m' n n' : mapeq m m' -> Permutation n m -> Permutation n' m' -> mapeq n n'.
Proof.
  intros (G & G' & K & S) P P'. split; [eapply good_map_perm; [symmetry; exact P|auto]|]. split; [eapply good_map_perm; [symmetry; exact P'|auto]|]. split.
  - intros a. assert (X : In a (hkeys n) <-> In a (hkeys m)) by (split; apply Permutation_in; apply Permutation_map; [|symmetry]; auto).
    assert (X' : In a (hkeys n') <-> In a (hkeys m')) by (split; apply Permutation_in; apply Permutation_map; [|symmetry]; auto). rewrite X, X'. auto.
  - intros Q c. rewrite (entries_sum_perm _ _ _ _ P), (entries_sum_perm _ _ _ _ P'). auto.
Qed.
(** Sorted lists with the same names and amounts. *)
Definition esame (x y : str * balance) : Prop := fst y = fst x /\ bsame (snd x) (snd y).
Lemma sorted_keys_eq (l l' : list str) : StronglySorted lt_name l -> StronglySorted lt_name l' -> (forall a, In a l <-> In a l') -> l = l'.
Proof.
  assert (ND : forall l, StronglySorted lt_name l -> NoDup l).
  { induction 1 as [|a l0 S IH F]; constructor; auto. intros X. rewrite Forall_forall in F. apply F in X. apply str_ltb_leb in X. destruct X. congruence. }
  intros S S' H. apply (sorted_perm_eq lt_name); auto.
  - intros a b _ _ X Y. apply str_ltb_leb in X. apply str_ltb_leb in Y. apply str_leb_antisym; tauto.
  - apply NoDup_Permutation; auto.
Qed.
Lemma zip_entries (l l' : balances) : hkeys l = hkeys l' -> (forall a b b', In (a, b) l -> In (a, b') l' -> bsame b b') -> Forall2 esame l l'.
Proof.
  revert l'. induction l as [|[a b] l IH]; intros [|[a' b'] l'] E H; cbn in E; try discriminate; [constructor|]. injection E as <- E.
  constructor; [split; auto; cbn; apply (H a); left; auto|]. apply IH; auto. intros x y y' X X'. apply (H x); right; auto.
Qed.
Lemma sorted_esame m m' : good_map m -> good_map m' -> (forall a, In a (hkeys m) <-> In a (hkeys m')) ->
  (forall a b b' c, In (a, b) m -> In (a, b') m' -> bal_amt b c = bal_amt b' c) -> Forall2 esame (stable_sort name_le m) (stable_sort name_le m').
Proof.
  intros G G' K H. destruct (sorted_entries m (proj1 G)) as [P S]. destruct (sorted_entries m' (proj1 G')) as [P' S']. apply zip_entries.
  - apply sorted_keys_eq; auto. intros a. assert (X : In a (hkeys (stable_sort name_le m)) <-> In a (hkeys m)) by (split; apply Permutation_in; apply Permutation_map; [|symmetry]; auto).
    assert (X' : In a (hkeys (stable_sort name_le m')) <-> In a (hkeys m')) by (split; apply Permutation_in; apply Permutation_map; [|symmetry]; auto). rewrite X, X'. auto.
  - intros a b b' I I'. eapply Permutation_in in I; [|exact P]. eapply Permutation_in in I'; [|exact P']. apply same_amounts; [apply (proj2 G a b I)|apply (proj2 G' a b' I')|]. intros c. eapply H; eauto.
Qed.

(** ** The tree *)
Definition pre_of (m : balances) (a : str) : bool := existsb (fun n => existsb (str_eqb a) (prefixes n)) (hkeys m).
Definition treeamt (m : balances) (a c : str) : Qc := if pre_of m a then entries_sum (inside a) m c else held m a c.
Lemma pre_of_iff m a : pre_of m a = true <-> exists n, In n (hkeys m) /\ In a (prefixes n).
Proof.
  unfold pre_of. rewrite existsb_exists. split; intros (n & Hn & H); exists n; split; auto.
  - apply existsb_exists in H. destruct H as (x & Hx & E). destruct (str_eqb_spec a x); [subst; auto|discriminate].
  - apply existsb_exists. exists a. split; auto. apply str_eqb_refl.
Qed.
Lemma pre_of_same m m' a : (forall a, In a (hkeys m) <-> In a (hkeys m')) -> pre_of m a = pre_of m' a.
Proof. intros H. apply Bool.eq_iff_eq_true. rewrite !pre_of_iff. split; intros (n & Hn & X); exists n; split; auto; apply H; auto. Qed.
Lemma tree_cases w (Hw : world_ok w) site m : good_map m ->
  good_map (tree_balances w site m) /\
  (forall a b, In (a, b) (tree_balances w site m) -> bal_is_zero b = false /\ forall c, bal_amt b c = treeamt m a c) /\
  (forall a, (exists c, treeamt m a c <> 0) -> In a (hkeys (tree_balances w site m))).
Proof.
  intros G. split; [apply (tree_balances_ok w Hw site m G)|]. unfold tree_balances.
  set (b0 := w_ord w site _ m). assert (P0 : Permutation b0 m) by apply Hw.
  set (accs := fold_left _ b0 []).
  set (srt := stable_sort _ (w_ord w (S site) _ accs)).
  assert (Ps : Permutation srt accs) by (unfold srt; rewrite stable_sort_perm; apply Hw).
  set (nb := fold_left (fun m x => hset str_eqb (fst x) (snd x) m) b0 []).
  assert (G0 : good_map b0) by (eapply good_map_perm; [symmetry; exact P0|exact G]).
  assert (Pn : Permutation nb m) by (unfold nb; rewrite fold_hset_perm by apply G0; auto).
  assert (Gn : good_map nb) by (eapply good_map_perm; [symmetry; exact Pn|exact G]).
  assert (Na : NoDup accs) by (unfold accs; apply fold_sadd_NoDup; constructor).
  assert (Ia : forall x, In x srt <-> pre_of m x = true).
  { intros x. rewrite pre_of_iff. transitivity (In x accs); [split; apply Permutation_in; auto; symmetry; auto|]. unfold accs. rewrite fold_sadd_In. split.
    - intros [[]|([n b] & H1 & H2)]. exists n. split; [|exact H2]. apply (in_map fst m (n, b)). eapply Permutation_in; [exact P0|exact H1].
    - intros (n & H1 & H2). right. apply in_map_iff in H1. destruct H1 as ([n' b] & <- & H1). exists (n', b). split; auto.
      eapply Permutation_in; [symmetry; exact P0|exact H1]. }
  destruct (roll_up_ok w Hw nb Gn srt (3 + site) nb []) as (R1 & R2 & R3); auto.
  { cbn. eapply Permutation_NoDup; [symmetry; exact Ps|exact Na]. }
  { assert (S1 : StronglySorted (fun a b => Nat.leb (count_colons a) (count_colons b) = true) srt).
    { unfold srt. apply stable_sort_sorted.
      - intros a b. rewrite !Nat.leb_le. lia.
      - intros a b c. rewrite !Nat.leb_le. lia. }
    clear - S1. induction S1; constructor; auto. eapply Forall_impl; [|exact H]. intros b. cbn beta. rewrite Nat.leb_le. auto. }
  { intros d a []. }
  { intros a []. }
  cbn [app] in *. set (r := roll_up w (3 + site) srt nb) in *.
  set (r' := w_ord w (S (S site)) _ r). assert (Pr : Permutation r' r) by apply Hw.
  assert (Hmem : forall a b, In (a, b) r' <-> hget str_eqb a r = Some b).
  { intros a b. split; intros X.
    - apply (In_hget _ str_eqb_spec); [apply R1|]. eapply Permutation_in; [exact Pr|exact X].
    - eapply Permutation_in; [symmetry; exact Pr|]. apply (hget_In _ str_eqb_spec). auto. }
  assert (Hheld : forall a c, held nb a c = held m a c) by (intros; rewrite <- !entries_sum_one by (try apply Gn; apply G); apply entries_sum_perm; auto).
  assert (Hamt : forall a c, held r a c = treeamt m a c).
  { intros a c. unfold treeamt. destruct (pre_of m a) eqn:E.
    - destruct (R3 a (proj2 (Ia a) E)) as (b & Eb & X). unfold held. rewrite Eb, X. apply entries_sum_perm. auto.
    - unfold held at 1. rewrite R2; [apply Hheld|]. rewrite Ia. congruence. }
  split.
  - intros a b Hi. apply filter_In in Hi. destruct Hi as [Hi Hz]. cbn [snd] in Hz. apply negb_true_iff in Hz. split; auto.
    intros c. apply Hmem in Hi. rewrite <- Hamt. unfold held. rewrite Hi. auto.
  - intros a (c & Hc). rewrite <- Hamt in Hc. unfold held in Hc. destruct (hget str_eqb a r) as [b|] eqn:E; [|congruence].
    apply (in_map fst _ (a, b)). apply filter_In. split; [apply Hmem; auto|].
    cbn [snd]. apply negb_true_iff. destruct (bal_is_zero b) eqn:Z; auto. exfalso. apply Hc.
    apply good_zero_amt; auto. eapply R1. apply (hget_In _ str_eqb_spec). exact E.
Qed.
Lemma nonzero_amt b : good_bal b -> bal_is_zero b = false -> exists c, bal_amt b c <> 0.
Proof.
  intros G Z. destruct b as [|e b]; [discriminate|]. destruct G as [W N]. destruct (nz_entry_shape _ e W N (or_introl eq_refl)) as (c & a & ->).
  destruct (proj1 (nz_entry_iff _ c a W N) (or_introl eq_refl)) as [X Y]. exists c. rewrite X. auto.
Qed.
Lemma tree_same w w' site site' m m' : world_ok w -> world_ok w' -> mapeq m m' ->
  Forall2 esame (stable_sort name_le (tree_balances w site m)) (stable_sort name_le (tree_balances w' site' m')).
Proof.
  intros W W' M. pose proof M as (G & G' & K & S). destruct (tree_cases w W site m G) as (T1 & T2 & T3). destruct (tree_cases w' W' site' m' G') as (U1 & U2 & U3).
  assert (E : forall a c, treeamt m a c = treeamt m' a c).
  { intros a c. unfold treeamt. rewrite (pre_of_same m m' a K). destruct (pre_of m' a); [apply S|apply mapeq_held; auto]. }
  apply sorted_esame; auto.
  - intros a. split; intros H; apply in_map_iff in H; destruct H as ([k b] & <- & H); cbn [fst].
    + apply U3. destruct (T2 k b H) as [Z A]. destruct (nonzero_amt b (proj2 T1 k b H) Z) as (c & Hc). exists c. rewrite <- E, <- A. auto.
    + apply T3. destruct (U2 k b H) as [Z A]. destruct (nonzero_amt b (proj2 U1 k b H) Z) as (c & Hc). exists c. rewrite E, <- A. auto.
  - intros a b b' c H H'. rewrite (proj2 (T2 a b H)), (proj2 (U2 a b' H')). auto.
Qed.

(** ** The flat list *)
Lemma nonzero_mapeq m m' : mapeq m m' -> mapeq (nonzero m) (nonzero m').
Proof.
  intros M. pose proof M as (G & G' & K & S). split; [apply good_nonzero; auto|]. split; [apply good_nonzero; auto|].
  assert (X : forall m m' a, mapeq m m' -> In a (hkeys (nonzero m)) -> In a (hkeys (nonzero m'))).
  { clear. intros m m' a M H. pose proof M as (G & G' & K & S). apply in_map_iff in H. destruct H as ([k b] & <- & H). apply filter_In in H. destruct H as [H Z]. cbn [fst snd] in *. apply negb_true_iff in Z.
    assert (H' : In k (hkeys m')) by (apply K; apply (in_map fst _ (k, b)); auto). apply in_map_iff in H'. destruct H' as ([k' b'] & E & H'). cbn in E. subst k'.
    apply (in_map fst _ (k, b')). apply filter_In. split; auto. cbn. apply negb_true_iff. destruct (nonzero_amt b (proj2 G k b H) Z) as (c & Hc).
    destruct (bal_is_zero b') eqn:Z'; auto. exfalso. apply Hc. pose proof (mapeq_held m m' k c M) as E. unfold held in E.
    rewrite (In_hget _ str_eqb_spec k b m (proj1 G) H), (In_hget _ str_eqb_spec k b' m' (proj1 G') H') in E. rewrite E. apply good_zero_amt; auto. apply (proj2 G' k b' H'). }
  split.
  - intros a. split; [apply X; auto|apply X]. split; auto. split; auto. split; [intros b; symmetry; apply K|intros; symmetry; apply S].
  - intros P c. rewrite !entries_nonzero by (try apply G; apply G'). apply S.
Qed.
Lemma merge_no_empty l r : StronglySorted (fun a b => name_le a b = true) l -> merge_runs l [] [] = Ok r -> forall x, In x l -> fst x <> [].
Proof.
  intros S H x Hx E. destruct l as [|[a v] l]; [destruct Hx|]. assert (a = []) as ->.
  { destruct Hx as [<-|Hx]; [exact E|]. inversion S as [|? ? _ F]; subst. rewrite Forall_forall in F. specialize (F x Hx). unfold name_le in F. cbn in F. rewrite E in F.
    destruct a; auto. discriminate. }
  discriminate.
Qed.
Lemma flat_same w w' site site' d m m' : world_ok w -> world_ok w' -> mapeq m m' ->
  both (fun x y => Forall2 esame (stable_sort name_le x) (stable_sort name_le y)) (flat_balances w site d m) (flat_balances w' site' d m').
Proof.
  intros W W' M.
  assert (M0 : mapeq (nonzero (w_ord w site _ m)) (nonzero (w_ord w' site' _ m'))) by (apply nonzero_mapeq; eapply mapeq_ord; [exact M|apply W|apply W']).
  assert (Fin : forall r r', flat_balances w site d m = Ok r -> flat_balances w' site' d m' = Ok r' -> (forall a, In a (hkeys r) <-> In a (hkeys r')) -> Forall2 esame (stable_sort name_le r) (stable_sort name_le r')).
  { intros r r' E E' K. destruct M as (G & G' & _ & S). destruct (flat_balances_ok w W site d m r E G) as (R1 & R2 & _). destruct (flat_balances_ok w' W' site' d m' r' E' G') as (Q1 & Q2 & _).
    apply sorted_esame; auto. intros a b b' c H H'. rewrite (R2 a b H), (Q2 a b' H'). apply S. }
  unfold flat_balances in *. destruct d as [d|].
  - set (x := nonzero (w_ord w site _ m)) in *. set (x' := nonzero (w_ord w' site' _ m')) in *. destruct M0 as (G & G' & K & S).
    set (l := map (fun x => (truncate_name d (fst x), snd x)) x) in *. set (l' := map (fun x => (truncate_name d (fst x), snd x)) x') in *.
    assert (KL : forall a, In a (hkeys l) <-> In a (hkeys l')).
    { assert (X : forall (y : balances) a, In a (hkeys (map (fun x => (truncate_name d (fst x), snd x)) y)) <-> exists n, In n (hkeys y) /\ a = truncate_name d n).
      { intros y a. unfold hkeys. rewrite map_map. cbn. rewrite in_map_iff. split.
        - intros (z & <- & Hz). exists (fst z). split; auto. apply in_map. auto.
        - intros (n & Hn & ->). apply in_map_iff in Hn. destruct Hn as (z & <- & Hz). eauto. }
      intros a. unfold l, l'. rewrite !X. split; intros (n & Hn & E); exists n; split; auto; apply K; auto. }
    assert (SS : forall y : balances, StronglySorted (fun a b => name_le a b = true) (stable_sort name_le y)) by
      (intros; apply stable_sort_sorted; [intros; apply str_leb_total|intros a b c; apply str_leb_trans]).
    assert (PK : forall (y : balances) a, In a (hkeys (stable_sort name_le y)) <-> In a (hkeys y)).
    { intros y a. split; apply Permutation_in; apply Permutation_map; [|symmetry]; apply stable_sort_perm. }
    assert (TT : forall y y' r, (forall a, In a (hkeys y) <-> In a (hkeys y')) -> merge_runs (stable_sort name_le y) [] [] = Ok r -> exists r', merge_runs (stable_sort name_le y') [] [] = Ok r').
    { intros y y' r KY E. apply merge_runs_total; auto; [congruence|]. intros z Hz E0.
      assert (I : In (fst z) (hkeys (stable_sort name_le y))) by (apply PK, KY, PK, in_map; auto). apply in_map_iff in I. destruct I as (z0 & Ez & I).
      apply (merge_no_empty _ _ (SS y) E z0 I). congruence. }
    assert (Keys : forall (y x0 : balances) r, good_map x0 -> y = map (fun x => (truncate_name d (fst x), snd x)) x0 -> merge_runs (stable_sort name_le y) [] [] = Ok r -> forall a, In a (hkeys r) <-> In a (hkeys y)).
    { intros y x0 r G0 Ey E a. apply merge_runs_ok in E; auto.
      - destruct E as (_ & _ & _ & E). rewrite E, PK. cbn. tauto.
      - intros n b Hi. cbn [app] in Hi. eapply Permutation_in in Hi; [|apply stable_sort_perm]. subst y. apply in_map_iff in Hi. destruct Hi as ([n0 b0] & Eq & Hi). injection Eq as _ <-. eapply G0. exact Hi.
      - intros z _. destruct (fst z); reflexivity.
      - constructor. }
    destruct (merge_runs (stable_sort name_le l) [] []) as [r|e|e] eqn:E.
    + destruct (TT l l' r KL E) as (r' & E'). rewrite E'. cbn. apply Fin; auto. intros a. rewrite (Keys l x r G eq_refl E), (Keys l' x' r' G' eq_refl E'). apply KL.
    + destruct (merge_runs (stable_sort name_le l') [] []) as [r'| |] eqn:E'; cbn; auto. destruct (TT l' l r' (fun a => iff_sym (KL a)) E'). congruence.
    + destruct (merge_runs (stable_sort name_le l') [] []) as [r'| |] eqn:E'; cbn; auto. destruct (TT l' l r' (fun a => iff_sym (KL a)) E'). congruence.
  - cbn. apply Fin; auto. apply M0.
Qed.

(** ** Printing *)
Lemma sibling_same a n l l' : Forall2 esame l l' -> sibling_ahead a n l = sibling_ahead a n l'.
Proof. induction 1 as [|[k b] [k' b'] l l' [E _] F IH]; cbn [sibling_ahead]; auto. cbn in E. subst k'. rewrite IH. auto. Qed.
Lemma collapse_same a : forall l l', Forall2 esame l l' -> forall n t, fst (collapse a n t l) = fst (collapse a n t l') /\ Forall2 esame (snd (collapse a n t l)) (snd (collapse a n t l')).
Proof.
  induction 1 as [|[k b] [k' b'] l l' [E B] F IH]; intros n t; cbn [collapse]; [split; auto; constructor|]. cbn in E, B. subst k'.
  assert (X : Forall2 esame ((k, b) :: l) ((k, b') :: l')) by (constructor; auto; split; auto).
  destruct (negb _); [split; auto|]. rewrite (sibling_same _ _ _ _ F). destruct (sibling_ahead a n l'); [split; auto|]. apply IH.
Qed.
Lemma print_same w w' flat d : world_ok w -> world_ok w' -> forall f site site' l l', Forall2 esame l l' ->
  Forall2 same_row (print_rows f w site flat d l) (print_rows f w' site' flat d l').
Proof.
  intros W W'. induction f as [|f IH]; intros site site' l l' F; [constructor|]. destruct F as [|[k b] [k' b'] l l' [E B] F]; cbn [print_rows]; [constructor|]. cbn in E, B. subst k'.
  destruct (match d with Some k0 => _ | None => _ end); [apply IH; auto|]. rewrite (bsame_zero _ _ (proj2 B)). destruct (bal_is_zero b'); [apply IH; auto|].
  assert (P : Permutation (map snd (w_ord w site _ b)) (map snd (w_ord w' site' _ b'))) by (apply Permutation_map; rewrite (proj1 W), (proj1 W'); apply B).
  destruct flat.
  - constructor; [|apply IH; auto]. repeat (split; auto).
  - destruct (collapse_same k l l' F (nparts k) (leaf k)) as [C1 C2]. destruct (collapse k (nparts k) (leaf k) l) as [t r], (collapse k (nparts k) (leaf k) l') as [t' r']. cbn in C1, C2. subst t'.
    constructor; [|apply IH; auto]. repeat (split; auto).
Qed.
Lemma total_same w w' site site' m m' : world_ok w -> world_ok w' -> mapeq m m' ->
  bsame (sum_balances (map snd (w_ord w site _ m))) (sum_balances (map snd (w_ord w' site' _ m'))).
Proof.
  intros W W' M. pose proof (mapeq_ord _ _ _ _ M (proj1 W site _ m) (proj1 W' site' _ m')) as (G & G' & _ & S).
  destruct (sum_entries_ok (fun _ => true) _ (proj2 G)) as [A B]. destruct (sum_entries_ok (fun _ => true) _ (proj2 G')) as [A' B'].
  assert (F : forall l : balances, filter (fun _ => true) l = l) by (induction l as [|x l IH]; cbn; congruence). rewrite F in *.
  apply same_amounts; auto. intros c. rewrite B, B'. apply S.
Qed.
Lemma F2_length {A B} (R : A -> B -> Prop) l l' : Forall2 R l l' -> length l = length l'.
Proof. induction 1; cbn; auto. Qed.
Lemma report_same w w' op flat tot site site' bals bals' vb vb' : world_ok w -> world_ok w' -> mapeq bals bals' ->
  Forall2 esame (stable_sort name_le vb) (stable_sort name_le vb') ->
  let rows := print_rows (length (stable_sort name_le vb)) w (1000 + site) flat (o_depth op) (stable_sort name_le vb) in
  let rows' := print_rows (length (stable_sort name_le vb')) w' (1000 + site') flat (o_depth op) (stable_sort name_le vb') in
  let total := sum_balances (map snd (w_ord w (104 + site) _ bals)) in
  let total' := sum_balances (map snd (w_ord w' (104 + site') _ bals')) in
  same_report
    (if tot && Nat.ltb 1 (length rows) then {| bp_rows := rows; bp_total := Some (if bal_is_zero total then [MZero] else map snd (w_ord w (106 + site) _ total)) |} else {| bp_rows := rows; bp_total := None |})
    (if tot && Nat.ltb 1 (length rows') then {| bp_rows := rows'; bp_total := Some (if bal_is_zero total' then [MZero] else map snd (w_ord w' (106 + site') _ total')) |} else {| bp_rows := rows'; bp_total := None |}).
Proof.
  intros W W' M F rows rows' total total'. assert (R : Forall2 same_row rows rows').
  { unfold rows, rows'. rewrite <- (F2_length _ _ _ F). apply print_same; auto. }
  rewrite <- (F2_length _ _ _ R). pose proof (total_same w w' (104 + site) (104 + site') bals bals' W W' M) as T. fold total total' in T.
  destruct (tot && _); split; cbn; auto. rewrite (bsame_zero _ _ (proj2 T)). destruct (bal_is_zero total'); auto.
  apply Permutation_map. rewrite (proj1 W), (proj1 W'). apply T.
Qed.
Lemma balance_same w o op flat tot site site' lg lg' : world_ok w -> world_ok (with_order w o) -> same_ledger w lg lg' ->
  buildable w cu_name cu_aliases (lg_commodities lg) -> buildable w cu_name cu_aliases (lg_commodities lg') -> plain_query w op \/ lg_txns lg = lg_txns lg' -> o_exchange op = None ->
  both same_report (balance_report w site op flat tot lg) (balance_report (with_order w o) site' op flat tot lg').
Proof.
  intros W W' L B B' Q X. unfold balance_report. rewrite X. rewrite query_node_order. destruct (query_node w op) as [n|e|e] eqn:En; cbn [bind]; auto; try exact I.
  eapply both_bind.
  { apply (select_either w o op n); [destruct Q as [Q|Q]; [left; intros m ->; apply Q; auto|right; exact Q]|split; auto; split; auto; apply L|apply L]. }
  intros [sel cs] [sel' cs'] S. cbn [fst] in S.
  assert (P : Permutation (flat_map snd sel) (flat_map snd sel')) by (induction S; cbn; auto; apply Permutation_app; auto).
  eapply both_bind; [unfold account_balances; apply account_same; exact P|]. intros bals bals' M. cbn [bind].
  eapply both_bind with (R := fun x y => Forall2 esame (stable_sort name_le x) (stable_sort name_le y)).
  { destruct flat; [apply flat_same; auto|]. change (Forall2 esame (stable_sort name_le (tree_balances w site bals)) (stable_sort name_le (tree_balances (with_order w o) site' bals'))). apply tree_same; auto. }
  intros vb vb' F. cbn [bind]. pose proof (report_same w (with_order w o) op flat tot site site' bals bals' vb vb' W W' M F) as R. cbv zeta in R.
  destruct (tot && _); destruct (tot && _); exact R.
Qed.
