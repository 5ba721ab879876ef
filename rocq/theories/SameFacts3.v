(** Facts for C79, continued: journals in one commodity, journals with all amounts written. *)
From Coq Require Import Lia Sorting.Sorted.
From Verif Require Import Base BaseFacts Numerals Money Alist Comment Txn Expr Filter Price Tokens Ledger Reports Spec MoneyFacts SpecList SpecTxn TxnFacts SpecLedger AlistFacts JournalFacts
  LedgerFacts LedgerFacts2 EvalFacts SpecQuery SpecReports ReportFacts ReportFacts2 SpecBook SpecSame SameFacts SameRead SameFacts2.
Open Scope Qc_scope.

(** ** One commodity *)
Definition m_only (c : str) (m : money) : Prop := match m with MZero => True | M _ d => d = c end.
Definition b_only (c : str) (b : balance) : Prop := forall d, d <> c -> bal_amt b d = 0.
Definition o_only (c : str) (m : option money) : Prop := forall x, m = Some x -> m_only c x.
Definition p_only (c : str) (p : posting) : Prop :=
  o_only c (p_amount p) /\ o_only c (p_balance p) /\ match p_cost p with Some (CTotal m) | Some (CPerUnit m) => m_only c m | None => True end.
Definition bals_only (c : str) (bals : balances) : Prop := forall acc b, hget str_eqb acc bals = Some b -> wf_bal b /\ b_only c b.
Lemma only_of c m : m_only c m -> b_only c (bal_of m).
Proof.
  intros H d N. rewrite bal_amt_of. destruct m as [|q e]; cbn in *; auto. subst e. destruct (str_eqb_spec c d); congruence.
Qed.
Lemma only_add c a b : wf_bal a -> wf_bal b -> b_only c a -> b_only c b -> b_only c (bal_add a b).
Proof. intros A B Ha Hb d N. rewrite bal_amt_add, Ha, Hb by auto. ring. Qed.
Lemma only_neg c b : b_only c b -> b_only c (bal_neg b).
Proof. intros H d N. rewrite bal_amt_neg, H by auto. ring. Qed.
Lemma only_entry c b e : wf_bal b -> b_only c b -> In e b -> m_is_zero (snd e) = false -> fst e = Some c /\ m_only c (snd e).
Proof.
  intros W H He Z. pose proof W as [N F]. rewrite Forall_forall in F. pose proof (F _ He) as K. destruct e as [k [|q d]]; [discriminate|]. unfold wf_entry in K. cbn in *. subst k.
  assert (d = c); [|subst; auto]. destruct (str_eqb_spec d c) as [|X]; auto. exfalso. pose proof (H d X) as Q. rewrite (bal_amt_hget b d W) in Q.
  apply (In_hget bkey_eqb bkey_eqb_spec (Some d) (M q d)) in He; auto. rewrite He in Q. cbn in Q. destruct (str_eqb_spec d d); [|congruence]. destruct (qc_eqb_spec q 0); [discriminate|]. auto.
Qed.
Lemma only_short c b : wf_bal b -> nz_bal b -> b_only c b -> (length b <= 1)%nat.
Proof.
  intros W Z H. destruct b as [|e [|e' b]]; cbn; auto. exfalso. unfold nz_bal in Z. rewrite Forall_forall in Z.
  destruct (only_entry c _ e W H) as [E _]; [left; auto|apply Z; left; auto|]. destruct (only_entry c _ e' W H) as [E' _]; [right; left; auto|apply Z; right; left; auto|].
  destruct W as [N _]. cbn in N. inversion N as [|? ? X _]; subst. apply X. left. congruence.
Qed.
Lemma only_value c m k v : m_only c m -> match k with Some (CTotal m) | Some (CPerUnit m) => m_only c m | None => True end -> post_value m k = Ok v -> b_only c v.
Proof.
  intros Hm Hk H. destruct k as [[a|[|a d]]|]; try discriminate.
  - injection H as <-. destruct (m_is_negative m); [|apply only_of; auto]. apply (only_of c (m_neg a)). destruct a; auto.
  - injection H as <-. apply (only_of c (M (a * m_amount m) d)). exact Hk.
  - injection H as <-. apply only_of. auto.
Qed.
Lemma only_money c b m : wf_bal b -> b_only c b -> to_money b = Ok m -> m_only c m.
Proof.
  intros W H E. unfold to_money in E. destruct (filter _ _) as [|x [|? ?]] eqn:F; try discriminate; injection E as <-; [exact I|].
  assert (X : In x [x]) by (left; auto). rewrite <- F in X. apply filter_In in X. destruct X as [X Z]. apply in_map_iff in X. destruct X as (e & <- & He).
  apply (only_entry c b e); auto. destruct (m_is_zero (snd e)); [discriminate|auto].
Qed.
Lemma only_set c bals a b : bals_only c bals -> wf_bal b -> b_only c b -> bals_only c (hset str_eqb a b bals).
Proof. intros H W B acc x. rewrite hget_hset by apply str_eqb_spec. destruct (str_eqb acc a); [intros [= <-]; auto|apply H]. Qed.

Definition st_only (c : str) (s : bstate) : Prop := bals_only c (bs_bals s) /\ wf_bal (bs_tb s) /\ b_only c (bs_tb s) /\ Forall (p_only c) (bs_out s).
Lemma step_only c skip s p s' : st_only c s -> p_only c p -> bal_step skip s p = Ok s' -> st_only c s'.
Proof.
  intros (B & W & T & O) (P1 & P2 & P3) H. unfold bal_step in H. destruct (negb (kind_eqb (p_kind p) Real)); [injection H as <-; repeat (split; auto)|].
  destruct (p_amount p) as [m|] eqn:Em.
  - destruct (hget str_eqb (p_account p) (bs_bals s)) as [b|] eqn:Eb; [|discriminate]. cbn [unwrap bind] in H. destruct (negb skip && _); [discriminate|].
    destruct (post_value m (p_cost p)) as [v| |] eqn:Ev; cbn [bind] in H; try discriminate. injection H as <-. destruct (B _ _ Eb) as [Wb Ob]. pose proof (P1 m eq_refl) as Pm.
    pose proof (post_value_wf _ _ _ Ev) as Wv. pose proof (only_value c _ _ _ Pm P3 Ev) as Ov. pose proof (only_of c m Pm) as Om.
    split; [|split; [|split]]; cbn; auto using wf_add, only_add.
    + apply only_set; auto using wf_add, wf_of, only_add.
    + apply Forall_app. split; auto. constructor; auto. split; [|split]; cbn; auto; intros x [= <-]; auto.
  - destruct (p_balance p) as [x|] eqn:Ex; [|injection H as <-; repeat (split; auto)]. destruct skip; [injection H as <-; repeat (split; auto)|].
    destruct (hget str_eqb (p_account p) (bs_bals s)) as [b|] eqn:Eb; [|discriminate]. cbn [unwrap bind] in H. destruct (to_money (bal_sub (bal_of x) b)) as [m| |] eqn:Et; cbn [bind] in H; try discriminate.
    injection H as <-. destruct (B _ _ Eb) as [Wb Ob]. pose proof (P2 x eq_refl) as Px. pose proof (only_of c x Px) as Ox.
    assert (Pm : m_only c m).
    { eapply only_money; [| |exact Et]; [apply wf_add; [apply wf_of|apply wf_neg; auto]|apply only_add; auto using wf_of, wf_neg, only_neg]. }
    split; [|split; [|split]]; cbn; auto using wf_add, wf_of, only_add, only_of.
    + apply only_set; auto using wf_of.
    + apply Forall_app. split; auto. constructor; auto. split; [|split]; cbn; auto; [intros y [= <-]; auto|]. rewrite Ex. intros y [= <-]. auto.
Qed.
Lemma steps_only c skip ps : forall s s', st_only c s -> Forall (p_only c) ps -> foldM (bal_step skip) s ps = Ok s' -> st_only c s'.
Proof.
  induction ps as [|p ps IH]; intros s s' H P E; cbn [foldM] in E; [injection E as <-; auto|]. inversion P; subst.
  destruct (bal_step skip s p) as [s1| |] eqn:E1; cbn [bind] in E; try discriminate. eapply IH; [eapply step_only; eauto| |]; eauto.
Qed.
Lemma fold_fill_only c es : (forall e, In e es -> m_only c (snd e)) -> forall b, wf_bal b -> b_only c b -> b_only c (fold_fill es b).
Proof. induction es as [|e es IH]; intros H b W B; cbn; auto. apply IH; auto using wf_add, wf_of; [intros; apply H; right; auto|]. apply only_add; auto using wf_of. apply only_of. apply H. left. auto. Qed.

(** A transaction in one commodity: nothing depends on the order. *)
Lemma short_eq {A} (l l' : list A) : Permutation l l' -> (length l <= 1)%nat -> l' = l.
Proof.
  intros P H. destruct l as [|x [|y l]]; [apply Permutation_nil in P; auto|apply Permutation_length_1_inv in P; auto|cbn in H; lia].
Qed.
Lemma txn_only c ord skip t bals b t' bals' : (forall b, Permutation (ord b) b) -> bals_only c bals -> Forall (p_only c) (t_postings t) ->
  txn_balance ord skip t bals = Ok (b, t', bals') -> wf_bal b /\ nz_bal b /\ b_only c b /\ bals_only c bals' /\ Forall (p_only c) (t_postings t').
Proof.
  intros O B P H. unfold txn_balance in H. destruct (total_balance _ _); cbn [bind] in H; try discriminate. destruct (negb _); [discriminate|].
  match type of H with bind (foldM _ ?s0 _) _ = _ => destruct (foldM (bal_step skip) s0 (t_postings t)) as [s| |] eqn:E end; cbn [bind] in H; try discriminate.
  assert (Nz : nz_bal (bs_tb s)).
  { assert (G : forall ps s0 s1, nz_bal (bs_tb s0) -> foldM (bal_step skip) s0 ps = Ok s1 -> nz_bal (bs_tb s1)); [|eapply G; [|exact E]; constructor].
    induction ps as [|p ps IH]; intros s0 s1 Z F; cbn [foldM] in F; [injection F as <-; auto|]. destruct (bal_step skip s0 p) as [s2| |] eqn:E2; cbn [bind] in F; try discriminate.
    eapply IH; [|exact F]. clear - Z E2. unfold bal_step in E2. destruct (negb (kind_eqb _ _)); [injection E2 as <-; auto|]. destruct (p_amount p).
    - destruct (hget _ _ _); [|discriminate]. cbn [unwrap bind] in E2. destruct (negb skip && _); [discriminate|]. destruct (post_value _ _); cbn [bind] in E2; try discriminate. injection E2 as <-. apply nz_add.
    - destruct (p_balance p); [|injection E2 as <-; auto]. destruct skip; [injection E2 as <-; auto|]. destruct (hget _ _ _); [|discriminate]. cbn [unwrap bind] in E2.
      destruct (to_money _); cbn [bind] in E2; try discriminate. injection E2 as <-. apply nz_add. }
  assert (S0 : st_only c s).
  { eapply steps_only; [|exact P|exact E]. split; [|split; [|split]]; cbn; auto; [apply wf_nil|intros d _; reflexivity]. }
  destruct S0 as (B1 & W & T & Out). assert (NR : Forall (p_only c) (non_real (t_postings t))).
  { rewrite Forall_forall in P |- *. intros p Hp. apply filter_In in Hp. apply P. tauto. }
  destruct (length (real (t_postings t)) - length (bs_out s))%nat as [|[|n]]; [| |discriminate].
  - destruct (can_be_zero (bs_tb s)); [|discriminate]. injection H as <- <- <-. repeat (split; auto). cbn. apply Forall_app. auto.
  - destruct (fill_loop _ _ _ _ _) as [[b2 o2]| |] eqn:F; cbn [bind] in H; try discriminate. injection H as <- <- <-.
    assert (Es : forall e, In e (ord (bal_neg (bs_tb s))) -> m_only c (snd e)).
    { intros e He. eapply Permutation_in in He; [|apply O]. apply in_map_iff in He. destruct He as ([k m] & <- & He). cbn. pose proof Nz as Nz0. unfold nz_bal in Nz0. rewrite Forall_forall in Nz0.
      destruct (only_entry c _ _ W T He (Nz0 _ He)) as [_ X]. cbn in X. destruct m; auto. }
    split; [apply wf_nil|]. split; [constructor|]. split; [intros d _; reflexivity|].
    destruct (ord (bal_neg (bs_tb s))) as [|e0 es] eqn:Eo.
    + cbn in F. injection F as <- <-. split; auto. cbn. apply Forall_app. auto.
    + destruct (hget str_eqb (fst (bs_fill s)) (bs_bals s)) as [old|] eqn:Ef; [|unfold fill_loop in F; cbn [foldM] in F; rewrite Ef in F; discriminate].
      destruct (fill_loop_is t (fst (bs_fill s)) (snd (bs_fill s)) (e0 :: es) (bs_bals s) (bs_out s) old Ef) as (b3 & F3 & G). rewrite F in F3. injection F3 as <- ->.
      split.
      * intros acc x. rewrite G. destruct (str_eqb acc _); [|apply B1]. intros [= <-]. destruct (B1 _ _ Ef) as [Wo Oo]. split; [apply (fold_fill_wf (e0 :: es)); auto|]. apply (fold_fill_only c (e0 :: es)); auto.
      * cbn [set_postings t_postings]. apply Forall_app. split; auto. apply Forall_app. split; auto. apply Forall_forall. intros p Hp. change (In p (map (fun e => fill_posting t (fst (bs_fill s)) (snd (bs_fill s)) (snd e)) (e0 :: es))) in Hp. apply in_map_iff in Hp. destruct Hp as (e & <- & He).
        split; [|split]; cbn; auto; [intros x [= <-]; apply Es; exact He|intros x; discriminate].
Qed.
Lemma txn_exact c ord ord' skip t bals bals' : (forall b, Permutation (ord b) b) -> (forall b, Permutation (ord' b) b) -> balsame bals bals' -> bals_only c bals -> Forall (p_only c) (t_postings t) ->
  agree (fun x y => fst x = fst y /\ balsame (snd x) (snd y)) (txn_balance ord skip t bals) (txn_balance ord' skip t bals').
Proof.
  intros O O' B M P. unfold txn_balance. eapply agree_bind; [apply agree_eq; reflexivity|]. intros vb ? <-. destruct (negb (can_be_zero vb)); [reflexivity|].
  assert (S0 : agree (fun s s' => stsame s s' /\ st_only c s)
    (foldM (bal_step skip) {| bs_bals := bals; bs_tb := bal_new; bs_out := []; bs_fill := (L "this will never be used", None) |} (t_postings t))
    (foldM (bal_step skip) {| bs_bals := bals'; bs_tb := bal_new; bs_out := []; bs_fill := (L "this will never be used", None) |} (t_postings t))).
  { apply agree_foldM.
    - intros s s' p Hp [H1 H2]. pose proof (step_same skip s s' p H1) as H. rewrite Forall_forall in P. pose proof (step_only c skip s p) as K.
      destruct (bal_step skip s p) as [s1| |], (bal_step skip s' p) as [s1'| |]; cbn in *; auto.
    - split; [split; [|split; [|split; [|split]]]|split; [|split; [|split]]]; cbn; auto; try constructor; try (apply wf_nil); auto; constructor. }
  eapply agree_bind; [exact S0|]. clear S0. intros s s' [(B1 & T & Z & EO & EF) (B2 & W & Ob & Out)].
  assert (Et : bs_tb s' = bs_tb s) by (apply short_eq; [apply T|eapply only_short; eauto]).
  rewrite EO, EF, Et. destruct (length (real (t_postings t)) - length (bs_out s))%nat as [|[|n]]; [| |reflexivity].
  - destruct (can_be_zero (bs_tb s)); [|reflexivity]. cbn. auto.
  - assert (Q : ord' (bal_neg (bs_tb s)) = ord (bal_neg (bs_tb s))).
    { pose proof (only_short c _ W Z Ob) as Sh. transitivity (bal_neg (bs_tb s)); [|symmetry]; (apply short_eq; [symmetry; auto|unfold bal_neg; rewrite map_length; auto]). }
    rewrite Q. eapply agree_bind; [apply (fill_same t _ _ _ _ _ _ (bs_out s) (Permutation_refl _) B1)|]. intros [b1 o1] [b2 o2] (X1 & X2 & X3). cbn [fst snd] in *. subst o1 o2. cbn. auto.
Qed.
Lemma all_exact c w w' skip ts : world_ok w -> world_ok w' -> forall site site' bals bals' prices, balsame bals bals' -> bals_only c bals -> Forall (fun t => Forall (p_only c) (t_postings t)) ts ->
  agree (fun x y => fst (fst x) = fst (fst y) /\ snd x = snd y /\ Forall (fun t => Forall (p_only c) (t_postings t)) (fst (fst x)))
    (balance_all w site skip ts bals prices) (balance_all w' site' skip ts bals' prices).
Proof.
  intros [O _] [O' _]. induction ts as [|t ts IH]; intros site site' bals bals' prices B M P; cbn [balance_all]; [repeat (split; cbn; auto)|]. inversion P as [|? ? P1 P2]; subst.
  eapply agree_bind; [apply agree_eq; reflexivity|]. intros d ? <-.
  pose proof (txn_exact c (w_ord w site _) (w_ord w' site' _) skip t bals bals' (O _ _) (O' _ _) B M P1) as H. pose proof (fun b t1 b1 => txn_only c (w_ord w site _) skip t bals b t1 b1 (O _ _) M P1) as K.
  destruct (txn_balance (w_ord w site _) skip t bals) as [[[b t1] b1]|e|e], (txn_balance (w_ord w' site' _) skip t bals') as [[[b' t1'] b1']|e'|e']; cbn in H; try contradiction; cbn [bind]; try (cbn; congruence).
  destruct H as [E X4]. injection E as <- <-. destruct (K _ _ _ eq_refl) as (K1 & K2 & K3 & K4 & K5). pose proof (only_short c b K1 K2 K3) as Sh.
  assert (Q : forall k k', w_ord w' k' _ b = w_ord w k _ b) by (intros; transitivity b; [|symmetry]; (apply short_eq; [symmetry; auto|auto])).
  erewrite Q. eapply agree_bind; [apply agree_eq; reflexivity|]. intros prs ? <-. eapply agree_bind; [apply IH; eauto|]. intros [[r b2] pr] [[r' b2'] pr'] (Y1 & Y2 & Y3). cbn in *. subst. repeat (split; auto).
Qed.

(** ** All amounts written *)
Definition written (t : txn posting) : Prop := forall p, In p (t_postings t) -> p_kind p = Real -> p_amount p <> None.
Lemma written_steps skip ps : (forall p, In p ps -> p_kind p = Real -> p_amount p <> None) -> forall s s', foldM (bal_step skip) s ps = Ok s' ->
  length (bs_out s') = (length (bs_out s) + length (real ps))%nat.
Proof.
  induction ps as [|p ps IH]; intros H s s' E; cbn [foldM] in E; [injection E as <-; cbn; lia|]. destruct (bal_step skip s p) as [s1| |] eqn:E1; cbn [bind] in E; try discriminate.
  rewrite (IH ltac:(intros; apply H; [right|]; auto) _ _ E). clear E IH. unfold bal_step in E1. unfold real. cbn [filter]. destruct (kind_eqb_spec (p_kind p) Real) as [K|K]; cbn [negb] in E1; [|injection E1 as <-; auto].
  destruct (p_amount p) eqn:Em; [|edestruct (H p); [left| |]; eauto]. destruct (hget _ _ _); [|discriminate]. cbn [unwrap bind] in E1. destruct (negb skip && _); [discriminate|].
  destruct (post_value _ _); cbn [bind] in E1; try discriminate. injection E1 as <-. cbn. rewrite app_length. cbn. lia.
Qed.
Lemma txn_written ord ord' skip t bals bals' : (forall b, Permutation (ord b) b) -> (forall b, Permutation (ord' b) b) -> balsame bals bals' -> written t ->
  agree (fun x y => bsame (fst (fst x)) (fst (fst y)) /\ nz_bal (fst (fst x)) /\ snd (fst x) = snd (fst y) /\ balsame (snd x) (snd y)) (txn_balance ord skip t bals) (txn_balance ord' skip t bals').
Proof.
  intros O O' B P. pose proof (written_steps skip (t_postings t) P) as Len.
  unfold txn_balance. eapply agree_bind; [apply agree_eq; reflexivity|]. intros vb ? <-. destruct (negb (can_be_zero vb)); [reflexivity|].
  assert (S0 : agree stsame (foldM (bal_step skip) {| bs_bals := bals; bs_tb := bal_new; bs_out := []; bs_fill := (L "this will never be used", None) |} (t_postings t))
     (foldM (bal_step skip) {| bs_bals := bals'; bs_tb := bal_new; bs_out := []; bs_fill := (L "this will never be used", None) |} (t_postings t))).
  { apply (agree_foldM stsame (bal_step skip) (bal_step skip)); [intros; apply step_same; auto|].
    split; [|split; [|split; [|split]]]; cbn; auto; [apply bsame_refl, wf_nil|constructor]. }
  match goal with |- agree _ (bind (foldM _ ?a _) _) (bind (foldM _ ?b _) _) => pose proof (Len a) as L1; destruct (foldM (bal_step skip) a (t_postings t)) as [s|e|e], (foldM (bal_step skip) b (t_postings t)) as [s'|e'|e'] end; try contradiction; cbn [bind]; try exact S0.
  specialize (L1 _ eq_refl). cbn [bs_out length Nat.add] in L1. destruct S0 as (B1 & T & Z & EO & EF). rewrite EO, EF, L1, Nat.sub_diag.
  rewrite <- (bsame_can _ _ T Z). destruct (can_be_zero (bs_tb s)); [|reflexivity]. split; [|split; [|split]]; cbn; auto.
Qed.
(** ** The ledger *)
Lemma found_commodity w l cs al pays n x : names_ok w l cs al pays -> clear_names w l -> mentions_commodity l n -> l_get w n cs = Ok x -> cu_name x = commodity_meant w l n.
Proof.
  intros N C Hn E. destruct (proj1 (no_acs _ _ _ _ _ N) n x E) as [D|(D & m & Hm & Lm & ->)].
  - unfold commodity_meant. rewrite D. auto.
  - cbn. transitivity (commodity_meant w l m); [|apply (cn_commodities _ _ C); auto using mentioned_commodity].
    unfold commodity_meant. destruct (l_get w m (pl_commodities l)) as [y| |] eqn:Ey; auto. destruct (D y). eapply get_lower; eauto.
Qed.
Lemma F2_in {A B} (R : A -> B -> Prop) l l' b : Forall2 R l l' -> In b l' -> exists a, In a l /\ R a b.
Proof. induction 1 as [|x y l l' H F IH]; intros []; [subst; exists x; split; [left|]; auto|]. destruct IH as (a & Ha & Hr); auto. exists a. split; [right|]; auto. Qed.
Lemma read_only w l cs al pays raw c : names_ok w l cs al pays -> clear_names w l -> Forall2 (raw_ok w al pays cs) (pl_txns l) raw -> one_commodity w l c ->
  Forall (fun t => Forall (p_only c) (t_postings t)) (sort_txns (flat_map (fun x : raw_result => fst (fst x)) raw)).
Proof.
  intros N C R O. destruct (raw_parts _ _ _ _ _ _ R) as (F & _). apply Forall_forall. intros t' Ht. eapply Permutation_in in Ht; [|apply stable_sort_perm].
  destruct (F2_in _ _ _ _ F Ht) as (t & Hin & Rd). destruct O as [O _]. pose proof Hin as Hin0. apply filter_In in Hin0. destruct Hin0 as [Hin0 _]. destruct Rd as (_ & Fp & _). apply Forall_forall. intros p' Hp'.
  destruct (F2_in _ _ _ _ Fp Hp') as (p & Hp & (R1 & R2 & R3 & _)).
  assert (K : forall m m', (m = rp_money p \/ m = rp_cost p \/ m = rp_balance p) -> reads_money w cs m m' -> o_only c m').
  { intros m m' Hm H x ->. destruct m as [[q n]|]; [|contradiction]. destruct x as [|q' c']; [contradiction|]. destruct H as (-> & y & Ey & ->). cbn.
    assert (X : rp_money p = Some (q, n) \/ rp_cost p = Some (q, n) \/ rp_balance p = Some (q, n)) by (destruct Hm as [-> |[-> | ->]]; auto).
    rewrite <- (O t p q n Hin Hp X). eapply found_commodity; eauto. right. exists t, p, q. tauto. }
  split; [|split].
  { exact (K (rp_money p) _ (or_introl eq_refl) R1). }
  { exact (K (rp_balance p) _ (or_intror (or_intror eq_refl)) R2). }
  unfold reads_cost in R3. destruct (rp_cost p) as [k|] eqn:Ek; [|rewrite R3; exact I].
  destruct R3 as (m & Rm & Z). assert (m_only c m) by (exact (K (Some k) (Some m) (or_intror (or_introl eq_refl)) Rm m eq_refl)). destruct (rp_cost_type p) as [[]|]; try contradiction; rewrite Z; auto.
Qed.
Lemma fresh_only c al : bals_only c (fresh_balances al).
Proof. intros acc b H. rewrite (fresh_keys _ _ _ H). split; [apply wf_nil|]. intros d _. reflexivity. Qed.
Lemma agree_and {A} (R Q : A -> A -> Prop) r r' : agree R r r' -> agree Q r r' -> agree (fun a b => R a b /\ Q a b) r r'.
Proof. destruct r, r'; cbn; auto. Qed.
