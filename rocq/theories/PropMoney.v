(** Properties C01-C06: money and balances. *)
From Verif Require Import Base Money BaseFacts Spec MoneyFacts.
From Coq Require Import Lqa.
Open Scope Qc_scope.

(** Concrete balances used in the examples: 5 EUR - 3 USD, and its negation order. *)
Definition eur := L "EUR".
Definition usd := L "USD".
Definition ex_b1 : balance := bal_add (bal_of (M (Q2Qc (5 # 1)) eur)) (bal_of (M (Q2Qc (- 3 # 1)) usd)).
Definition ex_b2 : balance := bal_sub ex_b1 (bal_of (M (Q2Qc (1 # 3)) eur)).
Example ex_b1_built : built ex_b1.
Proof. repeat constructor. Qed.
Example ex_b2_built : built ex_b2.
Proof. repeat constructor. Qed.
Example ex_b1_amounts : bal_amt ex_b1 eur = Q2Qc (5 # 1) /\ bal_amt ex_b1 usd = Q2Qc (- 3 # 1) /\
                        bal_amt ex_b2 eur = Q2Qc (14 # 3) /\ length ex_b2 = 2%nat.
Proof. repeat split; apply Qc_is_canon; reflexivity. Qed.

(** ** C01 *)
Theorem C01_operations_exact : forall a b c, built a -> built b ->
  bal_amt (bal_add a b) c = bal_amt a c + bal_amt b c /\
  bal_amt (bal_sub a b) c = bal_amt a c - bal_amt b c /\
  bal_amt (bal_neg a) c = - bal_amt a c.
Proof.
  intros a b c Ha Hb. apply built_wf in Ha, Hb. repeat split.
  - apply bal_amt_add; auto.
  - apply bal_amt_sub; auto.
  - apply bal_amt_neg.
Qed.
Print Assumptions C01_operations_exact.

Theorem C01_money_operations_exact : forall m n c,
  bal_amt bal_new c = 0 /\
  bal_amt (bal_of m) c = money_amt m c /\
  bal_amt (money_add m n) c = money_amt m c + money_amt n c /\
  bal_amt (money_sub m n) c = money_amt m c - money_amt n c /\
  money_amt (m_neg m) c = - money_amt m c.
Proof.
  intros m n c. repeat split.
  - apply bal_amt_of.
  - unfold money_add. rewrite bal_amt_add, !bal_amt_of; auto using wf_of.
  - unfold money_sub. rewrite bal_amt_sub, !bal_amt_of; auto using wf_of.
  - destruct m; simpl; [ring|]. destruct (str_eqb c0 c); ring.
Qed.
Print Assumptions C01_money_operations_exact.

Theorem C01_commutative_associative : forall a b d, built a -> built b -> built d ->
  Permutation (bal_add a b) (bal_add b a) /\
  Permutation (bal_add (bal_add a b) d) (bal_add a (bal_add b d)).
Proof.
  intros a b d Ha Hb Hd. apply built_wf in Ha, Hb, Hd.
  split; apply nz_perm; auto using wf_add, nz_add; intros c; rewrite !bal_amt_add; auto using wf_add; ring.
Qed.
Print Assumptions C01_commutative_associative.

Theorem C01_subtract_self : forall a, built a -> bal_sub a a = bal_new.
Proof.
  intros a Ha. apply built_wf in Ha. apply nz_nil; [apply wf_sub; auto|apply nz_add|].
  intros c. rewrite bal_amt_sub; auto. ring.
Qed.
Print Assumptions C01_subtract_self.

(** The sum never aborts on the balances of the API (the code unwraps a key, balance.rs:111). *)
Theorem C01_never_aborts : forall a b, built a -> built b -> bal_add_res a b = Ok (bal_add a b).
Proof. intros. apply bal_add_ok; apply built_wf; auto. Qed.
Print Assumptions C01_never_aborts.

(** ** C02 *)
Theorem C02_sum_has_no_zero_no_duplicate : forall a b, built a -> built b ->
  (forall k m, In (k, m) (bal_add a b) -> exists c q, k = Some c /\ m = M q c /\ q <> 0) /\
  NoDup (map fst (bal_add a b)).
Proof.
  intros a b Ha Hb. apply built_wf in Ha, Hb. split.
  - intros k m Hi. destruct (nz_entry_shape _ _ (wf_add _ _ Ha Hb) (nz_add a b) Hi) as (c & q & E).
    inversion E; subst. exists c, q. repeat split.
    apply nz_entry_iff in Hi; auto using wf_add, nz_add. tauto.
  - apply (proj1 (wf_add _ _ Ha Hb)).
Qed.
Print Assumptions C02_sum_has_no_zero_no_duplicate.

Theorem C02_sum_independent_of_hash_order : forall a a' b b', built a -> built b ->
  Permutation a a' -> Permutation b b' -> Permutation (bal_add a b) (bal_add a' b').
Proof. intros. apply bal_add_perm; auto using built_wf. Qed.
Print Assumptions C02_sum_independent_of_hash_order.

(** ** C03 *)
Theorem C03_is_zero : forall b, built b -> (bal_is_zero b = true <-> forall c, bal_amt b c = 0).
Proof. intros. apply bal_is_zero_iff. apply built_wf. auto. Qed.
Print Assumptions C03_is_zero.

Theorem C03_can_be_zero : forall b, built b ->
  (can_be_zero b = true <->
   (forall c, bal_amt b c = 0) \/ ((exists c, 0 < bal_amt b c) /\ (exists c, bal_amt b c < 0))).
Proof. exact built_can_be_zero. Qed.
Print Assumptions C03_can_be_zero.
Example C03_cases :
  can_be_zero ex_b1 = true /\ can_be_zero (bal_add ex_b1 (bal_of (M (Q2Qc (3 # 1)) usd))) = false.
Proof. split; reflexivity. Qed.

(** ** C04 *)
Theorem C04_to_money_single : forall b, built b ->
  (forall c c', bal_amt b c <> 0 -> bal_amt b c' <> 0 -> c = c') ->
  exists m, to_money b = Ok m /\ forall c, money_amt m c = bal_amt b c.
Proof.
  intros b Hb H. destruct (to_money_spec b (built_wf _ Hb)) as [?|(_ & c & c' & Hn & H1 & H2)]; auto.
  exfalso. auto.
Qed.
Print Assumptions C04_to_money_single.

Theorem C04_to_money_several : forall b c c', built b -> c <> c' -> bal_amt b c <> 0 -> bal_amt b c' <> 0 ->
  to_money b = Err (ELedger TransactionIsNotBalanced).
Proof.
  intros b c c' Hb Hn H1 H2. destruct (to_money_spec b (built_wf _ Hb)) as [(m & _ & Hm)|[H _]]; auto.
  exfalso. rewrite <- Hm in H1, H2. destruct m; simpl in *; [congruence|].
  destruct (str_eqb_spec c0 c), (str_eqb_spec c0 c'); congruence.
Qed.
Print Assumptions C04_to_money_several.
Example C04_cases : to_money (bal_of (M 1 eur)) = Ok (M 1 eur) /\
  to_money ex_b1 = Err (ELedger TransactionIsNotBalanced) /\ to_money (bal_sub ex_b1 ex_b1) = Ok MZero.
Proof. repeat split. Qed.

(** ** C05 *)
Theorem C05_assertion_comparison : forall a c b, built b ->
  (bal_eqb (bal_of (M a c)) b = true <-> bal_amt b c = a).
Proof. intros. apply bal_eqb_of. apply built_wf. auto. Qed.
Print Assumptions C05_assertion_comparison.

Theorem C05_reflexive : forall b, built b -> bal_eqb b b = true.
Proof. intros. apply bal_eqb_refl. apply built_wf. auto. Qed.
Print Assumptions C05_reflexive.

(** The commodity-less zero is "equal" to every balance. *)
Theorem C05_bare_zero_equals_everything : forall b, built b -> bal_eqb (bal_of MZero) b = true.
Proof. intros. apply bal_eqb_zero. apply built_wf. auto. Qed.
Print Assumptions C05_bare_zero_equals_everything.

Theorem C05_not_symmetric_refuted : exists a b, built a /\ built b /\
  bal_eqb a b = true /\ bal_eqb b a = false /\ ~ same_amounts a b.
Proof.
  exists (bal_of (M (Q2Qc (5 # 1)) eur)), ex_b1. repeat split; try reflexivity.
  - constructor.
  - apply ex_b1_built.
  - intros H. specialize (H usd). discriminate.
Qed.
Print Assumptions C05_not_symmetric_refuted.

(** What == decides in general: agreement on the commodities listed on the left. *)
Theorem C05_decides : forall a b, built a -> built b ->
  (bal_eqb a b = true <-> forall c, In (Some c) (map fst a) -> bal_amt a c = bal_amt b c).
Proof. intros. apply bal_eqb_iff; apply built_wf; auto. Qed.
Print Assumptions C05_decides.

(** ** C06 *)
(** The order of money as the property describes it. *)
Definition comparable (m n : money) : Prop :=
  match m, n with M _ c, M _ c' => c = c' | _, _ => True end.

Theorem C06_ordering : forall m n,
  (comparable m n -> exists o, money_cmp m n = Ok o /\
     (o = Lt <-> m_amount m < m_amount n) /\ (o = Gt <-> m_amount n < m_amount m) /\
     (o = Eq <-> m_amount m = m_amount n) /\
     (o = Eq <-> money_eqb m n = true)) /\
  (~ comparable m n -> exists p, money_cmp m n = Panic p).
Proof.
  assert (K : forall a b, let o := qc_cmp a b in
     (o = Lt <-> a < b) /\ (o = Gt <-> b < a) /\ (o = Eq <-> a = b)).
  { intros a b. simpl. destruct (qc_cmp_spec a b) as [->|H|H]; repeat split; intros; try discriminate; auto;
    try (exfalso; eapply Qclt_not_eq; eauto; fail); exfalso; qlra. }
  intros m n. split.
  - intros Hc. destruct m as [|a c], n as [|a' c']; simpl in *.
    + eexists; split; [reflexivity|]. destruct (K 0 0) as (? & ? & ?). repeat split; try tauto. 
    + eexists; split; [reflexivity|]. destruct (K 0 a') as (? & ? & ?). repeat split; try tauto.
      * intros E. apply H1 in E. subst. reflexivity.
      * intros E. destruct (qc_eqb_spec a' 0); try discriminate. subst. reflexivity.
    + eexists; split; [reflexivity|]. destruct (K a 0) as (? & ? & ?). repeat split; try tauto.
      * intros E. apply H1 in E. subst. reflexivity.
      * intros E. destruct (qc_eqb_spec a 0); try discriminate. subst. reflexivity.
    + subst c'. rewrite str_eqb_refl. eexists; split; [reflexivity|].
      destruct (K a a') as (? & ? & ?). repeat split; try tauto.
      * intros E. apply H1 in E. subst. rewrite andb_true_r. destruct (qc_eqb_spec a' a'); auto.
      * intros E. rewrite andb_true_r in E. destruct (qc_eqb_spec a a'); try discriminate. tauto.
  - intros Hc. destruct m as [|a c], n as [|a' c']; simpl in *; try (exfalso; tauto).
    destruct (str_eqb_spec c c'); [contradiction|]. eauto.
Qed.
Print Assumptions C06_ordering.

Theorem C06_total_order : forall a a' a'' c,
  (money_cmp (M a c) (M a' c) = Ok Lt -> money_cmp (M a' c) (M a'' c) = Ok Lt ->
   money_cmp (M a c) (M a'' c) = Ok Lt) /\
  (exists o, money_cmp (M a c) (M a' c) = Ok o /\ money_cmp (M a' c) (M a c) = Ok (CompOpp o)).
Proof.
  intros. simpl. rewrite str_eqb_refl. split.
  - intros H1 H2. inversion H1. inversion H2. f_equal.
    destruct (qc_cmp_spec a a'), (qc_cmp_spec a' a''), (qc_cmp_spec a a''); try discriminate; auto;
      subst; exfalso; qlra.
  - eexists. split; [reflexivity|]. f_equal.
    destruct (qc_cmp_spec a a'), (qc_cmp_spec a' a); simpl; auto; subst; exfalso; qlra.
Qed.
Print Assumptions C06_total_order.

Theorem C06_equality : forall m n,
  money_eqb m m = true /\ money_eqb m n = money_eqb n m.
Proof.
  intros. split; [apply money_eqb_refl|]. destruct m as [|a c], n as [|b c']; simpl; auto.
  rewrite (str_eqb_sym c c'). destruct (qc_eqb_spec a b), (qc_eqb_spec b a); congruence.
Qed.
Print Assumptions C06_equality.

Theorem C06_equality_decides : forall m n,
  money_eqb m n = true <->
  match m, n with
  | M a c, M b c' => a = b /\ c = c'
  | _, _ => m_amount m = m_amount n
  end.
Proof.
  intros m n. destruct m as [|a c], n as [|b c']; simpl; try tauto.
  - destruct (qc_eqb_spec b 0); split; congruence.
  - destruct (qc_eqb_spec a 0); split; congruence.
  - destruct (qc_eqb_spec a b), (str_eqb_spec c c'); simpl; split; intros; try tauto; try discriminate; tauto.
Qed.
Print Assumptions C06_equality_decides.

Theorem C06_not_transitive_refuted : exists m n o,
  money_eqb m n = true /\ money_eqb n o = true /\ money_eqb m o = false.
Proof. exists (M 0 eur), MZero, (M 0 usd). repeat split. Qed.
Print Assumptions C06_not_transitive_refuted.
