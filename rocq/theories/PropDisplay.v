(** Property C07: printed amounts. *)
From Verif Require Import Base Numerals Money BaseFacts NumFacts Spec DisplayFacts.
From Coq Require Import Lia ZifyBool ZifyNat ZifyN.
Open Scope Qc_scope.

Lemma le_minus_one a : a <= - (1) <-> (q_num a <= - q_den a)%Z.
Proof.
  unfold Qcle, q_num, q_den. rewrite this_opp. change (this 1) with 1%Q.
  unfold Qle. cbn. lia.
Qed.
Lemma abs_lt_one a : - (1) < a /\ a < 1 <-> (Z.abs (q_num a) < q_den a)%Z.
Proof.
  unfold Qclt, q_num, q_den. rewrite this_opp. change (this 1) with 1%Q.
  unfold Qlt. cbn. lia.
Qed.

(** What is printed, exactly, for every amount: the magnitude is always the amount rounded half away
    from zero; a minus sign is printed for amounts of at most -1, and for amounts strictly between -1
    and 1 whose magnitude rounds to one. *)
Theorem C07_display_exact : forall d a name, (1 <= d <= 7)%nat ->
  exists text neg r,
    money_display d a name = Ok text /\ fixed_point text neg d r name /\ nearest d a r /\
    (neg = true <-> a <= - (1) \/ (- (1) < a /\ a < 1 /\ r = (10 ^ N.of_nat d)%N)).
Proof.
  intros d a name Hd. destruct (display_spec d a name Hd) as (text & neg & r & H1 & H2 & H3 & H4).
  exists text, neg, r. repeat (split; auto). 
  - intros H. apply H4 in H. rewrite le_minus_one. rewrite <- abs_lt_one in H. tauto.
  - intros H. apply H4. rewrite <- le_minus_one, <- abs_lt_one. tauto.
Qed.
Print Assumptions C07_display_exact.

(** The full property asks for the sign of the amount in all cases; it holds when the amount is at
    least one in magnitude, or is non-negative and does not round up to one.  Missing: amounts
    strictly between -1 and 0, and those just below 1 (see the refutation below). *)
Theorem C07_display_partial : forall d a name, (1 <= d <= 7)%nat ->
  (1 <= a \/ a <= - (1) \/ (0 <= a /\ ~ nearest d a (10 ^ N.of_nat d)%N)) ->
  exists text neg r,
    money_display d a name = Ok text /\ fixed_point text neg d r name /\ nearest d a r /\
    (neg = true <-> a < 0 /\ r <> 0%N).
Proof.
  intros d a name Hd Ha. destruct (C07_display_exact d a name Hd) as (text & neg & r & H1 & H2 & H3 & H4).
  exists text, neg, r. split; [auto|]. split; [auto|]. split; [auto|]. rewrite H4. split.
  - intros [H|(Hl & Hu & Hr)].
    + split; [qlra|]. intros ->. apply nearest_iff in H3. apply le_minus_one in H.
      assert (0 < 10 ^ Z.of_nat d)%Z by (apply Z.pow_pos_nonneg; lia).
      assert (0 < q_den a)%Z by (unfold q_den; lia). nia.
    + exfalso. subst r. destruct Ha as [Ha|[Ha|[Ha Hn]]]; [qlra|qlra|contradiction].
  - intros [Hneg _]. left. destruct Ha as [Ha|[Ha|[Ha _]]]; [exfalso; qlra|auto|exfalso; qlra].
Qed.
Print Assumptions C07_display_partial.
Example C07_display_partial_cases :
  money_display 2 (Q2Qc (-12345 # 1000)) (L "EUR") = Ok (L "-12.35 EUR") /\
  money_display 2 (Q2Qc (999 # 1000) + 1) (L "EUR") = Ok (L "2.00 EUR") /\
  money_display 3 (Q2Qc (1 # 8)) (L "EUR") = Ok (L "0.125 EUR").
Proof. repeat split; reflexivity. Qed.

(** Counterexamples of the full property: a negative amount printed without its sign, a positive
    amount printed negative, and a precision of zero always adding one. *)
Theorem C07_sign_lost_refuted : exists d a name text,
  (1 <= d <= 7)%nat /\ a < 0 /\ money_display d a name = Ok text /\
  fixed_point text false d 50 name /\ nearest d a 50.
Proof.
  exists 2%nat, (Q2Qc (-1 # 2)), (L "EUR"), (L "0.50 EUR"). split; [lia|]. split; [reflexivity|].
  split; [reflexivity|]. split; [|split; discriminate || reflexivity].
  exists (L "0"), (L "50"). split; [reflexivity|].
  split; [apply only_digits_iff; reflexivity|]. split; [apply only_digits_iff; reflexivity|].
  split; [discriminate|]. repeat split.
Qed.
Print Assumptions C07_sign_lost_refuted.

Theorem C07_sign_invented_refuted : exists d a name,
  (1 <= d <= 7)%nat /\ 0 < a /\ money_display d a name = Ok (L "-1.00 " ++ name).
Proof. exists 2%nat, (Q2Qc (999 # 1000)), (L "EUR"). split; [lia|]. split; reflexivity. Qed.
Print Assumptions C07_sign_invented_refuted.

Theorem C07_precision_zero_refuted : exists name,
  money_display 0 (Q2Qc (5 # 1)) name = Ok (L "6.0 " ++ name).
Proof. exists (L "JPY"). reflexivity. Qed.
Print Assumptions C07_precision_zero_refuted.

(** From eight decimals on the 32-bit power of ten overflows. *)
Theorem C07_large_precision_overflows : forall d a name, (8 <= d)%nat ->
  money_display d a name = Panic PArith.
Proof.
  intros d a name Hd. unfold money_display. destruct (Nat.ltb 9 (d + 2)) eqn:E; auto.
  apply Nat.ltb_ge in E. lia.
Qed.
Print Assumptions C07_large_precision_overflows.
