(** Facts about the printed form of amounts of money. *)
From Verif Require Import Base Numerals Money BaseFacts NumFacts Spec.
From Coq Require Import Lia ZifyBool ZifyNat ZifyN Qabs.
Open Scope Z_scope.
Local Arguments N.add : simpl never.
Local Arguments N.sub : simpl never.
Local Arguments N.mul : simpl never.
Local Arguments N.div : simpl never.
Local Arguments N.modulo : simpl never.
Local Arguments N.pow : simpl never.
Local Arguments N.of_nat : simpl never.
Local Arguments Z.of_nat : simpl never.
Local Arguments Z.pow : simpl never.
Local Arguments Z.mul : simpl never.

Lemma dec_value_eq s : dec_value s = digits_val s.
Proof.
  unfold dec_value, digits_val. generalize 0%N. induction s; intros; simpl; auto.
Qed.
Lemma only_digits_iff s : all_digits s = true <-> only_digits s.
Proof.
  unfold all_digits, only_digits. rewrite forallb_forall. split; intros H c Hc; apply H in Hc; unfold is_digit in *; lia.
Qed.

Lemma nearest_iff d a r :
  nearest d a r <->
  (2 * Z.of_N r - 1) * q_den a <= 2 * 10 ^ Z.of_nat d * Z.abs (q_num a) < (2 * Z.of_N r + 1) * q_den a.
Proof.
  unfold nearest, q_den, q_num. destruct a as [[n D] Hc]. simpl this. cbn [Qnum Qden].
  unfold Qle, Qlt, Qmult, inject_Z, Qabs. cbn [Qnum Qden]. rewrite Pos.mul_1_l. lia.
Qed.

Lemma N10 k : Z.of_N (10 ^ N.of_nat k) = 10 ^ Z.of_nat k.
Proof. rewrite N2Z.inj_pow. f_equal. lia. Qed.

Lemma display_spec d a name : (1 <= d <= 7)%nat ->
  exists text neg r, money_display d a name = Ok text /\ fixed_point text neg d r name /\ nearest d a r /\
    (neg = true <-> q_num a <= - q_den a \/ (Z.abs (q_num a) < q_den a /\ r = (10 ^ N.of_nat d)%N)).
Proof.
  intros Hd. unfold money_display. destruct (Nat.ltb 9 (d + 2)) eqn:E9; [apply Nat.ltb_lt in E9; lia|].
  set (n := q_num a). set (D := q_den a).
  assert (HD : 0 < D) by (unfold D, q_den; lia).
  set (F := Z.abs (q_fract_num a)).
  assert (HF : 0 <= F < D).
  { unfold F, q_fract_num. fold n D. pose proof (Z.rem_bound_abs n D). lia. }
  assert (Hn : Z.abs n = Z.abs (q_trunc a) * D + F).
  { unfold F, q_trunc, q_fract_num. fold n D. rewrite <- Z.rem_abs, <- Z.quot_abs by lia.
    rewrite (Z.abs_eq D) by lia. pose proof (Z.quot_rem' (Z.abs n) D). lia. }
  set (dp := Z.quot (F * 10 ^ Z.of_nat (d + 2)) D).
  assert (HP : forall k, 0 < 10 ^ Z.of_nat k) by (intros; apply Z.pow_pos_nonneg; lia).
  assert (Hdp : 0 <= dp < 10 ^ Z.of_nat (d + 2)).
  { unfold dp. rewrite Z.quot_div_nonneg by (try apply Z.mul_nonneg_nonneg; specialize (HP (d+2)%nat); lia).
    split; [apply Z.div_pos; specialize (HP (d+2)%nat); nia|]. apply Z.div_lt_upper_bound; auto. 
    specialize (HP (d+2)%nat). nia. }
  set (ds := pad0 (d + 2) (Z_text dp)).
  assert (Hz : Z_text dp = N_digits (Z.to_N dp)).
  { unfold Z_text. destruct (dp <? 0) eqn:E; [lia|reflexivity]. }
  assert (Hl : length ds = (d + 2)%nat).
  { unfold ds. apply pad0_length. rewrite Hz. apply N_digits_length; [lia|].
    pose proof (N10 (d + 2)). lia. }
  assert (Ha : all_digits ds = true).
  { unfold ds. apply pad0_all. rewrite Hz. apply N_digits_all. }
  assert (Hv : digits_val ds = Z.to_N dp).
  { unfold ds. rewrite pad0_val, Hz. apply N_digits_val. }
  set (v := (Z.to_N dp / 10)%N).
  assert (Hv2 : digits_val (firstn (d + 1) ds) = v).
  { rewrite (digits_val_firstn ds (d + 1) 1); auto; [|lia]. rewrite Hv. reflexivity. }
  assert (Hvlt : (v < 10 ^ N.of_nat (d + 1))%N).
  { rewrite <- Hv2. eapply N.lt_le_trans; [apply digits_val_lt; apply all_digits_firstn; auto|].
    rewrite firstn_length, Hl. apply N.pow_le_mono_r; lia. }
  rewrite parse_u64_digits; rewrite ?Hv2.
  2: { apply all_digits_firstn; auto. }
  2: { intros E. apply (f_equal (@length N)) in E. rewrite firstn_length, Hl in E. simpl in E. lia. }
  2: { eapply N.lt_trans; [exact Hvlt|]. 
       assert (10 ^ N.of_nat (d + 1) <= 10 ^ N.of_nat 8)%N by (apply N.pow_le_mono_r; lia).
       change (10 ^ N.of_nat 8)%N with 100000000%N in *. change (2 ^ 64)%N with 18446744073709551616%N. lia. }
  cbn [unwrap bind].
  set (r := (if (5 <=? v mod 10)%N then v / 10 + 1 else v / 10)%N).
  assert (Hr : r = ((v + 5) / 10)%N).
  { unfold r. pose proof (N.div_mod v 10 ltac:(lia)). pose proof (N.mod_lt v 10 ltac:(lia)).
    destruct (5 <=? v mod 10)%N eqn:E.
    - apply (N.div_unique (v + 5) 10 (v / 10 + 1) (v mod 10 - 5)); lia.
    - apply (N.div_unique (v + 5) 10 (v / 10) (v mod 10 + 5)); lia. }
  clearbody r.
  (* v = floor (F * 10^(d+1) / D) *)
  assert (Hv3 : Z.of_N v * D <= F * 10 ^ Z.of_nat (d + 1) < (Z.of_N v + 1) * D).
  { unfold v. rewrite N2Z.inj_div. rewrite Z2N.id by lia. unfold dp.
    rewrite Z.quot_div_nonneg by (try apply Z.mul_nonneg_nonneg; specialize (HP (d+2)%nat); lia).
    change (Z.of_N 10) with 10. rewrite Z.div_div by lia.
    replace (F * 10 ^ Z.of_nat (d + 2)) with (F * 10 ^ Z.of_nat (d + 1) * 10).
    2: { replace (Z.of_nat (d + 2)) with (Z.of_nat (d + 1) + 1) by lia. rewrite Z.pow_add_r by lia. lia. }
    rewrite Z.div_mul_cancel_r by lia. set (X := F * 10 ^ Z.of_nat (d + 1)).
    pose proof (Z.mul_div_le X D HD). pose proof (Z.mul_succ_div_gt X D HD). lia. }
  assert (Hr3 : (2 * Z.of_N r - 1) * D <= 2 * (F * 10 ^ Z.of_nat d) < (2 * Z.of_N r + 1) * D).
  { assert (K : 10 * Z.of_N r <= Z.of_N v + 5 < 10 * Z.of_N r + 10).
    { rewrite Hr. rewrite N2Z.inj_div, N2Z.inj_add. change (Z.of_N 10) with 10. change (Z.of_N 5) with 5. clear.
      pose proof (Z.mul_div_le (Z.of_N v + 5) 10 ltac:(lia)). pose proof (Z.mul_succ_div_gt (Z.of_N v + 5) 10 ltac:(lia)). lia. }
    replace (10 ^ Z.of_nat (d + 1)) with (10 ^ Z.of_nat d * 10) in Hv3.
    2: { replace (Z.of_nat (d + 1)) with (Z.of_nat d + 1) by lia. rewrite Z.pow_add_r by lia. lia. }
    set (Y := F * 10 ^ Z.of_nat d) in *. replace (F * (10 ^ Z.of_nat d * 10)) with (10 * Y) in Hv3 by lia. nia. }
  assert (Hrle : Z.of_N r <= 10 ^ Z.of_nat d).
  { specialize (HP d). nia. }
  set (ip := q_trunc a) in *.
  assert (Hsgn : (ip = 0 <-> Z.abs n < D) /\ (ip < 0 <-> n <= - D) /\ (0 < ip <-> D <= n)).
  { unfold ip, q_trunc. fold n D. clear -HD. repeat split; intros.
    - pose proof (Z.quot_rem' n D). pose proof (Z.rem_bound_abs n D). nia.
    - apply Z.quot_small_iff; lia.
    - destruct (Z_lt_le_dec (- D) n); [|lia]. exfalso. 
      assert (0 <= n ÷ D). { destruct (Z_lt_le_dec n 0); [|apply Z.quot_pos; lia]. 
         replace n with (- (- n)) by lia. rewrite Z.quot_opp_l by lia. rewrite Z.quot_small; lia. } lia.
    - replace n with (- (- n)) by lia. rewrite Z.quot_opp_l by lia. 
      assert (1 <= (- n) ÷ D). { apply Z.quot_le_lower_bound; lia. } lia.
    - destruct (Z_lt_le_dec n D); [|lia]. exfalso.
      assert (n ÷ D <= 0). { destruct (Z_lt_le_dec n 0); [|rewrite Z.quot_small; lia].
         replace n with (- (- n)) by lia. rewrite Z.quot_opp_l by lia. assert (0 <= (- n) ÷ D) by (apply Z.quot_pos; lia). lia. } lia.
    - assert (1 <= n ÷ D). { apply Z.quot_le_lower_bound; lia. } lia. }
  assert (Hcarry : Nat.eqb (length (N_digits r)) (d + 1) = (Z.of_N r =? 10 ^ Z.of_nat d)).
  { pose proof (N_digits_length r d ltac:(lia)) as H1. pose proof (N_digits_length r (d + 1) ltac:(lia)) as H2.
    assert (K : (10 ^ N.of_nat (d + 1) = 10 ^ N.of_nat d * 10)%N).
    { replace (N.of_nat (d + 1)) with (N.succ (N.of_nat d)) by lia. rewrite N.pow_succ_r'. lia. }
    pose proof (N10 d) as K2. specialize (HP d).
    destruct (Z.of_N r =? 10 ^ Z.of_nat d) eqn:E.
    - apply Z.eqb_eq in E. apply Nat.eqb_eq. 
      assert (~ (length (N_digits r) <= d)%nat) by (rewrite H1; lia).
      assert ((length (N_digits r) <= d + 1)%nat) by (rewrite H2; lia). lia.
    - apply Z.eqb_neq in E. apply Nat.eqb_neq. assert ((length (N_digits r) <= d)%nat) by (apply H1; lia). lia. }
  rewrite Hcarry. set (carry := Z.of_N r =? 10 ^ Z.of_nat d).
  set (r' := if carry then 0%N else r).
  set (ip' := if carry then if 0 <? ip then ip + 1 else ip - 1 else ip).
  assert (Hr' : (r' < 10 ^ N.of_nat d)%N).
  { pose proof (N10 d). specialize (HP d). unfold r', carry. destruct (Z.of_N r =? 10 ^ Z.of_nat d) eqn:E; [|apply Z.eqb_neq in E]; lia. }
  exists (Z_text ip' ++ [c_dot] ++ pad0 d (N_digits r') ++ [c_sp] ++ name), (ip' <? 0),
    (Z.to_N (Z.abs ip') * 10 ^ N.of_nat d + r')%N.
  split; [reflexivity|]. split; [|split].
  - exists (N_digits (Z.to_N (Z.abs ip'))), (pad0 d (N_digits r')).
    split; [|split; [|split; [|split; [|split; [|split]]]]].
    + unfold Z_text. destruct (ip' <? 0) eqn:E.
      * rewrite <- app_comm_cons. rewrite Z.abs_neq by lia. reflexivity.
      * rewrite Z.abs_eq by lia. reflexivity.
    + apply only_digits_iff. apply N_digits_all.
    + apply only_digits_iff. apply pad0_all. apply N_digits_all.
    + intros E. pose proof (N_digits_nonempty (Z.to_N (Z.abs ip'))) as H. rewrite E in H. simpl in H. lia.
    + apply pad0_length. apply N_digits_length; [lia|auto].
    + intros H. apply N_digits_spec; auto.
    + rewrite dec_value_eq, digits_val_app, pad0_val, !N_digits_val, pad0_length; auto.
      apply N_digits_length; [lia|auto].
  - apply nearest_iff. fold n D.
    assert (K : Z.of_N (Z.to_N (Z.abs ip') * 10 ^ N.of_nat d + r') = Z.abs ip * 10 ^ Z.of_nat d + Z.of_N r).
    { rewrite N2Z.inj_add, N2Z.inj_mul, N10, Z2N.id by lia. unfold ip', r', carry.
      destruct (Z.of_N r =? 10 ^ Z.of_nat d) eqn:E; [apply Z.eqb_eq in E; rewrite E|]; [|lia].
      destruct (0 <? ip) eqn:E2; specialize (HP d); nia. }
    rewrite K, Hn. specialize (HP d). nia.
  - fold n D. specialize (HP d). pose proof (N10 d) as K2. unfold ip', r', carry.
    destruct (Z.of_N r =? 10 ^ Z.of_nat d) eqn:E; [apply Z.eqb_eq in E|apply Z.eqb_neq in E].
    + destruct (0 <? ip) eqn:E2.
      * split; [lia|]. intros [H|[H _]]; lia.
      * split; [|lia]. intros _. destruct (Z.eq_dec ip 0) as [E0|E0].
        -- right. split; [tauto|]. rewrite E0. simpl Z.abs. change (Z.to_N (Z.abs (0 - 1))) with 1%N. lia.
        -- left. destruct Hsgn as (_ & Hs & _). apply Hs. lia.
    + split.
      * intros H. left. destruct Hsgn as (_ & Hs & _). apply Hs. lia.
      * intros [H|[H Hx]]; [lia|]. assert (ip = 0) by tauto. rewrite H0 in Hx. change (Z.to_N (Z.abs 0)) with 0%N in Hx. lia.
Qed.
