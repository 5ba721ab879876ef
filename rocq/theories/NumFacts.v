(** Facts about decimal numerals. *)
From Verif Require Import Base Numerals BaseFacts.
From Coq Require Import Lia ZifyBool ZifyNat ZifyN.
Open Scope N_scope.
Local Arguments N.add : simpl never.
Local Arguments N.sub : simpl never.
Local Arguments N.mul : simpl never.
Local Arguments N.div : simpl never.
Local Arguments N.modulo : simpl never.
Local Arguments N.pow : simpl never.
Local Arguments N.of_nat : simpl never.

Lemma digits_val_acc_eq s : forall acc, digits_val_acc s acc = acc * 10 ^ N.of_nat (length s) + digits_val s.
Proof.
  unfold digits_val. induction s as [|c s IH]; intros acc.
  - simpl. lia.
  - cbn [digits_val_acc length]. rewrite IH, (IH (0 * 10 + (c - 48))).
    rewrite Nat2N.inj_succ, N.pow_succ_r'. lia.
Qed.
Lemma digits_val_app s1 s2 : digits_val (s1 ++ s2) = digits_val s1 * 10 ^ N.of_nat (length s2) + digits_val s2.
Proof.
  unfold digits_val. assert (H : forall acc, digits_val_acc (s1 ++ s2) acc = digits_val_acc s2 (digits_val_acc s1 acc)).
  { induction s1; intros; simpl; auto. }
  rewrite H, digits_val_acc_eq. reflexivity.
Qed.
Lemma digits_val_cons c s : digits_val (c :: s) = (c - 48) * 10 ^ N.of_nat (length s) + digits_val s.
Proof. change (c :: s) with ([c] ++ s). rewrite digits_val_app. unfold digits_val at 1. simpl. lia. Qed.
Lemma digits_val_repeat0 n : digits_val (repeat c_0 n) = 0.
Proof. induction n; auto. Qed.
Lemma digits_val_lt s : all_digits s = true -> digits_val s < 10 ^ N.of_nat (length s).
Proof.
  induction s as [|c s IH]; intros H; [reflexivity|]. simpl in H. apply andb_true_iff in H. destruct H as [Hc Hs].
  apply IH in Hs. rewrite digits_val_cons. cbn [length]. rewrite Nat2N.inj_succ, N.pow_succ_r'.
  unfold is_digit in Hc. assert (c - 48 <= 9) by lia. nia.
Qed.
Lemma digits_val_lower c s : all_digits (c :: s) = true -> c <> 48 -> 10 ^ N.of_nat (length s) <= digits_val (c :: s).
Proof.
  intros H Hc. simpl in H. apply andb_true_iff in H. destruct H as [H1 H2]. unfold is_digit in H1.
  rewrite digits_val_cons. assert (1 <= c - 48) by lia. nia.
Qed.

Lemma digits_fuel_spec f : forall n acc, n < 10 ^ N.of_nat f -> (0 < f)%nat ->
  exists ds, digits_fuel f n acc = ds ++ acc /\ digits_val ds = n /\ all_digits ds = true /\
             ds <> [] /\ (hd 0 ds = 48 -> ds = [48]).
Proof.
  induction f as [|f IH]; intros n acc Hn Hf; [lia|]. cbn [digits_fuel].
  destruct (n <? 10) eqn:E.
  - exists [48 + n mod 10]. rewrite N.mod_small by lia. repeat split; simpl.
    + unfold digits_val. simpl. lia.
    + unfold is_digit. lia.
    + discriminate.
    + intros H. f_equal. lia.
  - assert (Hf0 : (0 < f)%nat). { destruct f; [|lia]. simpl in Hn. lia. }
    destruct (IH (n / 10) ((48 + n mod 10) :: acc)) as (ds & He & Hv & Hd & Hne & Hh); auto.
    { rewrite Nat2N.inj_succ, N.pow_succ_r' in Hn. apply N.div_lt_upper_bound; lia. }
    exists (ds ++ [48 + n mod 10]). rewrite He, <- app_assoc. repeat split.
    + rewrite digits_val_app, Hv. unfold digits_val. simpl length. change (10 ^ N.of_nat 1) with 10.
      simpl. assert (n = 10 * (n / 10) + n mod 10) by (apply N.div_mod; lia). lia.
    + unfold all_digits in *. rewrite forallb_app, Hd. simpl. unfold is_digit.
      assert (n mod 10 < 10) by (apply N.mod_lt; lia). lia.
    + destruct ds; discriminate.
    + intros H. destruct ds as [|x ds]; [congruence|]. simpl in H. subst x.
      specialize (Hh eq_refl). inversion Hh. subst ds. 
      exfalso. change (digits_val [48]) with 0 in Hv. assert (n / 10 = 0) by auto.
      apply N.div_small_iff in H; lia.
Qed.

Lemma size_nat_bound n : n < 10 ^ N.of_nat (S (N.size_nat n)).
Proof.
  destruct n as [|p]; [reflexivity|]. 
  assert (H : N.pos p < 2 ^ N.of_nat (N.size_nat (N.pos p))).
  { simpl. induction p; simpl Pos.size_nat; rewrite ?Nat2N.inj_succ, ?N.pow_succ_r'; try lia. }
  eapply N.lt_le_trans; [exact H|].
  eapply N.le_trans; [apply N.pow_le_mono_l with (b := 10); lia|]. apply N.pow_le_mono_r; lia.
Qed.

Lemma N_digits_spec n :
  digits_val (N_digits n) = n /\ all_digits (N_digits n) = true /\ N_digits n <> [] /\
  (hd 0 (N_digits n) = 48 -> N_digits n = [48]).
Proof.
  unfold N_digits. destruct (digits_fuel_spec (S (N.size_nat n)) n []) as (ds & He & Hv & Hd & Hne & Hh).
  - apply size_nat_bound.
  - lia.
  - rewrite He, app_nil_r. auto.
Qed.
Lemma N_digits_val n : digits_val (N_digits n) = n.
Proof. apply N_digits_spec. Qed.
Lemma N_digits_all n : all_digits (N_digits n) = true.
Proof. apply N_digits_spec. Qed.
Lemma N_digits_nonempty n : (0 < length (N_digits n))%nat.
Proof. destruct (N_digits_spec n) as (_ & _ & H & _). destruct (N_digits n); [congruence|simpl; lia]. Qed.

Lemma N_digits_length n k : (0 < k)%nat -> ((length (N_digits n) <= k)%nat <-> n < 10 ^ N.of_nat k).
Proof.
  intros Hk. destruct (N_digits_spec n) as (Hv & Hd & Hne & Hh). split.
  - intros Hl. rewrite <- Hv. eapply N.lt_le_trans; [apply digits_val_lt; auto|].
    apply N.pow_le_mono_r; lia.
  - intros Hn. destruct (N_digits n) as [|c s] eqn:E; [simpl; lia|].
    destruct (N.eq_dec c 48) as [->|Hc].
    + rewrite (Hh eq_refl). simpl. lia.
    + assert (H := digits_val_lower c s Hd Hc). rewrite Hv in H. simpl.
      destruct (le_lt_dec (S (length s)) k) as [H'|H']; auto. exfalso.
      assert (10 ^ N.of_nat k <= 10 ^ N.of_nat (length s)) by (apply N.pow_le_mono_r; lia). lia.
Qed.

Lemma pad0_val k s : digits_val (pad0 k s) = digits_val s.
Proof. unfold pad0. rewrite digits_val_app, digits_val_repeat0. lia. Qed.
Lemma all_digits_repeat0 n : all_digits (repeat c_0 n) = true.
Proof. induction n; auto. Qed.
Lemma all_digits_app a b : all_digits (a ++ b) = all_digits a && all_digits b.
Proof. apply forallb_app. Qed.
Lemma pad0_all k s : all_digits s = true -> all_digits (pad0 k s) = true.
Proof. intros H. unfold pad0. rewrite all_digits_app, all_digits_repeat0, H. auto. Qed.
Lemma pad0_length k s : (length s <= k)%nat -> length (pad0 k s) = k.
Proof. intros. unfold pad0. rewrite app_length, repeat_length. lia. Qed.

Lemma digits_val_firstn s k j : all_digits s = true -> (length s = k + j)%nat ->
  digits_val (firstn k s) = digits_val s / 10 ^ N.of_nat j.
Proof.
  intros Hd Hl. rewrite <- (firstn_skipn k s) at 2. rewrite digits_val_app.
  assert (Hs : length (skipn k s) = j) by (rewrite skipn_length; lia). rewrite Hs.
  assert (Hd' : all_digits (skipn k s) = true).
  { rewrite <- (firstn_skipn k s), all_digits_app in Hd. apply andb_true_iff in Hd. tauto. }
  apply digits_val_lt in Hd'. rewrite Hs in Hd'.
  rewrite N.div_add_l by (apply N.pow_nonzero; lia). rewrite (N.div_small (digits_val (skipn k s))) by auto. lia.
Qed.
Lemma all_digits_firstn k s : all_digits s = true -> all_digits (firstn k s) = true.
Proof.
  intros Hd. rewrite <- (firstn_skipn k s), all_digits_app in Hd. apply andb_true_iff in Hd. tauto.
Qed.

Lemma parse_u64_digits s : all_digits s = true -> s <> [] -> digits_val s < 2 ^ 64 ->
  parse_u64 s = Some (digits_val s).
Proof.
  intros Hd Hn Hv. unfold parse_u64. destruct s as [|c s]; [congruence|]. rewrite Hd.
  destruct (digits_val (c :: s) <? 2 ^ 64) eqn:E; auto. apply N.ltb_ge in E. lia.
Qed.

Lemma parse_bigint_text z : parse_bigint (Z_text z) = Some z.
Proof.
  unfold Z_text, parse_bigint. destruct (z <? 0)%Z eqn:E.
  - rewrite N.eqb_refl. pose proof (N_digits_nonempty (Z.to_N (- z))) as H.
    pose proof (N_digits_spec (Z.to_N (- z))) as (Hv & Hd & _).
    destruct (N_digits (Z.to_N (- z))); [simpl in H; lia|]. rewrite Hd, Hv. f_equal. lia.
  - pose proof (N_digits_spec (Z.to_N z)) as (Hv & Hd & Hne & _).
    destruct (N_digits (Z.to_N z)) as [|c s] eqn:E2; [congruence|].
    assert (c =? c_minus = false). { simpl in Hd. unfold is_digit, c_minus in *. lia. }
    rewrite H, Hd, Hv. f_equal. lia.
Qed.
