(** Dates: day numbers, [date_parser], and the grammar's dates and times. *)
From Coq Require Import Lia Znumtheory.
From Verif Require Import Base BaseFacts Numerals NumFacts Money Txn Peg Grammar PegFacts Dates Spec SpecText LiteralFacts SpecExpr ExprFacts
  Expr Tokens SpecDates.
Open Scope Z_scope.
Ltac Zify.zify_post_hook ::= Z.to_euclidean_division_equations.

(** ** The calendar *)
Lemma divide_mod a y : 0 < a -> ((a | y) <-> y mod a = 0).
Proof. intros. split; intros. apply Zdivide_mod; auto. apply Zmod_divide; [lia|auto]. Qed.
Lemma leap_spec y : is_leap y = true <-> leap_year y.
Proof.
  unfold is_leap, leap_year. rewrite !divide_mod by lia. rewrite orb_true_iff, andb_true_iff, negb_true_iff, !Z.eqb_eq, Z.eqb_neq. lia.
Qed.
Lemma month_length_spec y m n : month_length y m n <-> 1 <= m <= 12 /\ n = days_in_month y m.
Proof.
  assert (L0 := leap_spec y). unfold days_in_month. split.
  - intros H. inv H; [| |cbn in H0; intuition (subst; cbn; lia)..].
    + destruct (is_leap y) eqn:E; cbn; [lia|]. apply L0 in H0. congruence.
    + destruct (is_leap y) eqn:E; cbn; [tauto|lia].
  - intros [H ->]. assert (M : m = 2 \/ In m [4; 6; 9; 11] \/ In m [1; 3; 5; 7; 8; 10; 12]) by (cbn; lia).
    destruct M as [->|[M|M]].
    + cbn. destruct (is_leap y) eqn:E; constructor; [apply L0; auto|rewrite <- L0; congruence].
    + replace (if _ : bool then _ else _) with 30; [constructor; auto|]. cbn in M. intuition (subst; reflexivity).
    + replace (if _ : bool then _ else _) with 31; [constructor; auto|]. cbn in M. intuition (subst; reflexivity).
Qed.
Lemma calendar_spec y m d : calendar_day y m d <-> 1 <= m <= 12 /\ 1 <= d <= days_in_month y m.
Proof.
  split.
  - intros (n & H & Hd). apply month_length_spec in H. destruct H as [H ->]. auto.
  - intros [H H2]. exists (days_in_month y m). split; auto. apply month_length_spec. auto.
Qed.
Lemma valid_spec y m d : valid_ymd y m d = true <-> in_range y /\ calendar_day y m d.
Proof. rewrite calendar_spec. unfold valid_ymd, in_range. rewrite !andb_true_iff, !Z.leb_le. tauto. Qed.
Lemma from_spec y m d n : from_ymd y m d = Some n <-> in_range y /\ calendar_day y m d /\ n = day_number y m d.
Proof.
  unfold from_ymd. assert (V := valid_spec y m d). destruct (valid_ymd y m d).
  - assert (in_range y /\ calendar_day y m d) by (apply V; auto). split; intros H0; [inv H0; tauto|destruct H0 as (_ & _ & ->); auto].
  - split; [discriminate|]. intros (H1 & H2 & _). assert (false = true) by (apply V; auto). discriminate.
Qed.
Lemma div_step a y : 0 < a -> y / a = (y - 1) / a + (if y mod a =? 0 then 1 else 0).
Proof. intros H. destruct (Z.eqb_spec (y mod a) 0); nia. Qed.
Lemma year_step y : days_before_year (y + 1) = days_before_year y + 365 + (if is_leap y then 1 else 0).
Proof.
  unfold days_before_year, is_leap. replace (y + 1 - 1) with y by lia.
  rewrite (div_step 4 y), (div_step 100 y), (div_step 400 y) by lia.
  destruct (Z.eqb_spec (y mod 4) 0), (Z.eqb_spec (y mod 100) 0), (Z.eqb_spec (y mod 400) 0); cbn [negb andb orb]; try lia.
Qed.
Lemma dim_bounds y m : 28 <= days_in_month y m <= 31.
Proof. unfold days_in_month. destruct (m =? 2); [destruct (is_leap y)|destruct (_ || _)]; lia. Qed.
Lemma year_total y : days_before_month y 12 = 365 + (if is_leap y then 1 else 0).
Proof. unfold days_before_month, days_in_month. cbn. destruct (is_leap y); reflexivity. Qed.
Lemma dbm_step y m : 1 <= m -> days_before_month y (Z.to_nat m) = days_before_month y (Z.to_nat (m - 1)) + days_in_month y m.
Proof. intros H. replace (Z.to_nat m) with (S (Z.to_nat (m - 1))) by lia. cbn [days_before_month]. repeat f_equal. lia. Qed.
Lemma dbm_mono y a b : (a <= b)%nat -> days_before_month y a <= days_before_month y b.
Proof. induction 1; [lia|]. cbn [days_before_month]. pose proof (dim_bounds y (Z.of_nat (S m))). lia. Qed.
Lemma dby_mono a b : a <= b -> days_before_year a <= days_before_year b.
Proof. intros H. unfold days_before_year. lia. Qed.
Lemma day_next y m d y' m' d' : day_after y m d y' m' d' -> day_number y' m' d' = day_number y m d + 1.
Proof.
  intros H. destruct H as [y m d H H0|y m d H0 H|y]; unfold day_number.
  - lia.
  - apply month_length_spec in H0. destruct H0 as [H0 ->]. replace (m + 1 - 1) with m by lia. rewrite (dbm_step y m) by lia. lia.
  - rewrite year_step. change (Z.to_nat (1 - 1)) with O. change (days_before_month (y + 1) 0) with 0.
    pose proof (year_total y) as T. change 12%nat with (Z.to_nat 12) in T. rewrite (dbm_step y 12) in T by lia. change (days_in_month y 12) with 31 in T. lia.
Qed.
Lemma day_in_year y m d : calendar_day y m d ->
  days_before_year y <= day_number y m d < days_before_year (y + 1).
Proof.
  rewrite calendar_spec. intros [Hm Hd]. unfold day_number. rewrite year_step.
  assert (0 <= days_before_month y (Z.to_nat (m - 1))) by (apply (dbm_mono y 0); lia).
  assert (E := dbm_mono y (Z.to_nat m) 12 ltac:(lia)). rewrite dbm_step in E by lia. pose proof (year_total y). lia.
Qed.
Lemma day_mono y m d y' m' d' : calendar_day y m d -> calendar_day y' m' d' -> earlier y m d y' m' d' ->
  day_number y m d < day_number y' m' d'.
Proof.
  intros H H' [E|[-> [E|[-> E]]]].
  - apply day_in_year in H, H'. assert (E2 := dby_mono (y + 1) y' ltac:(lia)). lia.
  - rewrite calendar_spec in H, H'. unfold day_number. assert (E2 := dbm_mono y' (Z.to_nat m) (Z.to_nat (m' - 1)) ltac:(lia)).
    rewrite dbm_step in E2 by lia. lia.
  - unfold day_number. lia.
Qed.
Lemma earlier_total y m d y' m' d' : earlier y m d y' m' d' \/ (y = y' /\ m = m' /\ d = d') \/ earlier y' m' d' y m d.
Proof. unfold earlier. lia. Qed.
Lemma day_order y m d y' m' d' : calendar_day y m d -> calendar_day y' m' d' ->
  (day_number y m d < day_number y' m' d' <-> earlier y m d y' m' d').
Proof.
  intros H H'. split; [|apply day_mono; auto]. intros Hlt.
  destruct (earlier_total y m d y' m' d') as [E|[(-> & -> & ->)|E]]; auto; [lia|].
  apply day_mono in E; auto. lia.
Qed.
Lemma day_inj y m d y' m' d' : calendar_day y m d -> calendar_day y' m' d' ->
  day_number y m d = day_number y' m' d' -> y = y' /\ m = m' /\ d = d'.
Proof.
  intros H H' E. destruct (earlier_total y m d y' m' d') as [X|[X|X]]; auto; apply day_mono in X; auto; lia.
Qed.

(** ** Back from day numbers *)
Lemma year_adjust_spec f : forall n y, days_before_year y <= n < days_before_year (y + Z.of_nat f + 1) ->
  days_before_year (year_adjust f n y) <= n < days_before_year (year_adjust f n y + 1).
Proof.
  induction f as [|f IH]; intros n y H; cbn [year_adjust].
  - replace (y + Z.of_nat 0 + 1) with (y + 1) in H by lia. auto.
  - destruct (Z.leb_spec (days_before_year (y + 1)) n); [|lia]. apply IH.
    replace (y + 1 + Z.of_nat f + 1) with (y + Z.of_nat (S f) + 1) by lia. lia.
Qed.
Lemma dby_period y c : days_before_year (400 * c + y) = 146097 * c + days_before_year y.
Proof. unfold days_before_year. lia. Qed.
Lemma year_of_spec n : days_before_year (year_of n) <= n < days_before_year (year_of n + 1).
Proof.
  unfold year_of. set (c := n / 146097). set (r := n mod 146097).
  assert (Hr : 0 <= r < 146097) by (unfold r; apply Z.mod_pos_bound; lia).
  assert (En : n = 146097 * c + r) by (unfold c, r; apply Z.div_mod; lia).
  assert (B : days_before_year (year_adjust 3 r (r / 366 + 1)) <= r < days_before_year (year_adjust 3 r (r / 366 + 1) + 1)).
  { apply year_adjust_spec. cbn [Z.of_nat]. change (Z.of_nat 3) with 3. unfold days_before_year.
    set (p := r / 366). assert (366 * p <= r < 366 * p + 366) by (unfold p; lia). clearbody p. clear En. lia. }
  rewrite <- Z.add_assoc, !dby_period. lia.
Qed.
Lemma month_find_spec f : forall y m k, 1 <= m -> m + Z.of_nat f = 12 -> 0 <= k ->
  days_before_month y (Z.to_nat (m - 1)) + k < days_before_month y 12 ->
  let '(m', d') := month_find f y m k in
  1 <= m' <= 12 /\ 1 <= d' <= days_in_month y m' /\
  days_before_month y (Z.to_nat (m' - 1)) + d' - 1 = days_before_month y (Z.to_nat (m - 1)) + k.
Proof.
  induction f as [|f IH]; intros y m k Hm Hf Hk Hlt; cbn [month_find].
  - assert (m = 12) by lia. subst. change 12%nat with (Z.to_nat 12) in Hlt.
    rewrite (dbm_step y 12) in Hlt by lia. repeat split; lia.
  - destruct (Z.ltb_spec k (days_in_month y m)).
    + repeat split; lia.
    + specialize (IH y (m + 1) (k - days_in_month y m) ltac:(lia) ltac:(lia) ltac:(lia)).
      replace (m + 1 - 1) with m in IH by lia. rewrite (dbm_step y m) in IH by lia.
      specialize (IH ltac:(lia)). destruct (month_find f y (m + 1) (k - days_in_month y m)) as [m' d'].
      destruct IH as (A & B & C). repeat split; try lia.
Qed.
Lemma to_ymd_spec n : let '(y, m, d) := to_ymd n in calendar_day y m d /\ day_number y m d = n.
Proof.
  unfold to_ymd. pose proof (year_of_spec n) as [A B]. set (y := year_of n) in *. rewrite year_step in B.
  pose proof (month_find_spec 11 y 1 (n - days_before_year y) ltac:(lia) ltac:(reflexivity) ltac:(lia)) as C.
  change (days_before_month y (Z.to_nat (1 - 1))) with 0 in C. rewrite year_total in C. specialize (C ltac:(lia)).
  destruct (month_find 11 y 1 (n - days_before_year y)) as [m d]. destruct C as (C1 & C2 & C3).
  split; [apply calendar_spec; auto|]. unfold day_number. lia.
Qed.
Lemma to_ymd_day y m d : calendar_day y m d -> to_ymd (day_number y m d) = (y, m, d).
Proof.
  intros H. pose proof (to_ymd_spec (day_number y m d)) as S. destruct (to_ymd (day_number y m d)) as [[y' m'] d'].
  destruct S as [S1 S2]. destruct (day_inj _ _ _ _ _ _ S1 H S2) as (-> & -> & ->). auto.
Qed.

(** ** Counting days *)
Lemma succ_exists y m d : calendar_day y m d -> exists y' m' d', day_after y m d y' m' d' /\ calendar_day y' m' d'.
Proof.
  intros H. pose proof H as H0. apply calendar_spec in H. destruct (Z.eq_dec d (days_in_month y m)) as [E|E].
  - assert (L0 : month_length y m d) by (apply month_length_spec; split; [lia|auto]).
    destruct (Z.eq_dec m 12) as [->|E2].
    + assert (d = 31) by (rewrite E; reflexivity). subst d. exists (y + 1), 1, 1. split; [constructor|].
      apply calendar_spec. pose proof (dim_bounds (y + 1) 1). lia.
    + exists y, (m + 1), 1. split; [apply da_month; [auto|lia]|]. apply calendar_spec. pose proof (dim_bounds y (m + 1)). lia.
  - assert (C : calendar_day y m (d + 1)) by (apply calendar_spec; lia). exists y, m, (d + 1). split; auto. constructor; auto.
Qed.
Lemma to_ymd_succ n : let '(y, m, d) := to_ymd n in let '(y', m', d') := to_ymd (n + 1) in day_after y m d y' m' d'.
Proof.
  pose proof (to_ymd_spec n) as S. pose proof (to_ymd_spec (n + 1)) as S'.
  destruct (to_ymd n) as [[y m] d], (to_ymd (n + 1)) as [[y' m'] d']. destruct S as [S1 S2], S' as [S1' S2'].
  destruct (succ_exists _ _ _ S1) as (y2 & m2 & d2 & A & C). pose proof (day_next _ _ _ _ _ _ A) as N1.
  destruct (day_inj y2 m2 d2 y' m' d' C S1' ltac:(lia)) as (<- & <- & <-). auto.
Qed.
Lemma count_all n : let '(y, m, d) := to_ymd n in day_count y m d n.
Proof.
  revert n. apply Z.bi_induction.
  - intros x y E. unfold Z.eq in E. subst. reflexivity.
  - apply dc_origin.
  - intros n. pose proof (to_ymd_succ n) as S. pose proof (to_ymd_spec n) as C.
    change (Z.succ n) with (n + 1). destruct (to_ymd n) as [[y m] d], (to_ymd (n + 1)) as [[y' m'] d'].
    split; intros H.
    + eapply dc_next; eauto.
    + replace n with (n + 1 - 1) by lia. eapply dc_prev; eauto. tauto.
Qed.
Lemma count_number y m d n : day_count y m d n -> calendar_day y m d /\ n = day_number y m d.
Proof.
  induction 1 as [|y m d n y' m' d' H IH A|y m d y' m' d' n H IH A C].
  - split; [apply calendar_spec; cbn; lia|reflexivity].
  - destruct IH as [C ->]. pose proof (day_next _ _ _ _ _ _ A). split; [|lia].
    destruct (succ_exists _ _ _ C) as (y2 & m2 & d2 & A2 & C2).
    pose proof (to_ymd_day _ _ _ C) as T1. pose proof (to_ymd_succ (day_number y m d)) as T2. rewrite T1 in T2.
    destruct A as [y m d _ C3|y m d L0 Hm|y]; auto.
    + apply calendar_spec. apply month_length_spec in L0. pose proof (dim_bounds y (m + 1)). lia.
    + apply calendar_spec. pose proof (dim_bounds (y + 1) 1). lia.
  - destruct IH as [_ ->]. pose proof (day_next _ _ _ _ _ _ A). split; [auto|lia].
Qed.
Lemma day_count_spec y m d n : day_count y m d n <-> calendar_day y m d /\ n = day_number y m d.
Proof.
  split; [apply count_number|]. intros [C ->]. pose proof (count_all (day_number y m d)) as H. rewrite (to_ymd_day _ _ _ C) in H. auto.
Qed.

(** ** [date_parser] *)
Definition no_digit (s : str) : Prop := match s with c :: _ => is_digit c = false | [] => True end.
Lemma one_or_two_ok {A} n s r (k : Z -> str -> option A) x : written 2 n s -> no_digit r -> k n r = Some x ->
  one_or_two (s ++ r) k = Some x.
Proof.
  intros (H1 & H2 & H3 & <-) Hr Hk. apply only_digits_all in H1. rewrite dec_value_val in Hk.
  destruct s as [|a [|b [|c s]]]; [congruence| | |cbn in H3; lia]; cbn in H1; rewrite ?andb_true_r in H1.
  - cbn [app one_or_two]. rewrite H1. destruct r as [|b r]; auto. cbn in Hr. rewrite Hr. auto.
  - apply andb_true_iff in H1. destruct H1 as [Ha Hb]. cbn [app one_or_two]. rewrite Ha, Hb. unfold num_of. rewrite Hk. auto.
Qed.
Lemma four_ok {A} n s r (k : Z -> str -> option A) : written 4 n s -> length s = 4%nat -> four_digits (s ++ r) k = k n r.
Proof.
  intros (H1 & _ & _ & <-) H. apply only_digits_all in H1. rewrite dec_value_val.
  destruct s as [|a [|b [|c [|d [|? ?]]]]]; try discriminate. cbn [app four_digits]. cbn in H1. rewrite andb_true_r, !andb_assoc in H1.
  rewrite H1. reflexivity.
Qed.
Lemma sep_no_digit c r : In c (L "/-") -> no_digit (c :: r) /\ is_dsep c = true.
Proof. cbn. intros [<-|[<-|[]]]; auto. Qed.
Lemma leftmost_here {A} (f : str -> option A) s x : f s = Some x -> leftmost f s = Some x.
Proof. intros H. destruct s; cbn; rewrite H; auto. Qed.
Lemma one_or_two_len {A} s (k : Z -> str -> option A) x n :
  (forall z r y, k z r = Some y -> (n <= length r)%nat) -> one_or_two s k = Some x -> (S n <= length s)%nat.
Proof.
  intros Hk H. destruct s as [|a r]; [discriminate|]. cbn in H. destruct (is_digit a); [|discriminate].
  destruct r as [|b r]; [apply Hk in H; cbn in *; lia|].
  destruct (is_digit b); [|apply Hk in H; cbn in *; lia].
  destruct (k (num_of [a; b]) r) eqn:E; [apply Hk in E; cbn; lia|apply Hk in H; cbn in *; lia].
Qed.
Lemma dsep_len {A} s (k : str -> option A) x n :
  (forall r y, k r = Some y -> (n <= length r)%nat) -> dsep s k = Some x -> (S n <= length s)%nat.
Proof. intros Hk H. destruct s as [|a r]; [discriminate|]. cbn in H. destruct (is_dsep a); [|discriminate]. apply Hk in H. cbn. lia. Qed.
Lemma four_len {A} s (k : Z -> str -> option A) x n :
  (forall z r y, k z r = Some y -> (n <= length r)%nat) -> four_digits s k = Some x -> (4 + n <= length s)%nat.
Proof.
  intros Hk H. destruct s as [|a [|b [|c [|d r]]]]; try discriminate. cbn in H. destruct (_ && _); [|discriminate].
  apply Hk in H. cbn. lia.
Qed.
Lemma re_date_len s x : re_date_at s = Some x -> (8 <= length s)%nat.
Proof.
  unfold re_date_at. intros H. eapply (four_len _ _ _ 4) in H; auto. intros y s1 x1 H1. eapply (dsep_len _ _ _ 3); [|exact H1].
  intros s2 x2 H2. eapply (one_or_two_len _ _ _ 2); [|exact H2]. intros m s3 x3 H3. eapply (dsep_len _ _ _ 1); [|exact H3].
  intros s4 x4 H4. eapply (one_or_two_len _ _ _ 0); [|exact H4]. intros. lia.
Qed.
Lemma leftmost_short {A} (f : str -> option A) n : (forall s x, f s = Some x -> (n <= length s)%nat) ->
  forall s, (length s < n)%nat -> leftmost f s = None.
Proof.
  intros Hf. induction s as [|c s IH]; intros H; cbn.
  - destruct (f []) eqn:E; auto. apply Hf in E. lia.
  - destruct (f (c :: s)) eqn:E; [apply Hf in E; lia|]. apply IH. cbn in H. lia.
Qed.
Lemma date_parser_full w y m d s : date_written (L "/-") y m d s ->
  date_parser w s = match from_ymd y m d with Some n => Ok (Some n) | None => Panic PExplicit end.
Proof.
  intros (ty & tm & td & a & b & -> & Hl & Hy & Hm & Hd & Ha & Hb). unfold date_parser.
  rewrite (leftmost_here re_date_at _ (y, m, d)); auto. unfold re_date_at. rewrite (four_ok y); auto.
  destruct (sep_no_digit a (tm ++ b :: td) Ha) as [_ Da]. cbn [dsep]. rewrite Da.
  destruct (sep_no_digit b td Hb) as [Nb Db].
  apply (one_or_two_ok m); auto. cbn [dsep]. rewrite Db. rewrite <- (app_nil_r td). apply (one_or_two_ok d); cbn; auto.
Qed.
Lemma date_parser_month w y m s : month_written (L "/-") y m s ->
  date_parser w s = match from_ymd y m 1 with Some n => Ok (Some n) | None => Panic PExplicit end.
Proof.
  intros (ty & tm & a & -> & Hl & Hy & Hm & Ha). unfold date_parser.
  rewrite (leftmost_short re_date_at 8); [|apply re_date_len|]. 2: { rewrite app_length. cbn. destruct Hm as (_ & _ & Hm & _). lia. }
  rewrite (leftmost_here re_month_at _ (y, m)); auto. unfold re_month_at. rewrite (four_ok y); auto.
  destruct (sep_no_digit a tm Ha) as [_ Da]. cbn [dsep]. rewrite Da. rewrite <- (app_nil_r tm). apply (one_or_two_ok m); cbn; auto.
Qed.

(** ** Printing *)
Lemma written_pad k z : 0 <= z < 10 ^ Z.of_nat k -> (0 < k)%nat ->
  written k z (pad0 k (N_digits (Z.to_N z))) /\ length (pad0 k (N_digits (Z.to_N z))) = k.
Proof.
  intros H Hk. assert (L0 : (length (N_digits (Z.to_N z)) <= k)%nat).
  { apply N_digits_length; auto. apply N2Z.inj_lt. rewrite N2Z.inj_pow, Z2N.id, nat_N_Z by lia. apply H. }
  assert (L1 := pad0_length k _ L0). split; auto. unfold written. split; [|split; [|split]].
  - apply only_digits_all, pad0_all, N_digits_all.
  - intros E. rewrite E in L1. cbn in L1. lia.
  - lia.
  - rewrite dec_value_val, pad0_val, N_digits_val. lia.
Qed.
Lemma date_text_written n : let '(y, m, d) := to_ymd n in 0 <= y <= 9999 -> date_written (L "-") y m d (date_text n).
Proof.
  unfold date_text. pose proof (to_ymd_spec n) as S. destruct (to_ymd n) as [[y m] d]. destruct S as [S _]. intros Hy.
  apply calendar_spec in S. pose proof (dim_bounds y m).
  replace ((0 <=? y) && (y <=? 9999)) with true by (symmetry; apply andb_true_iff; rewrite !Z.leb_le; lia).
  destruct (written_pad 4 y ltac:(cbn; lia) ltac:(lia)) as [A1 A2].
  destruct (written_pad 2 m ltac:(cbn; lia) ltac:(lia)) as [B1 B2].
  destruct (written_pad 2 d ltac:(cbn; lia) ltac:(lia)) as [C1 C2].
  eexists _, _, _, c_minus, c_minus. split; [reflexivity|]. repeat (split; [assumption|]). cbn. auto.
Qed.

(** ** Dates in the grammar *)
Lemma p_bigint p r : all_digits p = true -> p <> [] -> no_digit r -> P (R Rbigint) (p ++ r) (POk [] r).
Proof.
  intros Ha Hne Hs. eapply s_rule_silent; [reflexivity|]. destruct p as [|c p]; [congruence|].
  simpl in Ha. apply andb_true_iff in Ha. destruct Ha as [Hc Ha].
  apply (s_seq_ok grammar _ _ _ [] (p ++ r) [] r).
  - apply s_class. auto.
  - apply s_class_star; auto. destruct r; auto.
Qed.
Lemma p_year p r : only_digits p -> p <> [] -> no_digit r -> P (R Ryear) (p ++ r) (POk [Pair Ryear p []] r).
Proof.
  intros H Hn Hr. apply only_digits_all in H. eapply s_rule; [reflexivity|].
  apply (s_seq_ok grammar _ _ _ [] (p ++ r) [] r); [|apply p_bigint; auto].
  apply s_alt2; [|apply s_empty]. apply s_str_fail. destruct p as [|c p]; [congruence|].
  simpl in H. apply andb_true_iff in H. destruct (is_digit_not c (proj1 H)) as [_ E].
  change (L "-") with [c_minus]. cbn [app strip_prefix]. rewrite N.eqb_sym, E. auto.
Qed.
Lemma p_sep c r : In c (L "./-") -> P (R Rdate_sep) (c :: r) (POk [Pair Rdate_sep [c] []] r).
Proof.
  intros H. change (c :: r) with ([c] ++ r). eapply s_rule; [reflexivity|].
  cbn in H. destruct H as [<-|[<-|[<-|[]]]]; run 9%nat.
Qed.
Ltac absurd_value X := exfalso; match type of X with context [dec_value ?s] => let v := eval vm_compute in (dec_value s) in change (dec_value s) with v in X end; lia.
Ltac alldigits := repeat match goal with X : is_digit ?n = true |- _ => is_var n; digits X end.
Ltac two H := match type of H with written 2 _ ?s =>
  let H1 := fresh in let H2 := fresh in let H3 := fresh in
  destruct H as (H1 & H2 & H3 & <-); apply only_digits_all in H1; 
  destruct s as [|? [|? [|? ?]]]; [congruence| | |cbn in H3; exfalso; lia]; clear H2 H3; unfold all_digits in H1; cbn [forallb] in H1; rewrite ?andb_true_r in H1;
  try (match type of H1 with (is_digit _ && is_digit _)%bool = true => apply andb_true_iff in H1; destruct H1 end) end.
Lemma p_month m s c r : written 2 m s -> In c (L "./-") ->
  (1 <= m <= 12 -> P (R Rmonth) (s ++ c :: r) (POk [Pair Rmonth s []] (c :: r))) /\
  (~ 1 <= m <= 12 -> P (R Rmonth) (s ++ c :: r) PFail \/
    exists k x r', P (R Rmonth) (s ++ c :: r) (POk k (x :: r')) /\ is_digit x = true).
Proof.
  intros H Hc.
  assert (Hr : forall s, P (snd (grammar Rmonth)) (s ++ c :: r) (POk [] (c :: r)) -> P (R Rmonth) (s ++ c :: r) (POk [Pair Rmonth s []] (c :: r)))
    by (intros; eapply s_rule; [reflexivity|auto]).
  cbn in Hc. two H.
  - alldigits; destruct Hc as [<-|[<-|[<-|[]]]]; (split; [intros X; try (absurd_value X); apply Hr; run 9%nat
      |intros X; try (absurd_value X); left; run 9%nat]).
  - alldigits; destruct Hc as [<-|[<-|[<-|[]]]]; (split; [intros X; try (absurd_value X); apply Hr; run 9%nat
      |intros X; try (absurd_value X); first [left; run 9%nat|right; eexists _, _, _; split; [run 9%nat|reflexivity]]]).
Qed.
Lemma p_day d s r : written 2 d s -> no_digit r ->
  (1 <= d <= 31 -> P (R Rday) (s ++ r) (POk [Pair Rday s []] r)) /\
  (~ 1 <= d <= 31 -> P (R Rday) (s ++ r) PFail \/
    exists k x r', P (R Rday) (s ++ r) (POk k (x :: r')) /\ is_digit x = true).
Proof.
  intros H Hc.
  assert (Hr : forall s, P (snd (grammar Rday)) (s ++ r) (POk [] r) -> P (R Rday) (s ++ r) (POk [Pair Rday s []] r))
    by (intros; eapply s_rule; [reflexivity|auto]).
  assert (F : forall f, (forall c, f c = true -> is_digit c = true) -> P (EClass f) r PFail).
  { intros f Hf. apply s_class_fail. destruct r as [|c r]; auto. cbn in Hc. destruct (f c) eqn:E; auto. apply Hf in E. congruence. }
  assert (Fs : forall x, is_digit x = true -> P (EStr [x]) r PFail).
  { intros x Hx. apply s_str_fail. destruct r as [|c r]; auto. cbn in Hc |- *. destruct (N.eqb_spec x c); congruence. }
  two H.
  - assert (Nz : P nzdigit r PFail). { apply F. unfold is_digit. intros c. rewrite !andb_true_iff, !N.leb_le. lia. }
    assert (Dg : P digit r PFail) by (apply F; auto).
    assert (S0 := Fs 48%N eq_refl). assert (S1 := Fs 49%N eq_refl).
    assert (A : forall n, P (T (L "3") ~~ (T (L "0") /// T (L "1"))) ([n] ++ r) PFail).
    { intros n0. destruct (N.eqb_spec n0 51) as [->|E].
      - eapply (s_seq_fail2 grammar _ _ _ [] r); [apply (s_str grammar (L "3"))|]. apply s_alt2; auto.
      - apply s_seq_fail1, s_str_fail. cbn. destruct n0; try reflexivity. destruct (Pos.eqb_spec 51 p); congruence. }
    assert (B : forall n, P ((T (L "1") /// T (L "2")) ~~ digit) ([n] ++ r) PFail).
    { intros n0. destruct (N.eqb_spec n0 49) as [->|E]; [|destruct (N.eqb_spec n0 50) as [->|E2]].
      - eapply (s_seq_fail2 grammar _ _ _ [] r); [|exact Dg]. apply s_alt1. apply (s_str grammar (L "1")).
      - eapply (s_seq_fail2 grammar _ _ _ [] r); [|exact Dg]. apply s_alt2; [run 9%nat|apply (s_str grammar (L "2"))].
      - apply s_seq_fail1. apply s_alt2; apply s_str_fail; cbn; destruct n0; try reflexivity.
        + destruct (Pos.eqb_spec 49 p); congruence.
        + destruct (Pos.eqb_spec 50 p); congruence. }
    split.
    + intros X. apply Hr. apply s_alt2; [apply A|]. apply s_alt2; [apply B|].
      alldigits; try (absurd_value X); run 9%nat.
    + intros X. left. alldigits; try (absurd_value X). eapply s_rule_fail; [reflexivity|].
      apply s_alt2; [apply A|]. apply s_alt2; [apply B|].
      eapply (s_seq_fail2 grammar _ _ _ [] r); [|exact Nz]. apply s_alt1. apply (s_str grammar (L "0")).
  - alldigits; (split; [intros X; try (absurd_value X); apply Hr; run 9%nat
      |intros X; try (absurd_value X); first [left; run 9%nat|right; eexists _, _, _; split; [run 9%nat|reflexivity]]]).
Qed.

Definition date_pairs (ty tm td : str) (a b : N) : list (pair rule) :=
  [Pair Rdate (ty ++ a :: tm ++ b :: td)
     [Pair Ryear ty []; Pair Rdate_sep [a] []; Pair Rmonth tm []; Pair Rdate_sep [b] []; Pair Rday td []]].
Lemma sepr_no_digit c r : In c (L "./-") -> no_digit (c :: r).
Proof. cbn. intros [<-|[<-|[<-|[]]]]; auto. Qed.
(** A date followed by something that is not a digit is read as a whole, or the text after what is read
    begins with a digit, or nothing is read. *)
Lemma p_date ty tm td a b r m d : only_digits ty -> ty <> [] -> written 2 m tm -> written 2 d td ->
  In a (L "./-") -> In b (L "./-") -> no_digit r ->
  (1 <= m <= 12 /\ 1 <= d <= 31 /\ P (R Rdate) ((ty ++ a :: tm ++ b :: td) ++ r) (POk (date_pairs ty tm td a b) r)) \/
  (~ (1 <= m <= 12 /\ 1 <= d <= 31) /\
   (P (R Rdate) ((ty ++ a :: tm ++ b :: td) ++ r) PFail \/
    exists k x r', P (R Rdate) ((ty ++ a :: tm ++ b :: td) ++ r) (POk k (x :: r')) /\ is_digit x = true)).
Proof.
  intros Hy Hn Hm Hd Ha Hb Hr.
  assert (Y : P (R Ryear) (ty ++ a :: tm ++ b :: td ++ r) (POk [Pair Ryear ty []] (a :: tm ++ b :: td ++ r))).
  { apply p_year; auto. apply sepr_no_digit; auto. }
  assert (S1 := p_sep a (tm ++ b :: td ++ r) Ha).
  destruct (p_month m tm b (td ++ r) Hm Hb) as [M1 M2].
  assert (S2 := p_sep b (td ++ r) Hb).
  destruct (p_day d td r Hd Hr) as [D1 D2].
  assert (E : (ty ++ a :: tm ++ b :: td) ++ r = ty ++ a :: tm ++ b :: td ++ r) by (rewrite <- app_assoc; cbn; rewrite <- app_assoc; auto).
  assert (C : (1 <= m <= 12 \/ ~ 1 <= m <= 12) /\ (1 <= d <= 31 \/ ~ 1 <= d <= 31)) by lia.
  destruct C as [[Cm|Cm] Cd].
  - specialize (M1 Cm). clear M2. destruct Cd as [Cd|Cd].
    + left. split; [lia|split; [lia|]]. specialize (D1 Cd). unfold date_pairs. eapply s_rule; [reflexivity|]. rewrite E.
      eapply (s_seq_ok grammar _ _ _ [_]); [exact Y|]. eapply (s_seq_ok grammar _ _ _ [_]); [exact S1|].
      eapply (s_seq_ok grammar _ _ _ [_]); [exact M1|]. eapply (s_seq_ok grammar _ _ _ [_]); [exact S2|exact D1].
    + right. split; [lia|]. destruct (D2 Cd) as [F|(k & x & r' & F & Hx)].
      * left. eapply s_rule_fail; [reflexivity|]. rewrite E.
        eapply s_seq_fail2; [exact Y|]. eapply s_seq_fail2; [exact S1|]. eapply s_seq_fail2; [exact M1|].
        eapply s_seq_fail2; [exact S2|exact F].
      * right. assert (B : exists k', P (snd (grammar Rdate)) ((ty ++ a :: tm ++ b :: td) ++ r) (POk k' (x :: r'))).
        { rewrite E. eexists. eapply s_seq_ok; [exact Y|]. eapply s_seq_ok; [exact S1|]. eapply s_seq_ok; [exact M1|].
          eapply s_seq_ok; [exact S2|exact F]. }
        destruct B as (k' & B). destruct (p_rule Rdate _ _ _ _ eq_refl B) as (q & _ & X). eauto.
  - right. split; [lia|]. left. eapply s_rule_fail; [reflexivity|]. rewrite E.
    eapply s_seq_fail2; [exact Y|]. eapply s_seq_fail2; [exact S1|].
    destruct (M2 Cm) as [F|(k & x & r' & F & Hx)]; [apply s_seq_fail1; auto|].
    eapply s_seq_fail2; [exact F|]. apply s_seq_fail1. eapply s_rule_fail; [reflexivity|].
    alldigits; run 9%nat.
Qed.
Lemma parse_date_pairs ty tm td a b y m d p : only_digits ty -> ty <> [] -> Z.of_N (dec_value ty) = y ->
  written 2 m tm -> written 2 d td -> date_pairs ty tm td a b = [p] ->
  parse_date p = (if (a =? b)%N then match from_ymd y m d with Some n => Ok n | None => Panic PExplicit end else Panic PExplicit).
Proof.
  intros Hy Hn <- (Hm1 & Hm2 & _ & <-) (Hd1 & Hd2 & _ & <-) H. unfold date_pairs in H. inv H. cbn.
  apply only_digits_all in Hy, Hm1, Hd1. rewrite !parse_bigint_digits by auto. cbn. rewrite (dec_value_val ty), (dec_value_val tm), (dec_value_val td), andb_true_r. reflexivity.
Qed.
Lemma p_total e s : P (R e) s PFail \/ exists k r, P (R e) s (POk k r).
Proof.
  pose proof (peg_fuel_enough e s) as H. destruct (peg grammar (peg_fuel s) (R e) s) eqn:E; [right|left|congruence].
  - exists ps, rest. split; [discriminate|eauto].
  - split; [discriminate|eauto].
Qed.
Lemma p_tot e s : okexp g_null e = true -> P e s PFail \/ exists k r, P e s (POk k r).
Proof.
  intros H. assert (N0 : exists f, peg grammar f e s <> PFuel).
  { eexists. apply (peg_enough grammar g_null g_rank 60); [lia|apply grammar_ok|exact H|apply Nat.le_refl]. }
  destruct N0 as (f & N0). destruct (peg grammar f e s) eqn:E; [right|left|congruence].
  - exists ps, rest. split; [discriminate|eauto].
  - split; [discriminate|eauto].
Qed.
Lemma p_ws r : P ws (c_sp :: r) (POk [] r).
Proof. eapply s_rule_silent; [reflexivity|]. apply (s_str grammar (L " ")). Qed.
Lemma p_ws_fail r : match r with c :: _ => (c =? c_sp)%N | [] => false end = false -> P ws r PFail.
Proof.
  intros H. eapply s_rule_fail; [reflexivity|]. apply s_str_fail. destruct r as [|c r]; auto.
  change (L " ") with [c_sp]. apply strip1. auto.
Qed.
Lemma i_wsplus s k r : P (EPlus ws) s (POk k r) -> k = [].
Proof.
  intros H. apply i_seq in H. destruct H as (k1 & r1 & k2 & H1 & H2 & ->).
  eapply i_rule_silent in H1; [|reflexivity]. apply i_str in H1. destruct H1 as [-> _].
  pose proof (pegs_det grammar _ _ _ _ H2 (p_wss r1)) as E. inv E. auto.
Qed.
Lemma digit_no_sp c r : is_digit c = true -> P ws (c :: r) PFail.
Proof. intros H. apply p_ws_fail. digits H; reflexivity. Qed.
Ltac two2 H := let H' := fresh in destruct H as [H H']; two H; [discriminate H'|clear H'].
Lemma p_hour h s r : two_digits h s -> 0 <= h < 20 -> P (R Rhour) (s ++ r) (POk [Pair Rhour s []] r).
Proof.
  intros H Hh. assert (Hr : forall s, P (snd (grammar Rhour)) (s ++ r) (POk [] r) -> P (R Rhour) (s ++ r) (POk [Pair Rhour s []] r))
    by (intros; eapply s_rule; [reflexivity|auto]).
  two2 H. alldigits; try (absurd_value Hh); apply Hr; run 9%nat.
Qed.
Lemma p_hour_bad h s r : two_digits h s -> 20 <= h < 24 -> P (R Rhour) (s ++ L ":" ++ r) PFail.
Proof. intros H Hh. two2 H. alldigits; try (absurd_value Hh); run 9%nat. Qed.
Lemma p_minute m s r : two_digits m s -> 0 <= m < 60 -> P (R Rminute) (s ++ r) (POk [Pair Rminute s []] r).
Proof.
  intros H Hh. assert (Hr : forall s, P (snd (grammar Rminute)) (s ++ r) (POk [] r) -> P (R Rminute) (s ++ r) (POk [Pair Rminute s []] r))
    by (intros; eapply s_rule; [reflexivity|auto]).
  two2 H. alldigits; try (absurd_value Hh); apply Hr; run 15%nat.
Qed.
Lemma p_second m s r : two_digits m s -> 0 <= m < 60 -> P (R Rsecond) (s ++ c_sp :: r) (POk [Pair Rsecond s []] (c_sp :: r)).
Proof.
  intros H Hh. assert (Hr : forall s, P (snd (grammar Rsecond)) (s ++ c_sp :: r) (POk [] (c_sp :: r)) -> P (R Rsecond) (s ++ c_sp :: r) (POk [Pair Rsecond s []] (c_sp :: r)))
    by (intros; eapply s_rule; [reflexivity|auto]).
  two2 H. alldigits; try (absurd_value Hh); apply Hr; run 15%nat.
Qed.
Lemma p_time h m s text r : time_written h m s text -> h < 20 ->
  exists kids, P (R Rtime) (text ++ c_sp :: r) (POk [Pair Rtime text kids] (c_sp :: r)).
Proof.
  intros (th & tm & ts & -> & Hh & Hm & Hs & Rh & Rm & Rs) H20.
  assert (E : (th ++ L ":" ++ tm ++ L ":" ++ ts) ++ c_sp :: r = th ++ L ":" ++ tm ++ L ":" ++ ts ++ c_sp :: r) by (rewrite <- !app_assoc; auto).
  assert (B : exists k, P (snd (grammar Rtime)) ((th ++ L ":" ++ tm ++ L ":" ++ ts) ++ c_sp :: r) (POk k (c_sp :: r))).
  { rewrite E. eexists. eapply s_seq_ok; [eapply p_hour; eauto; lia|]. eapply s_seq_ok; [apply s_str|].
    eapply s_seq_ok; [eapply p_minute; eauto|]. eapply s_seq_ok; [apply s_str|eapply p_second; eauto]. }
  destruct B as (k & B). exists k. eapply s_rule; [reflexivity|exact B].
Qed.
Lemma p_time_bad h m s text r : time_written h m s text -> 20 <= h -> P (R Rtime) (text ++ r) PFail.
Proof.
  intros (th & tm & ts & -> & Hh & Hm & Hs & Rh & Rm & Rs) H20. eapply s_rule_fail; [reflexivity|].
  apply s_seq_fail1. rewrite <- !app_assoc. eapply p_hour_bad; eauto. lia.
Qed.
Lemma p_time_none r : no_digit r -> P (R Rtime) r PFail.
Proof.
  intros H. assert (Fs : forall x, is_digit x = true -> P (EStr [x]) r PFail).
  { intros x Hx. apply s_str_fail. destruct r as [|c r]; auto. cbn in H |- *. destruct (N.eqb_spec x c); congruence. }
  eapply s_rule_fail; [reflexivity|]. apply s_seq_fail1. eapply s_rule_fail; [reflexivity|].
  apply s_alt2; apply s_seq_fail1; [apply s_alt2|]; apply Fs; reflexivity.
Qed.

(** ** Price lines *)
Definition price_tail : pexp rule :=
  EPlus ws ~~ R Rcurrency ~~ wss ~~ R Rnumber ~~ wss ~~ R Rcurrency ~~ wss ~~ EOpt (R Rcomment) ~~ R Rend.
Lemma price_body : snd (grammar Rprice) = T (L "P") ~~ wss ~~ R Rdate ~~ EOpt (ws ~~ R Rtime) ~~ price_tail.
Proof. reflexivity. Qed.
Lemma price_tail_kids s k r : P price_tail s (POk k r) -> exists x ks, k = x :: ks /\ Grammar.p_rule x = Rcurrency.
Proof.
  intros H. apply i_seq in H. destruct H as (k1 & r1 & k2 & H1 & H2 & ->). apply i_wsplus in H1. subst k1.
  apply i_seq in H2. destruct H2 as (k1 & r2 & k3 & H1 & _ & ->).
  eapply i_rule in H1; [|reflexivity]. destruct H1 as (p & kids & _ & _ & ->). cbn. eauto.
Qed.
Lemma price_fail ds : P (R Rdate ~~ EOpt (ws ~~ R Rtime) ~~ price_tail) ds PFail -> skip ds = ds ->
  parse_price_line (L "P " ++ ds) = Panic PUnwrap.
Proof.
  intros H Hs. unfold parse_price_line. rewrite gparse_pegs_fail; auto. eapply s_rule_fail; [reflexivity|].
  apply (s_seq_fail2 grammar _ _ _ [] (c_sp :: ds)); [apply (s_str grammar (L "P"))|].
  apply (s_seq_fail2 grammar _ _ _ [] (skip (c_sp :: ds))); [apply p_wss|]. cbn [skip]. rewrite N.eqb_refl, Hs. exact H.
Qed.
Lemma price_ok ds k r : P (R Rdate ~~ EOpt (ws ~~ R Rtime) ~~ price_tail) ds (POk k r) -> skip ds = ds ->
  exists p, gparse Rprice (L "P " ++ ds) = Ok [Pair Rprice p k].
Proof.
  intros H Hs. assert (B : P (snd (grammar Rprice)) (L "P " ++ ds) (POk k r)).
  { apply (s_seq_ok grammar _ _ _ [] (c_sp :: ds) k); [apply (s_str grammar (L "P"))|].
    apply (s_seq_ok grammar _ _ _ [] (skip (c_sp :: ds)) k); [apply p_wss|]. cbn [skip]. rewrite N.eqb_refl, Hs. exact H. }
  destruct (p_rule Rprice _ _ _ _ eq_refl B) as (p & _ & X). exists p. eapply gparse_pegs_ok; eauto.
Qed.
(** What is done with the pairs. *)
Definition price_of (k : list (pair rule)) : res parsed_price :=
  '(d, r) <- pnext k ;;
  date <- parse_date d ;;
  '(x, r) <- pnext r ;;
  '(com, r) <- match Grammar.p_rule x with
               | Rtime => '(y, r') <- pnext r ;; c <- parse_string y ;; Ok (c, r')
               | _ => c <- parse_string x ;; Ok (c, r)
               end ;;
  '(n, r) <- pnext r ;;
  q <- parse_rational n ;;
  '(o, _) <- pnext r ;;
  other <- parse_string o ;;
  Ok {| pp_date := date; pp_commodity := com; pp_other := other; pp_quantity := q |}.
Lemma price_of_ok ds p k : gparse Rprice (L "P " ++ ds) = Ok [Pair Rprice p k] -> parse_price_line (L "P " ++ ds) = price_of k.
Proof. intros H. unfold parse_price_line. rewrite H. reflexivity. Qed.
Lemma price_of_time d t x ks : Grammar.p_rule x = Rcurrency -> Grammar.p_rule t = Rtime -> price_of (d :: t :: x :: ks) = price_of (d :: x :: ks).
Proof. intros H H2. unfold price_of. cbn [pnext bind]. rewrite H, H2. cbn [pnext bind]. reflexivity. Qed.
Lemma skip_digits ty r : only_digits ty -> ty <> [] -> skip (ty ++ r) = ty ++ r.
Proof.
  intros H Hn. destruct ty as [|c ty]; [congruence|]. cbn. specialize (H c (or_introl eq_refl)).
  destruct (N.eqb_spec c c_sp); auto. subst. change c_sp with 32%N in H. lia.
Qed.
Definition shaped (y m d : Z) (ty tm td : str) (a b : N) (s : str) : Prop :=
  s = ty ++ a :: tm ++ b :: td /\ only_digits ty /\ ty <> [] /\ Z.of_N (dec_value ty) = y /\
  written 2 m tm /\ written 2 d td /\ In a (L "./-") /\ In b (L "./-").
Lemma shaped_skip y m d ty tm td a b s r : shaped y m d ty tm td a b s -> skip (s ++ r) = s ++ r.
Proof. intros (-> & H1 & H2 & _). rewrite <- app_assoc. apply skip_digits; auto. Qed.
Lemma shaped_date y m d ty tm td a b s r : shaped y m d ty tm td a b s -> no_digit r ->
  (1 <= m <= 12 /\ 1 <= d <= 31 /\ P (R Rdate) (s ++ r) (POk (date_pairs ty tm td a b) r)) \/
  (~ (1 <= m <= 12 /\ 1 <= d <= 31) /\
   (P (R Rdate) (s ++ r) PFail \/
    exists k x r', P (R Rdate) (s ++ r) (POk k (x :: r')) /\ is_digit x = true)).
Proof. intros (-> & H1 & H2 & _ & H3 & H4 & H5 & H6). apply p_date; auto. Qed.
Lemma price_tail_digit k0 x r s : is_digit x = true -> P (R Rdate) s (POk k0 (x :: r)) ->
  P (R Rdate ~~ EOpt (ws ~~ R Rtime) ~~ price_tail) s PFail.
Proof.
  intros Hx H. eapply s_seq_fail2; [exact H|]. eapply (s_seq_fail2 grammar _ _ _ [] (x :: r)).
  - apply s_alt2; [|apply s_empty]. apply s_seq_fail1. apply digit_no_sp; auto.
  - apply s_seq_fail1. apply s_seq_fail1. apply digit_no_sp; auto.
Qed.
Lemma price_time y mo d ty tm td a b date h m s text rest : shaped y mo d ty tm td a b date -> time_written h m s text -> h < 20 ->
  no_digit rest ->
  parse_price_line (L "P " ++ date ++ L " " ++ text ++ L " " ++ rest) = parse_price_line (L "P " ++ date ++ L " " ++ rest).
Proof.
  intros Hd Ht Hh Hr. change (L " " ++ rest) with (c_sp :: rest). change (L " " ++ text ++ c_sp :: rest) with (c_sp :: text ++ c_sp :: rest).
  set (r1 := c_sp :: text ++ c_sp :: rest). set (r0 := c_sp :: rest).
  assert (S1 := shaped_skip _ _ _ _ _ _ _ _ _ r1 Hd). assert (S0 := shaped_skip _ _ _ _ _ _ _ _ _ r0 Hd).
  destruct (p_time h m s text rest Ht Hh) as (kids & Ptime).
  destruct (shaped_date _ _ _ _ _ _ _ _ _ r1 Hd eq_refl) as [(X1 & X2 & D1)|(X & [F1|(k & x & r' & F1 & Hx)])].
  - destruct (shaped_date _ _ _ _ _ _ _ _ _ r0 Hd eq_refl) as [(_ & _ & D0)|(X & _)]; [|tauto].
    assert (T1 : P (EOpt (ws ~~ R Rtime)) r1 (POk [Pair Rtime text kids] r0)).
    { apply s_alt1. eapply (s_seq_ok grammar _ _ _ [] _ [_]); [apply p_ws|exact Ptime]. }
    assert (T0 : P (EOpt (ws ~~ R Rtime)) r0 (POk [] r0)).
    { apply s_alt2; [|apply s_empty]. eapply s_seq_fail2; [apply p_ws|]. apply p_time_none. auto. }
    destruct (p_tot price_tail r0 eq_refl) as [K|(k & r & K)].
    + rewrite !price_fail; auto.
      * eapply s_seq_fail2; [exact D0|]. eapply s_seq_fail2; [exact T0|exact K].
      * eapply s_seq_fail2; [exact D1|]. eapply s_seq_fail2; [exact T1|exact K].
    + destruct (price_tail_kids _ _ _ K) as (x & ks & -> & Hx).
      assert (B1 : P (R Rdate ~~ EOpt (ws ~~ R Rtime) ~~ price_tail) (date ++ r1) (POk (date_pairs ty tm td a b ++ [Pair Rtime text kids] ++ x :: ks) r)).
      { eapply s_seq_ok; [exact D1|]. eapply s_seq_ok; [exact T1|exact K]. }
      assert (B0 : P (R Rdate ~~ EOpt (ws ~~ R Rtime) ~~ price_tail) (date ++ r0) (POk (date_pairs ty tm td a b ++ [] ++ x :: ks) r)).
      { eapply s_seq_ok; [exact D0|]. eapply s_seq_ok; [exact T0|exact K]. }
      destruct (price_ok _ _ _ B1 S1) as (p1 & E1). destruct (price_ok _ _ _ B0 S0) as (p0 & E0).
      rewrite (price_of_ok _ _ _ E1), (price_of_ok _ _ _ E0). apply price_of_time; auto.
  - assert (F0 : P (R Rdate ~~ EOpt (ws ~~ R Rtime) ~~ price_tail) (date ++ r0) PFail).
    { destruct (shaped_date _ _ _ _ _ _ _ _ _ r0 Hd eq_refl) as [(Y1 & Y2 & _)|(_ & [F0|(k & x & r' & F0 & Hx)])]; [tauto|apply s_seq_fail1; auto|].
      eapply price_tail_digit; eauto. }
    rewrite !price_fail; auto. apply s_seq_fail1; auto.
  - assert (F0 : P (R Rdate ~~ EOpt (ws ~~ R Rtime) ~~ price_tail) (date ++ r0) PFail).
    { destruct (shaped_date _ _ _ _ _ _ _ _ _ r0 Hd eq_refl) as [(Y1 & Y2 & _)|(_ & [F0|(k' & x' & r'' & F0 & Hx')])]; [tauto|apply s_seq_fail1; auto|].
      eapply price_tail_digit; eauto. }
    rewrite !price_fail; auto. eapply price_tail_digit; eauto.
Qed.
(** From eight in the evening. *)
Lemma evening_currency h s r : two_digits h s -> 20 <= h < 24 ->
  exists k, P (R Rcurrency) (s ++ L ":" ++ r) (POk k (L ":" ++ r)).
Proof.
  intros H Hh. assert (B : P (snd (grammar Rcurrency)) (s ++ L ":" ++ r) (POk [Pair Runquoted s []] (L ":" ++ r))).
  { apply s_alt2; [two2 H; alldigits; try (absurd_value Hh); run 9%nat|]. eapply s_rule; [reflexivity|].
    two2 H. alldigits; try (absurd_value Hh); run 40%nat. }
  destruct (p_rule Rcurrency _ _ _ _ eq_refl B) as (p & _ & X). eauto.
Qed.
Lemma price_evening y mo d ty tm td a b date h m s text rest : shaped y mo d ty tm td a b date -> time_written h m s text -> 20 <= h ->
  parse_price_line (L "P " ++ date ++ L " " ++ text ++ rest) = Panic PUnwrap.
Proof.
  intros Hd Ht Hh. change (L " " ++ text ++ rest) with (c_sp :: text ++ rest). set (r1 := c_sp :: text ++ rest).
  assert (S1 := shaped_skip _ _ _ _ _ _ _ _ _ r1 Hd). apply price_fail; auto.
  destruct (shaped_date _ _ _ _ _ _ _ _ _ r1 Hd eq_refl) as [(X1 & X2 & D1)|(X & [F1|(k & x & r' & F1 & Hx)])].
  2: apply s_seq_fail1; auto. 2: eapply price_tail_digit; eauto.
  eapply s_seq_fail2; [exact D1|]. eapply (s_seq_fail2 grammar _ _ _ [] r1).
  { apply s_alt2; [|apply s_empty]. eapply s_seq_fail2; [apply p_ws|]. eapply p_time_bad; eauto. }
  destruct Ht as (th & tm' & ts & -> & Th & _ & _ & Rh & _).
  assert (E : (th ++ L ":" ++ tm' ++ L ":" ++ ts) ++ rest = th ++ L ":" ++ tm' ++ L ":" ++ ts ++ rest) by (rewrite <- !app_assoc; auto).
  unfold r1. rewrite E. set (r2 := tm' ++ L ":" ++ ts ++ rest).
  eapply (s_seq_fail2 grammar _ _ _ [] (th ++ L ":" ++ r2)).
  { eapply (s_seq_ok grammar _ _ _ [] (th ++ L ":" ++ r2) []); [apply p_ws|].
    rewrite <- (skip_digits th (L ":" ++ r2)) at 2; [apply p_wss| |]; [apply Th|apply Th]. }
  destruct (evening_currency h th r2 Th ltac:(lia)) as (k & C). eapply s_seq_fail2; [exact C|].
  eapply (s_seq_fail2 grammar _ _ _ [] (L ":" ++ r2)).
  { change (L ":" ++ r2) with (skip (L ":" ++ r2)) at 2. apply p_wss. }
  apply s_seq_fail1. run 9%nat.
Qed.

(** ** The date of a line *)
Lemma price_date y m d ty tm td a b date rest p : shaped y m d ty tm td a b date ->
  parse_price_line (L "P " ++ date ++ L " " ++ rest) = Ok p -> a = b /\ from_ymd y m d = Some (pp_date p).
Proof.
  intros Hd H. change (L " " ++ rest) with (c_sp :: rest) in H. set (r := c_sp :: rest) in *.
  assert (S1 := shaped_skip _ _ _ _ _ _ _ _ _ r Hd).
  destruct (shaped_date _ _ _ _ _ _ _ _ _ r Hd eq_refl) as [(X1 & X2 & D1)|(X & [F1|(k & x & r' & F1 & Hx)])].
  - destruct (p_tot (EOpt (ws ~~ R Rtime) ~~ price_tail) r eq_refl) as [K|(k & r2 & K)].
    + rewrite price_fail in H; auto; [discriminate|]. eapply s_seq_fail2; eauto.
    + assert (B := s_seq_ok grammar _ _ _ _ _ _ _ D1 K). destruct (price_ok _ _ _ B S1) as (q & E).
      rewrite (price_of_ok _ _ _ E) in H. unfold price_of in H. cbn [date_pairs app pnext bind] in H.
      destruct Hd as (-> & Y1 & Y2 & Y3 & M & D & _).
      rewrite (parse_date_pairs ty tm td a b y m d) in H; auto.
      destruct (N.eqb_spec a b); [|discriminate]. split; auto.
      destruct (from_ymd y m d) as [n|]; [|discriminate]. cbn [bind] in H. bind_inv H. destruct a0 as [x r3].
      bind_inv H. destruct a0 as [com r4]. bind_inv H. destruct a0. bind_inv H. bind_inv H. destruct a1. bind_inv H. inv H. auto.
  - rewrite price_fail in H; auto; [discriminate|]. apply s_seq_fail1. auto.
  - rewrite price_fail in H; auto; [discriminate|]. eapply price_tail_digit; eauto.
Qed.
Lemma price_example y m d ty tm td a date n : shaped y m d ty tm td a a date -> from_ymd y m d = Some n ->
  exists p, parse_price_line (L "P " ++ date ++ L " EUR 2 USD") = Ok p /\ pp_date p = n /\ pp_commodity p = L "EUR" /\
    pp_quantity p = of_Z 2 /\ pp_other p = L "USD".
Proof.
  intros Hd H. set (r := L " EUR 2 USD").
  assert (S1 := shaped_skip _ _ _ _ _ _ _ _ _ r Hd).
  destruct (shaped_date _ _ _ _ _ _ _ _ _ r Hd eq_refl) as [(X1 & X2 & D1)|(X & _)].
  - assert (K : exists k, P (EOpt (ws ~~ R Rtime) ~~ price_tail) r (POk k []) /\
      k = [Pair Rcurrency (L "EUR") [Pair Runquoted (L "EUR") []]; Pair Rnumber (L "2") []; Pair Rcurrency (L "USD") [Pair Runquoted (L "USD") []]; Pair Rend [] [Pair REOI [] []]]).
    { eexists. split; [run 60%nat|reflexivity]. }
    destruct K as (k & K & ->).
    assert (B := s_seq_ok grammar _ _ _ _ _ _ _ D1 K). destruct (price_ok _ _ _ B S1) as (q & E).
    rewrite (price_of_ok _ _ _ E). unfold price_of. cbn [date_pairs app pnext bind].
    destruct Hd as (-> & Y1 & Y2 & Y3 & M & D & _).
    rewrite (parse_date_pairs ty tm td a a y m d); auto. rewrite N.eqb_refl, H. cbn [bind].
    eexists. split; [reflexivity|]. repeat split; try reflexivity. 
  - apply from_spec in H. destruct H as (_ & H & _). apply calendar_spec in H. pose proof (dim_bounds y m). exfalso. apply X. lia.
Qed.
Definition header_tail : pexp rule :=
  EOpt (ws ~~ R Rtime) ~~ EOpt (T (L "=") ~~ R Rdate ~~ EOpt (ws ~~ R Rtime)) ~~
  EPlus ws ~~ EOpt (R Rstatus) ~~ wss ~~ EOpt (R Rcode) ~~ wss ~~ R Rdescription ~~
  wss ~~ EOpt (T (L "|") ~~ wss ~~ R Rpayee) ~~ wss ~~ EOpt (R Rcomment) ~~ R Rend.
Lemma header_body : grammar Rtransaction = (false, R Rdate ~~ header_tail).
Proof. reflexivity. Qed.
Lemma header_date y m d ty tm td a b date rest h : shaped y m d ty tm td a b date ->
  parse_header (date ++ L " " ++ rest) = Ok h -> a = b /\ from_ymd y m d = Some (h_date h).
Proof.
  intros Hd H. change (L " " ++ rest) with (c_sp :: rest) in H. set (r := c_sp :: rest) in *. unfold parse_header in H.
  destruct (shaped_date _ _ _ _ _ _ _ _ _ r Hd eq_refl) as [(X1 & X2 & D1)|(X & [F1|(k & x & r' & F1 & Hx)])].
  - destruct (p_tot header_tail r eq_refl) as [K|(k & r2 & K)].
    + rewrite gparse_pegs_fail in H; [discriminate|]. eapply s_rule_fail; [apply header_body|]. eapply s_seq_fail2; eauto.
    + assert (B := s_seq_ok grammar _ _ _ _ _ _ _ D1 K).
      destruct (p_rule Rtransaction _ _ _ _ header_body B) as (q & _ & E). rewrite (gparse_pegs_ok _ _ _ _ E) in H.
      cbn [date_pairs app pnext bind p_kids] in H. destruct Hd as (-> & Y1 & Y2 & Y3 & M & D & _).
      rewrite (parse_date_pairs ty tm td a b y m d) in H; auto.
      destruct (N.eqb_spec a b); [|discriminate]. split; auto.
      destruct (from_ymd y m d) as [n|]; [|discriminate]. cbn [bind] in H.
      repeat (bind_inv H; repeat match goal with X : (_ * _)%type |- _ => destruct X end). inv H. auto.
  - rewrite gparse_pegs_fail in H; [discriminate|]. eapply s_rule_fail; [apply header_body|]. apply s_seq_fail1. auto.
  - rewrite gparse_pegs_fail in H; [discriminate|]. eapply s_rule_fail; [apply header_body|]. eapply s_seq_fail2; [exact F1|].
    eapply (s_seq_fail2 grammar _ _ _ [] (x :: r')).
    { apply s_alt2; [|apply s_empty]. apply s_seq_fail1. apply digit_no_sp; auto. }
    eapply (s_seq_fail2 grammar _ _ _ [] (x :: r')).
    { apply s_alt2; [|apply s_empty]. apply s_seq_fail1. apply s_str_fail. change (L "=") with [c_eq]. apply strip1. digits Hx; reflexivity. }
    apply s_seq_fail1, s_seq_fail1. apply digit_no_sp; auto.
Qed.
Lemma header_example y m d ty tm td a date n : shaped y m d ty tm td a a date -> from_ymd y m d = Some n ->
  exists h, parse_header (date ++ L " Shop") = Ok h /\ h_date h = n /\ h_desc h = L "Shop".
Proof.
  intros Hd H. set (r := L " Shop"). unfold parse_header.
  destruct (shaped_date _ _ _ _ _ _ _ _ _ r Hd eq_refl) as [(X1 & X2 & D1)|(X & _)].
  - assert (K : exists k, P header_tail r (POk k []) /\
      k = [Pair Rdescription (L "Shop") []; Pair Rend [] [Pair REOI [] []]]).
    { eexists. split; [run 60%nat|reflexivity]. }
    destruct K as (k & K & ->). assert (B := s_seq_ok grammar _ _ _ _ _ _ _ D1 K).
    destruct (p_rule Rtransaction _ _ _ _ header_body B) as (q & _ & E). rewrite (gparse_pegs_ok _ _ _ _ E).
    cbn [date_pairs app pnext bind p_kids]. destruct Hd as (-> & Y1 & Y2 & Y3 & M & D & _).
    rewrite (parse_date_pairs ty tm td a a y m d); auto. rewrite N.eqb_refl, H. cbn [bind].
    eexists. split; [reflexivity|]. split; reflexivity.
  - apply from_spec in H. destruct H as (_ & H & _). apply calendar_spec in H. pose proof (dim_bounds y m). exfalso. apply X. lia.
Qed.
