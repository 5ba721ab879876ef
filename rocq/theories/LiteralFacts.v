(** Lemmas for C08. *)
From Coq Require Import Lia.
From Verif Require Import Base BaseFacts Numerals NumFacts Money Txn Peg Grammar PegFacts Expr Tokens Spec SpecText.

Lemma only_digits_all s : only_digits s <-> all_digits s = true.
Proof.
  unfold only_digits, all_digits. rewrite forallb_forall. unfold is_digit.
  split; intros H c Hc; specialize (H c Hc).
  - apply andb_true_iff. rewrite !N.leb_le. auto.
  - apply andb_true_iff in H. rewrite !N.leb_le in H. auto.
Qed.
Lemma dec_value_val s : dec_value s = digits_val s.
Proof.
  unfold dec_value, digits_val. generalize 0%N. induction s as [|c s IH]; intros a; simpl; auto.
Qed.
Lemma mk_rational_eq n k : mk_rational n k = (of_Z n / of_Z (10 ^ Z.of_nat k))%Qc.
Proof.
  unfold mk_rational, of_Z. apply Qc_is_canon. unfold Qcdiv. rewrite this_mul, this_inv.
  cbn [this Q2Qc]. rewrite !Qred_correct.
  assert (0 < 10 ^ Z.of_nat k)%Z by (apply Z.pow_pos_nonneg; lia).
  destruct (10 ^ Z.of_nat k)%Z; try lia. unfold Qeq, Qmult, Qinv, inject_Z. simpl. lia.
Qed.
Lemma of_Z_opp z : of_Z (- z) = (- of_Z z)%Qc.
Proof. unfold of_Z. apply Qc_is_canon. rewrite this_opp. cbn [this Q2Qc]. rewrite !Qred_correct. unfold Qeq; simpl. lia. Qed.

Lemma is_digit_numeric w c : is_digit c = true -> is_numeric w c = true.
Proof.
  intros H. unfold is_numeric. rewrite H. unfold is_digit in H. apply andb_true_iff in H.
  rewrite !N.leb_le in H. replace (c <? 128)%N with true; auto. symmetry. apply N.ltb_lt. lia.
Qed.
Lemma is_digit_not c : is_digit c = true -> (c =? c_dot)%N = false /\ (c =? c_minus)%N = false.
Proof.
  intros H. unfold is_digit in H. apply andb_true_iff in H. rewrite !N.leb_le in H.
  split; apply N.eqb_neq; unfold c_dot, c_minus; lia.
Qed.

Lemma gamount_digits w p r pre line col num den dec :
  all_digits p = true ->
  gamount w (p ++ r) pre line col num den dec =
  gamount w r (rev p ++ pre) line (col + length p) (num ++ p)
    (den + if dec then length p else 0) dec.
Proof.
  revert pre col num den. induction p as [|c p IH]; intros pre col num den H.
  - simpl. rewrite app_nil_r. replace (col + 0)%nat with col by lia.
    replace (den + (if dec then 0 else 0))%nat with den by (destruct dec; lia). auto.
  - simpl in H. apply andb_true_iff in H. destruct H as [Hc Hp].
    destruct (is_digit_not c Hc) as [N1 N2]. cbn [gamount app]. rewrite N1, N2, (is_digit_numeric w c Hc).
    cbn [orb]. rewrite IH by auto. cbn [rev length]. rewrite <- !app_assoc. cbn [app].
    f_equal; destruct dec; lia.
Qed.
Lemma gamount_stop w r pre line col num den dec :
  no_more w r ->
  gamount w r pre line col num den dec =
  (AmountText num den, {| tk_pre := pre; tk_rest := r; tk_line := line; tk_col := col |}).
Proof.
  destruct r as [|c r]; simpl; auto. intros (H1 & H2 & H3).
  apply N.eqb_neq in H1, H2. rewrite H1, H2, H3. auto.
Qed.
Lemma gamount_point w r pre line col num den :
  gamount w (c_dot :: r) pre line col num den false = gamount w r (c_dot :: pre) line (S col) num den true.
Proof. reflexivity. Qed.
Lemma gamount_minus w r pre line col num den dec :
  gamount w (c_minus :: r) pre line col num den dec =
  gamount w r (c_minus :: pre) line (S col) (num ++ [c_minus]) (if dec then S den else den) dec.
Proof. reflexivity. Qed.

Lemma parse_bigint_digits s : all_digits s = true -> s <> [] -> parse_bigint s = Some (Z.of_N (digits_val s)).
Proof.
  intros H Hn. unfold parse_bigint. destruct s as [|c s]; [congruence|].
  rewrite H. simpl in H. apply andb_true_iff in H. destruct (is_digit_not c (proj1 H)) as [_ ->]. auto.
Qed.
Lemma parse_bigint_minus s : all_digits s = true -> s <> [] -> parse_bigint (c_minus :: s) = Some (- Z.of_N (digits_val s))%Z.
Proof.
  intros H Hn. unfold parse_bigint. change (c_minus =? c_minus)%N with true. cbv iota.
  destruct s; [congruence|]. rewrite H. auto.
Qed.
Lemma parse_bigint_inv s n : parse_bigint s = Some n ->
  (all_digits s = true /\ s <> [] /\ n = Z.of_N (digits_val s)) \/
  (exists r, s = c_minus :: r /\ all_digits r = true /\ r <> [] /\ n = (- Z.of_N (digits_val r))%Z).
Proof.
  unfold parse_bigint. destruct s as [|c r]; [discriminate|].
  destruct (N.eqb_spec c c_minus).
  - subst. destruct r as [|c r]; [discriminate|]. destruct (all_digits (c :: r)) eqn:E; [|discriminate].
    intros H. inv H. right. eexists. repeat split; eauto. discriminate.
  - destruct (all_digits (c :: r)) eqn:E; [|discriminate]. intros H. inv H. left. repeat split; auto. discriminate.
Qed.

(** The number denoted, from the characters and the count of decimals. *)
Lemma literal_value neg ip fp :
  only_digits ip -> only_digits fp -> ip ++ fp <> [] ->
  exists n, parse_bigint ((if neg : bool then L "-" else []) ++ ip ++ fp) = Some n /\
  mk_rational n (length fp) =
  ((if neg then Qcopp 1 else 1) * of_Z (Z.of_N (dec_value (ip ++ fp))) / of_Z (10 ^ Z.of_nat (length fp)))%Qc.
Proof.
  intros H1 H2 H3. apply only_digits_all in H1, H2.
  assert (Ha : all_digits (ip ++ fp) = true) by (rewrite all_digits_app, H1, H2; auto).
  rewrite dec_value_val. destruct neg.
  - eexists. split; [apply (parse_bigint_minus _ Ha H3)|]. rewrite mk_rational_eq, of_Z_opp.
    unfold Qcdiv. ring.
  - eexists. split; [apply (parse_bigint_digits _ Ha H3)|]. rewrite mk_rational_eq.
    unfold Qcdiv. ring.
Qed.

(** What the scan of an amount returns. *)
Lemma gamount_inv w : forall rest pre line col num den dec a t',
  gamount w rest pre line col num den dec = (a, t') ->
  match a with
  | TwoPoints => True
  | AmountText num' den' =>
      exists s, rest = s ++ tk_rest t' /\ no_more w (tk_rest t') /\
      ((forallb (fun c => (c =? c_minus)%N || is_numeric w c) s = true /\ num' = num ++ s /\
        den' = (den + if dec then length s else 0)%nat /\ ~ In c_dot s) \/
       (dec = false /\ exists s1 s2, s = s1 ++ c_dot :: s2 /\ ~ In c_dot s1 /\ ~ In c_dot s2 /\
        num' = num ++ s1 ++ s2 /\ den' = (den + length s2)%nat))
  end.
Proof.
  induction rest as [|c rest IH]; intros pre line col num den dec a t' H; cbn [gamount] in H.
  - inv H. exists []. simpl. repeat split; auto. left. rewrite app_nil_r. repeat split; auto. destruct dec; lia.
  - destruct (N.eqb_spec c c_dot).
    + subst. destruct dec; [inv H; auto|]. apply IH in H. destruct a as [num' den'|]; auto.
      destruct H as (s & -> & Hm & [(Hf & -> & -> & Hd)|(E & _)]); [|discriminate].
      exists (c_dot :: s). repeat split; auto. right. split; auto. exists [], s. repeat split; auto.
    + destruct ((c =? c_minus)%N || is_numeric w c) eqn:E.
      * apply IH in H. destruct a as [num' den'|]; auto.
        destruct H as (s & -> & Hm & [(Hf & -> & -> & Hd)|(Ed & s1 & s2 & -> & Hd1 & Hd2 & -> & ->)]).
        -- exists (c :: s). repeat split; auto. left. simpl. rewrite E. repeat split; auto.
           ++ rewrite <- app_assoc. auto.
           ++ destruct dec; lia.
           ++ intros [H|H]; auto.
        -- subst dec. exists (c :: s1 ++ c_dot :: s2). repeat split; auto. right. split; auto.
           exists (c :: s1), s2. repeat split; auto.
           ++ intros [H|H]; auto.
           ++ rewrite <- app_assoc. auto.
      * inv H. exists []. simpl. apply orb_false_iff in E. destruct E as [E1 E2]. apply N.eqb_neq in E1.
        repeat split; auto. left. rewrite app_nil_r. repeat split; auto. destruct dec; lia.
Qed.

Lemma rat_scan_digits p r dec : all_digits p = true ->
  rat_scan (p ++ r) dec = let (num, k) := rat_scan r dec in (p ++ num, if dec then length p + k else k)%nat.
Proof.
  induction p as [|c p IH]; simpl; intros H.
  - destruct (rat_scan r dec). destruct dec; auto.
  - apply andb_true_iff in H. destruct H as [Hc Hp]. destruct (is_digit_not c Hc) as [-> _].
    rewrite IH by auto. destruct (rat_scan r dec). destruct dec; auto.
Qed.

(** ** The grammar's numbers *)
Lemma number_body_neg neg ip point fp rest :
  only_digits ip -> only_digits fp -> ip <> [] -> (point = true -> fp <> []) -> (point = false -> fp = []) ->
  match rest with c :: _ => is_digit c | [] => false end = false ->
  (point = false -> match rest with c :: d :: _ => (c =? c_dot)%N && is_digit d | _ => false end = false) ->
  pegs grammar (snd (grammar Rnumber))
    (((if neg : bool then L "-" else []) ++ ip ++ (if point : bool then L "." ++ fp else [])) ++ rest) (POk [] rest).
Proof.
  intros H1 H2 Hn Hp Hp' Hr Hr'. apply only_digits_all in H1, H2.
  assert (BI : forall p r, all_digits p = true -> p <> [] ->
             match r with c :: _ => is_digit c | [] => false end = false ->
             pegs grammar (R Rbigint) (p ++ r) (POk [] r)).
  { intros p r Ha Hne Hs. eapply s_rule_silent; [reflexivity|]. destruct p as [|c p]; [congruence|].
    simpl in Ha. apply andb_true_iff in Ha. destruct Ha as [Hc Ha].
    apply (s_seq_ok grammar _ _ _ [] (p ++ r) [] r).
    - apply s_class. auto.
    - apply s_class_star; auto. }
  cbn [snd grammar].
  apply (s_seq_ok grammar _ _ _ [] (ip ++ (if point then L "." ++ fp else []) ++ rest) [] rest).
  - rewrite <- !app_assoc. destruct neg; cbn [app].
    + apply s_alt1. apply (s_str grammar (L "-")).
    + apply s_alt2; [|apply s_empty]. apply s_str_fail. destruct ip as [|c ip]; [congruence|].
      simpl in H1. apply andb_true_iff in H1. destruct (is_digit_not c (proj1 H1)) as [_ E].
      change (L "-") with [c_minus]. cbn [app strip_prefix]. rewrite N.eqb_sym, E. auto.
  - destruct point.
    + rewrite <- app_assoc. apply (s_seq_ok grammar _ _ _ [] (L "." ++ fp ++ rest) [] rest).
      * apply BI; auto.
      * apply s_alt1. apply (s_seq_ok grammar _ _ _ [] (fp ++ rest) [] rest).
        -- apply (s_str grammar (L ".")).
        -- apply BI; auto.
    + cbn [app]. apply (s_seq_ok grammar _ _ _ [] rest [] rest); [apply BI; auto|].
      specialize (Hr' eq_refl). apply s_alt2; [|apply s_empty].
      destruct rest as [|c rest]; [apply s_seq_fail1, s_str_fail; auto|].
      destruct (N.eqb_spec c c_dot).
      * subst c. apply (s_seq_fail2 grammar _ _ _ [] rest); [apply (s_str grammar (L "."))|].
        eapply s_rule_fail; [reflexivity|]. apply s_seq_fail1. apply s_class_fail.
        destruct rest; auto.
      * apply s_seq_fail1, s_str_fail. change (L ".") with [c_dot]. cbn [strip_prefix].
        destruct (N.eqb_spec c_dot c); auto. congruence.
Qed.
Lemma i_bigint s k r : pegs grammar (R Rbigint) s (POk k r) ->
  k = [] /\ exists p, s = p ++ r /\ all_digits p = true /\ p <> [].
Proof.
  intros H. eapply i_rule_silent in H; [|reflexivity]. apply i_seq in H.
  destruct H as (k1 & r1 & k2 & H1 & H2 & ->). apply i_class in H1. destruct H1 as (-> & x & Hx & ->).
  apply i_class_star in H2. destruct H2 as (-> & p & -> & Hp & _). split; auto.
  exists (x :: p). split; auto. split; [simpl; rewrite Hx; auto|discriminate].
Qed.
