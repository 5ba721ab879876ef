(** C08: amount literals are read exactly. *)
From Coq Require Import Lia.
From Verif Require Import Base BaseFacts Numerals NumFacts Money Txn Peg Grammar PegFacts Expr Tokens
  Spec SpecText LiteralFacts PropTxn.

Ltac conj := match goal with |- _ /\ _ => split; [|conj] | _ => idtac end.

(** In a transaction: a literal of any length, followed by something that cannot continue it, is
    read as the number it denotes, and exactly its characters are consumed. *)
Theorem C08_amounts_exact w t s rest q :
  literal s q -> no_more w rest -> tk_rest t = s ++ rest ->
  exists t', parse_amount w t = (inl q, t') /\ tk_rest t' = rest /\ tk_pre t' = rev s ++ tk_pre t.
Proof.
  intros (neg & ip & point & fp & -> & H1 & H2 & Hp & Hne & ->) Hm Ht.
  destruct (literal_value neg ip fp H1 H2 Hne) as (n & Hn & Hq).
  pose proof H1 as A1. pose proof H2 as A2. apply only_digits_all in A1, A2.
  unfold parse_amount. rewrite Ht.
  assert (G : forall rest' pre line col, rest' = (ip ++ (if point then L "." ++ fp else [])) ++ rest ->
    forall num, gamount w rest' pre line col num 0 false =
    (AmountText (num ++ ip ++ fp) (length fp),
     {| tk_pre := rev (ip ++ (if point then L "." ++ fp else [])) ++ pre; tk_rest := rest; tk_line := line;
        tk_col := col + length (ip ++ (if point then L "." ++ fp else [])) |})).
  { intros rest' pre line col -> num. rewrite <- app_assoc. rewrite gamount_digits by auto. destruct point.
    - change ((L "." ++ fp) ++ rest) with (c_dot :: fp ++ rest). rewrite gamount_point.
      rewrite gamount_digits by auto. rewrite gamount_stop by auto.
      rewrite <- app_assoc. f_equal. f_equal.
      + rewrite rev_app_distr. simpl rev. rewrite <- !app_assoc. auto.
      + rewrite !app_length. simpl. lia.
    - rewrite Hp in * by auto. cbn [app]. rewrite gamount_stop by auto. rewrite !app_nil_r. auto. }
  destruct neg.
  - change ((L "-" ++ ip ++ (if point then L "." ++ fp else [])) ++ rest)
      with (c_minus :: (ip ++ (if point then L "." ++ fp else [])) ++ rest).
    rewrite gamount_minus. rewrite (G _ _ _ _ eq_refl).
    change (([] ++ [c_minus]) ++ ip ++ fp) with (L "-" ++ ip ++ fp). rewrite Hn, Hq.
    eexists. split; [reflexivity|]. split; [reflexivity|].
    cbn [tk_pre]. change (L "-" ++ ip ++ (if point then L "." ++ fp else []))
      with (c_minus :: (ip ++ (if point then L "." ++ fp else []))).
    cbn [rev]. rewrite <- app_assoc. auto.
  - cbn [app]. rewrite (G _ _ _ _ eq_refl).
    change ([] ++ ip ++ fp) with (ip ++ fp). cbn [app] in Hn. rewrite Hn, Hq.
    eexists. split; [reflexivity|]. split; reflexivity.
Qed.

(** Conversely, a successful reading consumed a maximal run of number characters that is a literal
    denoting the result, or one of the form [.-digits] (see the refutation below). *)
Theorem C08_only_literals_partial w t q t' :
  parse_amount w t = (inl q, t') ->
  exists s, tk_rest t = s ++ tk_rest t' /\ no_more w (tk_rest t') /\
  (literal s q \/ exists ds, s = L ".-" ++ ds /\ only_digits ds).
Proof.
  unfold parse_amount. intros H.
  destruct (gamount w (tk_rest t) (tk_pre t) (tk_line t) (tk_col t) [] 0 false) as [a t1] eqn:E.
  apply gamount_inv in E. destruct a as [num den|]; [|discriminate].
  destruct (parse_bigint num) as [n|] eqn:En; [|discriminate]. inv H.
  destruct E as (s & E & Hm & D). exists s. split; auto. split; auto.
  apply parse_bigint_inv in En.
  destruct D as [(_ & -> & -> & Hd)|(_ & s1 & s2 & -> & Hd1 & Hd2 & -> & ->)]; cbn [app] in En.
  - left. destruct En as [(Ha & Hn & ->)|(r & -> & Ha & Hn & ->)].
    + exists false, s, false, []. rewrite !app_nil_r. conj; auto.
      * apply only_digits_all; auto.
      * intros c [].
      * rewrite mk_rational_eq, (dec_value_val s). unfold Qcdiv. cbn [length Nat.add]. ring.
    + exists true, r, false, []. rewrite !app_nil_r. conj; auto.
      * apply only_digits_all; auto.
      * intros c [].
      * rewrite mk_rational_eq, (dec_value_val r), of_Z_opp. unfold Qcdiv. cbn [length Nat.add]. ring.
  - destruct En as [(Ha & Hn & ->)|(r & Er & Ha & Hn & ->)].
    + left. rewrite all_digits_app in Ha. apply andb_true_iff in Ha. destruct Ha as [Ha1 Ha2].
      exists false, s1, true, s2. conj; auto.
      * apply only_digits_all; auto.
      * apply only_digits_all; auto.
      * discriminate.
      * rewrite mk_rational_eq, (dec_value_val (s1 ++ s2)). unfold Qcdiv. cbn [Nat.add]. ring.
    + destruct s1 as [|c s1]; cbn [app] in Er.
      * right. subst s2. exists r. split; auto. apply only_digits_all; auto.
      * left. inv Er. rewrite all_digits_app in Ha. apply andb_true_iff in Ha. destruct Ha as [Ha1 Ha2].
        exists true, s1, true, s2. conj; auto.
        -- apply only_digits_all; auto.
        -- apply only_digits_all; auto.
        -- discriminate.
        -- rewrite mk_rational_eq, (dec_value_val (s1 ++ s2)), of_Z_opp. unfold Qcdiv. cbn [Nat.add]. ring.
Qed.

(** Two points in one run of number characters are rejected. *)
Theorem C08_two_points_rejected w t s1 s2 rest :
  tk_rest t = s1 ++ L "." ++ s2 ++ L "." ++ rest ->
  (forall c, In c (s1 ++ s2) -> c = c_minus \/ is_numeric w c = true) ->
  exists e t', parse_amount w t = (inr e, t').
Proof.
  intros Ht Hc. destruct (parse_amount w t) as [[q|e] t'] eqn:E; eauto. exfalso.
  unfold parse_amount in E. rewrite Ht in E.
  assert (P : forall s r pre line col num den dec, 
    (forall c, In c s -> c <> c_dot /\ ((c =? c_minus)%N || is_numeric w c) = true) ->
    exists pre' col' num' den',
    gamount w (s ++ r) pre line col num den dec = gamount w r pre' line col' num' den' dec).
  { induction s as [|c s IH]; intros r pre line col num den dec Hs; simpl.
    - repeat eexists.
    - destruct (Hs c (or_introl eq_refl)) as [H1 H2]. apply N.eqb_neq in H1. rewrite H1, H2.
      apply IH. intros; apply Hs; right; auto. }
  assert (P0 : forall c, In c (s1 ++ s2) -> c <> c_dot /\ ((c =? c_minus)%N || is_numeric w c) = true).
  { intros c Hi. apply Hc in Hi. destruct Hi as [->|Hi]; [split; [discriminate|auto]|].
    split; [intros ->; discriminate|]. rewrite Hi, orb_true_r. auto. }
  destruct (P s1 (L "." ++ s2 ++ L "." ++ rest) (tk_pre t) (tk_line t) (tk_col t) [] 0%nat false)
    as (p1 & c1 & n1 & d1 & E1). { intros; apply P0, in_or_app; auto. }
  rewrite E1 in E. change (L "." ++ s2 ++ L "." ++ rest) with (c_dot :: s2 ++ L "." ++ rest) in E.
  rewrite gamount_point in E.
  destruct (P s2 (L "." ++ rest) (c_dot :: p1) (tk_line t) (S c1) n1 d1 true)
    as (p2 & c2 & n2 & d2 & E2). { intros; apply P0, in_or_app; auto. }
  rewrite E2 in E. simpl in E. discriminate.
Qed.

(** The value read from the text of a number. *)
Theorem C08_grammar_numbers_read s q r k :
  literal s q -> parse_rational (Pair r s k) = Ok q.
Proof.
  intros (neg & ip & point & fp & -> & H1 & H2 & Hp & Hne & ->).
  destruct (literal_value neg ip fp H1 H2 Hne) as (n & Hn & Hq).
  apply only_digits_all in H1, H2. unfold parse_rational. cbn [p_text].
  assert (G : rat_scan (ip ++ (if point then L "." ++ fp else [])) false = (ip ++ fp, length fp)).
  { rewrite rat_scan_digits by auto. destruct point.
    - change (L "." ++ fp) with (c_dot :: fp). cbn [rat_scan].
      change (c_dot =? c_dot)%N with true. cbv iota.
      rewrite <- (app_nil_r fp) at 1. rewrite rat_scan_digits by auto. simpl. rewrite app_nil_r.
      rewrite Nat.add_0_r. auto.
    - rewrite Hp by auto. simpl. auto. }
  destruct neg.
  - change (L "-" ++ ip ++ (if point then L "." ++ fp else []))
      with (c_minus :: ip ++ (if point then L "." ++ fp else [])). cbn [rat_scan].
    change (c_minus =? c_dot)%N with false. cbv iota. rewrite G.
    change (c_minus :: ip ++ fp) with (L "-" ++ ip ++ fp). rewrite Hn. simpl. rewrite Hq. auto.
  - cbn [app]. rewrite G. cbn [app] in Hn. rewrite Hn. simpl. rewrite Hq. auto.
Qed.
(** In expressions and price directives: the grammar takes exactly the literal, and it is read as
    the number it denotes. *)
Theorem C08_grammar_numbers_exact neg ip point fp rest q :
  let s := (if neg : bool then L "-" else []) ++ ip ++ (if point : bool then L "." ++ fp else []) in
  literal s q -> only_digits ip -> only_digits fp -> (point = false -> fp = []) ->
  ip <> [] -> (point = true -> fp <> []) ->
  match rest with c :: _ => is_digit c | [] => false end = false ->
  (point = false -> match rest with c :: d :: _ => (c =? c_dot)%N && is_digit d | _ => false end = false) ->
  gparse Rnumber (s ++ rest) = Ok [Pair Rnumber s []] /\
  parse_rational (Pair Rnumber s []) = Ok q.
Proof.
  intros s Hl H1 H2 Hp0 Hi Hp Hr Hr'. split; [|apply C08_grammar_numbers_read; auto].
  eapply gparse_pegs_ok. eapply s_rule; [reflexivity|].
  unfold s. apply number_body_neg; auto.
Qed.
(** Everything the grammar accepts as a number is a literal. *)
Theorem C08_grammar_accepts_only_literals s ps :
  gparse Rnumber s = Ok ps ->
  exists lit rest q, s = lit ++ rest /\ ps = [Pair Rnumber lit []] /\ literal lit q.
Proof.
  unfold gparse. destruct (peg grammar (peg_fuel s) (R Rnumber) s) as [k r| |] eqn:E; try discriminate.
  intros H. inv H.
  assert (P : pegs grammar (R Rnumber) s (POk ps r)) by (split; [discriminate|eauto]).
  eapply i_rule in P; [|reflexivity]. destruct P as (lit & kids & -> & P & ->).
  apply i_seq in P. destruct P as (k1 & r1 & k2 & P1 & P2 & ->).
  apply i_seq in P2. destruct P2 as (k3 & r2 & k4 & P2 & P3 & ->).
  apply i_bigint in P2. destruct P2 as (-> & ip & -> & Hip & Hne).
  assert (P1' : k1 = [] /\ exists neg : bool, lit ++ r = (if neg then L "-" else []) ++ ip ++ r2).
  { apply i_alt in P1. destruct P1 as [P1|[_ P1]].
    - apply i_str in P1. destruct P1 as [-> ->]. split; auto. exists true. auto.
    - apply i_empty in P1. destruct P1 as [-> ->]. split; auto. exists false. auto. }
  destruct P1' as (-> & neg & E1).
  assert (P3' : k4 = [] /\ exists (point : bool) fp, r2 = (if point then L "." ++ fp else []) ++ r /\
                (point = false -> fp = []) /\ all_digits fp = true).
  { apply i_alt in P3. destruct P3 as [P3|[_ P3]].
    - apply i_seq in P3. destruct P3 as (k5 & r3 & k6 & P3 & P4 & ->).
      apply i_str in P3. destruct P3 as [-> ->]. apply i_bigint in P4.
      destruct P4 as (-> & fp & -> & Hfp & _). split; auto. exists true, fp.
      rewrite <- app_assoc. split; auto. split; auto. discriminate.
    - apply i_empty in P3. destruct P3 as [-> ->]. split; auto. exists false, []. auto. }
  destruct P3' as (-> & point & fp & -> & Hp & Hfp).
  assert (Elit : lit = (if neg then L "-" else []) ++ ip ++ (if point then L "." ++ fp else [])).
  { rewrite !app_assoc in E1. apply app_inv_tail in E1. rewrite <- app_assoc in E1. auto. }
  exists lit, r, ((if neg then Qcopp 1 else 1) * of_Z (Z.of_N (dec_value (ip ++ fp))) /
         of_Z (10 ^ Z.of_nat (length fp)))%Qc. repeat split; auto.
  exists neg, ip, point, fp. conj; auto; try (apply only_digits_all; auto).
  destruct ip; [congruence|discriminate].
Qed.

(** A minus sign right after a leading point is accepted and misread: the full claim is false. *)
Theorem C08_minus_after_point_refuted :
  exists t' q, parse_amount w0 (tok_of (L ".-5 EUR")) = (inl q, t') /\
               q = (- of_Z 5 / of_Z 100)%Qc /\ tk_rest t' = L " EUR".
Proof.
  eexists. exists (- of_Z 5 / of_Z 100)%Qc. split; [vm_compute; reflexivity|]. split; reflexivity.
Qed.
Print Assumptions C08_amounts_exact.
Print Assumptions C08_only_literals_partial.
Print Assumptions C08_two_points_rejected.
Print Assumptions C08_grammar_numbers_exact.
Print Assumptions C08_grammar_numbers_read.
Print Assumptions C08_grammar_accepts_only_literals.
Print Assumptions C08_minus_after_point_refuted.

Example C08_ex_literal : literal (L "-012345678901234567890.50") (- of_Z 1234567890123456789050 / of_Z 100)%Qc.
Proof.
  exists true, (L "012345678901234567890"), true, (L "50"). split; [reflexivity|].
  split; [apply only_digits_all; reflexivity|]. split; [apply only_digits_all; reflexivity|].
  split; [discriminate|]. split; [discriminate|]. vm_compute. reflexivity.
Qed.
Example C08_ex_read : parse_amount w0 (tok_of (L "-012345678901234567890.50 EUR")) =
  (inl (- of_Z 1234567890123456789050 / of_Z 100)%Qc,
   {| tk_pre := rev (L "-012345678901234567890.50"); tk_rest := L " EUR"; tk_line := 0; tk_col := 25 |}).
Proof. vm_compute. reflexivity. Qed.
Example C08_ex_two : fst (parse_amount w0 (tok_of (L "1.2.3"))) =
  inr (UnexpectedInput (Some (L "Too many decimal separators"))).
Proof. reflexivity. Qed.
Example C08_ex_grammar : gparse Rnumber (L "-3.25 EUR") = Ok [Pair Rnumber (L "-3.25") []].
Proof. vm_compute. reflexivity. Qed.
