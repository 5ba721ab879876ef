(** Parsing written expressions. *)
From Coq Require Import Lia.
From Verif Require Import Base BaseFacts Numerals Money Txn Peg Grammar Dates Expr Spec SpecText PegFacts NumFacts LiteralFacts PropLiteral SpecExpr.

Notation P := (pegs grammar).

(** ** Blanks *)
Fixpoint skip (s : str) : str := match s with c :: r => if (c =? c_sp)%N then skip r else s | [] => [] end.
Lemma p_wss s : P wss s (POk [] (skip s)).
Proof.
  unfold wss. induction s as [|c s IH].
  - apply s_star0. eapply s_rule_fail; [reflexivity|]. apply s_str_fail. auto.
  - cbn [skip]. destruct (N.eqb_spec c c_sp).
    + subst. eapply (s_star1 grammar _ _ [] s []); auto. eapply s_rule_silent; [reflexivity|]. apply (s_str grammar (L " ")).
    + apply s_star0. eapply s_rule_fail; [reflexivity|]. apply s_str_fail. change (L " ") with [c_sp]. cbn [strip_prefix].
      destruct (N.eqb_spec c_sp c); congruence.
Qed.
Lemma skip_split s : exists n, s = repeat c_sp n ++ skip s.
Proof.
  induction s as [|c s (n & IH)]; [exists O; auto|]. cbn. destruct (N.eqb_spec c c_sp); [|exists O; auto].
  subst. exists (S n). cbn. f_equal. auto.
Qed.
Lemma skip_skip s : skip (skip s) = skip s.
Proof. induction s as [|c s IH]; cbn; auto. destruct (N.eqb_spec c c_sp) as [E|E]; auto. cbn. destruct (N.eqb_spec c c_sp); congruence. Qed.

(** Computing with a text known only at its beginning. *)
Ltac run n := split; [discriminate|exists n; vm_compute; reflexivity].
Lemma p_prefix e s k r : P e s (POk k r) -> exists p, s = p ++ r.
Proof. intros [_ (f & E)]. eapply peg_prefix; eauto. Qed.
Lemma p_rule rl body s k r : grammar rl = (false, body) -> P body s (POk k r) -> exists p, s = p ++ r /\ P (R rl) s (POk [Pair rl p k] r).
Proof. intros G H. destruct (p_prefix _ _ _ _ H) as (p & ->). exists p. split; auto. eapply s_rule; eauto. Qed.

(** ** The ladder of precedences *)
Definition rung (k : nat) : rule :=
  match k with
  | O => Rprimary | 1%nat => Rmultiplicative_expr | 2%nat => Radditive_expr | 3%nat => Rcomparison_expr | 4%nat => Rand_expr | _ => Ror_expr
  end.
Definition opr (k : nat) : rule :=
  match k with O => Rmult | 1%nat => Radd | 2%nat => Rcomparison | 3%nat => Rand | _ => Ror end.
Lemma rung_S k : (k < 5)%nat ->
  grammar (rung (S k)) = (false, R (rung k) ~~ wss ~~ EStar (R (opr k) ~~ wss ~~ R (rung k))).
Proof. intros H. do 5 (destruct k as [|k]; [reflexivity|]). lia. Qed.

Section Ladder.
  Context (w : world).
  Definition parses (k : nat) (s r : str) (n : node) : Prop :=
    exists p, P (R (rung k)) s (POk [p] r) /\ build_ast w p = Ok n.
  Definition parses_expr (s r : str) (n : node) : Prop :=
    exists p, P (R Rexpr) s (POk [p] r) /\ build_ast w p = Ok n.

  Lemma build_one k t p n : build_ast w p = Ok n -> build_ast w (Pair (rung (S k)) t [p]) = Ok n.
  Proof. intros H. do 5 (destruct k as [|k]; [cbn; rewrite H; reflexivity|]). cbn. rewrite H. reflexivity. Qed.
  Lemma build_two k t p n o op p2 n2 rest : build_ast w p = Ok n -> binary_of (rung (S k)) (p_text o) = Ok op -> build_ast w p2 = Ok n2 ->
    build_ast w (Pair (rung (S k)) t (p :: o :: p2 :: rest)) = Ok (NBinary op n n2).
  Proof.
    intros H H2 H3.
    assert (E : build_ast w (Pair (rung (S k)) t (p :: o :: p2 :: rest)) =
      (lhs <- build_ast w p ;; op <- binary_of (rung (S k)) (p_text o) ;; rhs <- build_ast w p2 ;; Ok (NBinary op lhs rhs))).
    { do 5 (destruct k as [|k]; [reflexivity|]). reflexivity. }
    rewrite E, H. cbn [bind]. rewrite H2. cbn [bind]. rewrite H3. reflexivity.
  Qed.

  Lemma climb1 k s r n : (k < 5)%nat -> parses k s r n -> P (R (opr k)) (skip r) PFail -> parses (S k) s (skip r) n.
  Proof.
    intros Hk (p & H & B) F. edestruct (p_rule (rung (S k)) _ s [p] (skip r) (rung_S k Hk)) as (q & _ & X).
    - eapply (s_seq_ok grammar _ _ _ [p] r []); [exact H|]. eapply (s_seq_ok grammar _ _ _ [] (skip r) []); [apply p_wss|].
      apply s_star0. apply s_seq_fail1. exact F.
    - eexists. split; [exact X|]. apply build_one. auto.
  Qed.
  Lemma climb j : forall k s r n, (k + j <= 5)%nat -> parses k s r n -> skip r = r \/ (0 < j)%nat -> 
    (forall i, (k <= i < k + j)%nat -> P (R (opr i)) (skip r) PFail) -> parses (k + j) s (skip r) n.
  Proof.
    induction j as [|j IH]; intros k s r n Hk H Hr F.
    - rewrite Nat.add_0_r. destruct Hr as [-> |]; [auto|lia].
    - replace (k + S j)%nat with (S k + j)%nat by lia.
      rewrite <- (skip_skip r). apply IH; [lia| |left; apply skip_skip|].
      + apply climb1; [lia|auto|]. apply F. lia.
      + intros i Hi. rewrite skip_skip. apply F. lia.
  Qed.
  (** The rest of a chain at one rung: operator and operand, any number of times. *)
  Inductive more (k : nat) : str -> str -> list (pair rule) -> Prop :=
  | more_end r : P (R (opr k)) r PFail -> more k r r []
  | more_op r o r2 p r3 r4 ps : P (R (opr k)) r (POk [o] r2) -> P (R (rung k)) (skip r2) (POk [p] r3) -> more k r3 r4 ps ->
      more k r r4 (o :: p :: ps).
  Lemma more_star k r r' ps : more k r r' ps -> P (EStar (R (opr k) ~~ wss ~~ R (rung k))) r (POk ps r').
  Proof.
    induction 1 as [r F|r o r2 p r3 r4 ps H1 H2 H3 IH].
    - apply s_star0. apply s_seq_fail1. auto.
    - change (o :: p :: ps) with ([o; p] ++ ps). eapply s_star1; [|exact IH].
      eapply (s_seq_ok grammar _ _ _ [o] r2 [p]); [exact H1|]. eapply (s_seq_ok grammar _ _ _ [] (skip r2) [p]); [apply p_wss|exact H2].
  Qed.
  Lemma chain k s r a o r2 p b r3 r4 ps op : (k < 5)%nat -> parses k s r a -> P (R (opr k)) (skip r) (POk [o] r2) ->
    P (R (rung k)) (skip r2) (POk [p] r3) -> build_ast w p = Ok b -> more k r3 r4 ps -> binary_of (rung (S k)) (p_text o) = Ok op ->
    parses (S k) s r4 (NBinary op a b).
  Proof.
    intros Hk (pa & H & B) H1 H2 B2 M O. edestruct (p_rule (rung (S k)) _ s (pa :: o :: p :: ps) r4 (rung_S k Hk)) as (q & _ & X).
    - eapply (s_seq_ok grammar _ _ _ [pa] r (o :: p :: ps)); [exact H|].
      eapply (s_seq_ok grammar _ _ _ [] (skip r) (o :: p :: ps)); [apply p_wss|]. apply more_star. eapply more_op; eauto.
    - eexists. split; [exact X|]. apply build_two; auto.
  Qed.
  Lemma to_expr s r n : parses 5%nat s r n -> parses_expr s r n.
  Proof.
    intros (p & H & B). edestruct (p_rule Rexpr _ s [p] r eq_refl) as (q & _ & X); [exact H|]. eexists. split; [exact X|]. cbn. auto.
  Qed.

  (** What comes after an operand: a closing parenthesis, or a blank and an operator. *)
  Inductive follow : str -> Prop :=
  | fo_close r : follow (L ")" ++ r)
  | fo_op o r : follow (L " " ++ op_text o ++ L " " ++ r).
  Definition at_word (r : str) : Prop := exists o x, is_word_op o /\ r = L " " ++ op_text o ++ L " " ++ x.

  Lemma close_expr s r n : parses O s (L ")" ++ r) n -> parses_expr s (L ")" ++ r) n.
  Proof.
    intros H. apply to_expr. change (L ")" ++ r) with (skip (L ")" ++ r)). apply (climb 5%nat O); auto.
    intros i Hi. do 5 (destruct i as [|i]; [run 9%nat|]). lia.
  Qed.
  Lemma paren s r n : parses_expr s (L ")" ++ r) n -> skip s = s -> parses O (L "(" ++ s) r n.
  Proof.
    intros (p & H & B) Hs. edestruct (p_rule Rprimary _ (L "(" ++ s) [p] r eq_refl) as (q & _ & X).
    - apply s_alt1. eapply (s_seq_ok grammar _ _ _ [] s [p]); [apply s_str|].
      eapply (s_seq_ok grammar _ _ _ [] s [p]); [rewrite <- Hs at 2; apply p_wss|].
      eapply (s_seq_ok grammar _ _ _ [p] (L ")" ++ r) []); [exact H|].
      eapply (s_seq_ok grammar _ _ _ [] (L ")" ++ r) []); [apply p_wss|]. apply s_str.
    - eexists. split; [exact X|]. destruct p as [rl t ks]. assert (rl = Rexpr).
      { eapply i_rule in H; [|reflexivity]. destruct H as (? & ? & ? & ? & E). congruence. }
      subst rl. exact B.
  Qed.
End Ladder.

Ltac ops o := destruct o; cbn [op_text].
Ltac by_follow H := let o := fresh "o" in let r := fresh "r" in destruct H as [r|o r]; [run 60%nat|ops o; run 60%nat].
Ltac known := match goal with |- P _ _ PFail => run 60%nat end.

Lemma number_after r : follow r -> P (R Rnumber) (skip r) PFail.
Proof. intros H. by_follow H. Qed.
Lemma currency_after r : follow r -> ~ at_word r -> P (R Rcurrency) (skip r) PFail.
Proof.
  intros H N. destruct H as [r|o r]; [run 60%nat|].
  destruct o; cbn [op_text]; try (run 60%nat); exfalso; apply N; [exists OAnd, r|exists OOr, r]; split; cbn; auto.
Qed.

Lemma digit_cases c : is_digit c = true -> In c (L "0123456789").
Proof.
  unfold is_digit. rewrite andb_true_iff, !N.leb_le. intros [A B]. cbn.
  assert (H : (c = 48 \/ c = 49 \/ c = 50 \/ c = 51 \/ c = 52 \/ c = 53 \/ c = 54 \/ c = 55 \/ c = 56 \/ c = 57)%N) by lia.
  intuition.
Qed.
Ltac digits H := apply digit_cases in H; cbn in H; repeat (destruct H as [H|H]; [subst|]); try destruct H.

Lemma strip1 a c x : (c =? a)%N = false -> strip_prefix [a] (c :: x) = None.
Proof. intros H. cbn [strip_prefix]. rewrite N.eqb_sym, H. auto. Qed.

Section Atoms.
  Context (w : world).

  Lemma primary_term p s r n : P (T (L "(")) s PFail -> P (R Runary ~~ wss ~~ R Rexpr) s PFail -> P (R Rterm) s (POk [p] r) ->
    (forall t, build_ast w (Pair Rprimary t [p]) = Ok n) -> parses w O s r n.
  Proof.
    intros H1 H2 H3 B. edestruct (p_rule Rprimary _ s [p] r eq_refl) as (q & _ & X).
    - apply s_alt2; [apply s_seq_fail1; exact H1|]. apply s_alt2; [exact H2|]. apply s_alt1. exact H3.
    - eexists. split; [exact X|]. apply B.
  Qed.

  Lemma a_var v r : follow r -> parses w O (var_text v ++ r) r (var_node v).
  Proof.
    intros F. eapply (primary_term (Pair Rvariable (var_text v) [])).
    - destruct v; run 9%nat.
    - destruct v; try (run 9%nat). cbn [var_text].
      (* "note" starts with "not": then "e..." is not an expression *)
      destruct F as [r|o r]; [run 60%nat|]. ops o; run 90%nat.
    - eapply s_rule_silent; [reflexivity|]. apply s_alt1. eapply s_rule; [reflexivity|].
      destruct v; run 30%nat.
    - intros t. destruct v; reflexivity.
  Qed.

  Lemma number_start ip fp : number_ok ip fp -> exists c x, number_text ip fp = c :: x /\ is_digit c = true.
  Proof.
    intros (H & N & _). destruct ip as [|c ip]; [congruence|]. exists c, (ip ++ match fp with Some f => L "." ++ f | None => [] end).
    split; auto. apply only_digits_all in H. cbn in H. apply andb_true_iff in H. tauto.
  Qed.
  Lemma p_number ip fp r : number_ok ip fp -> match r with c :: _ => is_digit c || (c =? c_dot)%N | [] => false end = false ->
    P (R Rnumber) (number_text ip fp ++ r) (POk [Pair Rnumber (number_text ip fp) []] r).
  Proof.
    intros (H & N & Hf) Hr. eapply s_rule; [reflexivity|].
    assert (R1 : match r with c :: _ => is_digit c | [] => false end = false) by (destruct r; auto; apply orb_false_iff in Hr; tauto).
    assert (R2 : match r with c :: d :: _ => (c =? c_dot)%N && is_digit d | _ => false end = false).
    { destruct r as [|c [|d r]]; auto. apply orb_false_iff in Hr. destruct Hr as [_ ->]. auto. }
    destruct fp as [f|].
    - destruct Hf. apply (number_body_neg false ip true f r); auto; discriminate.
    - rewrite <- (app_nil_r (number_text ip None)) at 1. 
      assert (E : number_text ip None ++ [] = (if false then L "-" else []) ++ ip ++ (if false then L "." ++ [] else [])).
      { unfold number_text. cbn. rewrite !app_nil_r. auto. }
      rewrite E. apply (number_body_neg false ip false [] r); auto; try discriminate. intros x Hx. destruct Hx.
  Qed.
  Lemma number_read ip fp t k rl : number_ok ip fp -> t = number_text ip fp -> parse_rational (Pair rl t k) = Ok (number_value ip fp).
  Proof.
    intros (H & N & Hf) ->. apply C08_grammar_numbers_read. exists false, ip, (match fp with Some _ => true | None => false end), (match fp with Some f => f | None => [] end).
    split; [unfold number_text; destruct fp; auto|]. split; auto. split; [destruct fp; [tauto|intros x Hx; destruct Hx]|].
    split; [destruct fp; [discriminate|auto]|]. split; [destruct ip; [congruence|discriminate]|]. unfold number_value. f_equal. ring.
  Qed.
  Lemma follow_num r : follow r -> match r with c :: _ => is_digit c || (c =? c_dot)%N | [] => false end = false.
  Proof. intros [x|o x]; reflexivity. Qed.
  Lemma digit_var c x : is_digit c = true -> P (R Rvariable) (c :: x) PFail.
  Proof. intros H. digits H; run 60%nat. Qed.
  Lemma digit_unary c x : is_digit c = true -> P (R Runary ~~ wss ~~ R Rexpr) (c :: x) PFail.
  Proof. intros H. digits H; run 60%nat. Qed.
  Lemma digit_paren c x : is_digit c = true -> P (T (L "(")) (c :: x) PFail.
  Proof. intros H. digits H; run 60%nat. Qed.

  (** A commodity: unquoted text up to a blank or a reserved character. *)
  Lemma currency_rest : forall cur r, forallb currency_char cur = true -> follow r ->
    P (EStar (ENot (R Rreserved) ~~ ENot separator ~~ any)) (cur ++ r) (POk [] r).
  Proof.
    induction cur as [|c cur IH]; intros r H F.
    - cbn [app]. apply s_star0. destruct F as [r|o r]; run 60%nat.
    - cbn in H. apply andb_true_iff in H. destruct H as [Hc H]. cbn [app].
      eapply (s_star1 grammar _ _ [] (cur ++ r) []); [|apply IH; auto].
      unfold currency_char in Hc. apply andb_true_iff in Hc. destruct Hc as [Hs Hr]. apply negb_true_iff in Hs, Hr.
      eapply (s_seq_ok grammar _ _ _ [] (c :: cur ++ r) []).
      { apply s_not. eapply s_rule_fail; [reflexivity|]. cbn in Hr. repeat (apply orb_false_iff in Hr; destruct Hr as [? Hr]).
        cbn [alts]. repeat (apply s_alt2; [apply s_str_fail; apply strip1; assumption|]). apply s_str_fail; apply strip1; assumption. }
      eapply (s_seq_ok grammar _ _ _ [] (c :: cur ++ r) []).
      { apply s_not. apply s_class_fail. auto. }
      apply s_class. auto.
  Qed.

  Lemma p_currency cur r : currency_ok cur -> follow r -> P (R Rcurrency) (cur ++ r) (POk [Pair Rcurrency cur [Pair Runquoted cur []]] r).
  Proof.
    intros [H H0] F. destruct cur as [|c cur]; [destruct H0|]. destruct H0 as (E1 & E2 & E3).
    pose proof (currency_rest (c :: cur) r H F) as X.
    cbn [forallb] in H. apply andb_true_iff in H. destruct H as [Hc H].
    pose proof Hc as Hc'. unfold currency_char in Hc. apply andb_true_iff in Hc. destruct Hc as [Hs Hr]. apply negb_true_iff in Hs, Hr.
    cbn in Hr. repeat (apply orb_false_iff in Hr; destruct Hr as [? Hr]).
    assert (NR : P (ENot (R Rreserved)) (c :: cur ++ r) (POk [] (c :: cur ++ r))).
    { apply s_not. eapply s_rule_fail; [reflexivity|].
      cbn [alts]. repeat (apply s_alt2; [apply s_str_fail; apply strip1; assumption|]). apply s_str_fail; apply strip1; assumption. }
    eapply s_rule; [reflexivity|]. apply s_alt2.
    - eapply s_rule_fail; [reflexivity|]. apply s_alt2; apply s_seq_fail1; apply s_str_fail; apply strip1; assumption.
    - eapply s_rule; [reflexivity|]. cbn [app].
      eapply (s_seq_ok grammar _ _ _ [] (c :: cur ++ r) []); [exact NR|].
      eapply (s_seq_ok grammar _ _ _ [] (c :: cur ++ r) []); [apply s_not, s_str_fail, strip1, N.eqb_neq, E1|].
      eapply (s_seq_ok grammar _ _ _ [] (c :: cur ++ r) []); [apply s_not, s_str_fail, strip1, N.eqb_neq, E2|].
      eapply (s_seq_ok grammar _ _ _ [] (c :: cur ++ r) []); [apply s_not, s_str_fail, strip1, N.eqb_neq, E3|].
      eapply (s_seq_ok grammar _ _ _ [] (cur ++ r) []).
      + eapply (s_seq_ok grammar _ _ _ [] (c :: cur ++ r) []); [exact NR|].
        eapply (s_seq_ok grammar _ _ _ [] (c :: cur ++ r) []); [apply s_not, s_class_fail; auto|]. apply s_class. auto.
      + apply currency_rest; auto.
  Qed.
  Lemma currency_skip cur r : currency_ok cur -> skip (L " " ++ cur ++ r) = cur ++ r.
  Proof.
    intros [H H0]. destruct cur as [|c cur]; [destruct H0|]. change (L " ") with [c_sp]. cbn.
    destruct (N.eqb_spec c c_sp); auto. subst. cbn in H. discriminate.
  Qed.

  Lemma number_currency ip fp : number_ok ip fp -> currency_ok (number_text ip fp).
  Proof.
    intros H. destruct (number_start ip fp H) as (c & x & E & D). destruct H as (H & _ & Hf). apply only_digits_all in H.
    assert (DG : forall l, all_digits l = true -> forallb currency_char l = true).
    { intros l Hl. apply forallb_forall. intros y Hy. assert (Dy : is_digit y = true) by (eapply forallb_forall in Hl; eauto). digits Dy; reflexivity. }
    split.
    - unfold number_text. rewrite forallb_app. rewrite DG by auto. destruct fp as [f|]; auto. cbn [andb]. rewrite forallb_app.
      rewrite (DG f); [reflexivity|]. apply only_digits_all. tauto.
    - rewrite E. digits D; repeat split; discriminate.
  Qed.
  Lemma a_number ip fp r : number_ok ip fp -> follow r -> ~ at_word r -> parses w O (number_text ip fp ++ r) r (NNumber (number_value ip fp)).
  Proof.
    intros H F N. destruct (number_start ip fp H) as (c & x & E & D). pose proof (p_number ip fp r H (follow_num r F)) as X.
    eapply (primary_term (Pair Rnumber (number_text ip fp) [])).
    - rewrite E. apply digit_paren; auto.
    - rewrite E. apply digit_unary; auto.
    - eapply s_rule_silent; [reflexivity|]. apply s_alt2; [rewrite E; apply digit_var; auto|]. apply s_alt2; [|apply s_alt1; exact X].
      eapply s_rule_fail; [reflexivity|]. apply s_alt2.
      + eapply s_seq_fail2; [exact X|]. eapply s_seq_fail2; [apply p_wss|]. apply currency_after; auto.
      + eapply s_seq_fail2; [apply p_currency; [apply number_currency; auto|exact F]|]. eapply s_seq_fail2; [apply p_wss|]. apply number_after; auto.
    - intros t. cbn. rewrite (number_read ip fp _ _ _ H eq_refl). reflexivity.
  Qed.
  Lemma a_money ip fp cur r : number_ok ip fp -> currency_ok cur -> follow r ->
    parses w O ((number_text ip fp ++ L " " ++ cur) ++ r) r (NMoney cur (number_value ip fp)).
  Proof.
    intros H HC F. destruct (number_start ip fp H) as (c & x & E & D).
    pose proof (p_number ip fp (L " " ++ cur ++ r) H eq_refl) as X.
    rewrite <- !app_assoc.
    edestruct (p_rule Rmoney _ (number_text ip fp ++ L " " ++ cur ++ r) [Pair Rnumber (number_text ip fp) []; Pair Rcurrency cur [Pair Runquoted cur []]] r eq_refl) as (q & _ & M).
    { apply s_alt1. eapply (s_seq_ok grammar _ _ _ [Pair Rnumber (number_text ip fp) []] _ [_]); [exact X|].
      eapply (s_seq_ok grammar _ _ _ [] _ [_]); [apply p_wss|]. rewrite currency_skip by auto. apply p_currency; auto. }
    eapply primary_term.
    - rewrite E. apply digit_paren; auto.
    - rewrite E. apply digit_unary; auto.
    - eapply s_rule_silent; [reflexivity|]. apply s_alt2; [rewrite E; apply digit_var; auto|]. apply s_alt1. exact M.
    - intros t. cbn. unfold money_of. cbn. rewrite (number_read ip fp _ _ _ H eq_refl). reflexivity.
  Qed.

  Lemma p_regex_rest : forall s r, ~ In c_slash s -> P (EStar (ENot (T (L "/")) ~~ any)) (s ++ L "/" ++ r) (POk [] (L "/" ++ r)).
  Proof.
    induction s as [|c s IH]; intros r H.
    - apply s_star0. run 9%nat.
    - cbn [app]. eapply (s_star1 grammar _ _ [] (s ++ L "/" ++ r) []); [|apply IH; cbn in H; tauto].
      eapply (s_seq_ok grammar _ _ _ [] (c :: s ++ L "/" ++ r) []); [|apply s_class; auto].
      apply s_not, s_str_fail. apply strip1, N.eqb_neq. intros ->. apply H. left. auto.
  Qed.
  Lemma a_regex s r : ~ In c_slash s -> w_rx_ok w s = true -> parses w O ((L "/" ++ s ++ L "/") ++ r) r (NRegex s).
  Proof.
    intros H HR. eapply (primary_term (Pair Rregex (L "/" ++ s ++ L "/") [])).
    - run 9%nat.
    - run 9%nat.
    - eapply s_rule_silent; [reflexivity|]. apply s_alt2; [run 60%nat|]. apply s_alt2; [run 60%nat|]. apply s_alt2; [run 60%nat|].
      apply s_alt1. eapply s_rule; [reflexivity|]. rewrite <- !app_assoc.
      eapply (s_seq_ok grammar _ _ _ [] _ []); [apply s_str|]. eapply (s_seq_ok grammar _ _ _ [] _ []); [apply p_regex_rest; auto|]. apply s_str.
    - intros t. cbn [build_ast]. unfold unquote. cbn [tl app L]. change (tl (L "/" ++ s ++ L "/")) with (s ++ L "/").
      change (L "/") with [c_slash]. rewrite removelast_last. rewrite HR. reflexivity.
  Qed.
  Lemma p_string_rest q : q <> 92%N -> forall s r, in_quotes q s ->
    P (EStar (EStr [92%N; q] /// (ENot (EStr [q]) ~~ any))) (s ++ [q] ++ r) (POk [] ([q] ++ r)).
  Proof.
    intros Hq s r H.
    assert (Hs : forall c x, c <> q -> P (ENot (EStr [q]) ~~ any) (c :: x) (POk [] x)).
    { intros c x Hc. eapply (s_seq_ok grammar _ _ _ [] (c :: x) []); [|apply s_class; auto].
      apply s_not, s_str_fail. apply strip1, N.eqb_neq. auto. }
    induction H as [|c s Hc Hb H IH|c s Hc H IH|s H IH]; cbn [app].
    - apply s_star0. apply s_alt2; [apply s_str_fail; cbn [strip_prefix]; destruct (N.eqb_spec 92 q); congruence|].
      apply s_seq_fail1. apply s_not_fail with (k := []) (r := r). apply (s_str grammar [q] r).
    - eapply (s_star1 grammar _ _ [] (s ++ [q] ++ r) []); [|exact IH]. apply s_alt2; auto.
      apply s_str_fail. cbn [strip_prefix]. destruct (N.eqb_spec 92 c); congruence.
    - eapply (s_star1 grammar _ _ [] (c :: s ++ [q] ++ r) []); [|exact IH]. apply s_alt2; auto.
      apply s_str_fail. cbn [strip_prefix]. rewrite N.eqb_refl. destruct (N.eqb_spec q c); congruence.
    - eapply (s_star1 grammar _ _ [] (s ++ [q] ++ r) []); [|exact IH]. apply s_alt1. apply (s_str grammar [92%N; q] (s ++ q :: r)).
  Qed.
  Lemma plain_in_quotes q s : ~ In q s -> ~ In 92%N s -> in_quotes q s.
  Proof. induction s as [|c s IH]; intros H1 H2; constructor; cbn in *; auto. Qed.
  Lemma p_string q s r : q = c_dq \/ q = c_sq -> in_quotes q s -> P (R Rstring) (([q] ++ s ++ [q]) ++ r) (POk [Pair Rstring ([q] ++ s ++ [q]) []] r).
  Proof.
    intros Hq H. eapply s_rule; [reflexivity|]. rewrite <- !app_assoc. destruct Hq as [-> | ->]; [apply s_alt1|apply s_alt2; [run 9%nat|]];
    (eapply (s_seq_ok grammar _ _ _ [] _ []); [apply s_str|]; eapply (s_seq_ok grammar _ _ _ [] _ []); [apply p_string_rest; auto; discriminate|]; apply s_str).
  Qed.
  Lemma a_string q s r : q = c_dq \/ q = c_sq -> in_quotes q s -> follow r -> parses w O (([q] ++ s ++ [q]) ++ r) r (NString s).
  Proof.
    intros Hq H F. pose proof (p_string q s r Hq H) as X. eapply (primary_term (Pair Rstring ([q] ++ s ++ [q]) [])).
    - destruct Hq as [-> | ->]; run 9%nat.
    - destruct Hq as [-> | ->]; run 9%nat.
    - eapply s_rule_silent; [reflexivity|]. apply s_alt2; [destruct Hq as [-> | ->]; run 60%nat|]. apply s_alt2.
      { eapply s_rule_fail; [reflexivity|]. apply s_alt2; [destruct Hq as [-> | ->]; run 60%nat|].
        eapply s_seq_fail2; [eapply s_rule; [reflexivity|]; apply s_alt1; exact X|]. eapply s_seq_fail2; [apply p_wss|]. apply number_after; auto. }
      apply s_alt2; [destruct Hq as [-> | ->]; run 60%nat|]. apply s_alt2; [destruct Hq as [-> | ->]; run 60%nat|]. exact X.
    - intros t. cbn [build_ast]. unfold unquote. change (tl ([q] ++ s ++ [q])) with (s ++ [q]). rewrite removelast_last. reflexivity.
  Qed.

  (** ** Compound expressions *)
  Lemma text_first e : written w e -> forall r, skip (text_of e ++ r) = text_of e ++ r.
  Proof.
    intros H r. destruct e as [v|ip fp|ip fp cur| |q s|f e| | | |]; try reflexivity.
    - destruct v; reflexivity.
    - destruct (number_start ip fp H) as (c & x & E & D). cbn. rewrite E. digits D; reflexivity.
    - destruct H as [H _]. destruct (number_start ip fp H) as (c & x & E & D). cbn. rewrite E. digits D; reflexivity.
    - destruct H as [[-> | ->] _]; reflexivity.
    - destruct f; reflexivity.
  Qed.
  Lemma a_fun f s r n : parses_expr w s (L ")" ++ r) n -> skip s = s -> parses w O (fun_text f ++ L "(" ++ s) r (NUnary (fun_op f) n).
  Proof.
    intros (p & H & B) Hs.
    edestruct (p_rule Rprimary _ (fun_text f ++ L "(" ++ s) [Pair Rfunction (fun_text f) []; p] r eq_refl) as (q & _ & X).
    - apply s_alt2; [destruct f; run 60%nat|]. apply s_alt2; [destruct f; run 60%nat|]. apply s_alt2; [destruct f; run 60%nat|].
      eapply (s_seq_ok grammar _ _ _ [Pair Rfunction (fun_text f) []] (L "(" ++ s) [p]).
      { eapply s_rule; [reflexivity|]. destruct f; run 60%nat. }
      eapply (s_seq_ok grammar _ _ _ [] (L "(" ++ s) [p]); [apply p_wss|].
      eapply (s_seq_ok grammar _ _ _ [] s [p]); [apply s_str|].
      eapply (s_seq_ok grammar _ _ _ [] s [p]); [rewrite <- Hs at 2; apply p_wss|].
      eapply (s_seq_ok grammar _ _ _ [p] (L ")" ++ r) []); [exact H|].
      eapply (s_seq_ok grammar _ _ _ [] (L ")" ++ r) []); [apply p_wss|].
      eapply (s_seq_ok grammar _ _ _ [] (L ")" ++ r) []); [apply s_star0; run 9%nat|]. apply s_str.
    - eexists. split; [exact X|]. destruct f; cbn -[L] in *; rewrite B; reflexivity.
  Qed.
  Lemma a_not s r n : parses_expr w s r n -> skip s = s -> parses w O (L "not " ++ s) r (NUnary UNot n).
  Proof.
    intros (p & H & B) Hs.
    edestruct (p_rule Rprimary _ (L "not " ++ s) [Pair Runary (L "not") []; p] r eq_refl) as (q & _ & X).
    - apply s_alt2; [run 60%nat|]. apply s_alt1. change (L "not " ++ s) with (L "not" ++ L " " ++ s).
      eapply (s_seq_ok grammar _ _ _ [Pair Runary (L "not") []] (L " " ++ s) [p]).
      { eapply s_rule; [reflexivity|]. run 60%nat. }
      eapply (s_seq_ok grammar _ _ _ [] s [p]); [rewrite <- Hs at 2; apply (p_wss (L " " ++ s))|exact H].
    - eexists. split; [exact X|]. cbn -[L] in *; rewrite B; reflexivity.
  Qed.
  Lemma a_neg s r n : parses_expr w s r n -> skip s = s -> parses w O (L "- " ++ s) r (NUnary UNeg n).
  Proof.
    intros (p & H & B) Hs.
    edestruct (p_rule Rprimary _ (L "- " ++ s) [Pair Runary (L "-") []; p] r eq_refl) as (q & _ & X).
    - apply s_alt2; [run 60%nat|]. apply s_alt1. change (L "- " ++ s) with (L "-" ++ L " " ++ s).
      eapply (s_seq_ok grammar _ _ _ [Pair Runary (L "-") []] (L " " ++ s) [p]).
      { eapply s_rule; [reflexivity|]. run 60%nat. }
      eapply (s_seq_ok grammar _ _ _ [] s [p]); [rewrite <- Hs at 2; apply (p_wss (L " " ++ s))|exact H].
    - eexists. split; [exact X|]. cbn -[L] in *; rewrite B; reflexivity.
  Qed.

  Notation orung := precedence.
  Lemma op_below o i r : (i < orung o)%nat -> P (R (opr i)) (op_text o ++ L " " ++ r) PFail.
  Proof. intros H. destruct o; cbn in H; try lia; do 5 (destruct i as [|i]; [try lia; run 9%nat|]); lia. Qed.
  Lemma op_above o i r : (orung o < i < 5)%nat -> P (R (opr i)) (op_text o ++ L " " ++ r) PFail.
  Proof. intros H. destruct o; cbn in H; try lia; do 5 (destruct i as [|i]; [try lia; run 9%nat|]); lia. Qed.
  Lemma op_here o r : exists ks, P (R (opr (orung o))) (op_text o ++ L " " ++ r) (POk [Pair (opr (orung o)) (op_text o) ks] (L " " ++ r)).
  Proof.
    assert (H : exists ks, P (snd (grammar (opr (orung o)))) (op_text o ++ L " " ++ r) (POk ks (L " " ++ r))).
    { destruct o; try (exists []; run 9%nat); cbn [orung opr grammar snd op_text].
      - exists [Pair Req (L "==") []]. apply s_alt1. eapply s_rule; [reflexivity|]. run 9%nat.
      - exists [Pair Req (L "=~") []]. apply s_alt1. eapply s_rule; [reflexivity|]. run 9%nat.
      - exists [Pair Rlt (L "<") []]. do 5 (apply s_alt2; [run 9%nat|]). eapply s_rule; [reflexivity|]. run 9%nat.
      - exists [Pair Rgt (L ">") []]. do 3 (apply s_alt2; [run 9%nat|]). apply s_alt1. eapply s_rule; [reflexivity|]. run 9%nat.
      - exists [Pair Rle (L "<=") []]. do 4 (apply s_alt2; [run 9%nat|]). apply s_alt1. eapply s_rule; [reflexivity|]. run 9%nat.
      - exists [Pair Rge (L ">=") []]. do 2 (apply s_alt2; [run 9%nat|]). apply s_alt1. eapply s_rule; [reflexivity|]. run 9%nat. }
    destruct H as (ks & H). exists ks. eapply s_rule; [|exact H]. destruct o; reflexivity.
  Qed.
  Lemma op_close i r : (i < 5)%nat -> P (R (opr i)) (L ")" ++ r) PFail.
  Proof. intros H. do 5 (destruct i as [|i]; [run 9%nat|]). lia. Qed.
  Lemma orung_lt o : (orung o < 5)%nat. Proof. destruct o; cbn; lia. Qed.

  (** An operand brought to the rung of the operator after it. *)
  Lemma operand_before o s x n : parses w O s (L " " ++ op_text o ++ L " " ++ x) n ->
    exists r, parses w (orung o) s r n /\ skip r = op_text o ++ L " " ++ x /\ (r = op_text o ++ L " " ++ x \/ orung o = O).
  Proof.
    intros H. assert (SK : skip (L " " ++ op_text o ++ L " " ++ x) = op_text o ++ L " " ++ x) by (destruct o; reflexivity).
    destruct (Nat.eq_dec (orung o) 0) as [E|E].
    - rewrite E. eauto.
    - exists (op_text o ++ L " " ++ x). split; [|split; [destruct o; reflexivity|auto]].
      rewrite <- SK. apply (climb w (orung o) O); auto.
      + pose proof (orung_lt o). lia.
      + right. lia.
      + intros i Hi. rewrite SK. apply op_below. lia.
  Qed.
  Lemma operand_last k s x n : (k <= 5)%nat -> parses w O s (L ")" ++ x) n -> parses w k s (L ")" ++ x) n.
  Proof.
    intros Hk H. change (L ")" ++ x) with (skip (L ")" ++ x)). apply (climb w k O); auto. intros i Hi. apply op_close. lia.
  Qed.
  Lemma raise k s x n : (k <= 5)%nat -> parses w k s (L ")" ++ x) n -> parses_expr w s (L ")" ++ x) n.
  Proof.
    intros Hk H. apply to_expr. change (L ")" ++ x) with (skip (L ")" ++ x)). replace 5%nat with (k + (5 - k))%nat by lia. apply climb; auto; [lia|].
    intros i Hi. apply op_close. lia.
  Qed.
  Lemma binary_here o : binary_of (rung (S (orung o))) (op_text o) = Ok (op_node o).
  Proof. destruct o; reflexivity. Qed.
  Lemma a_bin o s1 s2 x a b : parses w O s1 (L " " ++ op_text o ++ L " " ++ s2) a -> parses w O s2 (L ")" ++ x) b -> skip s2 = s2 ->
    parses_expr w s1 (L ")" ++ x) (NBinary (op_node o) a b).
  Proof.
    intros H1 H2 Hs. destruct (operand_before o _ _ _ H1) as (r & A & Sr & _). destruct (op_here o s2) as (ks & O).
    pose proof (orung_lt o) as Lt. destruct (operand_last (orung o) _ _ _ ltac:(lia) H2) as (p & B & BB).
    apply (raise (S (orung o))); [lia|]. eapply chain; [lia|exact A|rewrite Sr; exact O| |exact BB| |apply binary_here].
    - change (skip (L " " ++ s2)) with (skip s2). rewrite Hs. exact B.
    - apply more_end. apply op_close. lia.
  Qed.

  (** Every written expression is read back. *)
  Lemma reads e : written w e -> forall r, follow r -> (is_number e -> ~ at_word r) -> parses w O (text_of e ++ r) r (denotes e).
  Proof.
    induction e as [v|ip fp|ip fp cur|s|s|f e IH|e IH|e IH|e IH|o a IHa b IHb]; intros W r F N; cbn [text_of denotes].
    - apply a_var; auto.
    - apply a_number; auto. apply N. cbn. auto.
    - destruct W. apply a_money; auto.
    - destruct W. apply a_regex; auto.
    - destruct W. apply a_string; auto.
    - rewrite <- !app_assoc. apply a_fun; [|apply (text_first e W)]. apply close_expr. apply IH; auto; [constructor|].
      intros _ (o & x & Hw & E). destruct o; discriminate.
    - rewrite <- !app_assoc. change (L "(not ") with (L "(" ++ L "not "). rewrite <- app_assoc. apply paren; [|reflexivity].
      apply close_expr. apply a_not; [|apply (text_first e W)]. apply close_expr. apply IH; auto; [constructor|].
      intros _ (o & x & Hw & E). destruct o; discriminate.
    - rewrite <- !app_assoc. change (L "(- ") with (L "(" ++ L "- "). rewrite <- app_assoc. apply paren; [|reflexivity].
      apply close_expr. apply a_neg; [|apply (text_first e W)]. apply close_expr. apply IH; auto; [constructor|].
      intros _ (o & x & Hw & E). destruct o; discriminate.
    - rewrite <- !app_assoc. apply paren; [|apply (text_first e W)]. apply close_expr. apply IH; auto; [constructor|].
      intros _ (o & x & Hw & E). destruct o; discriminate.
    - destruct W as (Wa & Wb & Nw). rewrite <- !app_assoc. apply paren; [|apply (text_first a Wa)].
      eapply a_bin; [apply IHa; auto| |apply (text_first b Wb)].
      + constructor.
      + intros Hn (o' & x & Hw & E). apply Nw. split; auto. destruct o, o'; cbn in *; auto; try discriminate; destruct Hw.
      + apply IHb; auto; [constructor|]. intros _ (o' & x & Hw & E). destruct o'; discriminate.
  Qed.
  Lemma root_reads s x n : parses_expr w s (L ")" ++ x) n -> skip s = s -> build_root w (L "(" ++ s) = Ok n.
  Proof.
    intros (p & H & B) Hs. unfold build_root.
    edestruct (p_rule Rvalue_expr _ (L "(" ++ s) [p] x eq_refl) as (q & _ & X).
    - eapply (s_seq_ok grammar _ _ _ [] s [p]); [apply s_str|].
      eapply (s_seq_ok grammar _ _ _ [] s [p]); [rewrite <- Hs at 2; apply p_wss|].
      eapply (s_seq_ok grammar _ _ _ [p] (L ")" ++ x) []); [exact H|].
      eapply (s_seq_ok grammar _ _ _ [] (L ")" ++ x) []); [apply p_wss|]. apply s_str.
    - rewrite (gparse_pegs_ok _ _ _ _ X). cbn. exact B.
  Qed.

  (** ** Chains *)
  Fixpoint rest_text (l : list (cop * cexp)) (x : str) : str :=
    match l with [] => L ")" ++ x | (o, a) :: l' => L " " ++ op_text o ++ L " " ++ text_of a ++ rest_text l' x end.
  Lemma rest_tail l x : tail_text l ++ L ")" ++ x = rest_text l x.
  Proof. induction l as [|[o a] l IH]; cbn [tail_text rest_text]; auto. rewrite <- !app_assoc, IH. auto. Qed.
  Lemma rest_follow l x : follow (rest_text l x).
  Proof. destruct l as [|[o a] l]; cbn [rest_text]; constructor. Qed.
  Lemma op_skip o x : skip (op_text o ++ x) = op_text o ++ x.
  Proof. destruct o; reflexivity. Qed.
  Lemma rest_skip o a l x : skip (rest_text ((o, a) :: l) x) = op_text o ++ L " " ++ text_of a ++ rest_text l x.
  Proof. cbn [rest_text]. change (skip (L " " ++ ?y)) with (skip y). apply (op_skip o). Qed.
  Lemma rest_word a0 l x : chain_written w a0 l -> is_number a0 -> ~ at_word (rest_text l x).
  Proof.
    intros H N (o & y & Ho & E). destruct l as [|[o' a] l]; cbn [rest_text] in E; [destruct o; discriminate|].
    destruct H as (_ & H & _). apply H. split; auto. destruct o, o'; cbn in *; auto; try discriminate; destruct Ho.
  Qed.
  Lemma chain_head a0 l : chain_written w a0 l -> written w a0.
  Proof. destruct l; cbn; tauto. Qed.
  (** An operand at the rung [k] of the operators of the chain, [k] not the lowest. *)
  Lemma chain_operand k a0 l x : (0 < k <= 4)%nat -> chain_written w a0 l -> Forall (fun p => precedence (fst p) = k) l ->
    parses w k (text_of a0 ++ rest_text l x) (skip (rest_text l x)) (denotes a0).
  Proof.
    intros Hk W F. apply (climb w k O); [lia| |right; lia|].
    - apply reads; [eapply chain_head; eauto|apply rest_follow|]. intros N. eapply rest_word; eauto.
    - intros i Hi. destruct l as [|[o a] l].
      + apply op_close. lia.
      + rewrite rest_skip. inv F. cbn [fst] in *. apply op_below. lia.
  Qed.
  Lemma chain_more k x : (0 < k <= 4)%nat -> forall l, match l with [] => True | (_, a) :: l' => chain_written w a l' end ->
    Forall (fun p => precedence (fst p) = k) l -> exists ps, more k (skip (rest_text l x)) (L ")" ++ x) ps.
  Proof.
    intros Hk. induction l as [|[o a] l IH]; intros W F.
    - exists []. apply more_end. apply op_close. lia.
    - inv F. cbn [fst] in *. destruct (chain_operand (precedence o) a l x ltac:(lia) W ltac:(auto)) as (p & Hp & _).
      destruct IH as (ps & IH); [destruct l as [|[o' a'] l]; cbn in W; tauto|auto|].
      destruct (op_here o (text_of a ++ rest_text l x)) as (ks & O).
      eexists. rewrite rest_skip. eapply more_op; [exact O| |exact IH].
      change (skip (L " " ++ ?y)) with (skip y). rewrite text_first by (eapply chain_head; eauto). exact Hp.
  Qed.
  Lemma chain_reads k a0 o a l x : (0 < k <= 4)%nat -> chain_written w a0 ((o, a) :: l) ->
    Forall (fun p => precedence (fst p) = k) ((o, a) :: l) ->
    parses_expr w (text_of a0 ++ rest_text ((o, a) :: l) x) (L ")" ++ x) (NBinary (op_node o) (denotes a0) (denotes a)).
  Proof.
    intros Hk W F. pose proof (chain_operand k a0 _ x Hk W F) as A. rewrite rest_skip in A.
    destruct W as (_ & _ & W). inv F. cbn [fst] in *.
    destruct (chain_operand (precedence o) a l x ltac:(lia) W ltac:(auto)) as (p & Hp & Bp).
    destruct (chain_more (precedence o) x ltac:(lia) l) as (ps & M); [destruct l as [|[o' a'] l]; cbn in W; tauto|auto|].
    destruct (op_here o (text_of a ++ rest_text l x)) as (ks & O).
    apply (raise (S (precedence o))); [lia|]. eapply chain; [lia|exact A|rewrite op_skip; exact O| |exact Bp|exact M|apply binary_here].
    change (skip (L " " ++ ?y)) with (skip y). rewrite text_first by (eapply chain_head; eauto). exact Hp.
  Qed.
  (** Products: the chain stops after the second factor. *)
  Lemma product_stops a0 o a o2 a2 l x : chain_written w a0 ((o, a) :: (o2, a2) :: l) -> precedence o = O -> precedence o2 = O ->
    parses_expr w (text_of a0 ++ rest_text ((o, a) :: (o2, a2) :: l) x) (op_text o2 ++ L " " ++ text_of a2 ++ rest_text l x)
      (NBinary (op_node o) (denotes a0) (denotes a)).
  Proof.
    intros W P1 P2. assert (A : parses w O (text_of a0 ++ rest_text ((o, a) :: (o2, a2) :: l) x) (rest_text ((o, a) :: (o2, a2) :: l) x) (denotes a0)).
    { apply reads; [eapply chain_head; eauto|apply rest_follow|]. intros N. eapply rest_word; eauto. }
    destruct W as (_ & _ & W).
    assert (B : parses w O (text_of a ++ rest_text ((o2, a2) :: l) x) (rest_text ((o2, a2) :: l) x) (denotes a)).
    { apply reads; [eapply chain_head; eauto|apply rest_follow|]. intros N. eapply rest_word; eauto. }
    destruct B as (p & Hp & Bp). pose proof (op_here o (text_of a ++ rest_text ((o2, a2) :: l) x)) as (ks & OH). rewrite P1 in OH.
    rewrite <- (rest_skip o2 a2 l x). apply to_expr. apply (climb w 4 1); [lia| |right; lia|].
    - pose proof (binary_here o) as BH. rewrite P1 in BH.
      eapply (chain w 0 _ _ _ (Pair (opr 0) (op_text o) ks)); [lia|exact A| | |exact Bp|apply more_end|exact BH].
      + rewrite rest_skip. exact OH.
      + change (skip (L " " ++ ?y)) with (skip y). rewrite text_first by (eapply chain_head; eauto). exact Hp.
      + cbn [rest_text opr]. run 9%nat.
    - intros i Hi. rewrite rest_skip. apply op_above. lia.
  Qed.
End Atoms.
