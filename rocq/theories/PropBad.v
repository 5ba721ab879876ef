(** Property C77: a malformed line is refused, and the error names it. *)
From Coq Require Import Lia.
From Verif Require Import Base BaseFacts Numerals Money Alist Comment Txn Peg Grammar PegFacts Dates Expr Tokens Spec SpecText SpecDates
  TokenFacts JournalFacts SpecTokens TokenFacts2 SimFacts JournalSim IncludeFacts InlineFacts LiteralFacts PropLiteral PostingFacts PropTxn PropLedger
  PropTokens SpecUtf8 SpecErrors Message PlaceFacts MessageFacts SpecExpr ExprFacts DateFacts SpecJournal SpecBad JournalRead JournalItems
  JournalHeader JournalPrice JournalLoop JournalBad PropErrors PropJournal.
Open Scope Z_scope.

(** ** From the item at fault to the file *)
Lemma refused d w path a x s seen rest e k :
  a = [] \/ piece w a -> is_ws x = false -> newline_terminated (a ++ x :: s) -> x :: s = seen ++ rest ->
  (forall inc t, tk_rest t = x :: s -> tk_col t = O -> nlterm (x :: s) ->
     exists t', item_datum inc w x t = fail_at t' e /\ moves t t' /\ tk_rest t' = rest /\ tk_col t' = k) ->
  w_read w path = Some (a ++ x :: s) ->
  tokenize_file (S d) w path =
    Err (EParser e (Some {| at_file := Some path; at_line := Z.of_nat (count c_nl (a ++ seen)); at_col := k; at_text := a ++ x :: s |})).
Proof.
  intros Ha Hx Hn Hs Hi Hr. unfold tokenize_file. rewrite Hr, tokenize_S, main_loop_is.
  set (inc := include_parse _ w (Some path) [path]).
  assert (Loop : forall f t, tk_rest t = x :: s -> tk_col t = O -> (0 < f)%nat -> moves (tok_of (a ++ x :: s)) t ->
    in_file (Some path) (ds <- data_loop f inc w t ;; Ok (fold_left (apply_datum w) ds pl_new)) =
    Err (EParser e (Some {| at_file := Some path; at_line := Z.of_nat (count c_nl (a ++ seen)); at_col := k; at_text := a ++ x :: s |}))).
  { intros f t Er Ec Hf M. destruct f as [|f]; [lia|]. cbn [data_loop]. rewrite Er.
    unfold consume_whitespaces_and_lines. rewrite Ec, Er, cwl_at_item by auto. unfold get_char. cbn [tk_rest].
    assert (Hnl : nlterm (x :: s)). { apply (nlterm_suffix a). apply nlt_nlterm. auto. }
    destruct (Hi inc (mkt (tk_pre t) (x :: s) (tk_line t) 0) eq_refl eq_refl Hnl) as (t' & -> & M' & E1 & E2).
    cbn [bind fail_at in_file tok_place at_file at_line at_col at_text].
    assert (M2 : moves (tok_of (a ++ x :: s)) t').
    { eapply moves_trans; [exact M|]. rewrite <- Er, <- Ec, mkt_of in M'. auto. }
    destruct M2 as (p & Y1 & Y2 & Y3). cbn in Y1, Y2, Y3. rewrite E1, Hs, app_assoc in Y1. apply app_inv_tail in Y1. subst p.
    rewrite Y2, Y3, E1, E2, app_nil_r, rev_involutive, newlines_count, <- app_assoc, Hs. reflexivity. }
  destruct Ha as [-> | Ha].
  - apply Loop; auto; [lia|apply moves_refl].
  - destruct (piece_data w a inc Ha) as (a0 & ds & Ea & Ht & Hd & Hf). subst a.
    destruct (piece_then inc w a0 (x :: s) ds (S (length ((a0 ++ [c_nl]) ++ x :: s))) (tok_of ((a0 ++ [c_nl]) ++ x :: s)))
      as (f2 & t2 & X1 & X2 & X3 & X4 & X5); auto.
    + apply good_include.
    + cbn. rewrite <- app_assoc. reflexivity.
    + rewrite X5. destruct X3 as [X3|X3]; [discriminate|].
      specialize (Loop f2 t2 X2 X3 ltac:(lia) (X4 (proj1 (nlt_nlterm _) Hn))).
      destruct (data_loop f2 inc w t2) as [l|e'|e'] eqn:El; cbn [bind] in Loop |- *; auto. discriminate.
Qed.

(** ** Transactions *)
Lemma bad_first w real msg seen s : blanks_not_numeric w -> bad_posting w real msg seen s ->
  exists x r, s = x :: r /\ is_ws x = false /\ x <> c_semi /\
    (is_numeric w x = true /\ seen = [] /\ msg = L "Expecting account name" \/ is_numeric w x = false).
Proof.
  intros Hw H.
  assert (Lead : forall s r, account_lead w s -> exists x y, s ++ r = x :: y /\ is_ws x = false /\ x <> c_semi /\ is_numeric w x = false).
  { intros s0 r (n & k & acc & sep & b & Hn & Hf & (c & y & -> & Hc) & _ & _ & _ & ->).
    eexists c, _. split; [reflexivity|]. split; [|tauto]. clear - Hn Hf. remember (c :: y) as acc eqn:E. destruct Hf as [c0 r0 E0 _ _ _| |].
    - destruct Hn as (_ & _ & _ & _ & Hn & _). apply (Hn c y). auto.
    - inversion E. reflexivity.
    - inversion E. reflexivity. }
  destruct H as [x r Hx|n sep r Hu Hs Ho|n sep r Hu Hs Ho|s r Hl|s neg ip fp r Hr Hl Hi Hf|s c b r Hr Hl Hc Hcw Hb H1 H2 H3].
  - exists x, r. split; auto. split; [|split; auto].
    + destruct (is_ws x) eqn:E; auto. rewrite (Hw x E) in Hx. discriminate.
    + intros ->. discriminate.
  - destruct Hu as (_ & (x & y & -> & ->) & _). eexists c_lp, _. split; [reflexivity|]. split; [reflexivity|]. split; [discriminate|right; reflexivity].
  - destruct Hu as (_ & (x & y & -> & ->) & _). eexists c_lb, _. split; [reflexivity|]. split; [reflexivity|]. split; [discriminate|right; reflexivity].
  - destruct (Lead s (L "@" ++ r) Hl) as (x & y & -> & Hx). exists x, y. tauto.
  - rewrite <- app_assoc. destruct (Lead s ((((if neg then L "-" else []) ++ ip ++ L "." ++ fp)) ++ L "." ++ r) Hl) as (x & y & -> & Hx). exists x, y. tauto.
  - rewrite <- app_assoc. destruct (Lead s ((c ++ b) ++ r) Hl) as (x & y & -> & Hx). exists x, y. tauto.
Qed.
Lemma bad_seen w real msg seen s : bad_posting w real msg seen s -> one_line seen /\ exists r, s = seen ++ r.
Proof.
  assert (Lead : forall s, account_lead w s -> one_line s).
  { intros s0 (n & k & acc & sep & b & Hn & Hf & _ & _ & Ho & Hb & ->). destruct (form_inner _ _ _ Hn Hf) as [(_ & I & _) _].
    apply one_line_app; [exact I|]. apply one_line_app; auto. apply one_line_blanks. auto. }
  assert (Dig : forall s, only_digits s -> one_line s).
  { intros s0 H Hi. apply H in Hi. unfold c_nl in Hi. lia. }
  assert (One : forall c, c <> c_nl -> one_line [c]). { intros c Hc [E|[]]. congruence. }
  intros H. destruct H as [x r Hx|n sep r Hu Hs Ho|n sep r Hu Hs Ho|s r Hl|s neg ip fp r Hr Hl Hi Hf|s c b r Hr Hl Hc Hcw Hb H1 H2 H3].
  - split; [intros []|exists (x :: r); auto].
  - split; [|eauto]. destruct (plain_inner _ (proj1 Hu)) as (_ & I & _). apply one_line_app; auto.
  - split; [|eauto]. destruct (plain_inner _ (proj1 Hu)) as (_ & I & _). apply one_line_app; auto.
  - split; [|eauto]. auto.
  - split; [|eauto]. apply one_line_app; auto. apply one_line_app; [destruct neg; [apply One; discriminate|intros []]|].
    apply one_line_app; auto. apply one_line_app; auto. apply One. discriminate.
  - split; [|eauto]. apply one_line_app; auto. apply one_line_app; [|apply one_line_blanks; auto].
    intros Hi. apply Hcw in Hi. destruct Hi as [Hi _]. discriminate.
Qed.
Lemma along_moves t s t' : one_line s -> along t s t' -> moves t t'.
Proof.
  intros Ho (A1 & A2 & A3 & _). exists s. repeat split; auto. rewrite A3.
  assert (E : newlines s = 0). { clear -Ho. induction s as [|c s IH]; auto. cbn. destruct (N.eqb_spec c c_nl) as [->|_]; [exfalso; apply Ho; left; auto|]. rewrite IH; auto. intros H. apply Ho. right. auto. }
  rewrite E. lia.
Qed.
Lemma count_one s : one_line s -> count c_nl s = O.
Proof.
  intros H. induction s as [|c s IH]; auto. unfold count in *. cbn [filter]. rewrite N.eqb_sym. destruct (N.eqb_spec c c_nl) as [->|_]; [exfalso; apply H; left; auto|].
  apply IH. intros X. apply H. right. auto.
Qed.
Lemma bad_entries w real pay cs ps cms c p g b msg seen s t : blanks_not_numeric w -> comment_lines cs c -> posting_lines w pay ps p ->
  blank_lines g -> indent b -> bad_posting w real msg seen s -> tk_rest t = c ++ p ++ g ++ b ++ s -> tk_col t = O -> nlterm (tk_rest t) ->
  exists t', entries (entries_fuel t) w (of_type real) pay false cms [] t = fail_at t' (UnexpectedInput (Some msg)) /\
    moves t t' /\ s = seen ++ tk_rest t' /\ tk_col t' = (length b + length seen)%nat.
Proof.
  intros Hw Hc Hp Hg Hb H E Ec Hn. destruct (bad_first _ _ _ _ _ Hw H) as (x & r & Es & X1 & X2 & X3). rewrite Es in E.
  destruct (entries_reach w (of_type real) pay cs ps cms c p g b x r t Hw Hc Hp Hg Hb X1 X2 E Ec ltac:(intros _; auto)) as (t1 & k & M & E1 & E2 & ->).
  destruct X3 as [(X3 & -> & ->)|X3]; rewrite X3.
  - exists t1. split; [reflexivity|]. split; [exact M|]. split; [rewrite Es, E1; reflexivity|rewrite E2; cbn; lia].
  - rewrite <- Es in E1. destruct (bad_posting_read w real pay msg seen s t1 H E1) as (t2 & -> & A).
    { intros (y & z & Ey & Hy). rewrite Es in Ey. inversion Ey. subst. congruence. }
    exists t2. split; auto. split; [eapply moves_trans; [exact M|]; eapply along_moves; [|exact A]; eapply bad_seen; eauto|].
    destruct A as (A1 & _ & _ & A4). rewrite A4, E2, <- E1. auto.
Qed.

(** The line at fault below the first line of an item. *)
Lemma refused_line d w path a x first l g b seen s e :
  a = [] \/ piece w a -> is_ws x = false -> one_line (x :: first) -> blanks b -> one_line seen ->
  (exists r, s = seen ++ r) ->
  (forall inc t t1, get_char t = Some x -> get_line t = (x :: first, t1) -> tk_rest t1 = l ++ g ++ b ++ s -> tk_col t1 = O -> nlterm (tk_rest t1) ->
     exists t2, item_datum inc w x t = fail_at t2 e /\ moves t1 t2 /\ s = seen ++ tk_rest t2 /\ tk_col t2 = length (b ++ seen)) ->
  let before := a ++ (x :: first) ++ [c_nl] ++ l ++ g in
  newline_terminated (before ++ b ++ s) -> w_read w path = Some (before ++ b ++ s) ->
  tokenize_file (S d) w path =
    Err (EParser e (Some {| at_file := Some path; at_line := Z.of_nat (count c_nl before); at_col := length (b ++ seen); at_text := before ++ b ++ s |})).
Proof.
  intros Ha Hx Hf Hb Ho (r & Es) Hi before Hn Hr.
  assert (Et : before ++ b ++ s = a ++ x :: first ++ [c_nl] ++ l ++ g ++ b ++ s).
  { unfold before. repeat (cbn [app]; rewrite <- ?app_assoc). reflexivity. }
  rewrite Et in Hn, Hr |- *.
  replace (count c_nl before) with (count c_nl (a ++ (x :: first) ++ [c_nl] ++ l ++ g ++ b ++ seen)).
  2: { unfold before. rewrite !count_app. pose proof (count_one b (one_line_blanks b Hb)) as C1. pose proof (count_one seen Ho) as C2. rewrite C1, C2. lia. }
  eapply refused with (rest := r); auto.
  - rewrite Es. repeat (cbn [app]; rewrite <- ?app_assoc). reflexivity.
  - intros inc t E Ec Hnl.
    change (x :: first ++ [c_nl] ++ l ++ g ++ b ++ s) with ((x :: first) ++ c_nl :: l ++ g ++ b ++ s) in E, Hnl.
    destruct (get_line_spec _ _ _ Hf E) as (t1 & G & E1 & E2).
    destruct (Hi inc t t1) as (t2 & G2 & M & E3 & E4); auto.
    { unfold get_char. rewrite E. reflexivity. }
    { eapply nlterm_moves; [eapply get_line_moves; eauto|]. rewrite E. auto. }
    exists t2. split; auto. split; [eapply moves_trans; [eapply get_line_moves; eauto|exact M]|].
    split; auto. rewrite Es in E3. apply app_inv_head in E3. auto.
Qed.

(** ** C77: a malformed line is refused, and named.
    The journal begins with something that can be read by itself (or nothing); then comes a transaction whose
    first line, comments and postings are as they should be, up to a line that is wrong.  Whatever follows, the
    file is refused; the error says what is wrong, and its place is that line, and the column where the line
    ceases to make sense. *)
Theorem C77_posting : forall d w path a date edate desc pay cm h cs c ps p g b msg seen s,
  blanks_not_numeric w -> a = [] \/ piece w a ->
  header_written date edate desc pay cm h -> comment_lines cs c -> posting_lines w (Some (payee_of desc pay)) ps p ->
  blank_lines g -> indent b -> bad_posting w true msg seen s ->
  let before := a ++ h ++ [c_nl] ++ (c ++ p) ++ g in
  newline_terminated (before ++ b ++ s) -> w_read w path = Some (before ++ b ++ s) ->
  tokenize_file (S d) w path =
    Err (EParser (UnexpectedInput (Some msg))
          (Some {| at_file := Some path; at_line := Z.of_nat (count c_nl before); at_col := length (b ++ seen); at_text := before ++ b ++ s |})).
Proof.
  intros d w path a date edate desc pay cm h cs c ps p g b msg seen s Hw Ha Hh Hc Hp Hg Hb H.
  destruct (bad_seen _ _ _ _ _ H) as (Ho & Es).
  pose proof Hh as (d0 & e0 & b0 & st & co & b2 & pa & ct & Eh & Hd & _).
  destruct (day_first _ _ Hd) as (x & y & Ed & Hx). destruct (digit_char w x Hx) as [D1 D2].
  assert (Hws : is_ws x = false). { destruct (is_ws x) eqn:E; auto. rewrite (Hw x E) in D2. discriminate. }
  assert (Eh' : exists h', h = x :: h') by (rewrite Eh, Ed; eexists; reflexivity). destruct Eh' as (h' & Eh').
  rewrite Eh'. apply refused_line; auto; [rewrite <- Eh'; eapply header_line; eauto|apply Hb|].
  intros inc t t1 _ G E1 E2 Hn. unfold item_datum. rewrite D1, D2. unfold parse_transaction. rewrite G, <- Eh', (header_read _ _ _ _ _ _ Hh).
  cbn [bind h_payee h_comment h_date h_edate h_desc]. rewrite <- app_assoc in E1.
  destruct (bad_entries w true (Some (payee_of desc pay)) cs ps (opt_list cm) c p g b msg seen s t1 Hw Hc Hp Hg Hb H E1 E2 Hn) as (t2 & G2 & M & E3 & E4).
  change (match cm with Some c0 => [c0] | None => [] end) with (opt_list cm). cbn [of_type] in G2. rewrite G2. cbn [bind fail_at].
  exists t2. split; [reflexivity|]. split; auto. split; auto. rewrite E4, app_length. auto.
Qed.
Print Assumptions C77_posting.
(** The same in an automated transaction, where an amount can be any text. *)
Theorem C77_automated : forall d w path a query cs c ps p g b msg seen s,
  blanks_not_numeric w -> a = [] \/ piece w a ->
  one_line query -> comment_lines cs c -> posting_lines w None ps p ->
  blank_lines g -> indent b -> bad_posting w false msg seen s ->
  let before := a ++ (L "=" ++ query) ++ [c_nl] ++ (c ++ p) ++ g in
  newline_terminated (before ++ b ++ s) -> w_read w path = Some (before ++ b ++ s) ->
  tokenize_file (S d) w path =
    Err (EParser (UnexpectedInput (Some msg))
          (Some {| at_file := Some path; at_line := Z.of_nat (count c_nl before); at_col := length (b ++ seen); at_text := before ++ b ++ s |})).
Proof.
  intros d w path a query cs c ps p g b msg seen s Hw Ha Hq Hc Hp Hg Hb H.
  destruct (bad_seen _ _ _ _ _ H) as (Ho & Es).
  apply (refused_line d w path a c_eq query); auto; [apply (one_line_app [c_eq]); auto; intros [Z|[]]; discriminate|apply Hb|].
  intros inc t t1 _ G E1 E2 Hn. unfold item_datum. cbn -[parse_automated]. rewrite <- app_assoc in E1.
  unfold parse_automated. rewrite G. cbn [after_char]. rewrite N.eqb_refl. cbn [unwrap bind].
  destruct (bad_entries w false None cs ps [] c p g b msg seen s t1 Hw Hc Hp Hg Hb H E1 E2 Hn) as (t2 & G2 & M & E3 & E4).
  cbn [of_type] in G2. rewrite G2. cbn [bind fail_at].
  exists t2. split; [reflexivity|]. split; auto. split; auto. rewrite E4, app_length. auto.
Qed.
Print Assumptions C77_automated.

(** ** Directives *)
Lemma bad_word_seen w known k seen s : bad_setting w known k seen s -> one_line seen /\ exists r, s = seen ++ r.
Proof.
  intros [b r Hk Hw _ Hb _ _]. split; [|eauto]. apply one_line_app; [|apply one_line_blanks; auto]. intros Hi. apply Hw in Hi. destruct Hi as [Hi _]. discriminate.
Qed.
Ltac unknown H := rewrite !(unknown_word _ _ _ _ _ _ H) by (cbn; auto 20).
(** An account directive with a line that begins with an unknown word. *)
Theorem C77_account : forall d w path a n b1 b2 acc l g b k seen s,
  a = [] \/ piece w a -> bare_name n -> spaces1 b1 -> blanks b2 -> settings (account_setting w) (account_named n) acc l ->
  blank_lines g -> indent b ->
  bad_setting w [L "note"; L "isin"; L "alias"; L "check"; L "assert"; L "payee"; L "default"] k seen s ->
  let before := a ++ (L "account" ++ b1 ++ n ++ b2) ++ [c_nl] ++ l ++ g in
  newline_terminated (before ++ b ++ s) -> w_read w path = Some (before ++ b ++ s) ->
  tokenize_file (S d) w path =
    Err (EParser (UnexpectedInput (Some (L "Found " ++ k ++ L ". Expected one of alias, note, isin, check, assert, payee.")))
          (Some {| at_file := Some path; at_line := Z.of_nat (count c_nl before); at_col := length (b ++ seen); at_text := before ++ b ++ s |})).
Proof.
  intros d w path a n b1 b2 acc l g b k seen s Ha Hn H1 H2 Hs Hg Hb H. destruct (bad_word_seen _ _ _ _ _ H) as (Ho & Es).
  apply (refused_line d w path a 97%N (L "ccount" ++ b1 ++ n ++ b2)); auto; [|apply Hb|].
  { change (97%N :: L "ccount" ++ b1 ++ n ++ b2) with (L "account" ++ b1 ++ n ++ b2).
    apply one_line_app; [intros Z; cbn in Z; intuition discriminate|]. apply one_line_app; [apply one_line_spaces, H1|].
    apply one_line_app; [apply Hn|apply one_line_blanks; auto]. }
  intros inc t t1 _ G E1 E2 Hnl. change (97%N :: L "ccount" ++ b1 ++ n ++ b2) with (L "account" ++ b1 ++ n ++ b2) in G.
  unfold item_datum. cbn -[parse_account]. unfold parse_account. rewrite G, directive_name by (auto; apply bare_first; auto). cbn [unwrap bind]. rewrite trim_blanks by (auto; apply Hn).
  change {| ac_name := n; ac_aliases := []; ac_note := None; ac_isin := None; ac_check := []; ac_assert := []; ac_payees := []; ac_default := false; ac_directive := true |} with (account_named n).
  destruct (settings_reach (account_setting w) (fun f => account_loop f w)) with (a := account_named n) (b := acc) (s := l) (f := entries_fuel t1) (r := g ++ b ++ s) (t := t1)
    as (t2 & f & G2 & A2 & M2); auto.
  - intros. apply account_step_m with (s := s0); auto.
  - intros a0 b0 s0 [v x Hx|v x Hx|v x Hx _|v x Hx|v x Hx|v x Hx _|x Hx|x Hx];
      first [eapply setting_long; eauto; fail|eapply flag_long; eauto; fail|eapply remark_long; eauto; fail].
  - left. auto.
  - eapply loop_fuel; eauto.
  - destruct (bad_setting_read w _ k seen s g b t2 H Hg Hb A2) as (t3 & c & t4 & K1 & K2 & K3 & K4 & K5 & K6 & K7).
    rewrite G2. cbn [account_loop]. rewrite K1, K2, K3, K4. destruct (get_line t4) as [ln t5]. unknown H. exists t4. cbn [bind fail_at].
    split; [reflexivity|]. split; [eapply moves_trans; eauto|]. auto.
Qed.
Print Assumptions C77_account.
Theorem C77_commodity : forall d w path a n nt b1 b2 cm cu l g b k seen s,
  a = [] \/ piece w a -> price_commodity n nt -> trim n = n -> spaces1 b1 -> spaces b2 ->
  (cm = [] \/ first_is (fun x => x = c_semi) cm) -> one_line cm -> settings commodity_setting (commodity_named n) cu l ->
  blank_lines g -> indent b ->
  bad_setting w [L "note"; L "alias"; L "format"; L "default"] k seen s ->
  let before := a ++ (L "commodity" ++ b1 ++ nt ++ b2 ++ cm) ++ [c_nl] ++ l ++ g in
  newline_terminated (before ++ b ++ s) -> w_read w path = Some (before ++ b ++ s) ->
  tokenize_file (S d) w path =
    Err (EParser (UnexpectedInput (Some (L "Found " ++ k ++ L ". Should be one of 'note', 'alias', 'format', 'default'")))
          (Some {| at_file := Some path; at_line := Z.of_nat (count c_nl before); at_col := length (b ++ seen); at_text := before ++ b ++ s |})).
Proof.
  intros d w path a n nt b1 b2 cm cu l g b k seen s Ha Hn Htn H1 H2 Hcm Hl Hs Hg Hb H. destruct (bad_word_seen _ _ _ _ _ H) as (Ho & Es).
  assert (Hnl : one_line nt).
  { destruct Hn as [Hf Hx|Hx Hy Hz]; [intros Hi; apply Hx in Hi; destruct Hi as (_ & _ & Hi); congruence|].
    apply one_line_app; [intros [Z|[]]; discriminate|]. apply one_line_app; auto. intros [Z|[]]; discriminate. }
  apply (refused_line d w path a 99%N (L "ommodity" ++ b1 ++ nt ++ b2 ++ cm)); auto; [|apply Hb|].
  { change (99%N :: L "ommodity" ++ b1 ++ nt ++ b2 ++ cm) with (L "commodity" ++ b1 ++ nt ++ b2 ++ cm).
    apply one_line_app; [intros Z; cbn in Z; intuition discriminate|]. apply one_line_app; [apply one_line_spaces, H1|].
    apply one_line_app; [auto|]. apply one_line_app; [apply one_line_spaces; auto|auto]. }
  intros inc t t1 _ G E1 E2 Hnt. change (99%N :: L "ommodity" ++ b1 ++ nt ++ b2 ++ cm) with (L "commodity" ++ b1 ++ nt ++ b2 ++ cm) in G.
  destruct (commodity_line_read n nt b1 b2 cm Hn H1 H2 Hcm) as (q & c0 & ks & G0 & P0).
  unfold item_datum. cbn -[parse_commodity]. unfold parse_commodity. rewrite G, G0. cbn [unwrap bind pnext p_kids]. rewrite P0. cbn [bind]. rewrite Htn.
  change {| cu_name := n; cu_aliases := []; cu_note := None; cu_format := None; cu_default := false; cu_directive := true; cu_precision := None |} with (commodity_named n).
  destruct (settings_reach commodity_setting (fun f => commodity_loop f w)) with (a := commodity_named n) (b := cu) (s := l) (f := entries_fuel t1) (r := g ++ b ++ s) (t := t1)
    as (t2 & f & G2 & A2 & M2); auto.
  - intros. apply commodity_step_m with (s := s0); auto.
  - intros a0 b0 s0 [v x Hx|v x Hx _|v x Hx|x Hx|x Hx];
      first [eapply setting_long; eauto; fail|eapply flag_long; eauto; fail|eapply remark_long; eauto; fail].
  - left. auto.
  - eapply loop_fuel; eauto.
  - destruct (bad_setting_read w _ k seen s g b t2 H Hg Hb A2) as (t3 & c & t4 & K1 & K2 & K3 & K4 & K5 & K6 & K7).
    rewrite G2. cbn [commodity_loop]. rewrite K1, K2, K3, K4. destruct (get_line t4) as [ln t5]. unknown H. exists t4. cbn [bind fail_at].
    split; [reflexivity|]. split; [eapply moves_trans; eauto|]. auto.
Qed.
Print Assumptions C77_commodity.
(** For payees and tags the error has no text. *)
Theorem C77_payee : forall d w path a n b1 al l g b k seen s,
  a = [] \/ piece w a -> bare_name n -> spaces1 b1 -> settings (payee_setting w) [] al l ->
  blank_lines g -> indent b -> bad_setting w [L "alias"] k seen s ->
  let before := a ++ (L "payee" ++ b1 ++ n) ++ [c_nl] ++ l ++ g in
  newline_terminated (before ++ b ++ s) -> w_read w path = Some (before ++ b ++ s) ->
  tokenize_file (S d) w path =
    Err (EParser (UnexpectedInput None)
          (Some {| at_file := Some path; at_line := Z.of_nat (count c_nl before); at_col := length (b ++ seen); at_text := before ++ b ++ s |})).
Proof.
  intros d w path a n b1 al l g b k seen s Ha Hn H1 Hs Hg Hb H. destruct (bad_word_seen _ _ _ _ _ H) as (Ho & Es).
  apply (refused_line d w path a 112%N (L "ayee" ++ b1 ++ n)); auto; [|apply Hb|].
  { change (112%N :: L "ayee" ++ b1 ++ n) with (L "payee" ++ b1 ++ n).
    apply one_line_app; [intros Z; cbn in Z; intuition discriminate|]. apply one_line_app; [apply one_line_spaces, H1|apply Hn]. }
  intros inc t t1 _ G E1 E2 Hnl. change (112%N :: L "ayee" ++ b1 ++ n) with (L "payee" ++ b1 ++ n) in G.
  pose proof (bare_first n [] Hn) as Bf. rewrite app_nil_r in Bf.
  unfold item_datum. cbn -[parse_payee]. unfold parse_payee. rewrite G, directive_name by auto. cbn [unwrap bind].
  destruct (settings_reach (payee_setting w) (fun f => payee_loop f w)) with (a := @nil str) (b := al) (s := l) (f := entries_fuel t1) (r := g ++ b ++ s) (t := t1)
    as (t2 & f & G2 & A2 & M2); auto.
  - intros. apply payee_step_m with (s := s0); auto.
  - intros a0 b0 s0 [v x Hx _ _|x Hx]; [eapply setting_long; eauto|eapply remark_long; eauto].
  - left. auto.
  - eapply loop_fuel; eauto.
  - destruct (bad_setting_read w _ k seen s g b t2 H Hg Hb A2) as (t3 & c & t4 & K1 & K2 & K3 & K4 & K5 & K6 & K7).
    rewrite G2. cbn [payee_loop]. rewrite K1, K2, K3, K4. unknown H. exists t4. cbn [bind fail_at].
    split; [reflexivity|]. split; [eapply moves_trans; eauto|]. auto.
Qed.
Print Assumptions C77_payee.
Theorem C77_tag : forall d w path a n b1 b2 td l g b k seen s,
  a = [] \/ piece w a -> bare_name n -> spaces1 b1 -> blanks b2 -> settings tag_setting (tag_named n) td l ->
  blank_lines g -> indent b -> bad_setting w [L "check"; L "assert"] k seen s ->
  let before := a ++ (L "tag" ++ b1 ++ n ++ b2) ++ [c_nl] ++ l ++ g in
  newline_terminated (before ++ b ++ s) -> w_read w path = Some (before ++ b ++ s) ->
  tokenize_file (S d) w path =
    Err (EParser (UnexpectedInput None)
          (Some {| at_file := Some path; at_line := Z.of_nat (count c_nl before); at_col := length (b ++ seen); at_text := before ++ b ++ s |})).
Proof.
  intros d w path a n b1 b2 td l g b k seen s Ha Hn H1 H2 Hs Hg Hb H. destruct (bad_word_seen _ _ _ _ _ H) as (Ho & Es).
  apply (refused_line d w path a 116%N (L "ag" ++ b1 ++ n ++ b2)); auto; [|apply Hb|].
  { change (116%N :: L "ag" ++ b1 ++ n ++ b2) with (L "tag" ++ b1 ++ n ++ b2).
    apply one_line_app; [intros Z; cbn in Z; intuition discriminate|]. apply one_line_app; [apply one_line_spaces, H1|].
    apply one_line_app; [apply Hn|apply one_line_blanks; auto]. }
  intros inc t t1 _ G E1 E2 Hnl. change (116%N :: L "ag" ++ b1 ++ n ++ b2) with (L "tag" ++ b1 ++ n ++ b2) in G.
  unfold item_datum. cbn -[parse_tag]. unfold parse_tag. rewrite G, directive_name by (auto; apply bare_first; auto). cbn [unwrap bind]. rewrite trim_blanks by (auto; apply Hn).
  change {| td_name := n; td_check := []; td_assert := [] |} with (tag_named n).
  destruct (settings_reach tag_setting (fun f => tag_loop f w)) with (a := tag_named n) (b := td) (s := l) (f := entries_fuel t1) (r := g ++ b ++ s) (t := t1)
    as (t2 & f & G2 & A2 & M2); auto.
  - intros. apply tag_step_m with (s := s0); auto.
  - intros a0 b0 s0 [v x Hx|v x Hx]; eapply setting_long; eauto.
  - left. auto.
  - eapply loop_fuel; eauto.
  - destruct (bad_setting_read w _ k seen s g b t2 H Hg Hb A2) as (t3 & c & t4 & K1 & K2 & K3 & K4 & K5 & K6 & K7).
    rewrite G2. cbn [tag_loop]. rewrite K1, K2, K3, K4. destruct (get_line t4) as [ln t5]. unknown H. exists t4. cbn [bind fail_at].
    split; [reflexivity|]. split; [eapply moves_trans; eauto|]. auto.
Qed.
Print Assumptions C77_tag.

(** ** Cases *)
Lemma disk_blanks t : blanks_not_numeric (disk t).
Proof.
  intros c H. unfold is_numeric. destruct (c <? 128)%N; [|reflexivity]. unfold is_ws, is_sep in H. unfold is_digit.
  destruct (N.leb_spec 48 c); [|reflexivity]. destruct (N.leb_spec c 57); [|reflexivity]. exfalso.
  assert (X : (c = 48 \/ c = 49 \/ c = 50 \/ c = 51 \/ c = 52 \/ c = 53 \/ c = 54 \/ c = 55 \/ c = 56 \/ c = 57)%N) by lia.
  decompose [or] X; subst; discriminate.
Qed.
Definition post77 (pay : option str) : rposting :=
  {| rp_account := L "Cash"; rp_money := None; rp_cost_type := None; rp_cost := None; rp_balance := None; rp_comments := []; rp_expr := None;
     rp_kind := Real; rp_payee := pay |}.
Lemma posting77 w pay : posting_lines w pay [post77 pay] (L "  Cash" ++ nl).
Proof.
  refine (pl_line w _ [] (L "  ") (post77 pay) [] [] (L "Cash") [] _ _ _ _ _ _ _ _ _);
    [constructor|split; [apply blanks_b; reflexivity|discriminate]| |constructor|reflexivity|reflexivity|constructor].
  exists (L "Cash"). split; [apply name_b; [discriminate|reflexivity]|].
  split; [refine (af_real _ _ _ eq_refl _ _ _); [reflexivity|discriminate|discriminate]|].
  split; [eexists _, _; split; [reflexivity|split; [discriminate|reflexivity]]|]. left. split; [reflexivity|]. split; [|reflexivity]. repeat split.
Qed.
Lemma header77 : header_written 737790 None (L "Shop") None None (L "2021-01-01 Shop").
Proof.
  exists (L "2021-01-01"), [], (L " "), [], [], [], [], [].
  split; [reflexivity|]. split; [apply (day_b 2021 1 1 (L "2021") (L "01") (L "01") 45%N); try reflexivity; try discriminate; cbn; auto|].
  split; [reflexivity|]. split; [split; [apply spaces_b; reflexivity|discriminate]|]. split; [left; reflexivity|]. split; [left; reflexivity|].
  split; [|split; [apply spaces_b; reflexivity|split; reflexivity]].
  split; [apply free_b; reflexivity|]. split; [intros (c & r & E & H); inv E; cbn in H; intuition discriminate|]. split; [intros r; split; discriminate|].
  intros ds r Hd E. destruct ds as [|x ds]; [discriminate|]. inv E. specialize (Hd 83%N (or_introl eq_refl)). lia.
Qed.
Lemma lead77 w : account_lead w (L "Food  ").
Proof.
  exists (L "Food"), Real, (L "Food"), (L "  "), []. split; [apply name_b; [discriminate|reflexivity]|].
  split; [refine (af_real _ _ _ eq_refl _ _ _); [reflexivity|discriminate|discriminate]|].
  split; [eexists _, _; split; [reflexivity|split; [discriminate|reflexivity]]|].
  split; [right; exists c_sp, c_sp; split; [reflexivity|]; split; [reflexivity|]; split; [reflexivity|]; split; discriminate|].
  split; [apply one_line_b; reflexivity|]. split; [apply blanks_nil|]. reflexivity.
Qed.
Lemma two_spaces : account_separator (L "  ").
Proof. right. exists c_sp, c_sp. split; [reflexivity|]. split; [reflexivity|]. split; [reflexivity|]. split; discriminate. Qed.
Lemma in_no (x : N) l : negb (existsb (N.eqb x) l) = true -> ~ In x l.
Proof. intros H X. apply negb_true_iff in H. assert (E : existsb (N.eqb x) l = true) by (apply existsb_exists; exists x; split; auto; apply N.eqb_refl). congruence. Qed.
(** The six ways in which a line can be wrong. *)
Example C77_case_lines w : w = disk [] ->
  bad_posting w true (L "Expecting account name") [] (L "5 EUR" ++ nl) /\
  bad_posting w true (L "Expected ')'") (L "(Food  ") (L "(Food  5 EUR" ++ nl) /\
  bad_posting w true (L "Expected ']'") (L "[Food)  ") (L "[Food)  5 EUR" ++ nl) /\
  bad_posting w true (L "Amount not found") (L "Food  ") (L "Food  @ 5 EUR" ++ nl) /\
  bad_posting w true (L "Too many decimal separators") (L "Food  -1.2") (L "Food  -1.2.3 EUR" ++ nl) /\
  bad_posting w true (L "Wrong number format") (L "Food  EUR ") (L "Food  EUR @ 5" ++ nl).
Proof.
  intros ->. split; [apply bp_number; reflexivity|]. split.
  { apply (bp_parenthesis _ _ (L "(Food") (L "  ") (L "5 EUR" ++ nl)); [|apply two_spaces|apply one_line_b; reflexivity].
    split; [apply name_b; [discriminate|reflexivity]|]. split; [eexists _, _; split; reflexivity|].
    intros m E. apply (f_equal (@rev N)) in E. rewrite rev_app_distr in E. discriminate. }
  split.
  { apply (bp_bracket _ _ (L "[Food)") (L "  ") (L "5 EUR" ++ nl)); [|apply two_spaces|apply one_line_b; reflexivity].
    split; [apply name_b; [discriminate|reflexivity]|]. split; [eexists _, _; split; reflexivity|].
    intros m E. apply (f_equal (@rev N)) in E. rewrite rev_app_distr in E. discriminate. }
  split; [apply (bp_cost _ _ (L "Food  ") (L " 5 EUR" ++ nl)), lead77|]. split.
  { apply (bp_points _ _ (L "Food  ") true (L "1") (L "2") (L "3 EUR" ++ nl)); [reflexivity|apply lead77|apply only_digits_all; reflexivity|apply only_digits_all; reflexivity]. }
  apply (bp_word _ _ (L "Food  ") (L "EUR") (L " ") (L "@ 5" ++ nl)); [reflexivity|apply lead77| | |apply blanks_b; reflexivity| |discriminate|].
  - eexists _, _. split; [reflexivity|]. apply in_no. reflexivity.
  - intros x [<-|[<-|[<-|[]]]]; (split; [reflexivity|split; [reflexivity|apply in_no; reflexivity]]).
  - eexists _, _. split; [reflexivity|right; reflexivity].
  - cbn. split; [discriminate|]. split; [discriminate|reflexivity].
Qed.
Definition t77 : str := text ["; start"; "2021-01-01 Shop"; "  Cash"; ""; "    Food  1.2.3 EUR"; "; end"]%string.
Definition w77 (t : str) : world := disk [(L "j", t)].
Lemma piece77 t : piece (w77 t) (text ["; start"]%string).
Proof. eapply piece_check; [reflexivity|reflexivity|reflexivity|reflexivity|vm_compute; reflexivity|repeat constructor]. Qed.
Example C77_case_posting :
  piece (w77 t77) (text ["; start"]%string) /\ header_written 737790 None (L "Shop") None None (L "2021-01-01 Shop") /\ comment_lines [] [] /\
  posting_lines (w77 t77) (Some (payee_of (L "Shop") None)) [post77 (Some (L "Shop"))] (L "  Cash" ++ nl) /\ blank_lines nl /\ indent (L "    ") /\
  bad_posting (w77 t77) true (L "Too many decimal separators") (L "Food  1.2") (L "Food  1.2.3 EUR" ++ nl ++ text ["; end"]%string) /\
  w_read (w77 t77) (L "j") = Some ((text ["; start"]%string ++ L "2021-01-01 Shop" ++ [c_nl] ++ ([] ++ L "  Cash" ++ nl) ++ nl) ++
    L "    " ++ L "Food  1.2.3 EUR" ++ nl ++ text ["; end"]%string) /\
  tokenize_file 1 (w77 t77) (L "j") = Err (EParser (UnexpectedInput (Some (L "Too many decimal separators")))
    (Some {| at_file := Some (L "j"); at_line := 4; at_col := 13; at_text := t77 |})).
Proof.
  split; [apply piece77|]. split; [apply header77|]. split; [constructor|]. split; [apply posting77|].
  split; [apply (bl_line [] []); [apply blanks_nil|constructor]|]. split; [split; [apply blanks_b; reflexivity|discriminate]|].
  split; [|split; [vm_compute; reflexivity|vm_compute; reflexivity]].
  apply (bp_points _ _ (L "Food  ") false (L "1") (L "2") (L "3 EUR" ++ nl ++ text ["; end"]%string)); [reflexivity|apply lead77|apply only_digits_all; reflexivity|apply only_digits_all; reflexivity].
Qed.
Definition a77 : str := text ["; start"; "= Food"; "  Cash"; "  (Food  2"; "; end"]%string.
Example C77_case_automated :
  posting_lines (w77 a77) None [post77 None] (L "  Cash" ++ nl) /\
  bad_posting (w77 a77) false (L "Expected ')'") (L "(Food  ") (L "(Food  2" ++ nl ++ text ["; end"]%string) /\
  tokenize_file 1 (w77 a77) (L "j") = Err (EParser (UnexpectedInput (Some (L "Expected ')'")))
    (Some {| at_file := Some (L "j"); at_line := 3; at_col := 9; at_text := a77 |})).
Proof.
  split; [apply posting77|]. split; [|vm_compute; reflexivity].
  apply (bp_parenthesis _ _ (L "(Food") (L "  ") (L "2" ++ nl ++ text ["; end"]%string)); [|apply two_spaces|apply one_line_b; reflexivity].
  split; [apply name_b; [discriminate|reflexivity]|]. split; [eexists _, _; split; reflexivity|].
  intros m E. apply (f_equal (@rev N)) in E. rewrite rev_app_distr in E. discriminate.
Qed.
(** Directives: a word that belongs to another directive, or to none. *)
Lemma word77 w k b r known : k <> [] -> forallb (fun x => negb (is_ws x) && negb (is_numeric w x) && negb (existsb (N.eqb x) (L ".-;"""))) k = true ->
  negb (existsb (str_eqb k) known) = true -> blanks b -> first_is (fun x => x = c_nl \/ is_ws x = false) r -> (b = [] -> first_is (fun x => x = c_nl) r) ->
  bad_setting w known k (k ++ b) ((k ++ b) ++ r).
Proof.
  intros H1 H2 H3 H4 H5 H6. apply bs; auto.
  - intros x Hx. eapply forallb_forall in H2; eauto. cbn beta in H2. apply andb_prop in H2. destruct H2 as [H2 H7]. apply andb_prop in H2. destruct H2 as [H8 H9].
    apply negb_true_iff in H8, H9. split; auto. split; auto. apply in_no. auto.
  - intros X. apply negb_true_iff in H3. assert (E : existsb (str_eqb k) known = true) by (apply existsb_exists; exists k; split; auto; destruct (str_eqb_spec k k); congruence). congruence.
Qed.
Definition d77 (first word : String.string) : str := text ["; start"; first; "  ; said"; word; "; end"]%string.
Example C77_case_directives w : w = w77 [] ->
  bad_setting w [L "note"; L "isin"; L "alias"; L "check"; L "assert"; L "payee"; L "default"] (L "format") (L "format ") (L "format x" ++ nl) /\
  bad_setting w [L "note"; L "alias"; L "format"; L "default"] (L "nomarket") (L "nomarket") (L "nomarket" ++ nl) /\
  bad_setting w [L "alias"] (L "uuid") (L "uuid  ") (L "uuid  x" ++ nl) /\
  bad_setting w [L "check"; L "assert"] (L "note") (L "note ") (L "note x" ++ nl) /\
  (let t := d77 "account Cash" "  format x" in tokenize_file 1 (w77 t) (L "j") =
    Err (EParser (UnexpectedInput (Some (L "Found format. Expected one of alias, note, isin, check, assert, payee.")))
          (Some {| at_file := Some (L "j"); at_line := 3; at_col := 9; at_text := t |}))) /\
  (let t := d77 "commodity EUR" "  nomarket" in tokenize_file 1 (w77 t) (L "j") =
    Err (EParser (UnexpectedInput (Some (L "Found nomarket. Should be one of 'note', 'alias', 'format', 'default'")))
          (Some {| at_file := Some (L "j"); at_line := 3; at_col := 10; at_text := t |}))) /\
  (let t := d77 "payee Ann" "  uuid  x" in tokenize_file 1 (w77 t) (L "j") =
    Err (EParser (UnexpectedInput None) (Some {| at_file := Some (L "j"); at_line := 3; at_col := 8; at_text := t |}))).
Proof.
  intros ->. split; [apply (word77 _ (L "format") (L " ") (L "x" ++ nl)); [discriminate|reflexivity|reflexivity|apply blanks_b; reflexivity|eexists _, _; split; [reflexivity|right; reflexivity]|discriminate]|].
  split; [apply (word77 _ (L "nomarket") [] nl); [discriminate|reflexivity|reflexivity|apply blanks_nil|eexists _, _; split; [reflexivity|left; reflexivity]|eexists _, _; split; reflexivity]|].
  split; [apply (word77 _ (L "uuid") (L "  ") (L "x" ++ nl)); [discriminate|reflexivity|reflexivity|apply blanks_b; reflexivity|eexists _, _; split; [reflexivity|right; reflexivity]|discriminate]|].
  split; [apply (word77 _ (L "note") (L " ") (L "x" ++ nl)); [discriminate|reflexivity|reflexivity|apply blanks_b; reflexivity|eexists _, _; split; [reflexivity|right; reflexivity]|discriminate]|].
  split; [vm_compute; reflexivity|]. split; vm_compute; reflexivity.
Qed.
Example C77_case_tag : tokenize_file 1 (w77 (text ["tag x"; " check y"; " note z"]%string)) (L "j") =
  Err (EParser (UnexpectedInput None) (Some {| at_file := Some (L "j"); at_line := 2; at_col := 6; at_text := text ["tag x"; " check y"; " note z"]%string |})).
Proof. vm_compute. reflexivity. Qed.
