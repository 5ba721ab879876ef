(** Property C75: where errors are reported, and what the message shows. *)
From Coq Require Import Lia.
From Verif Require Import Base BaseFacts Numerals Money Alist Comment Txn Peg Grammar PegFacts Dates Expr Tokens
  TokenFacts JournalFacts SpecTokens TokenFacts2 SimFacts JournalSim IncludeFacts InlineFacts PostingFacts PropTxn PropLedger
  PropTokens SpecUtf8 SpecErrors Message PlaceFacts MessageFacts.
Open Scope Z_scope.

(** ** C75: the place of an error.
    An error of the reader names a file that was being read, with a line of that file.  The line of an unexpected
    indentation is an indented line and the column is that of its first character; an include loop is reported at
    the end of an include line that names a file on a cycle.  The one error without a place is that of
    a line that begins with an [i] and is no include directive.
    Missing: texts with rules and no final newline (see below), and the columns of the other errors (see
    below). *)
Theorem C75_place_partial : forall depth w path x,
  (forall g c, reachable w path g -> w_read w g = Some c -> newline_terminated c \/ ~ line_begins c_eq c) ->
  tokenize_file depth w path = Err x ->
  exists g c, reachable w path g /\ w_read w g = Some c /\
    (x = EParser (UnexpectedInput None) None /\ misspelt_include c \/
     exists e p, x = EParser e (Some p) /\ at_file p = Some g /\ lies_in c p /\
       (e = UnexpectedInput (Some (L "Unexpected indentation")) -> indented_at c p) /\
       (forall h, e = IncludeLoop h -> after_include w (Some g) c h p /\ includes w g h /\ on_cycle w h)).
Proof.
  intros depth w path x Hok H. unfold tokenize_file in H. destruct (w_read w path) as [content|] eqn:Er; [|discriminate].
  apply (tokenize_err w depth path [path] content x Er Hok); auto.
  intros s Hs. cbn in Hs. destruct (str_eqb_spec s path); [subst; constructor|discriminate].
Qed.
Print Assumptions C75_place_partial.

(** ** C49, the other direction: a loop that is reported is there. *)
Theorem C49_report_true : forall depth w path h p,
  (forall g c, reachable w path g -> w_read w g = Some c -> newline_terminated c \/ ~ line_begins c_eq c) ->
  tokenize_file depth w path = Err (EParser (IncludeLoop h) p) -> reachable w path h /\ on_cycle w h.
Proof.
  intros depth w path h p Hok H. apply C75_place_partial in H; auto.
  destruct H as (g & c & Hg & Hc & [[H _]|(e & p' & H & _ & _ & _ & Hl)]); [discriminate|]. inv H.
  destruct (Hl h eq_refl) as (_ & Hi & Hcy). split; auto. eapply reachable_step; eauto.
Qed.
Print Assumptions C49_report_true.

(** ** The first bad line *)
Lemma unknown_item inc w c t : ~ known_start w c -> item_datum inc w c t = fail_at t (UnexpectedInput None).
Proof.
  intros H. assert (N : forall x, In x (L ";!*%#=icptaP") -> (c =? x)%N = false).
  { intros x Hx. apply N.eqb_neq. intros ->. apply H. right. right. auto. }
  assert (Hn : is_numeric w c = false).
  { destruct (is_numeric w c) eqn:E; auto. exfalso. apply H. right. left. auto. }
  assert (Hc : is_comment_char c = false).
  { unfold is_comment_char, c_semi. rewrite !N by (cbn; tauto). reflexivity. }
  unfold item_datum, c_eq. rewrite Hc, Hn, !N by (cbn; tauto). reflexivity.
Qed.
Lemma unknown_start inc w f c r t : tk_rest t = c :: r -> tk_col t = O -> ~ known_start w c -> (0 < f)%nat ->
  data_loop f inc w t = fail_at t (UnexpectedInput None).
Proof.
  intros Er Ec Hc Hf. destruct f as [|f]; [lia|]. cbn [data_loop]. rewrite Er.
  assert (Hw : is_ws c = false). { destruct (is_ws c) eqn:E; auto. exfalso. apply Hc. left. auto. }
  unfold consume_whitespaces_and_lines. rewrite Ec, Er, cwl_at_item by auto. unfold get_char. cbn [tk_rest].
  rewrite unknown_item by auto. destruct t as [a1 a2 a3 a4]. cbn in *. subst. reflexivity.
Qed.
(** If a piece of journal that is all right (or nothing) is followed by a line that begins with a character no
    item begins with, the error names that line. *)
Theorem C75_bad_line_named : forall d w path a c r,
  a = [] \/ piece w a -> ~ known_start w c -> newline_terminated (a ++ c :: r) ->
  w_read w path = Some (a ++ c :: r) ->
  tokenize_file (S d) w path =
    Err (EParser (UnexpectedInput None)
          (Some {| at_file := Some path; at_line := Z.of_nat (count c_nl a); at_col := 0; at_text := a ++ c :: r |})).
Proof.
  intros d w path a c r Ha Hc Hn Hr. unfold tokenize_file. rewrite Hr, tokenize_S, main_loop_is.
  set (inc := include_parse _ w (Some path) [path]).
  assert (Hw : is_ws c = false). { destruct (is_ws c) eqn:E; auto. exfalso. apply Hc. left. auto. }
  destruct Ha as [->|Ha].
  - rewrite unknown_start with (c := c) (r := r); auto. lia.
  - destruct (piece_data w a inc Ha) as (a0 & ds & Ea & Ht & Hd & Hf). subst a.
    destruct (piece_then inc w a0 (c :: r) ds (S (length ((a0 ++ [c_nl]) ++ c :: r))) (tok_of ((a0 ++ [c_nl]) ++ c :: r)))
      as (f2 & t2 & X1 & X2 & X3 & X4 & X5); auto.
    + apply good_include.
    + cbn. rewrite <- app_assoc. reflexivity.
    + rewrite X5. rewrite unknown_start with (c := c) (r := r) (t := t2); auto; [|destruct X3; [discriminate|auto]|lia].
      cbn [bind fail_at in_file tok_place at_file at_line at_col at_text].
      destruct X4 as (p & Y1 & Y2 & Y3). { apply nlt_nlterm. exact Hn. }
      cbn in Y1. rewrite X2 in Y1. apply app_inv_tail in Y1. subst p.
      cbn in Y2, Y3. rewrite app_nil_r in Y2.
      rewrite Y2, Y3, X2, rev_involutive, newlines_count. destruct X3 as [X3|X3]; [discriminate|]. rewrite X3. reflexivity.
Qed.
Print Assumptions C75_bad_line_named.

(** ** The text of the message.
    For an error on any line but the first, the message consists of the error, the place (lines and
    columns counted from one), the line before, the line itself, both numbered, and a row of dashes as long as
    the line has bytes with a mark in the column of the error. *)
Theorem C75_message : forall checked quoted e p f k before line,
  at_file p = Some f -> at_line p = Z.of_nat (S k) -> line_is (at_text p) k before -> line_is (at_text p) (S k) line ->
  let n := length (Z_text (Z.of_nat (S (S k)))) in
  exists u, underline (at_col p) (S (length (utf8_bytes line))) u /\
    parser_error_text checked quoted e (Some p) = Ok (
      L "Error: " ++ error_debug quoted e ++ [c_nl] ++
      spaces n ++ L "--> " ++ quoted f ++ L ":" ++ Z_text (Z.of_nat (S (S k))) ++ L ":" ++ Z_text (Z.of_nat (S (at_col p))) ++ [c_nl] ++
      spaces (n - length (Z_text (Z.of_nat (S k)))) ++ Z_text (Z.of_nat (S k)) ++ L " |      " ++ before ++ [c_nl] ++
      Z_text (Z.of_nat (S (S k))) ++ L " |      " ++ line ++ [c_nl] ++
      spaces (S n) ++ L "|      " ++ u).
Proof.
  intros checked quoted e p f k before line Hf Hk Hb Hl n.
  apply lines_of_line in Hb. apply lines_of_line in Hl.
  exists (marks (at_col p) 0 (S (length (utf8_bytes line)))). split; [apply marks_spec|].
  unfold parser_error_text, error_located, error_pieces. rewrite Hf, Hk.
  destruct (lines (at_text p)) as [|l0 ls] eqn:El; [destruct k; discriminate|].
  replace (match Z.of_nat (S k) with 0 => _ | _ => _ end) with
    (Ok (A := list str) (([L "Error: "; error_debug quoted e] ++
       [c_nl :: repeat c_sp (number_length (Z.of_nat (S k))) ++ L "--> " ++ quoted f;
        L ":" ++ Z_text (Z.of_nat (S k) + 1) ++ L ":" ++ Z_text (Z.of_nat (at_col p) + 1) ++ [c_nl]]) ++
       shown_lines (number_length (Z.of_nat (S k))) (Z.of_nat (S k) - 1) (Z.of_nat (S k)) 0 (l0 :: ls)))
    by reflexivity.
  rewrite (shown_two _ _ before line (l0 :: ls) k Hb Hl) by lia.
  unfold number_length. replace (Z.of_nat (S k) + 1) with (Z.of_nat (S (S k))) by lia. fold n.
  replace (Z.of_nat (at_col p) + 1) with (Z.of_nat (S (at_col p))) by lia.
  replace (Z.of_nat (S k) - 1) with (Z.of_nat k) by lia. unfold numbered.
  replace (Z.of_nat (S k) + 1) with (Z.of_nat (S (S k))) by lia.
  replace (Z.of_nat k + 1) with (Z.of_nat (S k)) by lia.
  cbn [bind]. f_equal.
  replace (utf8_len (last _ [])) with (S (length (utf8_bytes line))).
  2: { cbn [app last]. rewrite utf8_len_bytes. unfold utf8_bytes. rewrite flat_map_app, app_length. cbn. lia. }
  unfold pad_left. fold n. rewrite Nat.sub_diag. unfold spaces.
  cbn [concat app repeat]. rewrite <- !app_assoc. cbn [app]. rewrite <- !app_assoc. cbn [app]. repeat (rewrite <- !app_assoc; cbn [app]).
  reflexivity.
Qed.
Print Assumptions C75_message.
(** An error at the very end of a file that ends with a newline: the last line is shown. *)
Theorem C75_message_at_end : forall checked quoted e p f k s last_line,
  at_file p = Some f -> at_line p = Z.of_nat (S k) -> at_text p = s ++ [c_nl] -> count c_nl s = k ->
  line_is (at_text p) k last_line ->
  let n := length (Z_text (Z.of_nat (S (S k)))) in
  exists u, underline (at_col p) (S (length (utf8_bytes last_line))) u /\
    parser_error_text checked quoted e (Some p) = Ok (
      L "Error: " ++ error_debug quoted e ++ [c_nl] ++
      spaces n ++ L "--> " ++ quoted f ++ L ":" ++ Z_text (Z.of_nat (S (S k))) ++ L ":" ++ Z_text (Z.of_nat (S (at_col p))) ++ [c_nl] ++
      spaces (n - length (Z_text (Z.of_nat (S k)))) ++ Z_text (Z.of_nat (S k)) ++ L " |      " ++ last_line ++ [c_nl] ++
      spaces (S n) ++ L "|      " ++ u).
Proof.
  intros checked quoted e p f k s line Hf Hk Hs Hc Hl n.
  apply lines_of_line in Hl.
  assert (Hlen : length (lines (at_text p)) = S k). { rewrite Hs. unfold lines. rewrite lines_acc_length, Hc. auto. }
  exists (marks (at_col p) 0 (S (length (utf8_bytes line)))). split; [apply marks_spec|].
  unfold parser_error_text, error_located, error_pieces. rewrite Hf, Hk.
  destruct (lines (at_text p)) as [|l0 ls] eqn:El; [destruct k; discriminate|].
  replace (match Z.of_nat (S k) with 0 => _ | _ => _ end) with
    (Ok (A := list str) (([L "Error: "; error_debug quoted e] ++
       [c_nl :: repeat c_sp (number_length (Z.of_nat (S k))) ++ L "--> " ++ quoted f;
        L ":" ++ Z_text (Z.of_nat (S k) + 1) ++ L ":" ++ Z_text (Z.of_nat (at_col p) + 1) ++ [c_nl]]) ++
       shown_lines (number_length (Z.of_nat (S k))) (Z.of_nat (S k) - 1) (Z.of_nat (S k)) 0 (l0 :: ls)))
    by reflexivity.
  rewrite (shown_last _ _ line (l0 :: ls) k Hl Hlen) by lia.
  unfold number_length. replace (Z.of_nat (S k) + 1) with (Z.of_nat (S (S k))) by lia. fold n.
  replace (Z.of_nat (at_col p) + 1) with (Z.of_nat (S (at_col p))) by lia.
  replace (Z.of_nat (S k) - 1) with (Z.of_nat k) by lia. unfold numbered.
  replace (Z.of_nat k + 1) with (Z.of_nat (S k)) by lia.
  cbn [bind]. f_equal.
  replace (utf8_len (last _ [])) with (S (length (utf8_bytes line))).
  2: { cbn [app last]. rewrite utf8_len_bytes. unfold utf8_bytes. rewrite flat_map_app, app_length. cbn. lia. }
  unfold pad_left. unfold spaces.
  cbn [concat app repeat]. repeat (rewrite <- !app_assoc; cbn [app]).
  reflexivity.
Qed.
Print Assumptions C75_message_at_end.

(** Reading and message together: what is printed for the first bad line of a journal. *)
Theorem C75_bad_line_shown : forall checked quoted d w path a c l r,
  piece w a -> ~ known_start w c -> ~ In c_nl l -> newline_terminated r ->
  w_read w path = Some (a ++ (c :: l) ++ c_nl :: r) ->
  exists k before line e p u,
    count c_nl a = S k /\ line_is a k before /\
    (c :: l = line ++ [13%N] \/ c :: l = line /\ forall x, c :: l <> x ++ [13%N]) /\
    tokenize_file (S d) w path = Err (EParser e (Some p)) /\
    underline 0 (S (length (utf8_bytes line))) u /\
    let number := Z_text (Z.of_nat (S (S k))) in
    parser_error_text checked quoted e (Some p) = Ok (
      L "Error: UnexpectedInput(None)" ++ [c_nl] ++
      spaces (length number) ++ L "--> " ++ quoted path ++ L ":" ++ number ++ L ":1" ++ [c_nl] ++
      spaces (length number - length (Z_text (Z.of_nat (S k)))) ++ Z_text (Z.of_nat (S k)) ++ L " |      " ++ before ++ [c_nl] ++
      number ++ L " |      " ++ line ++ [c_nl] ++
      spaces (S (length number)) ++ L "|      " ++ u).
Proof.
  intros checked quoted d w path a c l r Ha Hc Hl Hr Hrd.
  pose proof Ha as ((c0 & r0 & E0 & Hc0) & Hn & _).
  destruct Hn as [Hn|(a0 & Hn)]; [congruence|].
  assert (Hk : count c_nl a = S (count c_nl a0)). { rewrite Hn, count_app. cbn. lia. }
  assert (Hnc : ~ In c_nl (c :: l)).
  { intros [E|E]; [|auto]. subst. apply Hc. left. reflexivity. }
  assert (Hb : exists before, line_is a (count c_nl a0) before).
  { assert (Hlen : length (lines a) = S (count c_nl a0)). { rewrite Hn. apply lines_acc_length. }
    destruct (nth_error (lines a) (count c_nl a0)) as [b|] eqn:E; [exists b; apply line_of_lines; auto|].
    apply nth_error_None in E. lia. }
  destruct Hb as (before & Hb).
  set (line := strip_cr (rev (c :: l))).
  assert (Hline : c :: l = line ++ [13%N] \/ c :: l = line /\ forall x, c :: l <> x ++ [13%N]).
  { pose proof (strip_cr_shows (rev (c :: l))) as X. rewrite rev_involutive in X. exact X. }
  set (content := a ++ (c :: l) ++ c_nl :: r) in *.
  assert (L1 : line_is content (count c_nl a0) before).
  { apply lines_of_line in Hb. apply line_of_lines. destruct (lines_start a ((c :: l) ++ c_nl :: r)) as (ls' & Y1 & Y2).
    { right. eauto. }
    destruct (lines_start a []) as (ls2 & Z1 & Z2). { right. eauto. } rewrite app_nil_r in Z1. change (lines []) with (@nil str) in Z1.
    rewrite app_nil_r in Z1. subst ls2.
    assert (ls' = lines a); [|subst ls'; unfold content; rewrite Y1, nth_error_app1; [auto|rewrite Y2; lia]].
    clear - Y1 Y2 Z2 Hn. subst a. unfold lines in *. rewrite <- app_assoc in Y1. cbn [app] in Y1. rewrite lines_acc_split in Y1.
    symmetry. apply (f_equal (firstn (length ls'))) in Y1. rewrite firstn_app in Y1.
    rewrite (firstn_all2 (lines_acc [] (a0 ++ [c_nl]))) in Y1 by lia. rewrite Y2, Z2, Nat.sub_diag in Y1. cbn [firstn] in Y1.
    rewrite app_nil_r in Y1. rewrite Y1. rewrite firstn_app, <- Z2, Z2, <- Y2, Nat.sub_diag, firstn_all. cbn. apply app_nil_r. }
  assert (L2 : line_is content (S (count c_nl a0)) line).
  { exists a, (c :: l), (c_nl :: r). split; auto. split; [right; eauto|]. split; auto. split; auto. right. split; eauto. }
  exists (count c_nl a0), before, line.
  pose proof (C75_bad_line_named d w path a c (l ++ c_nl :: r) (or_intror Ha) Hc) as T.
  assert (Hnt : newline_terminated (a ++ c :: l ++ c_nl :: r)).
  { right. destruct Hr as [->|(r' & ->)]; [exists (a ++ c :: l)|exists (a ++ c :: l ++ c_nl :: r')]; rewrite <- app_assoc; cbn; auto.
    rewrite <- app_assoc. auto. }
  specialize (T Hnt Hrd). rewrite Hk in T. do 2 eexists.
  edestruct (C75_message checked quoted (UnexpectedInput None)
    {| at_file := Some path; at_line := Z.of_nat (S (count c_nl a0)); at_col := 0; at_text := content |})
    as (u & U1 & U2); [reflexivity|reflexivity|exact L1|exact L2|].
  exists u. split; auto. split; auto. split; auto. split; [exact T|]. split; [exact U1|].
  cbv zeta. exact U2.
Qed.
Print Assumptions C75_bad_line_shown.

(** On the first line it is otherwise: a build that checks for overflow aborts while it composes the message,
    and any other build shows no line of the file; the marks are under the place. *)
Theorem C75_first_line_refuted : forall quoted e p f, at_file p = Some f -> at_line p = 0 -> at_text p <> [] ->
  parser_error_text true quoted e (Some p) = Panic PArith /\
  let column := Z_text (Z.of_nat (S (at_col p))) in
  exists u, underline (at_col p) (length (utf8_bytes (L ":1:" ++ column ++ [c_nl]))) u /\
    parser_error_text false quoted e (Some p) = Ok (
      L "Error: " ++ error_debug quoted e ++ [c_nl] ++ L " --> " ++ quoted f ++ L ":1:" ++ column ++ [c_nl] ++
      L "  |      " ++ u).
Proof.
  intros quoted e p f Hf Hl Ht. destruct (lines_some _ Ht) as (l & ls & E).
  unfold parser_error_text, error_located, error_pieces. rewrite Hf, Hl, E. split; [reflexivity|].
  exists (marks (at_col p) 0 (length (utf8_bytes (L ":1:" ++ Z_text (Z.of_nat (S (at_col p))) ++ [c_nl])))). split; [apply marks_spec|].
  rewrite shown_empty by reflexivity. cbn [bind]. f_equal. cbn [app last].
  replace (Z.of_nat (at_col p) + 1) with (Z.of_nat (S (at_col p))) by lia.
  change (Z_text (0 + 1)) with (L "1"). change (number_length 0) with 1%nat.
  rewrite utf8_len_bytes. cbn. repeat (rewrite <- !app_assoc; cbn [app]). reflexivity.
Qed.
Print Assumptions C75_first_line_refuted.

(** ** Cases *)
Definition bad_text : str := text ["; a comment"; "2020/01/01 shop"; "  A  5 EUR"; "  B"; "zz"; "2020/01/02 other"]%string.
Definition bad_disk : world := disk [(L "j", bad_text)].
Definition in_quotes (s : str) : str := [34%N] ++ s ++ [34%N].
Example C75_case_bad_line :
  piece bad_disk (text ["; a comment"; "2020/01/01 shop"; "  A  5 EUR"; "  B"]%string) /\ ~ known_start bad_disk 122 /\
  w_read bad_disk (L "j") = Some (text ["; a comment"; "2020/01/01 shop"; "  A  5 EUR"; "  B"]%string ++ L "zz" ++ c_nl :: text ["2020/01/02 other"]%string).
Proof.
  split; [|split; [|reflexivity]].
  - split; [do 2 eexists; split; [vm_compute; reflexivity|reflexivity]|]. split; [|split; [|split]].
    + right. exists (L "; a comment" ++ c_nl :: L "2020/01/01 shop" ++ c_nl :: L "  A  5 EUR" ++ c_nl :: L "  B"). reflexivity.
    + intros x c E Hc. apply (f_equal (@rev N)) in E. rewrite rev_app_distr in E. cbn in E. inv E. discriminate.
    + intros (p & r & E & [->|(p' & ->)]); [discriminate|].
      assert (X : forall s, (fix ok (s : str) : bool := match s with a :: ((b :: _) as r) => negb ((a =? c_nl)%N && (b =? 105)%N) && ok r | _ => true end) s = true ->
        forall u v, s <> (u ++ [c_nl]) ++ 105%N :: v).
      { clear. induction s as [|a s IH]; intros H u v E; [destruct u; discriminate|].
        destruct u as [|x u]; cbn in E; inv E; [discriminate|].
        destruct ((u ++ [c_nl]) ++ 105%N :: v) as [|b r] eqn:Es; [destruct u; discriminate|].
        apply andb_true_iff in H. destruct H as [_ H]. eapply IH; [exact H|rewrite Es; reflexivity]. }
      eapply X; [|exact E]. vm_compute. reflexivity.
    + eexists. split; [vm_compute; reflexivity|]. repeat constructor; cbn; auto; discriminate.
  - intros [H|[H|H]]; [discriminate|discriminate|]. cbn in H. intuition discriminate.
Qed.
Example C75_case_message : exists e p, tokenize_file 1 bad_disk (L "j") = Err (EParser e (Some p)) /\
  parser_error_text false in_quotes e (Some p) = Ok (
    L "Error: UnexpectedInput(None)" ++ [c_nl] ++ L " --> ""j"":5:1" ++ [c_nl] ++
    L "4 |        B" ++ [c_nl] ++ L "5 |      zz" ++ [c_nl] ++ L "  |      ^--").
Proof. do 2 eexists. split; [vm_compute; reflexivity|]. vm_compute. reflexivity. Qed.
(** An indented line under nothing. *)
Example C75_case_indentation :
  (forall g c, reachable (disk [(L "j", text ["; x"; ""; "   y"]%string)]) (L "j") g ->
     w_read (disk [(L "j", text ["; x"; ""; "   y"]%string)]) g = Some c -> newline_terminated c \/ ~ line_begins c_eq c) /\
  exists p, tokenize_file 1 (disk [(L "j", text ["; x"; ""; "   y"]%string)]) (L "j") =
    Err (EParser (UnexpectedInput (Some (L "Unexpected indentation"))) (Some p)) /\ at_line p = 2 /\ at_col p = 3%nat.
Proof.
  split.
  - intros g c _ Hc. left. right. unfold disk in Hc. cbn [w_read find fst] in Hc. destruct (str_eqb (L "j") g); [|discriminate].
    cbn in Hc. inv Hc. exists (L "; x" ++ [c_nl; c_nl] ++ L "   y"). reflexivity.
  - eexists. split; [vm_compute; reflexivity|]. split; reflexivity.
Qed.
(** An include loop is reported on the line after the include directive. *)
Example C75_case_loop : exists p, tokenize_file 3 loop_disk (L "./a") = Err (EParser (IncludeLoop (L "./a")) (Some p)) /\
  at_file p = Some (L "./b") /\ at_line p = 1 /\ at_text p = text ["include a"]%string.
Proof. eexists. split; [vm_compute; reflexivity|]. repeat split; reflexivity. Qed.
(** The place need not be where the reader stopped: the parenthesis is missing at the end of the line, and the
    column is that of its beginning. *)
Theorem C75_column_refuted : exists p,
  tokenize_file 1 (disk [(L "j", text ["2020/01/01 x"; "  (abc"; "  B  5 EUR"]%string)]) (L "j") =
    Err (EParser (UnexpectedInput (Some (L "Expected ')'"))) (Some p)) /\ at_line p = 1 /\ at_col p = 0%nat /\
  line_is (at_text p) 1 (L "  (abc").
Proof.
  eexists. split; [vm_compute; reflexivity|]. split; [reflexivity|]. split; [reflexivity|].
  apply line_of_lines. vm_compute. reflexivity.
Qed.
Print Assumptions C75_column_refuted.
Example C75_case_first_line : exists p, tokenize_file 1 (disk [(L "j", text ["zz"]%string)]) (L "j") =
    Err (EParser (UnexpectedInput None) (Some p)) /\ at_line p = 0 /\
  parser_error_text false in_quotes (UnexpectedInput None) (Some p) = Ok (
    L "Error: UnexpectedInput(None)" ++ [c_nl] ++ L " --> ""j"":1:1" ++ [c_nl] ++ L "  |      ^----").
Proof. eexists. split; [vm_compute; reflexivity|]. split; [reflexivity|]. vm_compute. reflexivity. Qed.
