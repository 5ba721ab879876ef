(** C47, texts that are never read to the end: an indented comment under a [tag] directive. *)
From Coq Require Import Lia.
From Verif Require Import Base BaseFacts Numerals Money Alist Comment Txn Peg Grammar PegFacts Dates Expr Tokens App Spec SpecText SpecDates
  TokenFacts JournalFacts SpecTokens TokenFacts2 SimFacts JournalSim IncludeFacts InlineFacts LiteralFacts PropLiteral PostingFacts PropTxn PropLedger
  PropTokens SpecUtf8 SpecErrors Message PlaceFacts MessageFacts SpecExpr ExprFacts DateFacts SpecJournal SpecBad JournalRead JournalItems
  JournalHeader JournalPrice JournalLoop JournalBad PropErrors PropJournal PropBad.
Open Scope Z_scope.

(** From the item to the file. *)
Lemma stuck d w path a x s : a = [] \/ piece w a -> is_ws x = false ->
  (forall inc t, tk_rest t = x :: s -> tk_col t = O -> item_datum inc w x t = Panic OutOfFuel) ->
  w_read w path = Some (a ++ x :: s) -> tokenize_file (S d) w path = Panic OutOfFuel.
Proof.
  intros Ha Hx Hi Hr. unfold tokenize_file. rewrite Hr, tokenize_S, main_loop_is. set (inc := include_parse _ w (Some path) [path]).
  assert (Loop : forall f t, tk_rest t = x :: s -> tk_col t = O -> (0 < f)%nat -> data_loop f inc w t = Panic OutOfFuel).
  { intros f t Er Ec Hf. destruct f as [|f]; [lia|]. cbn [data_loop]. rewrite Er. unfold consume_whitespaces_and_lines. rewrite Ec, Er, cwl_at_item by auto. unfold get_char. cbn [tk_rest].
    rewrite Hi by reflexivity. reflexivity. }
  destruct Ha as [-> | Ha].
  - rewrite Loop; auto. lia.
  - destruct (piece_data w a inc Ha) as (a0 & ds & Ea & Ht & Hd & Hf). subst a.
    destruct (piece_then inc w a0 (x :: s) ds (S (length ((a0 ++ [c_nl]) ++ x :: s))) (tok_of ((a0 ++ [c_nl]) ++ x :: s))) as (f2 & t2 & X1 & X2 & X3 & X4 & X5); auto.
    + apply good_include.
    + cbn. rewrite <- app_assoc. reflexivity.
    + rewrite X5. destruct X3 as [X3|X3]; [discriminate|]. rewrite Loop by (auto; lia). reflexivity.
Qed.

(** ** C47
    The journal begins with something that can be read by itself (or nothing); then comes a [tag] directive with any
    number of settings and empty lines, and then an indented comment.  Whatever follows, the file is never read to
    the end: the loop over the lines of the directive comes back to the comment for ever ([C47_tag_comment_refuted] has
    the loop itself, for any number of turns). *)
Theorem C47_tag_comment_never_ends : forall d w path a n b1 b2 td l g b rest,
  a = [] \/ piece w a -> bare_name n -> spaces1 b1 -> blanks b2 -> settings tag_setting (tag_named n) td l ->
  blank_lines g -> indent b ->
  w_read w path = Some (a ++ (L "tag" ++ b1 ++ n ++ b2) ++ [c_nl] ++ l ++ g ++ b ++ c_semi :: rest) ->
  tokenize_file (S d) w path = Panic OutOfFuel.
Proof.
  intros d w path a n b1 b2 td l g b rest Ha Hn H1 H2 Hs Hg Hb Hr.
  apply (stuck d w path a 116%N (L "ag" ++ b1 ++ n ++ b2 ++ [c_nl] ++ l ++ g ++ b ++ c_semi :: rest)); auto.
  2: { rewrite Hr. f_equal. f_equal. rewrite <- !app_assoc. reflexivity. }
  intros inc t E Ec.
  assert (Ho : one_line (L "tag" ++ b1 ++ n ++ b2)).
  { apply one_line_app; [intros Z; cbn in Z; intuition discriminate|]. apply one_line_app; [apply one_line_spaces, H1|].
    apply one_line_app; [apply Hn|apply one_line_blanks; auto]. }
  assert (E' : tk_rest t = (L "tag" ++ b1 ++ n ++ b2) ++ c_nl :: l ++ g ++ b ++ c_semi :: rest) by (rewrite E, <- !app_assoc; reflexivity).
  destruct (get_line_spec _ _ _ Ho E') as (t1 & G & E1 & E2).
  unfold item_datum. cbn -[parse_tag]. unfold parse_tag. rewrite G, directive_name by (auto; apply bare_first; auto). cbn [unwrap bind]. rewrite trim_blanks by (auto; apply Hn).
  change {| td_name := n; td_check := []; td_assert := [] |} with (tag_named n).
  destruct (settings_reach tag_setting (fun f => tag_loop f w)) with (a := tag_named n) (b := td) (s := l) (f := entries_fuel t1) (r := g ++ b ++ c_semi :: rest) (t := t1)
    as (t2 & f & G2 & A2 & M2); auto.
  - intros. apply tag_step_m with (s := s); auto.
  - intros a0 b0 s0 [v x Hx|v x Hx]; eapply setting_long; eauto.
  - left. auto.
  - eapply loop_fuel; eauto.
  - rewrite G2. cbn [tag_loop]. assert (So : solid [c_semi]) by (exists c_semi, []; split; reflexivity).
    destruct (at_line_indented t2 g b [c_semi] rest A2 Hg Hb So) as (t3 & G3 & E3). pose proof (cwal_col _ _ G3) as C3. rewrite G3. unfold get_char. rewrite E3. cbn [app].
    change (c_semi =? c_semi)%N with true. cbn iota. rewrite (tag_stuck f w td t3 rest E3 C3). reflexivity.
Qed.
Print Assumptions C47_tag_comment_never_ends.
Definition t47 : str := text ["; start"; "tag project "; "  check value =~ /a/"; ""; "  ; what we do"; "2021-01-01 Shop"]%string.
Example C47_tag_comment_case :
  piece (w77 t47) (text ["; start"]%string) /\ bare_name (L "project") /\ spaces1 (L " ") /\ blanks (L " ") /\
  (exists td, settings tag_setting (tag_named (L "project")) td (text ["  check value =~ /a/"]%string) /\ td_check td = [L "value =~ /a/"]) /\ blank_lines nl /\ indent (L "  ") /\
  w_read (w77 t47) (L "j") = Some (text ["; start"]%string ++ (L "tag" ++ L " " ++ L "project" ++ L " ") ++ [c_nl] ++ text ["  check value =~ /a/"]%string ++ nl ++ L "  " ++ c_semi :: (L " what we do" ++ nl ++ text ["2021-01-01 Shop"]%string)) /\
  tokenize_file 1 (w77 t47) (L "j") = Panic OutOfFuel.
Proof.
  split; [apply piece77|]. split; [split; [discriminate|split; [apply one_line_b; reflexivity|reflexivity]]|].
  split; [split; [intros x [<-|[]]; reflexivity|discriminate]|]. split; [apply blanks_b; reflexivity|].
  split.
  { eexists. split; [|shelve]. rewrite <- (app_nil_r (text _)). eapply se_cons; [|constructor]. apply ts_check with (v := L "value =~ /a/").
    exists [], (L "  "), (L " "), []. split; [constructor|]. split; [split; [apply blanks_b; reflexivity|discriminate]|].
    split; [split; [apply blanks_b; reflexivity|discriminate]|]. split; [apply blanks_nil|]. split; [apply one_line_b; reflexivity|].
    split; [reflexivity|]. split; [discriminate|]. reflexivity.
    Unshelve. reflexivity. }
  split; [apply (bl_line [] []); [apply blanks_nil|constructor]|]. split; [split; [apply blanks_b; reflexivity|discriminate]|].
  split; vm_compute; reflexivity.
Qed.
