(** Reading journals: termination, positions, includes, line ends, account names (C47-C52, C54). *)
From Coq Require Import Lia.
From Verif Require Import Base BaseFacts Numerals Money Alist Comment Txn Peg Grammar PegFacts Dates Expr Tokens
  TokenFacts JournalFacts SpecTokens TokenFacts2 SimFacts JournalSim IncludeFacts InlineFacts PostingFacts PropTxn PropLedger.
Open Scope Z_scope.

(** A small file system: every pattern matches the file of that very name, if there is one. *)
Definition disk (l : list (str * str)) : world :=
  {| w_lower := ascii_lower; w_numeric := fun _ => false; w_rx := fun _ _ => false; w_rx_ok := fun _ => true;
     w_width := None; w_read := fun f => option_map snd (find (fun p => str_eqb (fst p) f) l);
     w_glob := fun pat => Some (if existsb (fun p => str_eqb (fst p) pat) l then [pat] else []);
     w_two_timer := fun _ => None; w_now := 0; w_ord := fun _ _ l => l |}.

Lemma filter_le {A} (f : A -> bool) l : (length (filter f l) <= length l)%nat.
Proof. induction l as [|x l IH]; cbn; auto. destruct (f x); cbn; lia. Qed.

(** ** C47: reading ends.
    Every loop of the model carries a bound on its number of turns that is linear in the length of the text
    ([OutOfFuel] is what happens when the bound is reached); so the theorem says that no bound is reached.
    Missing for the full property: texts with an indented comment under a [tag] directive, and texts with an
    automated transaction and no final newline.  On these the program can loop forever, see below. *)
Theorem C47_reading_ends_partial : forall w files depth file seen content,
  (forall g h, names w file content g -> reachable w g h -> In h files /\ forall c, w_read w h = Some c -> ends_ok c) ->
  ends_ok content -> (length files < depth)%nat ->
  tokenize depth w file seen content <> Panic OutOfFuel.
Proof.
  intros w files depth file seen content H Hc Hd. apply (reach_nofuel w files); auto.
  unfold unseen. pose proof (filter_le (fun f => negb (existsb (str_eqb f) seen)) files). lia.
Qed.
Print Assumptions C47_reading_ends_partial.
(** Without includes one level is enough. *)
Theorem C47_single_text_partial : forall w content, ends_ok content -> (forall g, ~ names w None content g) ->
  tokenize_string 1 w content <> Panic OutOfFuel.
Proof.
  intros w content H Hn. apply (C47_reading_ends_partial w []); auto. intros g h X. exfalso. apply (Hn g); auto.
Qed.
Print Assumptions C47_single_text_partial.
Lemma no_tag s : ~ contains (L "tag ") s -> ~ tag_with_comment s.
Proof.
  intros H (p & line & blk & b & r & -> & _ & (q & q' & ->) & _). apply H.
  exists (p ++ q), (q' ++ c_nl :: blk ++ b ++ c_semi :: r). rewrite <- !app_assoc. auto.
Qed.
Fixpoint has (x s : str) : bool := starts_with x s || match s with [] => false | _ :: r => has x r end.
Lemma starts_with_app x r : starts_with x (x ++ r) = true.
Proof. induction x; cbn; auto. rewrite N.eqb_refl. auto. Qed.
Lemma has_contains x s : contains x s -> has x s = true.
Proof.
  intros (p & r & ->). induction p as [|c p IH].
  - cbn [app]. destruct (x ++ r) eqn:E; cbn [has]; rewrite <- E, starts_with_app; auto.
  - cbn [app has]. rewrite IH. apply orb_true_r.
Qed.
Example C47_case : ends_ok (text ["2020/01/01 x"; "  A  5 EUR"; "  B"; "account A"]%string).
Proof.
  split; [left; right; exists (removelast (text ["2020/01/01 x"; "  A  5 EUR"; "  B"; "account A"]%string)); reflexivity|].
  apply no_tag. intros H. apply has_contains in H. vm_compute in H. discriminate.
Qed.

(** An automated posting whose amount is not a number, at the very end of the text: however many turns the
    loop is given, it does not finish. *)
Lemma posting_stuck f : forall w p t c, tk_rest t = [c] -> is_numeric w c = false -> is_ws c = false ->
  ~ In c [c_lp; c_nl; c_semi; c_eq; c_at; c_dot; c_minus; c_dq] ->
  posting_loop f w TAutomated p t = Panic OutOfFuel.
Proof.
  induction f as [|f IH]; intros w p t c Hr Hn Hw Hc; [reflexivity|]. cbn [posting_loop].
  assert (E : forall d, In d [c_lp; c_nl; c_semi; c_eq; c_at; c_dot; c_minus; c_dq] -> (c =? d)%N = false).
  { intros d Hd. apply N.eqb_neq. intros ->. auto. }
  assert (E1 := E c_lp). assert (E2 := E c_nl). assert (E3 := E c_semi). assert (E4 := E c_eq).
  assert (E5 := E c_at). assert (E6 := E c_dot). assert (E7 := E c_minus). assert (E8 := E c_dq).
  cbn [In] in E1, E2, E3, E4, E5, E6, E7, E8.
  specialize (E1 ltac:(tauto)). specialize (E2 ltac:(tauto)). specialize (E3 ltac:(tauto)). specialize (E4 ltac:(tauto)).
  specialize (E5 ltac:(tauto)). specialize (E6 ltac:(tauto)). specialize (E7 ltac:(tauto)). specialize (E8 ltac:(tauto)).
  unfold get_char. rewrite Hr, E1, E2, E3, E4, E5.
  unfold parse_money, get_char. rewrite Hr, Hn, E6, E7. cbn [orb].
  assert (Et : consume_whitespaces t = t).
  { destruct t as [a b x y]. cbn in Hr. subst b. unfold consume_whitespaces. cbn. rewrite Hw. reflexivity. }
  unfold get_string. rewrite Et, Hr.
  cbn [gstr tk_rest tk_pre tk_line tk_col]. rewrite E2, E8, Hw, Hn, E6, E7, E3. cbn [orb andb negb].
  cbn. eapply IH; [|exact Hn|exact Hw|exact Hc]. unfold consume_whitespaces. cbn. rewrite Hw. reflexivity.
Qed.
Theorem C47_automated_at_the_end_refuted :
  let content := removelast (text ["= e"; "  A  x"]%string) in
  (forall w, tokenize_string 1 w content = Panic OutOfFuel) /\
  (** the state the loop is in when it comes to the amount *)
  (forall w fuel p pre line col, posting_loop fuel w TAutomated p
     {| tk_pre := pre; tk_rest := L "x"; tk_line := line; tk_col := col |} = Panic OutOfFuel).
Proof.
  split; [intros w; vm_compute; reflexivity|]. intros w fuel p pre line col.
  eapply posting_stuck; [reflexivity|reflexivity|reflexivity|]. cbn. intuition discriminate.
Qed.
Print Assumptions C47_automated_at_the_end_refuted.
(** A comment under a [tag] directive. *)
Theorem C47_tag_comment_refuted :
  (forall w, tokenize_string 1 w (text ["tag x"; "  ; c"]%string) = Panic OutOfFuel) /\
  (forall w fuel x t r, tk_rest t = c_semi :: r -> tk_col t <> 0%nat -> tag_loop fuel w x t = Panic OutOfFuel).
Proof. split; [intros w; vm_compute; reflexivity|]. intros. eapply tag_stuck; eauto. Qed.
Print Assumptions C47_tag_comment_refuted.

(** ** C48: every item moves forward.
    [position … t]: the main loop looks for an item at [t].  Then what has been read is a beginning [p] of the
    text, the line number is the number of newlines in it; an item leaves behind some blanks and at least one
    other character.  Missing: texts with automated transactions and without a final newline, where the
    line number can be wrong (below). *)
Theorem C48_positions_partial : forall tk w file seen content t,
  newline_terminated content \/ ~ line_begins c_eq content ->
  position (include_parse tk w file seen) w content t ->
  exists p, content = p ++ tk_rest t /\ rev p = tk_pre t /\ tk_line t = Z.of_nat (count c_nl p) /\
    forall t1 c l l' t2,
      consume_whitespaces_and_lines t = (Blank, t1) -> get_char t1 = Some c ->
      item (include_parse tk w file seen) w c l t1 = Ok (l', t2) ->
      exists blanks q, tk_rest t = blanks ++ tk_rest t1 /\ forallb is_ws blanks = true /\
        tk_rest t1 = q ++ tk_rest t2 /\ q <> [] /\ tk_line t2 = Z.of_nat (count c_nl (p ++ blanks ++ q)).
Proof.
  intros tk w file seen content t Hok Hp. set (inc := include_parse tk w file seen) in *.
  assert (I : forall t x t', inc t = Ok (x, t') -> moves1 t t' /\ end_or_margin t').
  { intros u x t' X. split; [eapply include_parse_moves; eauto|eapply include_parse_margin; eauto]. }
  destruct (position_stands _ _ _ _ I Hok Hp) as [Hst Hline]. exists (rev (tk_pre t)).
  split; [apply Hst|]. split; [apply rev_involutive|]. rewrite <- newlines_count. split; [auto|].
  intros t1 c l l' t2 Ew Ec E.
  pose proof (cwal_moves _ _ _ Ew) as M. pose proof (cwal_blank_head _ _ Ew) as Hws.
  pose proof (stands_moves _ _ _ Hst M (cwal_margin _ _ Ew (stands_acc _ _ Hst))) as Hst1.
  pose proof (get_char_ws _ _ Ec Hws) as Hc.
  assert (M2 : moves1 t1 t2).
  { eapply item_moves; [|exact Ec|auto| |exact E]. { intros x0 t' X. apply (I _ _ _ X). } intros. eapply stands_eq; eauto. }
  assert (X : exists blanks, eats t blanks t1 /\ forallb is_ws blanks = true).
  { destruct t as [a b cc d]. unfold consume_whitespaces_and_lines in Ew. cbn in Ew. apply cwl_eats in Ew. destruct Ew as (b0 & X1 & X2 & _). eauto. }
  destruct X as (blanks & (X1 & X2 & X3) & X4). destruct M2 as (q & (Y1 & Y2 & Y3) & Y4).
  exists blanks, q. repeat split; auto.
  rewrite Y3, X3, Hline, <- newlines_count, !newlines_app. lia.
Qed.
Print Assumptions C48_positions_partial.
Example C48_case : let content := text ["2020/01/01 x"; "  A  5 EUR"; "  B"; ""; "; c"]%string in
  exists t, position (include_parse (fun _ _ _ => Ok pl_new) w0 None []) w0 content t /\ tk_rest t = L "; c" ++ [c_nl] /\ tk_line t = 4.
Proof.
  eexists. split; [eapply (pos_item _ _ _ _ _ _ pl_new); [apply pos_start|vm_compute; reflexivity|vm_compute; reflexivity|vm_compute; reflexivity]|].
  split; vm_compute; reflexivity.
Qed.
Theorem C48_line_number_refuted :
  let content := removelast (text ["= e"; "  A  x1.2.3"]%string) in
  exists t, position (include_parse (fun _ _ _ => Ok pl_new) w0 None []) w0 content t /\
    tk_rest t = [] /\ tk_line t = 0 /\ count c_nl content = 1%nat.
Proof.
  eexists. split; [eapply (pos_item _ _ _ _ _ _ pl_new); [apply pos_start|vm_compute; reflexivity|vm_compute; reflexivity|vm_compute; reflexivity]|].
  repeat split; vm_compute; reflexivity.
Qed.
Print Assumptions C48_line_number_refuted.

(** ** C49: include cycles *)
(** If a journal can be read, no file it reaches lies on a cycle. *)
Theorem C49_no_cycle_accepted : forall depth w path l g, tokenize_file depth w path = Ok l ->
  reachable w path g -> ~ on_cycle w g.
Proof.
  intros depth w path l g H Hr. unfold tokenize_file in H. destruct (w_read w path) as [c|] eqn:E; [|discriminate].
  assert (W : was_read w path [path]). { exists depth, c, l. cbn. rewrite str_eqb_refl. auto. }
  destruct (was_read_far _ _ _ Hr _ W) as (s & W2 & _). eapply was_read_acyclic; eauto.
Qed.
Print Assumptions C49_no_cycle_accepted.
(** If nothing else is wrong with the files, a cycle is reported as such. *)
Theorem C49_cycle_reported : forall w path files g depth,
  (forall h, reachable w path h -> sound_alone w h /\ In h files) -> (length files < depth)%nat ->
  reachable w path g -> on_cycle w g ->
  exists h p, tokenize_file depth w path = Err (EParser (IncludeLoop h) p).
Proof.
  intros w path files g depth H Hd Hr Hc.
  destruct (H path (reach_refl _ _)) as [(c & l & E & _) _].
  destruct (sound_runs w files depth path [path]) with (c := c) as [(l' & X)|X]; auto.
  - intros h Hh. apply H. auto.
  - intros h Hh. apply H. auto.
  - unfold unseen. pose proof (filter_le (fun f => negb (existsb (str_eqb f) [path])) files). lia.
  - exfalso. eapply (C49_no_cycle_accepted depth w path l' g); eauto. unfold tokenize_file. rewrite E. auto.
  - destruct X as (h & p & X). exists h, p. unfold tokenize_file. rewrite E. auto.
Qed.
Print Assumptions C49_cycle_reported.
(** Whatever the files contain, following the includes ends when finitely many files can be reached (each file
    must be one on which reading ends, see C47). *)
Theorem C49_includes_end : forall w path files depth,
  (forall h, reachable w path h -> In h files /\ forall c, w_read w h = Some c -> ends_ok c) ->
  (length files < depth)%nat -> tokenize_file depth w path <> Panic OutOfFuel.
Proof.
  intros w path files depth H Hd. unfold tokenize_file. destruct (w_read w path) as [c|] eqn:E; [|discriminate].
  apply (C47_reading_ends_partial w files); auto.
  - intros g h Hn Hr. apply H. eapply reach_step; [|exact Hr]. exists c. auto.
  - apply (H path (reach_refl _ _)). auto.
Qed.
Print Assumptions C49_includes_end.

Definition loop_disk : world := disk [(L "./a", text ["; first"; "include b"]%string); (L "./b", text ["include a"]%string)].
Example C49_case_reported : exists p, tokenize_file 3 loop_disk (L "./a") = Err (EParser (IncludeLoop (L "./a")) (Some p)) /\
  at_file p = Some (L "./b").
Proof. eexists. split; vm_compute; reflexivity. Qed.
Lemma loop_b : includes loop_disk (L "./a") (L "./b").
Proof.
  eexists. split; [vm_compute; reflexivity|]. exists (L "b"), [L "./b"]. split; [|split; [vm_compute; reflexivity|left; reflexivity]].
  do 3 eexists. split; [|split; [|split; [|split; [|right; exists []; reflexivity]]]].
  - eapply (pos_item _ _ _ _ _ _ pl_new); [apply pos_start|vm_compute; reflexivity|vm_compute; reflexivity|vm_compute; reflexivity].
  - vm_compute. reflexivity.
  - vm_compute. reflexivity.
  - cbn. intuition discriminate.
Qed.
Lemma loop_a : includes loop_disk (L "./b") (L "./a").
Proof.
  eexists. split; [vm_compute; reflexivity|]. exists (L "a"), [L "./a"]. split; [|split; [vm_compute; reflexivity|left; reflexivity]].
  do 3 eexists. split; [apply pos_start|split; [|split; [|split; [|right; exists []; reflexivity]]]].
  - vm_compute. reflexivity.
  - vm_compute. reflexivity.
  - cbn. intuition discriminate.
Qed.
Example C49_case_cycle : on_cycle loop_disk (L "./a") /\ reachable loop_disk (L "./a") (L "./b").
Proof.
  split.
  - exists (L "./b"). split; [apply loop_b|]. eapply reach_step; [apply loop_a|apply reach_refl].
  - eapply reach_step; [apply loop_b|apply reach_refl].
Qed.
(** In this file system every pattern matches at most the file of that name, so only two files can be reached. *)
Lemma disk_names l w file content g : w = disk l -> names w file content g -> In g (map fst l).
Proof.
  intros -> (line & files & _ & E & Hin). cbn in E. inversion E; subst. clear E.
  destruct (existsb _ l) eqn:X in Hin; [|destruct Hin]. destruct Hin as [<-|[]].
  apply existsb_exists in X. destruct X as (p & P1 & P2). destruct (str_eqb_spec (fst p) (include_pattern file line)); [|discriminate].
  rewrite <- e. apply in_map. auto.
Qed.
Lemma disk_reach l w f g : w = disk l -> reachable w f g -> In f (map fst l) -> In g (map fst l).
Proof.
  intros E H. induction H as [f|f g h (c & _ & Hi) Hr IH]; auto. intros _. apply IH. eapply disk_names; eauto.
Qed.
Example C49_case_sound : forall h, reachable loop_disk (L "./a") h -> sound_alone loop_disk h /\ In h [L "./a"; L "./b"].
Proof.
  intros h H. assert (Hi : In h [L "./a"; L "./b"]) by (exact (disk_reach _ loop_disk _ _ eq_refl H (or_introl eq_refl))).
  split; auto. destruct Hi as [<-|[<-|[]]].
  - eexists. eexists. split; [vm_compute; reflexivity|]. split; [vm_compute; reflexivity|]. intros line _. discriminate.
  - eexists. eexists. split; [vm_compute; reflexivity|]. split; [vm_compute; reflexivity|]. intros line _. discriminate.
Qed.

(** ** C50: the final newline.
    Adding a newline to a journal that can be read changes nothing.  Removing it changes nothing either, or the
    program aborts (when the last line is an account name and nothing else, see below).  Both for texts without
    automated transactions and without unclosed parentheses in amount expressions. *)
Theorem C50_newline_added_partial : forall depth w file seen s l,
  tokenize depth w file seen s = Ok l -> ~ line_begins c_eq s -> closed_expressions l ->
  tokenize depth w file seen (s ++ [c_nl]) = Ok l.
Proof. exact newline_added. Qed.
Print Assumptions C50_newline_added_partial.
Theorem C50_newline_removed_partial : forall depth w file seen s l,
  tokenize depth w file seen (s ++ [c_nl]) = Ok l -> ~ line_begins c_eq (s ++ [c_nl]) -> closed_expressions l ->
  tokenize depth w file seen s = Ok l \/ tokenize depth w file seen s = Panic PExplicit.
Proof. exact newline_removed. Qed.
Print Assumptions C50_newline_removed_partial.
Theorem C50_account_at_the_end_refuted :
  let s := removelast (text ["2020/01/01 x"; "  A  5 EUR"; "  B"]%string) in
  (exists l, tokenize_string 1 w0 (s ++ [c_nl]) = Ok l /\ length (pl_txns l) = 1%nat) /\
  tokenize_string 1 w0 s = Panic PExplicit.
Proof. split; [eexists; split; vm_compute; reflexivity|vm_compute; reflexivity]. Qed.
Print Assumptions C50_account_at_the_end_refuted.
(** One whole class of them: a text ending in an account name. *)
Theorem C50_account_without_newline : forall w ty pay t, (forall c, In c (tk_rest t) -> is_ws c = false) ->
  parse_posting w ty pay t = Panic PExplicit.
Proof.
  intros w ty pay t H. unfold parse_posting. assert (E : forall s pre line col acc, (forall c, In c s -> is_ws c = false) -> gaccount s pre line col acc = Panic PExplicit).
  { induction s as [|c s IH]; intros pre line col acc Hs; [reflexivity|]. cbn [gaccount]. rewrite (Hs c (or_introl eq_refl)). cbn [negb].
    apply IH. intros d Hd. apply Hs. right. auto. }
  rewrite E; auto.
Qed.
Print Assumptions C50_account_without_newline.
Lemma not_begins c s : (match s with d :: _ => negb (d =? c)%N | [] => true end = true) -> has [c_nl; c] s = false -> ~ line_begins c s.
Proof.
  intros H1 H2 (p & r & -> & [->|(p' & ->)]).
  - cbn in H1. rewrite N.eqb_refl in H1. discriminate.
  - rewrite (has_contains [c_nl; c]) in H2; [discriminate|]. exists p', r. rewrite <- app_assoc. auto.
Qed.
Example C50_case : let s := removelast (text ["2020/01/01 x"; "  A"; "  B  (5 EUR)"]%string) in
  exists l, tokenize_string 1 w0 s = Ok l /\ tokenize_string 1 w0 (s ++ [c_nl]) = Ok l /\ ~ line_begins c_eq s /\ closed_expressions l.
Proof.
  eexists. split; [vm_compute; reflexivity|]. split; [vm_compute; reflexivity|]. split.
  - apply not_begins; vm_compute; reflexivity.
  - repeat constructor; intros e E; inversion E; reflexivity.
Qed.

(** ** C51: a posting does not reach beyond its line.
    [ln] is the line (without newline); read by itself it gives [p]; then whatever text [z] follows, it gives
    [p] too, and reading goes on at the end of the line or behind its newline.  Missing: lines
    consisting of an account name with one blank behind it, and amount expressions with unclosed parentheses;
    these do swallow the next line (below). *)
Theorem C51_posting_line_partial : forall w ty pay ln z t t' p t1,
  ~ In c_nl ln -> ~ name_and_blank ln ->
  tk_rest t = ln ++ [c_nl] -> tk_rest t' = ln ++ c_nl :: z -> tk_col t = tk_col t' ->
  parse_posting w ty pay t = Ok (p, t1) -> expression_closed p ->
  exists t1', parse_posting w ty pay t' = Ok (p, t1') /\ (tk_rest t1' = c_nl :: z \/ tk_rest t1' = z).
Proof. exact posting_line_end. Qed.
Print Assumptions C51_posting_line_partial.
Example C51_case : exists p t1, ~ name_and_blank (L "A  5 EUR ") /\
  parse_posting w0 TReal None (tok_of (L "A  5 EUR " ++ [c_nl])) = Ok (p, t1) /\ expression_closed p.
Proof.
  do 2 eexists. split; [|split; [vm_compute; reflexivity|discriminate]].
  intros (n & b & E & _ & _ & H). apply H. exists (L "A"), c_sp, c_sp, (L "5 EUR "). auto.
Qed.
(** One trailing blank, and the amount on the next line becomes the amount of this posting. *)
Theorem C51_trailing_blank_refuted :
  (exists l p q, tokenize_string 1 w0 (text ["2020/01/01 x"; "  A "; "  10 EUR"; "  B"]%string) = Ok l /\
     map t_postings (pl_txns l) = [[p; q]] /\ rp_account p = L "A" /\ option_map snd (rp_money p) = Some (L "EUR")) /\
  (** without the blank the second line is an error *)
  exists pos, tokenize_string 1 w0 (text ["2020/01/01 x"; "  A"; "  10 EUR"; "  B"]%string) =
    Err (EParser (UnexpectedInput (Some (L "Expecting account name"))) pos).
Proof.
  split; [|eexists; vm_compute; reflexivity]. do 3 eexists. split; [vm_compute; reflexivity|]. split; [cbn; reflexivity|]. split; reflexivity.
Qed.
Print Assumptions C51_trailing_blank_refuted.
(** An open parenthesis takes the next line with it. *)
Theorem C51_open_parenthesis_refuted :
  exists l p, tokenize_string 1 w0 (text ["2020/01/01 x"; "  A  (1 +"; "  B"]%string) = Ok l /\
    map t_postings (pl_txns l) = [[p]] /\ rp_account p = L "A".
Proof. do 2 eexists. split; [vm_compute; reflexivity|]. split; [cbn; reflexivity|]. reflexivity. Qed.
Print Assumptions C51_open_parenthesis_refuted.

(** ** C52: account names.
    Words separated by single blanks are read as they are written, up to the end of the line or the two blanks
    (or the tab) that separate the name from the amount, and round and square brackets give the kind of posting.
    Missing: real accounts whose name begins with a character that is not ASCII; these make the program abort. *)
Theorem C52_account_alone_partial : forall w ty pay n s k r t,
  plain_name n -> account_form n s k -> tk_rest t = s ++ c_nl :: r ->
  exists t1, parse_posting w ty pay t = Ok (rp_new n k pay, t1) /\ tk_rest t1 = c_nl :: r.
Proof.
  intros w ty pay n s k r t Hn Hf E. destruct (posting_account w ty pay n s k (c_nl :: r) t Hn Hf E) as [H _]. apply (H r). auto.
Qed.
Print Assumptions C52_account_alone_partial.
Theorem C52_account_and_amount_partial : forall w ty pay n s k sep r t p t1,
  plain_name n -> account_form n s k -> account_separator sep -> tk_rest t = s ++ sep ++ r ->
  parse_posting w ty pay t = Ok (p, t1) -> rp_account p = n /\ rp_kind p = k.
Proof.
  intros w ty pay n s k sep r t p t1 Hn Hf Hs E H. destruct (posting_account w ty pay n s k (sep ++ r) t Hn Hf E) as [_ G]. eapply G; eauto.
Qed.
Print Assumptions C52_account_and_amount_partial.
Theorem C52_not_ascii_refuted : forall w ty pay c n z t,
  plain_name (c :: n) -> (128 <= c)%N -> tk_rest t = (c :: n) ++ z ->
  (exists r, z = c_nl :: r) \/ (exists sep r, account_separator sep /\ z = sep ++ r) ->
  parse_posting w ty pay t = Panic PIndex.
Proof. intros w ty pay c n z t Hn Hc E Hz. eapply posting_not_ascii; eauto. apply plain_inner. auto. Qed.
Print Assumptions C52_not_ascii_refuted.
Example C52_case : plain_name (L "A:b c") /\ account_form (L "A:b c") (L "A:b c") Real /\ account_form (L "A:b c") (L "(A:b c)") Virtual /\
  exists p t1, parse_posting w0 TReal None (tok_of (L "[A:b c]  5 EUR")) = Ok (p, t1) /\ rp_kind p = VirtualMustBalance.
Proof.
  split; [|split; [|split]].
  - split; [discriminate|]. split; [cbn; intuition discriminate|]. split; [cbn; intuition discriminate|]. split; [|split].
    + intros p c d r E. repeat (destruct p as [|? p]; [inversion E; subst; cbn; discriminate|inversion E; subst; clear E; rename H1 into E]).
    + intros c r E. inversion E; subst. reflexivity.
    + intros p c E. repeat (destruct p as [|? p]; [inversion E; subst; reflexivity|inversion E; subst; clear E; rename H1 into E]).
  - eapply af_real; [reflexivity|reflexivity|discriminate|discriminate].
  - apply (af_virtual (L "A:b c")).
  - do 2 eexists. split; vm_compute; reflexivity.
Qed.

(** ** C54: includes and inlining.
    [inlined w file content text]: [text] is [content] with every include line replaced by the inlined contents
    of the files it names, in order.  If the including file can be read, so can the inlined text, with the same
    transactions, prices and comments in the same order.  Missing: contents between the include lines that do not
    begin at the left margin or end in a blank and a newline ([piece]), of which one is shown to be read differently. *)
Theorem C54_inlining_partial : forall w file content text depth seen l,
  inlined w file content text -> tokenize depth w file seen content = Ok l ->
  exists l', tokenize_string 1 w text = Ok l' /\
    pl_txns l' = pl_txns l /\ pl_prices l' = pl_prices l /\ pl_comments l' = pl_comments l.
Proof. exact inline_ok. Qed.
Print Assumptions C54_inlining_partial.
Lemma drop_none x : ~ In c_slash x -> drop_to_slash x = None.
Proof. induction x as [|c x IH]; intros H; cbn; auto. destruct (N.eqb_spec c c_slash); [exfalso; apply H; left; auto|]. apply IH. intros X. apply H. right. auto. Qed.
Lemma drop_some x y : ~ In c_slash x -> drop_to_slash (x ++ c_slash :: y) = Some y.
Proof. induction x as [|c x IH]; intros H; cbn; auto. destruct (N.eqb_spec c c_slash); [exfalso; apply H; left; auto|]. apply IH. intros X. apply H. right. auto. Qed.
(** Included files are looked up beside the file that includes them. *)
Theorem C54_included_path : forall file line p, beside file line p <-> include_pattern file line = p.
Proof.
  assert (R : forall x, ~ In c_slash x -> ~ In c_slash (rev x)) by (intros x H X; apply H, in_rev; auto).
  assert (G : forall file line p, beside file line p -> include_pattern file line = p).
  { intros file line p H. destruct H as [line|name line H|dir name line Hd H|name line H]; cbn [include_pattern]; auto; unfold path_parent.
    - rewrite drop_none by auto. reflexivity.
    - change (L "/" ++ name) with (c_slash :: name). rewrite rev_app_distr. cbn [rev]. rewrite <- app_assoc. cbn [app].
      rewrite drop_some, rev_involutive by auto. destruct dir; [congruence|]. reflexivity.
    - change (rev (L "/" ++ name)) with (rev name ++ [c_slash]). rewrite drop_some by auto. reflexivity. }
  intros file line p. split; [apply G|]. intros E. destruct file as [f|]; [|subst p; constructor].
  assert (S : ~ In c_slash f \/ exists dir name : str, f = dir ++ c_slash :: name /\ ~ In c_slash name).
  { clear. induction f as [|c f IH]; [left; intros []|]. destruct IH as [H|(d & n & -> & H)]; [|right; exists (c :: d), n; auto].
    destruct (N.eqb_spec c c_slash) as [->|Hc]; [right; exists [], f; auto|]. left. intros [X|X]; auto. }
  destruct S as [H|(dir & name & -> & H)].
  - rewrite (G _ _ _ (bs_here f line H)) in E. subst p. constructor. auto.
  - destruct dir as [|d dir].
    + assert (Ep : p = L "//" ++ line) by (rewrite <- E; exact (G _ _ _ (bs_root name line H))). rewrite Ep. exact (bs_root name line H).
    + assert (B : beside (Some ((d :: dir) ++ L "/" ++ name)) line ((d :: dir) ++ L "/" ++ line)) by (apply bs_dir; auto; discriminate).
      assert (Ep : p = (d :: dir) ++ L "/" ++ line) by (rewrite <- E; exact (G _ _ _ B)). rewrite Ep. exact B.
Qed.
Print Assumptions C54_included_path.
Example C54_path_case : beside (Some (L "books/2021/main")) (L "jan") (L "books/2021/jan") /\ beside (Some (L "main")) (L "jan") (L "./jan") /\
  beside (Some (L "/main")) (L "jan") (L "//jan").
Proof. split; [apply (bs_dir (L "books/2021") (L "main")); [discriminate|]|split; [apply bs_here|apply (bs_root (L "main"))]]; cbn; intuition discriminate. Qed.
Definition inc_disk : world := disk [(L "./b", text ["2020/01/01 x"; "  A  5 EUR"; "  B"]%string)].
Lemma piece_check w a l : (match a with c :: _ => negb (is_ws c) | [] => false end = true) ->
  (match rev a with c :: d :: _ => (c =? c_nl)%N && negb (is_ws d) | _ => false end = true) ->
  (match a with d :: _ => negb (d =? 105)%N | [] => true end = true) -> has [c_nl; 105%N] a = false ->
  tokenize_string 1 w a = Ok l -> closed_expressions l -> piece w a.
Proof.
  intros H1 H2 H3 H4 H5 H6. split.
  { destruct a as [|c r]; [discriminate|]. exists c, r. split; auto. destruct (is_ws c); auto. }
  destruct (rev a) as [|c [|d x]] eqn:E; try discriminate. apply andb_prop in H2. destruct H2 as [X1 X2]. apply N.eqb_eq in X1. subst c.
  apply (f_equal (@rev N)) in E. rewrite rev_involutive in E. cbn [rev] in E.
  split; [right; exists (rev (d :: x)); cbn; auto|].
  split.
  { intros y c Ey Hc. subst a. change (y ++ [c; c_nl]) with (y ++ [c] ++ [c_nl]) in Ey. rewrite app_assoc in Ey. apply app_inj_tail in Ey.
    destruct Ey as [Ey _]. apply app_inj_tail in Ey. destruct Ey as [_ <-]. rewrite Hc in X2. discriminate. }
  split; [apply not_begins; auto|]. eauto.
Qed.
Example C54_case : let content := text ["; one"; "include b"; "; two"]%string in
  let whole := text ["; one"; "2020/01/01 x"; "  A  5 EUR"; "  B"; "; two"]%string in
  inlined inc_disk (Some (L "a")) content whole /\
  exists l, tokenize 2 inc_disk (Some (L "a")) [L "a"] content = Ok l /\ length (pl_txns l) = 1%nat.
Proof.
  cbn zeta. split; [|eexists; split; vm_compute; reflexivity].
  assert (P1 : piece inc_disk (text ["; one"]%string)) by (eapply piece_check; [reflexivity|reflexivity|reflexivity|reflexivity|vm_compute; reflexivity|repeat constructor]).
  assert (P2 : piece inc_disk (text ["; two"]%string)) by (eapply piece_check; [reflexivity|reflexivity|reflexivity|reflexivity|vm_compute; reflexivity|repeat constructor]).
  assert (P3 : piece inc_disk (text ["2020/01/01 x"; "  A  5 EUR"; "  B"]%string)) by (eapply piece_check; [reflexivity|reflexivity|reflexivity|reflexivity|vm_compute; reflexivity|repeat constructor; intros e E; inversion E]).
  apply (in_piece inc_disk _ (text ["; one"]%string) (text ["include b"; "; two"]%string) (text ["2020/01/01 x"; "  A  5 EUR"; "  B"; "; two"]%string)); auto.
  apply (in_include inc_disk _ (L "b") [L "./b"] (text ["2020/01/01 x"; "  A  5 EUR"; "  B"]%string) (text ["; two"]%string) (text ["; two"]%string)).
  - cbn. intuition discriminate.
  - vm_compute. reflexivity.
  - eapply (ia_cons inc_disk _ _ [] (text ["2020/01/01 x"; "  A  5 EUR"; "  B"]%string) []); [vm_compute; reflexivity| |constructor].
    apply (in_piece inc_disk _ (text ["2020/01/01 x"; "  A  5 EUR"; "  B"]%string) [] []); auto. constructor.
  - apply (in_piece inc_disk _ (text ["; two"]%string) [] []); auto. constructor.
Qed.
Definition blank_disk : world := disk [(L "./b", text ["2020/01/01 x"; "  A "]%string)].
Theorem C54_trailing_blank_refuted :
  (exists l, tokenize 2 blank_disk (Some (L "a")) [L "a"] (text ["include b"; "2020/02/02 y"]%string) = Ok l /\ length (pl_txns l) = 2%nat) /\
  (exists l, tokenize_string 1 blank_disk (text ["2020/01/01 x"; "  A "; "2020/02/02 y"]%string) = Ok l /\ length (pl_txns l) = 1%nat).
Proof. split; eexists; split; vm_compute; reflexivity. Qed.
Print Assumptions C54_trailing_blank_refuted.
