(** What comments, notes, formats and effective dates do not change (C89). *)
From Coq Require Import Lia.
From Verif Require Import Base BaseFacts Numerals Money Alist Comment Txn Expr Filter Price Tokens Ledger Reports App Spec SpecTokens SpecJournal PropJournal
  SpecLedger SpecSame SpecRemark SameFacts RemarkFacts PropLedger PropTokens PropReports PropApp PropAsk PropBook PropTxn.

(** ** C89.  Two files with the same contents up to comments, notes, formats, effective dates and tag directives. *)
Theorem C89_reports : forall depth w f f' notes l l' o, world_ok w -> order_blind w -> file_parses depth w f l -> file_parses depth w f' l' ->
  journal_alike notes l l' -> notes = true \/ asks_no_note w l o ->
  (forall c, c <> CCheck -> run_cmd depth w c o f = run_cmd depth w c o f') /\
  ((exists out, run_cmd depth w CCheck o f = Ok out) <-> (exists out, run_cmd depth w CCheck o f' = Ok out)) /\
  exit_status (run_cmd depth w CCheck o f) = exit_status (run_cmd depth w CCheck o f').
Proof.
  intros depth w f f' nb l l' o W OB P P' J HN. apply file_parses_iff in P, P'. unfold run_cmd. rewrite P, P'. cbn [bind].
  assert (HR : nb = true \/ forall r, In r (rules l) -> (forall n, build_root w (get_filter_query r) = Ok n -> note_free n) /\
    forall p e n, In p (t_postings r) -> rp_expr p = Some e -> build_root w e = Ok n -> note_free n) by (destruct HN as [HN|[_ HN]]; auto).
  assert (HQ : forall m, query_node w o = Ok (Some m) -> nb = true \/ note_free m) by (intros m Hm; destruct HN as [HN|[HN _]]; auto).
  assert (A : forall skip, agree (lsim nb) (to_ledger w skip l) (to_ledger w skip l')) by (intros skip; apply ledger_alike; auto).
  split; [|split].
  - intros c Hc. unfold run_on. specialize (A (o_no_balance_check o)). destruct (to_ledger w (o_no_balance_check o) l) as [lg|e|e], (to_ledger w (o_no_balance_check o) l') as [lg'|e'|e']; cbn in A; try contradiction;
      [|subst; destruct c; congruence..]. cbn [bind]. destruct (lists_alike nb w (report_site lg) lg lg' A) as (L1 & L2 & L3 & L4 & L5).
    destruct c; try (destruct Hc; reflexivity); rewrite <- ?L5, <- ?L1, <- ?L2, <- ?L3, <- ?L4; auto.
    + rewrite (report_alike nb w (report_site lg) o flat (negb no_total) lg lg'); auto.
    + rewrite (register_alike nb w (report_site lg) o lg lg'); auto.
  - specialize (A false). cbn [run_on]. destruct (to_ledger w false l), (to_ledger w false l'); cbn in A; try contradiction; cbn [bind]; split; intros (out & X); eauto; discriminate X.
  - specialize (A false). cbn [run_on]. destruct (to_ledger w false l), (to_ledger w false l'); cbn in A; try contradiction; cbn [bind]; auto.
Qed.
Print Assumptions C89_reports.

(** The same from the texts. *)
Theorem C89_texts : forall depth w f f' s s' notes l l' o, world_ok w -> order_blind w -> blanks_not_numeric w ->
  w_read w f = Some s -> w_read w f' = Some s' -> journal_written w pl_new l s -> journal_written w pl_new l' s' ->
  journal_alike notes l l' -> notes = true \/ asks_no_note w l o ->
  forall c, c <> CCheck -> run_cmd (S depth) w c o f = run_cmd (S depth) w c o f'.
Proof.
  intros depth w f f' s s' nb l l' o W OB B R R' J J' A N. apply (C89_reports (S depth) w f f' nb l l' o); auto; apply file_parses_iff; eapply C67_file_read_as_written; eauto.
Qed.
Print Assumptions C89_texts.

(** *** Cases *)
Definition plain89 : str := text ["account Assets:Bank"; "  alias bank"; "commodity EUR"; "2021/01/05 Shop"; "  Expenses:Food  5 EUR  ; kind: bread"; "  bank"; "= Food"; "  (Budget)  -1"]%string.
Definition noted89 : str := text ["; my journal"; "account Assets:Bank"; "  note the bank at the corner"; "  alias bank"; "  isin DE123"; "  default"; "commodity EUR"; "  format 1.000 EUR"; "  note the euro";
  "tag kind"; "2021/01/05=2021/02/01 * Shop  ; cash"; "  ; a remark"; "  Expenses:Food  5 EUR  ; kind: bread"; "    ; fresh"; ""; "  bank  ; from the bank"; "% until here"; "= Food"; "  ; every time"; "  (Budget)  -1"]%string.
Definition w89 : world :=
  {| w_lower := ascii_lower; w_numeric := fun _ => false;
     w_rx := fun rx s => if starts_with (L "(?i)") rx then occurs (ascii_lower (skipn 4 rx)) (ascii_lower s) else occurs rx s;
     w_rx_ok := fun _ => true; w_width := None;
     w_read := fun p => if str_eqb p (L "plain") then Some plain89 else if str_eqb p (L "noted") then Some noted89 else None;
     w_glob := fun _ => None; w_two_timer := fun _ => None; w_now := 0%Z; w_ord := fun _ _ l => l |}.
Definition l89 : pledger := get pl_new (tokenize_file 2 w89 (L "plain")).
Definition l89' : pledger := get pl_new (tokenize_file 2 w89 (L "noted")).
Fixpoint note_free_b (n : node) : bool :=
  match n with NNote => false | NUnary _ c => note_free_b c | NBinary _ a b => note_free_b a && note_free_b b | _ => true end.
Lemma note_free_ok n : note_free_b n = true -> note_free n.
Proof. induction n; cbn; auto; try discriminate. rewrite andb_true_iff. tauto. Qed.
Definition no_note_b (w : world) (e : str) : bool := match build_root w e with Ok n => note_free_b n | _ => true end.
Definition asks_b (w : world) (l : pledger) (o : opts) : bool :=
  match query_node w o with Ok (Some n) => note_free_b n | _ => true end &&
  forallb (fun r => no_note_b w (get_filter_query r) && forallb (fun p => match rp_expr p with Some e => no_note_b w e | None => true end) (t_postings r)) (rules l).
Lemma asks_ok w l o : asks_b w l o = true -> asks_no_note w l o.
Proof.
  unfold asks_b. rewrite andb_true_iff. intros [H1 H2]. split.
  - intros n E. rewrite E in H1. apply note_free_ok. exact H1.
  - intros r Hr. rewrite forallb_forall in H2. specialize (H2 r Hr). apply andb_prop in H2. destruct H2 as [H2 H3]. unfold no_note_b in *. split.
    + intros n E. rewrite E in H2. apply note_free_ok. exact H2.
    + intros p e n Hp E EB. rewrite forallb_forall in H3. specialize (H3 p Hp). rewrite E, EB in H3. apply note_free_ok. exact H3.
Qed.
Definition food : opts := ask ["food"; "or"; "budget"]%string None.
Ltac alike := repeat match goal with
  | |- Forall2 _ _ _ => constructor
  | |- _ /\ _ => split
  | |- _ = _ => reflexivity
  | |- _ -> _ => let H := fresh in intros H; discriminate H
  end.
Example C89_case : world_ok w89 /\ order_blind w89 /\ file_parses 2 w89 (L "plain") l89 /\ file_parses 2 w89 (L "noted") l89' /\
  journal_alike false l89 l89' /\ asks_no_note w89 l89 food /\ l89 <> l89' /\
  run_cmd 2 w89 CRegister food (L "plain") = Ok (map L
    ["2021-01-05 Shop                                      Expenses:Food                              5.00 EUR         5.00 EUR";
     "                                                     (Budget)                                  -5.00 EUR                0"]%string) /\
  run_cmd 2 w89 CRegister food (L "plain") = run_cmd 2 w89 CRegister food (L "noted").
Proof.
  split; [split; [intros; apply Permutation_refl|exact ascii_lower_idem]|]. split; [intros site A B f l; reflexivity|].
  split; [apply file_parses_iff; vm_compute; reflexivity|]. split; [apply file_parses_iff; vm_compute; reflexivity|].
  split; [vm_compute; alike|]. split; [apply asks_ok; vm_compute; reflexivity|].
  split; [intros E; apply (f_equal (fun x => length (pl_comments x))) in E; vm_compute in E; discriminate E|]. split; vm_compute; reflexivity.
Qed.

(** A query for notes does see the comments of a transaction, so that the hypothesis cannot be left out. *)
Example C89_notes_matter : journal_alike false l89 l89' /\
  run_cmd 2 w89 CRegister (ask ["expr"; "note =~ /cash/"]%string None) (L "plain") = Ok [] /\
  run_cmd 2 w89 CRegister (ask ["expr"; "note =~ /cash/"]%string None) (L "noted") <> Ok [].
Proof. split; [vm_compute; alike|]. split; [vm_compute; reflexivity|vm_compute; discriminate]. Qed.
