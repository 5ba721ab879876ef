(** A journal in several files gives the reports of the one text (C54). *)
From Coq Require Import Lia Sorting.Sorted.
From Verif Require Import Base BaseFacts Numerals Money Alist Comment Txn Peg Grammar PegFacts Dates Expr Tokens
  TokenFacts SpecList AlistFacts JournalFacts SpecTokens TokenFacts2 SimFacts JournalSim IncludeFacts InlineFacts SpecSplit SplitFacts
  Ledger Filter Reports App PropLedger PropTokens PropReports.

(** ** C54: a journal laid out over several files.
    When nothing is declared in two of the parts, the file with the include lines is read, to the same accounts,
    payees, commodities, transactions, prices and comments, in the same order, as the text in one piece.  Missing:
    parts that do not begin at the left margin or end in a blank and a newline ([piece]), and declarations of one
    thing in two files; both are shown to make a difference. *)
Theorem C54_one_journal_partial : forall w f content text parts,
  w_read w f = Some content -> assembled w (Some f) content text parts -> ForallOrdPairs (no_clash w) parts ->
  exists n, forall depth, (n <= depth)%nat -> exists l l',
    tokenize_file depth w f = Ok l /\ tokenize_string 1 w text = Ok l' /\ same_journal l' l.
Proof.
  intros w f content text parts Hr Ha HF. destruct (assembled_reads w f content text parts Hr Ha) as (n & Hn).
  exists n. intros depth Hd. destruct (Hn depth Hd) as (l & Hl). pose proof Hl as Hl'. unfold tokenize_file in Hl'. rewrite Hr in Hl'.
  destruct (split_ok w (Some f) content text parts depth [f] l Ha HF Hl' 0%nat None []) as (l' & E & J). exists l, l'. auto.
Qed.
Print Assumptions C54_one_journal_partial.
Lemma same_ledger w b l l' : same_journal l' l -> to_ledger w b l' = to_ledger w b l.
Proof.
  destruct l, l'. unfold same_journal. cbn. intros (-> & -> & -> & -> & -> & ->). reflexivity.
Qed.
(** Every report of the journal in several files is the report of the journal in one, and [check] accepts one
    exactly when it accepts the other. *)
Theorem C54_reports_partial : forall w f g content text parts,
  w_read w f = Some content -> assembled w (Some f) content text parts -> ForallOrdPairs (no_clash w) parts ->
  w_read w g = Some text ->
  exists n, forall depth o, (n <= depth)%nat ->
    (forall c, c <> CCheck -> run_cmd depth w c o f = run_cmd depth w c o g) /\
    ((exists out, run_cmd depth w CCheck o f = Ok out) <-> (exists out, run_cmd depth w CCheck o g = Ok out)) /\
    exit_status (run_cmd depth w CCheck o f) = exit_status (run_cmd depth w CCheck o g).
Proof.
  intros w f g content text parts Hr Ha HF Hg. destruct (assembled_reads w f content text parts Hr Ha) as (n & Hn).
  exists (S n). intros depth o Hd. destruct depth as [|d]; [lia|]. destruct (Hn (S d) ltac:(lia)) as (l & Hl). pose proof Hl as Hl'. unfold tokenize_file in Hl'. rewrite Hr in Hl'.
  destruct (split_ok w (Some f) content text parts (S d) [f] l Ha HF Hl' d (Some g) [g]) as (l' & E & J).
  assert (Eg : tokenize_file (S d) w g = Ok l') by (unfold tokenize_file; rewrite Hg; exact E).
  unfold run_cmd. rewrite Hl, Eg. cbn [bind]. split; [|split].
  - intros c Hc. unfold run_on. rewrite !(same_ledger w _ l l' J). destruct c; try reflexivity. destruct Hc. reflexivity.
  - cbn [run_on]. rewrite (same_ledger w _ l l' J). destruct (to_ledger w false l); cbn [bind]; split; intros (out & X); eauto; discriminate X.
  - cbn [run_on]. rewrite (same_ledger w _ l l' J). destruct (to_ledger w false l); reflexivity.
Qed.
Print Assumptions C54_reports_partial.

(** *** Cases *)
Definition part_of (w : world) (a : str) : pledger := match tokenize_string 1 w a with Ok l => l | _ => pl_new end.
Definition piece_b (w : world) (a : str) : bool :=
  match a with c :: _ => negb (is_ws c) | [] => false end &&
  match rev a with c :: d :: _ => (c =? c_nl)%N && negb (is_ws d) | _ => false end &&
  match a with d :: _ => negb (d =? 105)%N | [] => true end && negb (has [c_nl; 105%N] a) &&
  match tokenize_string 1 w a with Ok _ => true | _ => false end &&
  forallb (fun x => forallb (fun p => match rp_expr p with None => true | Some _ => false end) (t_postings x)) (pl_txns (part_of w a)).
Lemma piece_of w a : piece_b w a = true -> piece w a /\ tokenize_string 1 w a = Ok (part_of w a).
Proof.
  unfold piece_b, part_of. intros H. apply andb_prop in H. destruct H as [H H6]. apply andb_prop in H. destruct H as [H H5].
  apply andb_prop in H. destruct H as [H H4]. apply andb_prop in H. destruct H as [H H3]. apply andb_prop in H. destruct H as [H1 H2].
  destruct (tokenize_string 1 w a) as [l|e|e] eqn:E; try discriminate H5. split; auto.
  apply (piece_check w a l); auto; [destruct (has [c_nl; 105%N] a); auto|]. unfold closed_expressions.
  apply Forall_forall. intros x Hx. rewrite forallb_forall in H6. specialize (H6 x Hx). rewrite forallb_forall in H6.
  apply Forall_forall. intros p Hp e He. specialize (H6 p Hp). rewrite He in H6. discriminate H6.
Qed.
Definition apart_b {T} (w : world) (name : T -> str) (aliases : T -> list str) (a b : alist T) : bool :=
  forallb (fun x => forallb (fun y => negb (str_eqb (w_lower w (name x)) (w_lower w (name y))) &&
    forallb (fun u => forallb (fun v => negb (str_eqb (w_lower w u) (w_lower w v))) (aliases y)) (aliases x)) (l_values b)) (l_values a).
Lemma apart_of {T} w (name : T -> str) aliases a b : apart_b w name aliases a b = true -> declare_apart w name aliases a b.
Proof.
  unfold apart_b. intros H x y Hx Hy. rewrite forallb_forall in H. specialize (H x Hx). rewrite forallb_forall in H. specialize (H y Hy).
  apply andb_prop in H. destruct H as [H1 H2]. split.
  - intros E. rewrite E in H1. destruct (str_eqb_spec (w_lower w (name y)) (w_lower w (name y))); [discriminate H1|congruence].
  - intros u v Hu Hv E. rewrite forallb_forall in H2. specialize (H2 u Hu). rewrite forallb_forall in H2. specialize (H2 v Hv).
    rewrite E in H2. destruct (str_eqb_spec (w_lower w v) (w_lower w v)); [discriminate H2|congruence].
Qed.
Definition clash_b (w : world) (a b : pledger) : bool :=
  apart_b w ac_name ac_aliases (pl_accounts a) (pl_accounts b) && apart_b w py_name py_aliases (pl_payees a) (pl_payees b) &&
  apart_b w cu_name cu_aliases (pl_commodities a) (pl_commodities b).
Lemma clash_of w a b : clash_b w a b = true -> no_clash w a b.
Proof.
  unfold clash_b. intros H. apply andb_prop in H. destruct H as [H H3]. apply andb_prop in H. destruct H as [H1 H2].
  split; [|split]; apply apart_of; auto.
Qed.
Definition a54 : str := text ["account Assets:Bank"; "  alias bank"; "commodity EUR"; "  alias e"]%string.
Definition b54 : str := text ["account Expenses:Food"; "  alias food"; "2021/01/05 Shop"; "  food  5 e"; "  bank"]%string.
Definition c54 : str := text ["P 2021/02/01 USD 2 EUR"; "2021/02/05 Bar"; "  Expenses:Food  7 USD"; "  bank"]%string.
Definition main54 : str := a54 ++ L "include jan" ++ [c_nl] ++ c54.
Definition w54 : world := disk [(L "main", main54); (L "./jan", b54); (L "whole", a54 ++ b54 ++ c54)].
Definition parts54 : list pledger := [part_of w54 a54; part_of w54 b54; part_of w54 c54].
Example C54_reports_case : w_read w54 (L "main") = Some main54 /\ assembled w54 (Some (L "main")) main54 (a54 ++ b54 ++ c54) parts54 /\
  ForallOrdPairs (no_clash w54) parts54 /\ w_read w54 (L "whole") = Some (a54 ++ b54 ++ c54) /\
  run_cmd 3 w54 (CBalance true false) plain_opts (L "main") = run_cmd 3 w54 (CBalance true false) plain_opts (L "whole") /\
  match run_cmd 3 w54 (CBalance true false) plain_opts (L "main") with Ok out => (2 < length out)%nat | _ => False end.
Proof.
  destruct (piece_of w54 a54 ltac:(vm_compute; reflexivity)) as [PA TA].
  destruct (piece_of w54 b54 ltac:(vm_compute; reflexivity)) as [PB TB].
  destruct (piece_of w54 c54 ltac:(vm_compute; reflexivity)) as [PC TC].
  split; [vm_compute; reflexivity|]. split; [|split; [|split; [vm_compute; reflexivity|split; [vm_compute; reflexivity|vm_compute; lia]]]].
  - apply (as_piece w54 (Some (L "main")) a54 (part_of w54 a54) (L "include " ++ L "jan" ++ c_nl :: c54) (b54 ++ c54) [part_of w54 b54; part_of w54 c54]); auto.
    apply (as_include w54 (Some (L "main")) (L "jan") [L "./jan"] b54 c54 c54 [part_of w54 b54] [part_of w54 c54]).
    + cbn. intuition discriminate.
    + vm_compute. reflexivity.
    + pose proof (as_piece w54 (Some (L "./jan")) b54 (part_of w54 b54) [] [] [] PB TB (as_nil w54 _)) as X.
      rewrite app_nil_r in X. pose proof (aa_cons w54 (L "./jan") b54 [] b54 [] _ [] ltac:(vm_compute; reflexivity) X (aa_nil w54)) as Y.
      rewrite !app_nil_r in Y. exact Y.
    + pose proof (as_piece w54 (Some (L "main")) c54 (part_of w54 c54) [] [] [] PC TC (as_nil w54 _)) as X. rewrite app_nil_r in X. exact X.
  - unfold parts54. constructor; [|constructor; [|constructor; [|constructor]]]; repeat (constructor; [apply clash_of; vm_compute; reflexivity|]); constructor.
Qed.
(** The same account declared in two files: the declarations are merged when one file includes the other, but the
    second is left out when both are in one file. *)
Definition d54 : str := text ["account Assets:Bank"; "  alias bank"]%string.
Definition e54 : str := text ["account Assets:Bank"; "  alias cash"; "2021/01/05 Shop"; "  Food  5 EUR"; "  cash"]%string.
Definition v54 : world := disk [(L "main", d54 ++ L "include jan" ++ [c_nl]); (L "./jan", e54); (L "whole", d54 ++ e54)].
Theorem C54_declared_twice_refuted :
  ~ (forall w f g content text parts, w_read w f = Some content -> assembled w (Some f) content text parts -> w_read w g = Some text ->
     exists n, forall depth o c, (n <= depth)%nat -> c <> CCheck -> run_cmd depth w c o f = run_cmd depth w c o g).
Proof.
  intros H.
  destruct (piece_of v54 d54 ltac:(vm_compute; reflexivity)) as [PA TA].
  destruct (piece_of v54 e54 ltac:(vm_compute; reflexivity)) as [PB TB].
  assert (A : assembled v54 (Some (L "main")) (d54 ++ L "include " ++ L "jan" ++ [c_nl]) (d54 ++ e54) [part_of v54 d54; part_of v54 e54]).
  { apply (as_piece v54 (Some (L "main")) d54 (part_of v54 d54) (L "include " ++ L "jan" ++ c_nl :: []) e54 [part_of v54 e54]); auto.
    pose proof (as_piece v54 (Some (L "./jan")) e54 (part_of v54 e54) [] [] [] PB TB (as_nil v54 _)) as X.
    rewrite app_nil_r in X. pose proof (aa_cons v54 (L "./jan") e54 [] e54 [] _ [] ltac:(vm_compute; reflexivity) X (aa_nil v54)) as Y.
    rewrite !app_nil_r in Y.
    pose proof (as_include v54 (Some (L "main")) (L "jan") [L "./jan"] e54 [] [] [part_of v54 e54] [] ltac:(cbn; intuition discriminate) ltac:(vm_compute; reflexivity) Y (as_nil v54 _)) as Z.
    rewrite !app_nil_r in Z. exact Z. }
  destruct (H v54 (L "main") (L "whole") _ _ _ ltac:(vm_compute; reflexivity) A ltac:(vm_compute; reflexivity)) as (n & Hn).
  specialize (Hn (n + 3)%nat plain_opts CAccounts ltac:(lia) ltac:(discriminate)).
  replace (n + 3)%nat with (S (S (S n))) in Hn by lia. vm_compute in Hn. discriminate Hn.
Qed.
Print Assumptions C54_declared_twice_refuted.
