(** C110: files that are not needed. *)
From Verif Require Import Base BaseFacts Money Alist Txn Expr Filter Tokens Ledger Reports App SpecLedger SpecReports SpecBook SpecDay DayFacts PropApp PropLedger PropTxn PropDay.

(** A file that can be read with some files is read the same, and every command gives the same, with any others. *)
Theorem C110_more_files : forall depth w read file l, file_parses depth w file l -> more_files w read ->
  file_parses depth (with_files read w) file l /\ forall c o, run_cmd depth (with_files read w) c o file = run_cmd depth w c o file.
Proof.
  intros depth w read file l P M. apply file_parses_iff in P. assert (P' : tokenize_file depth (with_files read w) file = Ok l) by (rewrite <- P; apply file_yields; auto; rewrite P; discriminate).
  split; [apply file_parses_iff; exact P'|]. intros c o. unfold run_cmd. rewrite P, P'. cbn [bind]. unfold run_on, with_files.
  destruct c; rewrite to_ledger_day; try reflexivity; destruct (to_ledger w _ l) as [lg| |]; try reflexivity; cbn [bind]; cbv zeta.
  - rewrite balance_day by (right; reflexivity). reflexivity.
  - rewrite register_day. reflexivity.
Qed.
Print Assumptions C110_more_files.
(** So two collections of files that agree on those that are needed cannot be told apart. *)
Theorem C110_same_files : forall depth w read read' file l c o, file_parses depth w file l -> more_files w read -> more_files w read' ->
  run_cmd depth (with_files read w) c o file = run_cmd depth (with_files read' w) c o file.
Proof.
  intros depth w read read' file l c o P M M'. destruct (C110_more_files depth w read file l P M) as [_ E]. destruct (C110_more_files depth w read' file l P M') as [_ E']. rewrite E, E'. reflexivity.
Qed.
Print Assumptions C110_same_files.
(** The same for a journal that is refused: only a panic may be due to a file that cannot be read. *)
Theorem C110_any_outcome : forall depth w read file c o, exit_status (run_cmd depth w c o file) <> 101%Z -> more_files w read ->
  run_cmd depth (with_files read w) c o file = run_cmd depth w c o file.
Proof.
  intros depth w read file c o N M. destruct (tokenize_file depth w file) as [l|e|e] eqn:P.
  - apply (C110_more_files depth w read file l); auto. apply file_parses_iff. exact P.
  - assert (P' : tokenize_file depth (with_files read w) file = tokenize_file depth w file) by (apply file_yields; auto; rewrite P; discriminate).
    unfold run_cmd. rewrite P', P. reflexivity.
  - exfalso. apply N. unfold run_cmd. rewrite P. reflexivity.
Qed.
Print Assumptions C110_any_outcome.

(** ** A case: a book that includes another file, and a third file *)
Definition t110 : list String.string := ["include more"; "2021-01-01 Job"; "  Assets:Bank  100 EUR"; "  Income"]%string.
Definition m110 : list String.string := ["2021-03-01 Shop"; "  Food  10 EUR"; "  Assets:Bank"]%string.
Definition read110 (files : list (str * str)) (p : str) : option str := option_map snd (find (fun f => str_eqb (fst f) p) files).
Definition two110 : list (str * str) := [(L "book", text t110); (L "./more", text m110)].
Definition w110 : world :=
  {| w_lower := ascii_lower; w_numeric := fun _ => false; w_rx := fun _ _ => true; w_rx_ok := fun _ => true; w_width := None;
     w_read := read110 two110; w_glob := fun p => Some [p]; w_two_timer := fun _ => None; w_now := 738000%Z; w_ord := fun _ A l => rev l |}.
Definition l110 : pledger := get pl_new (tokenize_file 3 w110 (L "book")).
Example C110_case : file_parses 3 w110 (L "book") l110 /\ length (pl_txns l110) = 2%nat /\ more_files w110 (read110 (two110 ++ [(L "./third", text m110)])) /\
  run_cmd 3 (with_files (read110 (two110 ++ [(L "./third", text m110)])) w110) (CBalance true true) plain109 (L "book") =
    Ok (map L ["           90.00 EUR  Assets:Bank"; "           10.00 EUR  Food"; "         -100.00 EUR  Income"]%string).
Proof.
  split; [apply file_parses_iff; vm_compute; reflexivity|]. split; [vm_compute; reflexivity|]. split; [|vm_compute; reflexivity].
  intros f s. change (read110 two110 f = Some s -> read110 (two110 ++ [(L "./third", text m110)]) f = Some s). unfold read110, two110. cbn [find app].
  destruct (str_eqb _ f); [auto|]. destruct (str_eqb _ f); [auto|]. discriminate.
Qed.
(** The included file is needed. *)
Example C110_needed : exit_status (run_cmd 3 (with_files (read110 [(L "book", text t110)]) w110) CCheck plain109 (L "book")) = 101%Z.
Proof. vm_compute. reflexivity. Qed.
(** A refused journal: the included file does not balance; the third file does not matter. *)
Definition bad110 : list (str * str) := [(L "book", text t110); (L "./more", text ["2021-03-01 Shop"; "  Food  10 EUR"; "  Assets:Bank  2 EUR"]%string)].
Example C110_refused_case : exit_status (run_cmd 3 (with_files (read110 bad110) w110) CCheck plain109 (L "book")) = 1%Z.
Proof. vm_compute. reflexivity. Qed.
