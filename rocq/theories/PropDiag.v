(** Property C76: what is printed when a journal is refused; and what check prints (C65). *)
From Coq Require Import Lia.
From Verif Require Import Base BaseFacts Numerals Money Alist Comment Txn Peg Grammar Dates Expr Filter Tokens Price
  Ledger Reports App Diag NumFacts DisplayFacts Spec SpecText SpecDates MoneyFacts SpecTxn TxnFacts TxnFacts2 PropTxn TokenFacts SpecList AlistFacts JournalFacts SpecLedger
  LedgerFacts LedgerFacts2 LedgerFacts4 LedgerFacts3 PropLedger PropReports PropApp SpecLayout SpecDiag DiagFacts.

Definition stderr_phase (quoted : str -> str) (w : world) (skip : bool) (r : alist currency * alist account * alist payee * list price * list raw_result)
  : res (list str) :=
  let '(cs, al, pays, prices1, raw) := r in
  let ts := sort_txns (flat_map (fun x : raw_result => fst (fst x)) raw) in
  let autos := flat_map (fun x : raw_result => snd (fst x)) raw in
  let prices2 := prices1 ++ flat_map snd raw in
  match balance_all w 8 skip ts (fresh_balances al) prices2 with
  | Err _ => refusal_lines quoted w 8 skip ts (fresh_balances al)
  | Panic e => Panic e
  | Ok (ts1, _, prices3) =>
      match autos with
      | [] => Ok []
      | _ :: _ =>
          nodes <- mapM (fun a => build_root w (get_filter_query a)) autos ;;
          '(ts2, s) <- auto_all w (combine nodes autos) ts1 {| as_accs := al; as_curs := cs; as_pays := pays |} ;;
          match balance_all w (8 + 2 * length ts) skip ts2 (fresh_balances (as_accs s)) prices3 with
          | Err _ => refusal_lines quoted w (8 + 2 * length ts) skip ts2 (fresh_balances (as_accs s))
          | Panic e => Panic e
          | Ok _ => Ok []
          end
      end
  end.
Lemma ledger_stderr_phases quoted w skip l : ledger_stderr quoted w skip l = (r <- read_phase w l ;; stderr_phase quoted w skip r).
Proof.
  unfold ledger_stderr, read_phase. destruct (foldM (ensure_cur w) _ _); cbn [bind]; auto.
  destruct (foldM (ensure_acc w) _ _); cbn [bind]; auto.
  destruct (foldM (payee_step w _) _ _); cbn [bind]; auto.
  destruct (mapM (price_of w _) _); cbn [bind]; auto.
  destruct (mapM (txn_of_raw w _ _ _ _) _); cbn [bind]; auto.
Qed.
Lemma ledger_refusal quoted w skip l e : world_ok w -> journal_ok w l -> to_ledger w skip l = Err (ELedger e) ->
  exists t now v lines t0, ledger_stderr quoted w skip l = Ok lines /\ verdict_error v (ELedger e) /\
    culprit w skip l t now v /\ In t0 (journal_txns l) /\ header t = header t0 /\ refusal_printed skip now t v lines.
Proof.
  intros Hw J H. rewrite to_ledger_phases in H. rewrite ledger_stderr_phases.
  destruct (read_phase_spec w l Hw J) as [(cs & al & pays & prices1 & raw & E0 & [N P R])|(E0 & Z)]; rewrite E0 in H |- *; [|discriminate].
  cbn [bind] in H |- *. destruct (raw_parts _ _ _ _ _ _ R) as (T1 & T2 & T3 & T4 & T5 & T6). cbn in T1, T2, T3, T4, T5, T6.
  unfold balance_phase in H. unfold stderr_phase. rewrite T2 in H |- *. fold (rules l) in H |- *.
  set (rts := flat_map (fun x : raw_result => fst (fst x)) raw) in *.
  pose proof (sort_txns_sorted rts T3) as DS.
  assert (JR : journal_read w l al cs pays rts prices1 (flat_map snd raw)).
  { destruct (found_names _ _ _ _ _ N) as (F1 & F2 & F3). destruct (new_names _ _ _ _ _ N) as (W1 & W2 & W3). constructor; auto; apply N. }
  assert (PS : Permutation rts (sort_txns rts)) by apply DS.
  assert (G1 : Forall good_txn (sort_txns rts)) by (eapply Permutation_Forall; eauto).
  assert (D1 : all_dated (sort_txns rts)) by (eapply Permutation_Forall; eauto).
  assert (A1 : Forall (accounts_in al) (sort_txns rts)).
  { eapply Permutation_Forall; [exact PS|]. eapply reads_accounts; eauto. }
  assert (HR : forall t, In t (sort_txns rts) -> exists t0, In t0 (journal_txns l) /\ header t = header t0).
  { intros t Ht. assert (Ht' : In t rts) by (eapply Permutation_in; [apply Permutation_sym|]; eauto). clear -T1 Ht'.
    change (filter is_real_txn (pl_txns l)) with (journal_txns l) in T1. induction T1; [destruct Ht'|].
    destruct Ht' as [<-|Hi]; [exists x; split; [left; auto|apply H]|]. destruct (IHT1 Hi) as (t0 & A & B). exists t0. split; [right|]; auto. }
  destruct (balance_all_spec w skip Hw (sort_txns rts) 8 (fresh_balances al) (prices1 ++ flat_map snd raw)
             (fresh_good al) G1 D1 (accounts_known _ _ A1))
    as [(ts1 & bals' & prs & E & LR & G)|(e0 & v & E & V & S)]; rewrite E in H |- *.
  2:{ cbn in H. inv H. destruct (refusal_ok quoted w skip Hw _ _ _ _ _ (fresh_good al) G1 D1 (accounts_known _ _ A1) E) as (t & now & v' & lines & B1 & B2 & B3 & B4).
      destruct (HR t (stopped_at_in _ _ _ _ _ _ B3)) as (t0 & Ht0 & Hh).
      exists t, now, v', lines, t0. split; auto. split; auto. split; auto.
      left. exists al, cs, pays, rts, prices1, (flat_map snd raw), (sort_txns rts), (run_amt (fresh_balances al)).
      split; auto. split; auto. split; auto. apply fresh_zero. }
  cbn [bind] in H. destruct (rules l) as [|r0 rs0] eqn:Hr; [discriminate|]. rewrite <- Hr in H |- *.
  destruct (mapM (fun a => build_root w (get_filter_query a)) (rules l)) as [nodes|e1|x] eqn:EM; cbn [bind] in H |- *; try discriminate.
  2:{ exfalso. pose proof (build_all_end w (rules l) (rules l) (incl_refl _)) as M. rewrite EM in M. destruct M as [-> _]. discriminate. }
  assert (SO : as_ok w {| as_accs := al; as_curs := cs; as_pays := pays |}).
  { destruct N. split; [|split]; cbn; auto. }
  assert (FN : Forall (fun na => In (snd na) (rules l) /\ build_root w (get_filter_query (snd na)) = Ok (fst na)) (combine nodes (rules l))).
  { apply mapM_ok_Forall2 in EM. assert (X : forall rs, incl (rules l) rs -> Forall (fun na => In (snd na) rs /\ build_root w (get_filter_query (snd na)) = Ok (fst na)) (combine nodes (rules l))).
    { clear -EM. induction EM; intros rs Hi; cbn; constructor; cbn; auto.
      - split; auto. apply Hi. left. auto.
      - apply IHEM. intros z Hz. apply Hi. right. auto. }
    apply X, incl_refl. }
  pose proof (auto_all_end w (rules l) _ FN ts1 _ SO) as A.
  destruct (auto_all w (combine nodes (rules l)) ts1 _) as [[ts2 s]|e1|x] eqn:AA; cbn [rule_end bind] in A, H |- *; try discriminate.
  2:{ destruct A as [-> _]. discriminate. }
  destruct (auto_all_spec _ _ _ _ _ _ SO AA) as (SO' & LE & K & RP).
  assert (A2 : Forall (accounts_in (as_accs s)) ts2). { apply K. eapply ledger_run_accounts; eauto. }
  assert (RP' := RP _ _ (as_le_refl _ _) (as_le_refl _ _)).
  assert (G2 : Forall good_txn ts2 /\ all_dated ts2).
  { pose proof (ledger_run_good _ _ _ _ _ LR G1) as G1'.
    pose proof (same_header_dated _ _ (run_headers _ _ _ _ _ LR) D1) as D1'. clear -RP' G1' D1'.
    induction RP'; [split; constructor|]. inv G1'. inv D1'. destruct IHRP'; auto. apply rules_pass_good in H.
    destruct H as [SH GG]. split; constructor; auto. destruct SH as (-> & _). auto. }
  destruct G2 as [G2 D2].
  destruct (balance_all w (8 + 2 * length (sort_txns rts)) skip ts2 (fresh_balances (as_accs s)) ((prices1 ++ flat_map snd raw) ++ prs)) as [[[ts3 b3] p3]|e3|x3] eqn:E3;
    cbn [bind] in H; inv H.
  destruct (refusal_ok quoted w skip Hw _ _ _ _ _ (fresh_good _) G2 D2 (accounts_known _ _ A2) E3) as (t & now & v' & lines & B1 & B2 & B3 & B4).
  assert (H0 : exists t0, In t0 (journal_txns l) /\ header t = header t0).
  { pose proof (stopped_at_in _ _ _ _ _ _ B3) as Hi. pose proof (run_headers _ _ _ _ _ LR) as SH.
    assert (X : exists t1, In t1 ts1 /\ same_header t1 t).
    { clear -RP' Hi. induction RP'; [destruct Hi|]. destruct Hi as [<-|Hi]; [exists x; split; [left; auto|apply rules_pass_good in H; apply H]|].
      destruct (IHRP' Hi) as (t1 & U1 & U2). exists t1. split; [right|]; auto. }
    destruct X as (t1 & X1 & X2).
    assert (Y : exists t2, In t2 (sort_txns rts) /\ same_header t2 t1).
    { clear -SH X1. induction SH; [destruct X1|]. destruct X1 as [<-|Hi]; [exists x; split; [left|]; auto|].
      destruct (IHSH Hi) as (t2 & U1 & U2). exists t2. split; [right|]; auto. }
    destruct Y as (t2 & Y1 & Y2). destruct (HR t2 Y1) as (t0 & Z1 & Z2). exists t0. split; auto. rewrite <- Z2.
    destruct X2 as (X2a & X2b & _ & X2c & X2d & _ & X2e & _), Y2 as (Y2a & Y2b & _ & Y2c & Y2d & _ & Y2e & _). unfold header. congruence. }
  destruct H0 as (t0 & Z1 & Z2).
  exists t, now, v', lines, t0. split; auto. split; auto. split; auto. right.
  exists al, cs, pays, rts, prices1, (flat_map snd raw), (sort_txns rts), (run_amt (fresh_balances al)), ts1, prs, nodes, s, ts2, (run_amt (fresh_balances (as_accs s))).
  apply mapM_ok_Forall2 in EM.
  split; [exact JR|]. split; [exact DS|]. split; [apply fresh_zero|]. split; [exact LR|]. split; [exact EM|]. split; [exact RP'|]. split; [apply fresh_zero|exact B3].
Qed.

(** ** C76 *)
(** A journal is refused for a transaction: what is printed shows that transaction, the first one by date that
    is refused, says why, and if it is for an assertion, what was found and what was expected. *)
Theorem C76_culprit_shown : forall quoted w skip l e, world_ok w -> parsed w l -> to_ledger w skip l = Err (ELedger e) ->
  exists t now v lines t0, ledger_stderr quoted w skip l = Ok lines /\ verdict_error v (ELedger e) /\
    culprit w skip l t now v /\ In t0 (journal_txns l) /\ header t = header t0 /\ refusal_printed skip now t v lines.
Proof. intros quoted w skip l e Hw HP H. eapply ledger_refusal; eauto using parsed_ok. Qed.
Print Assumptions C76_culprit_shown.
(** A journal that is accepted is accepted without a word. *)
Theorem C76_silent : forall quoted w skip l lg, to_ledger w skip l = Ok lg -> ledger_stderr quoted w skip l = Ok [].
Proof.
  intros quoted w skip l lg H. rewrite to_ledger_phases in H. rewrite ledger_stderr_phases.
  destruct (read_phase w l) as [[[[[cs al] pays] prices1] raw]|e|x]; cbn [bind] in H |- *; try discriminate.
  unfold balance_phase in H. unfold stderr_phase.
  destruct (balance_all w 8 skip _ _ _) as [[[ts1 b1] p1]|e|x]; cbn [bind] in H |- *; try discriminate.
  destruct (flat_map (fun x : raw_result => snd (fst x)) raw) as [|a autos]; auto.
  destruct (mapM _ (a :: autos)) as [nodes|e|x]; cbn [bind] in H |- *; try discriminate.
  destruct (auto_all _ _ _ _) as [[ts2 s]|e|x]; cbn [bind] in H |- *; try discriminate.
  destruct (balance_all w _ skip ts2 _ _) as [[[ts3 b3] p3]|e|x]; cbn [bind] in H |- *; try discriminate. auto.
Qed.
Print Assumptions C76_silent.

Definition diag76 (t : list String.string) : list str :=
  match ledger_stderr (fun s => s) w1 false (get pl_new (tokenize_string 1 w1 (text t))) with Ok ls => ls | _ => [] end.
Definition padded76 (name : str) : str := pad_right 50 name.
(** A failed assertion in the second transaction by date, which is the first in the file. *)
Example C76_case_assertion :
  diag76 ["2021-01-02 Rent"; "  Home  3 EUR = 9 EUR"; "  Bank"; "2021-01-01 Pay"; "  Bank  5.5 EUR"; "  Home  1 USD"; "  Job"]%string =
  [L "Found:       9.00 EUR"; L "Expected:    1.00 USD3.00 EUR"; L "Difference:  1.00 USD-6.00 EUR";
   L "2021-01-02 Rent" ++ [c_nl; c_tab] ++ padded76 (L "Home") ++ L "3.00 EUR" ++ [c_nl; c_tab] ++ padded76 (L "Bank");
   L "TransactionIsNotBalanced"].
Proof. vm_compute. reflexivity. Qed.
Example C76_case_many :
  diag76 ["2021-01-02 Rent"; "  Home  3 EUR"; "  Bank"; "  Cash"]%string =
  [L "2021-01-02 Rent" ++ [c_nl; c_tab] ++ padded76 (L "Home") ++ L "3.00 EUR" ++ [c_nl; c_tab] ++ padded76 (L "Bank") ++ [c_nl; c_tab] ++ padded76 (L "Cash");
   L "TooManyEmptyPostings(2)"].
Proof. vm_compute. reflexivity. Qed.
(** The hypotheses of [C76_culprit_shown] hold for the last journal. *)
Definition j76 : pledger := get pl_new (tokenize_string 1 w1 (text ["2021-01-02 Rent"; "  Home  3 EUR"; "  Bank"; "  Cash"]%string)).
Example C76_met : parsed w1 j76 /\ to_ledger w1 false j76 = Err (ELedger (TooManyEmptyPostings 2)).
Proof.
  split; [|vm_compute; reflexivity].
  exists 1%nat, None, [], (text ["2021-01-02 Rent"; "  Home  3 EUR"; "  Bank"; "  Cash"]%string). vm_compute. reflexivity.
Qed.

(** ** C65 *)
(** What check prints: that the file is good exactly if it exits with 0; that it is not exactly if the file
    parses and check exits with 1; and nothing at all in the other cases. *)
Theorem C65_check_prints : forall depth w o file,
  let good := L "Input file " ++ file ++ L " is OK" in
  let bad := L "Input file " ++ file ++ L " is KO" in
  let status := exit_status (run_cmd depth w CCheck o file) in
  (status = 0%Z /\ check_stdout depth w file = [good] /\ run_cmd depth w CCheck o file = Ok [good]) \/
  (status = 1%Z /\ (exists items, file_parses depth w file items) /\ check_stdout depth w file = [bad]) \/
  (status = 1%Z /\ (forall items, ~ file_parses depth w file items) /\ check_stdout depth w file = []) \/
  (status = 101%Z /\ check_stdout depth w file = []).
Proof.
  intros depth w o file. cbv zeta. unfold run_cmd, check_stdout.
  assert (X : forall items, file_parses depth w file items <-> tokenize_file depth w file = Ok items) by (intros; apply file_parses_iff).
  destruct (tokenize_file depth w file) as [items|e|x]; cbn [bind].
  - unfold run_on. destruct (to_ledger w false items) as [lg|e|x]; cbn; auto. right. left. split; auto. split; auto. exists items. apply X. auto.
  - right. right. left. split; auto. split; auto. intros items H. apply X in H. discriminate.
  - right. right. right. auto.
Qed.
Print Assumptions C65_check_prints.
Example C65_prints_case :
  check_stdout 2 (w65 ["2021-01-01 a"; "  A  5 EUR"; "  B  -4 EUR"]%string) (L "book") = [L "Input file book is KO"] /\
  check_stdout 2 (w65 t55) (L "book") = [L "Input file book is OK"] /\
  check_stdout 2 (w65 ["zzz"]%string) (L "book") = [].
Proof. split; [|split]; vm_compute; reflexivity. Qed.
