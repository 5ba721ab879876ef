(** C104: what --real shows does not depend on virtual postings. *)
From Verif Require Import Base BaseFacts Numerals Money Alist Comment Txn Expr Filter Price Tokens Ledger Reports App Spec MoneyFacts SpecList SpecTxn TxnFacts SpecLedger
  TokenFacts JournalFacts LedgerFacts LedgerFacts2 LedgerFacts3 PropAlist PropTxn PropLedger SpecQuery SpecExpr ExprFacts PropExpr PropQuery SpecReports ReportFacts ReportFacts2 ReportFacts3 PropReports PropApp
  SpecText SpecDates SpecTokens SpecJournal JournalRead PropJournal SpecLayout PropLayout SpecPrice PropPrice SpecBook BookFacts PropBook PropBook2 SpecAsk PropAsk
  SpecWords PropRuleQuery SpecAssert AssertFacts PropAssert SpecRules ShownFacts RuleFacts RuleFacts2 PropRules SpecExchange2 PropExchange2 PropAssert2 SpecAgree SpecJoin SpecRename PropRename SpecCarry PropCarry SpecChecks PropChecks SpecReal.
From Verif Require PropJoin PropAgree PropScale PropTokens.
Open Scope Qc_scope.
Open Scope Qc_scope.

Section Real.
  Context (w : world) (l l' : pledger) (EA : pl_accounts l' = pl_accounts l) (EC : pl_commodities l' = pl_commodities l) (skip : bool).
  Notation reals := (filter (fun p => kind_eqb (rp_kind p) Real)).
  Lemma real_eq p : real_posting p = kind_eqb (rp_kind p) Real.
  Proof using Type. unfold real_posting. destruct (rp_kind p); auto. Qed.
  (** The directives are the same, so each reading is the same for both. *)
  Lemma sm_step now now' p : agree now now' -> same_step w l l' skip true now now' p p.
  Proof using EA EC. intros AG. apply (told_step w l l' EA EC skip true); auto. apply told_same; auto. constructor; auto. Qed.
  (** A virtual posting moves nothing, counts nothing and states nothing. *)
  Lemma vt_after now p : real_posting p = false -> agree now (after_posting w l skip now p).
  Proof using Type. intros R a c. unfold after_posting. rewrite R. cbn. ring. Qed.
  Lemma vt_true now p : real_posting p = false -> true_of w l skip now p.
  Proof using Type. intros R R'. congruence. Qed.
  Lemma vt_blank p : real_posting p = false -> blank skip p = false.
  Proof using Type. intros R. unfold blank. rewrite R. auto. Qed.
  Lemma agree_trans a b c : agree a b -> agree b c -> agree a c.
  Proof using Type. intros X Y x k. rewrite Y. auto. Qed.
  Lemma agree_sym a b : agree a b -> agree b a.
  Proof using Type. intros X x k. rewrite X. auto. Qed.
  Lemma rl_true ps : forall now now', agree now now' -> all_true w l skip now ps <-> all_true w l' skip now' (reals ps).
  Proof using EA EC.
    induction ps as [|p ps IH]; intros now now' AG; [cbn; tauto|]. cbn [all_true filter]. rewrite <- (real_eq p). destruct (real_posting p) eqn:R.
    - cbn [all_true]. pose proof (sm_step _ _ p AG) as S. rewrite (IH _ _ (ss_after _ _ _ _ _ _ _ _ _ S)). pose proof (ss_true _ _ _ _ _ _ _ _ _ S) as X. pose proof (ss_back _ _ _ _ _ _ _ _ _ S eq_refl) as Y. tauto.
    - rewrite (IH (after_posting w l skip now p) now'); [pose proof (vt_true now p R); tauto|]. eapply agree_trans; [apply agree_sym, vt_after; auto|auto].
  Qed.
  Lemma rl_sum ps : forall now now' c, agree now now' -> value_sum w l' skip now' (reals ps) c = value_sum w l skip now ps c.
  Proof using EA EC.
    induction ps as [|p ps IH]; intros now now' c AG; [auto|]. cbn [value_sum filter]. rewrite <- (real_eq p). destruct (real_posting p) eqn:R.
    - cbn [value_sum]. pose proof (sm_step _ _ p AG) as S. rewrite R, (IH _ _ c (ss_after _ _ _ _ _ _ _ _ _ S)), (ss_counts _ _ _ _ _ _ _ _ _ S). auto.
    - rewrite (IH (after_posting w l skip now p) now'); [ring|]. eapply agree_trans; [apply agree_sym, vt_after; auto|auto].
  Qed.
  Lemma rl_adds rest rest' K (P : str -> bool) ps : (forall k, K k = true -> k = Real) -> (forall c, rest' c = rest c) -> forall now now' c, agree now now' ->
    adds_to w l' skip rest' K P now' (reals ps) c = adds_to w l skip rest K P now ps c.
  Proof using EA EC.
    intros KR RE. induction ps as [|p ps IH]; intros now now' c AG; [auto|]. cbn [adds_to filter]. rewrite <- (real_eq p). destruct (real_posting p) eqn:R.
    - cbn [adds_to]. pose proof (sm_step _ _ p AG) as S. rewrite (IH _ _ c (ss_after _ _ _ _ _ _ _ _ _ S)), (ss_account _ _ _ _ _ _ _ _ _ S), (ss_moved _ _ _ _ _ _ _ _ _ S), RE. auto.
    - assert (KF : K (rp_kind p) = false). { destruct (K (rp_kind p)) eqn:X; auto. apply KR in X. rewrite real_eq, X in R. discriminate. }
      rewrite KF, (IH (after_posting w l skip now p) now'); [cbn; ring|]. eapply agree_trans; [apply agree_sym, vt_after; auto|auto].
  Qed.
  Lemma rl_blanks ps : filter (blank skip) (reals ps) = filter (blank skip) ps.
  Proof using Type.
    induction ps as [|p ps IH]; auto. cbn [filter]. rewrite <- (real_eq p). destruct (real_posting p) eqn:R; cbn [filter]; [rewrite IH; auto|]. rewrite (vt_blank p R). auto.
  Qed.
  Lemma no_reals ps : (forall p, In p ps -> rp_kind p <> Real) -> reals ps = [].
  Proof using Type. induction ps as [|p ps IH]; intros H; auto. cbn [filter]. destruct (kind_eqb (rp_kind p) Real) eqn:K; [|apply IH; intros; apply H; right; auto]. exfalso. apply (H p); [left; auto|]. destruct (rp_kind p); try discriminate; auto. Qed.
  Lemma no_brackets ps c : qsum (map (fun p => if kind_eqb (rp_kind p) VirtualMustBalance then written_value w l' p c else 0) (reals ps)) = 0.
  Proof using Type. induction ps as [|p ps IH]; [reflexivity|]. cbn [filter]. destruct (rp_kind p) eqn:K; cbn [kind_eqb]; auto. cbn [map]. rewrite qsum_cons, K, IH. cbn [kind_eqb]. ring. Qed.
  Lemma rl_txn_adds K P t t' now now' c : (forall k, K k = true -> k = Real) -> agree now now' -> t_postings t' = reals (t_postings t) -> txn_adds_to w l' skip K P now' t' c = txn_adds_to w l skip K P now t c.
  Proof using EA EC. intros KR AG T. unfold txn_adds_to. rewrite T. apply rl_adds; auto. intros d. unfold rest_of. rewrite T, (rl_sum _ _ _ d AG). auto. Qed.
  Lemma only_real k : kind_eqb k Real = true -> k = Real.
  Proof using Type. destruct k; try discriminate; auto. Qed.
  Lemma rl_after t t' now now' : agree now now' -> t_postings t' = reals (t_postings t) -> agree (after_txn w l skip now t) (after_txn w l' skip now' t').
  Proof using EA EC. intros AG T a c. unfold after_txn. rewrite AG, (rl_txn_adds _ _ t t' now now' c only_real AG T). auto. Qed.
  Lemma rl_after_left t now : reals (t_postings t) = [] -> agree now (after_txn w l skip now t).
  Proof using EA EC.
    intros E a c. unfold after_txn, txn_adds_to. rewrite <- (rl_adds (rest_of w l skip now t) (rest_of w l skip now t) _ (str_eqb a) (t_postings t) only_real (fun _ => eq_refl) now now c) by (intros x k; auto).
    rewrite E. cbn. ring.
  Qed.
  Lemma fine_zero (f : str -> Qc) : (forall c, f c = 0) -> SpecTxn.fine f.
  Proof using Type. intros H. left. exact H. Qed.
  Lemma rl_in_order t t' now now' : agree now now' -> t_postings t' = reals (t_postings t) ->
    in_order_now w l skip now t <-> in_order_now w l' skip now' t' /\ SpecTxn.fine (kind_value w l VirtualMustBalance t).
  Proof using EA EC.
    intros AG T. unfold in_order_now. rewrite T, rl_blanks, (rl_true (t_postings t) _ _ AG).
    assert (VB : SpecTxn.fine (kind_value w l' VirtualMustBalance t')) by (apply fine_zero; intros c; unfold kind_value; rewrite T; apply no_brackets).
    assert (VS : forall c, value_sum w l' skip now' (reals (t_postings t)) c = value_sum w l skip now (t_postings t) c) by (intros c; apply rl_sum; auto).
    pose proof (PropRename.fine_same _ _ VS) as FS. destruct (filter (blank skip) (t_postings t)) as [|a [|b r]]; tauto.
  Qed.
  Lemma rl_in_order_left t now : reals (t_postings t) = [] -> in_order_now w l skip now t <-> SpecTxn.fine (kind_value w l VirtualMustBalance t).
  Proof using EA EC.
    intros E. unfold in_order_now. rewrite <- rl_blanks, E. rewrite (rl_true (t_postings t) now now) by (intros a c; auto). rewrite E. cbn [filter all_true].
    assert (F : SpecTxn.fine (value_sum w l skip now (t_postings t))) by (apply fine_zero; intros c; rewrite <- (rl_sum (t_postings t) now now c) by (intros x k; auto); rewrite E; reflexivity). tauto.
  Qed.
  Lemma rl_all us us' : real_parts us us' -> forall now now', agree now now' ->
    all_in_order w l skip now us <-> all_in_order w l' skip now' us' /\ Forall (fun t => SpecTxn.fine (kind_value w l VirtualMustBalance t)) us.
  Proof using EA EC.
    induction 1 as [|t t' ts ts' D T F IH|t ts ts' N F IH]; intros now now' AG.
    - cbn. split; auto.
    - cbn [all_in_order]. rewrite (rl_in_order t t' now now' AG T), (IH _ _ (rl_after t t' now now' AG T)). rewrite Forall_cons_iff. tauto.
    - cbn [all_in_order]. apply no_reals in N. rewrite (rl_in_order_left t now N), (IH (after_txn w l skip now t) now'); [rewrite Forall_cons_iff; tauto|]. eapply agree_trans; [apply agree_sym, rl_after_left; auto|auto].
  Qed.
  Lemma rl_total o P us us' : o_real o = true -> real_parts us us' -> forall now now' c, agree now now' ->
    total_added w l' skip o P now' us' c = total_added w l skip o P now us c.
  Proof using EA EC.
    intros RO. assert (KR : forall k, asked_for o k = true -> k = Real) by (intros k; unfold asked_for; rewrite RO; cbn; apply only_real).
    induction 1 as [|t t' ts ts' D T F IH|t ts ts' N F IH]; intros now now' c AG; auto.
    - cbn [total_added]. rewrite (rl_txn_adds _ _ t t' now now' c KR AG T), (IH _ _ c (rl_after t t' now now' AG T)). unfold in_window. rewrite D. auto.
    - apply no_reals in N. cbn [total_added]. rewrite (IH (after_txn w l skip now t) now' c) by (eapply agree_trans; [apply agree_sym, rl_after_left; auto|auto]).
      assert (E : txn_adds_to w l skip (asked_for o) P now t c = 0).
      { unfold txn_adds_to. rewrite <- (rl_adds (rest_of w l skip now t) (rest_of w l skip now t) _ P (t_postings t) KR (fun _ => eq_refl) now now c) by (intros x k; auto). rewrite N. reflexivity. }
      rewrite E. destruct (in_window o t); ring.
  Qed.
End Real.
Lemma fine_sorted w l us : date_sorted (pl_txns l) us -> brackets_fine w l <-> Forall (fun t => SpecTxn.fine (kind_value w l VirtualMustBalance t)) us.
Proof.
  intros (P & _). unfold brackets_fine. rewrite !Forall_forall. split; intros H t Ht; apply H; [apply (Permutation_in _ (Permutation_sym P)); auto|apply (Permutation_in _ P); auto].
Qed.

(** check accepts the journal exactly if it accepts its real part and the bracketed postings cancel. *)
Theorem C104_check : forall depth w o file file' l l', world_ok w -> file_parses depth w file l -> file_parses depth w file' l' ->
  stated_journal w l -> stated_journal w l' -> real_part l l' ->
  (exit_status (run_cmd depth w CCheck o file) = 0%Z <-> exit_status (run_cmd depth w CCheck o file') = 0%Z /\ brackets_fine w l).
Proof.
  intros depth w o file file' l l' Hw HF HF' SJ SJ' (EA & EC & us & us' & D & D' & T).
  rewrite (C83_check depth w o file l us Hw HF SJ D), (C83_check depth w o file' l' us' Hw HF' SJ' D'), (fine_sorted w l us D). apply rl_all; auto using agree_nothing.
Qed.
Print Assumptions C104_check.
Lemma real_runs depth w o file file' l l' (c : command) : world_ok w -> file_parses depth w file l -> file_parses depth w file' l' ->
  stated_journal w l -> stated_journal w l' -> real_part l l' -> c <> CCheck -> o_real o = true -> exit_status (run_cmd depth w c o file) = 0%Z ->
  exists us us', date_sorted (pl_txns l) us /\ date_sorted (pl_txns l') us' /\ all_in_order w l (o_no_balance_check o) nothing us /\ all_in_order w l' (o_no_balance_check o) nothing us' /\
    forall P c, total_added w l' (o_no_balance_check o) o P nothing us' c = total_added w l (o_no_balance_check o) o P nothing us c.
Proof.
  intros Hw HF HF' SJ SJ' (EA & EC & us & us' & D & D' & T) NC RO RUN. pose proof (order_of_run _ _ _ _ _ _ _ Hw HF SJ D RUN) as IO.
  assert (NE : (match c with CCheck => false | _ => o_no_balance_check o end) = o_no_balance_check o) by (destruct c; auto; congruence). rewrite NE in IO.
  exists us, us'. do 3 (split; auto). split; [apply (rl_all w l l' EA EC _ us us' T nothing nothing agree_nothing); auto|]. intros P d. apply rl_total; auto using agree_nothing.
Qed.
(** With --real, the flat report is that of the real part. *)
Theorem C104_balance : forall depth w o file file' l l' no_total A, world_ok w -> file_parses depth w file l -> file_parses depth w file' l' ->
  stated_journal w l -> stated_journal w l' -> real_part l l' -> o_real o = true -> exit_status (run_cmd depth w (CBalance true no_total) o file) = 0%Z ->
  asked_accounts w (o_query o) A -> o_exchange o = None -> can_be_cut w o l -> can_be_cut w o l' ->
  exists r r' lines lines', run_cmd depth w (CBalance true no_total) o file = Ok lines /\ balance_printed r lines /\
    run_cmd depth w (CBalance true no_total) o file' = Ok lines' /\ balance_printed r' lines' /\ same_report r' r.
Proof.
  intros depth w o file file' l l' nt A Hw HF HF' SJ SJ' RP RO RUN HA OX HC HC'.
  destruct (real_runs depth w o file file' l l' (CBalance true nt) Hw HF HF' SJ SJ' RP) as (us & us' & D & D' & IO & IO' & T); [discriminate|auto|exact RUN|].
  destruct (stated_flat_cut depth w o file l us nt A Hw HF SJ D IO HA OX HC) as (r & lines & R1 & R2 & R3 & R4 & _).
  destruct (stated_flat_cut depth w o file' l' us' nt A Hw HF' SJ' D' IO' HA OX HC') as (r' & lines' & S1 & S2 & S3 & S4 & _).
  exists r, r', lines, lines'. do 4 (split; auto). apply (same_flat o o _ _ (negb nt) r r' eq_refl R3 R4 S3 S4); [intros a c; apply T|intros c; apply T].
Qed.
Print Assumptions C104_balance.
(** With --real, the tree of the real part shows for each account what the flat report of the journal adds up to below it. *)
Theorem C104_tree : forall depth w o o' file file' l l' no_total A, world_ok w -> file_parses depth w file l -> file_parses depth w file' l' ->
  stated_journal w l -> stated_journal w l' -> real_part l l' -> o_real o = true -> exit_status (run_cmd depth w (CBalance true no_total) o' file) = 0%Z ->
  asked_accounts w (o_query o) A -> o_exchange o = None -> same_but_depth o o' -> o_depth o' = None ->
  exists r r' lines lines', run_cmd depth w (CBalance true no_total) o' file = Ok lines /\ balance_printed r lines /\
    run_cmd depth w (CBalance false no_total) o file' = Ok lines' /\ balance_printed r' lines' /\
    (exists accs, ascending accs /\
       Forall2 (fun a row => br_indent row = levels a /\ (exists part more, own_part a part /\ br_label row = part ++ more) /\
         (forall d, o_depth o = Some d -> (levels a <= d)%nat) /\ shown_amounts (br_moneys row) /\ br_moneys row <> [] /\
         (~ begins_with_colon a -> forall c, moneys_amt (br_moneys row) c = shown_for r (inside a) c)) accs (bp_rows r')) /\
    forall ms c, bp_total r' = Some ms -> moneys_amt ms c = shown_for r (fun _ => true) c.
Proof.
  intros depth w o o' file file' l l' nt A Hw HF HF' SJ SJ' RP RO RUN HA OX SD ND. destruct SD as (O1 & O2 & O3 & O4 & O5 & O6).
  destruct (real_runs depth w o' file file' l l' (CBalance true nt) Hw HF HF' SJ SJ' RP) as (us & us' & D & D' & IO & IO' & T); [discriminate|congruence|exact RUN|].
  assert (HA' : asked_accounts w (o_query o') A) by (rewrite <- O4; auto). assert (OX' : o_exchange o' = None) by congruence.
  assert (IO2 : all_in_order w l' (o_no_balance_check o) nothing us') by (rewrite O6; auto).
  destruct (stated_flat depth w o' file l us nt A Hw HF SJ D IO HA' OX' ND) as (r & lines & R1 & R2 & R3 & R4 & R5).
  destruct (C83_asked_balance depth w o file' l' us' false nt A Hw HF' SJ' D' IO2 HA OX) as (r' & lines' & S1 & S2 & S3 & S4); [discriminate|].
  exists r, r', lines, lines'. do 4 (split; auto). cbn beta iota zeta in S3, S4.
  assert (W : forall P us now c, total_added w l' (o_no_balance_check o) o P now us c = total_added w l' (o_no_balance_check o') o' P now us c).
  { intros P vs. rewrite <- O6. induction vs as [|t vs IH]; intros now c; auto. cbn [total_added]. rewrite IH. unfold in_window, asked_for. rewrite O1, O2, O3. auto. }
  assert (TT : forall P c, total_added w l' (o_no_balance_check o) o (fun n => A n && P n) nothing us' c = shown_for r P c) by (intros P c; rewrite R5, W; apply T).
  split.
  - destruct S3 as (accs & AS & FR). exists accs. split; auto. eapply forall2_weaken; [|exact FR]. intros a row (H1 & H2 & H3 & H4 & H5 & H6). do 5 (split; auto).
    intros N c. rewrite (H6 N). apply TT.
  - intros ms c E. destruct S4 as [_ S4]. destruct (S4 ms E) as [_ ->]. apply TT.
Qed.
Print Assumptions C104_tree.
(** With --real, the lines of the register add up to the same amounts and end with the same running total. *)
Theorem C104_register : forall depth w o file file' l l' A, world_ok w -> file_parses depth w file l -> file_parses depth w file' l' ->
  stated_journal w l -> stated_journal w l' -> real_part l l' -> o_real o = true -> exit_status (run_cmd depth w CRegister o file) = 0%Z ->
  asked_accounts w (o_query o) A ->
  exists rows rows' accs accs' lines lines', run_cmd depth w CRegister o file = Ok lines /\ register_printed w rows lines /\ Forall2 account_of_line rows accs /\
    run_cmd depth w CRegister o file' = Ok lines' /\ register_printed w rows' lines' /\ Forall2 account_of_line rows' accs' /\
    (forall P c, lines_amount rows' accs' P c = lines_amount rows accs P c) /\ forall c, final_total rows' c = final_total rows c.
Proof.
  intros depth w o file file' l l' A Hw HF HF' SJ SJ' RP RO RUN HA.
  destruct (real_runs depth w o file file' l l' CRegister Hw HF HF' SJ SJ' RP) as (us & us' & D & D' & IO & IO' & T); [discriminate|auto|exact RUN|].
  destruct (stated_sums depth w o file l us A Hw HF SJ D IO HA) as (rows & accs & lines & R1 & R2 & R3 & R4 & R5).
  destruct (stated_sums depth w o file' l' us' A Hw HF' SJ' D' IO' HA) as (rows' & accs' & lines' & S1 & S2 & S3 & S4 & S5).
  exists rows, rows', accs, accs', lines, lines'. do 6 (split; auto). split; [intros P c; rewrite S4, R4; apply T|intros c; rewrite S5, R5; apply T].
Qed.
Print Assumptions C104_register.

(** ** A case *)
Definition with104 : list String.string := [
  "2020/01/01 * Start"; "    Assets:Bank  100 EUR"; "    Equity"; "    (Budget:Food)  30 EUR"; "";
  "2020/01/02 * Plan"; "    [Budget:Rent]  20 EUR"; "    [Budget:Free]  -20 EUR"; "";
  "2020/01/03 * Shop"; "    (Budget:Food)  -12 EUR"; "    Food  12 EUR"; "    Assets:Bank  -12 EUR = 88 EUR"; ""]%string.
Definition bare104 : list String.string := [
  "2020/01/01 * Start"; "    Assets:Bank  100 EUR"; "    Equity"; "";
  "2020/01/03 * Shop"; "    Food  12 EUR"; "    Assets:Bank  -12 EUR = 88 EUR"; ""]%string.
Definition open104 : list String.string := [
  "2020/01/02 * Plan"; "    [Budget:Rent]  20 EUR"; "    [Budget:Free]  -19 EUR"; ""]%string.
Definition w104 : world := PropTokens.disk [(L "./with", text with104); (L "./bare", text bare104); (L "./open", text (bare104 ++ open104))].
Definition l104 (f : String.string) : pledger := get pl_new (tokenize_file 2 w104 (L (String.append "./" f))).
Lemma w104_ok : world_ok w104.
Proof. split; [intros; apply Permutation_refl|exact ascii_lower_idem]. Qed.
Lemma parses104 f : match tokenize_file 2 w104 (L (String.append "./" f)) with Ok l => l104 f = l | _ => False end -> file_parses 2 w104 (L (String.append "./" f)) (l104 f).
Proof. intros H. apply file_parses_iff. destruct (tokenize_file 2 w104 (L (String.append "./" f))); subst; auto; destruct H. Qed.
(** The dates and the real postings of the transactions that have some. *)
Definition real_list (us : list (txn rposting)) : list (option Z * list rposting) :=
  flat_map (fun t => match filter (fun p => kind_eqb (rp_kind p) Real) (t_postings t) with [] => [] | p :: ps => [(t_date t, p :: ps)] end) us.
Lemma real_list_ok us : forall us', map (fun t => (t_date t, t_postings t)) us' = real_list us -> real_parts us us'.
Proof.
  induction us as [|t us IH]; intros us' E; [destruct us'; [constructor|discriminate]|]. cbn [real_list flat_map] in E.
  destruct (filter (fun p => kind_eqb (rp_kind p) Real) (t_postings t)) as [|p ps] eqn:R.
  - apply real_left; [|apply IH; exact E]. intros p I K. assert (X : In p (filter (fun p => kind_eqb (rp_kind p) Real) (t_postings t))) by (apply filter_In; rewrite K; auto). rewrite R in X. exact X.
  - destruct us' as [|t' us']; [discriminate|]. cbn [map app] in E. injection E as E1 E2 E3. apply real_kept; [exact E1|rewrite R; exact E2|apply IH; exact E3].
Qed.
Definition opts104 (r : bool) : opts :=
  {| o_query := o_query plain_opts; o_real := r; o_begin := None; o_end := None; o_exchange := None; o_depth := None; o_no_balance_check := false |}.
Definition shows104 (r : bool) (f : String.string) : res (list str) := run_cmd 2 w104 (CBalance true false) (opts104 r) (L (String.append "./" f)).
Example C104_case : world_ok w104 /\ file_parses 2 w104 (L "./with") (l104 "with") /\ file_parses 2 w104 (L "./bare") (l104 "bare") /\ stated_journal w104 (l104 "with") /\ stated_journal w104 (l104 "bare") /\
  real_part (l104 "with") (l104 "bare") /\ exit_status (run_cmd 2 w104 CCheck (opts104 true) (L "./with")) = 0%Z /\ shows104 true "with" = shows104 true "bare" /\
  shows104 true "with" = Ok (map L ["           88.00 EUR  Assets:Bank"; "         -100.00 EUR  Equity"; "           12.00 EUR  Food"; "--------------------"; "                   0"]%string).
Proof.
  assert (F : file_parses 2 w104 (L "./with") (l104 "with")) by (apply parses104; vm_compute; reflexivity). assert (F' : file_parses 2 w104 (L "./bare") (l104 "bare")) by (apply parses104; vm_compute; reflexivity).
  assert (S : stated_journal w104 (l104 "with")) by (apply stated_check_ok; vm_compute; reflexivity). assert (S' : stated_journal w104 (l104 "bare")) by (apply stated_check_ok; vm_compute; reflexivity).
  split; [exact w104_ok|]. split; [exact F|]. split; [exact F'|]. split; [exact S|]. split; [exact S'|]. split.
  { split; [vm_compute; reflexivity|]. split; [vm_compute; reflexivity|]. exists (by_date (pl_txns (l104 "with"))), (by_date (pl_txns (l104 "bare"))).
    split; [exact (sorted_of 2 w104 (L "./with") (l104 "with") F S)|]. split; [exact (sorted_of 2 w104 (L "./bare") (l104 "bare") F' S')|].
    apply real_list_ok. vm_compute. reflexivity. }
  split; [vm_compute; reflexivity|]. split; vm_compute; reflexivity.
Qed.
(** Without --real the virtual postings are shown; bracketed postings that do not cancel are refused. *)
Example C104_virtual : shows104 false "with" = Ok (map L ["           88.00 EUR  Assets:Bank"; "           18.00 EUR  Budget:Food"; "          -20.00 EUR  Budget:Free"; "           20.00 EUR  Budget:Rent"; "         -100.00 EUR  Equity"; "           12.00 EUR  Food"; "--------------------"; "           18.00 EUR"]%string) /\
  exit_status (run_cmd 2 w104 CCheck (opts104 true) (L "./open")) = 1%Z /\ exit_status (run_cmd 2 w104 CCheck (opts104 true) (L "./bare")) = 0%Z.
Proof. split; [|split]; vm_compute; reflexivity. Qed.
