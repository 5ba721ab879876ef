(** C79: two runs on the same input. *)
From Coq Require Import Lia Sorting.Sorted.
From Verif Require Import Base BaseFacts Numerals Money Alist Comment Txn Expr Filter Price Tokens Ledger Reports App Spec MoneyFacts SpecList SpecTxn TxnFacts SpecLedger AlistFacts JournalFacts
  LedgerFacts LedgerFacts2 LedgerFacts3 PropTxn PropLedger SpecReports ReportFacts ReportFacts2 PropReports PropApp PropRules JournalRead SpecBook PropBook SpecSame SameFacts SameRead SameFacts2 SameExchange SameFacts3 SameRules SameFacts4 SameFacts5 SpecLayout PropLayout.
Open Scope Qc_scope.

Lemma built_lists w skip l lg : world_ok w -> journal_ok w l -> to_ledger w skip l = Ok lg -> lists_built w lg.
Proof. intros W J H. destruct (to_ledger_built w skip l lg W J H); auto. Qed.
Lemma built_order w o lg : lists_built (with_order w o) lg -> lists_built w lg.
Proof. intros (A & B & C). repeat split; apply (proj2 (buildable_order w o _ _ _)); auto. Qed.
Lemma parses_parsed depth w file items : file_parses depth w file items -> parsed w items.
Proof. intros (c & _ & H). exists depth, (Some file), [file], c. auto. Qed.
Lemma parses_order depth w o file items : file_parses depth w file items -> tokenize_file depth w file = Ok items /\ tokenize_file depth (with_order w o) file = Ok items.
Proof. intros H. apply file_parses_iff in H. rewrite tokenize_file_order. auto. Qed.
Lemma ledger_agrees w o skip l : world_ok w -> world_ok (with_order w o) -> journal_ok w l -> clear_names w l -> rules l = [] \/ settled w l ->
  agree (same_ledger w) (to_ledger w skip l) (to_ledger (with_order w o) skip l).
Proof.
  intros W W' J C [R|R]; [apply ledger_same; auto|]. eapply agree_mono; [|exact (ledger_settled w o skip l W W' J C R)]. intros a b [H _]. exact H.
Qed.

(** The journal is accepted by both runs or by none, with the same error; an accepted journal has the same
    transactions, exchange rates, accounts, commodities and payees.  Left open is only the order of the lines that
    fill one posting without an amount, and in which direction the rate of an exchange of two commodities is
    recorded. *)
Theorem C79_ledger_partial : forall w w' skip l, other_run w w' -> parsed w l -> clear_names w l -> rules l = [] \/ settled w l ->
  agree (same_ledger w) (to_ledger w skip l) (to_ledger w' skip l).
Proof. intros w w' skip l (W & W' & o & ->) P C R. apply ledger_agrees; auto. apply parsed_ok. auto. Qed.
Print Assumptions C79_ledger_partial.

(** [check] and the lists print the same text and exit with the same status. *)
Theorem C79_lists_partial : forall depth w w' c o file items, other_run w w' -> file_parses depth w file items -> clear_names w items -> rules items = [] \/ settled w items ->
  In c [CAccounts; CPayees; CCommodities; CCheck] ->
  run_cmd depth w' c o file = run_cmd depth w c o file.
Proof.
  intros depth w w' c o file items (W & W' & od & ->) F C R Hc. unfold run_cmd. destruct (parses_order depth w od file items F) as [-> ->]. cbn [bind].
  pose proof (parsed_ok _ _ (parses_parsed _ _ _ _ F)) as J. apply agree_eq.
  assert (X : forall skip (f f' : ledger -> res (list str)), (forall lg lg', same_ledger w lg lg' -> f lg = f' lg') ->
    agree eq (l <- to_ledger (with_order w od) skip items ;; f' l) (l <- to_ledger w skip items ;; f l)).
  { intros skip f f' H. pose proof (ledger_agrees w od skip items W W' J C R) as S. destruct (to_ledger w skip items), (to_ledger (with_order w od) skip items); cbn in *; try contradiction; auto.
    apply agree_eq. symmetry. auto. }
  destruct Hc as [<-|[<-|[<-|[<-|[]]]]]; unfold run_on; apply X; intros lg lg' S; auto;
    (destruct (lists_same w (with_order w od) (report_site lg) (report_site lg') lg lg' W W' S) as (E1 & E2 & E3)); congruence.
Qed.
Print Assumptions C79_lists_partial.

(** Balance: the same lines in the same order, with the same amounts; amounts of several commodities in one line
    may come in another order. *)
Theorem C79_balance_partial : forall w w' skip l lg lg' site site' o flat tot, other_run w w' -> parsed w l -> clear_names w l -> rules l = [] \/ settled w l ->
  to_ledger w skip l = Ok lg -> to_ledger w' skip l = Ok lg' -> plain_query w o \/ settled w l -> clear_exchange w l o lg ->
  both same_report (balance_report w site o flat tot lg) (balance_report w' site' o flat tot lg').
Proof.
  intros w w' skip l lg lg' site site' o flat tot (W & W' & od & ->) P C R E E' Q X. pose proof (parsed_ok _ _ P) as J. pose proof (ledger_agrees w od skip l W W' J C R) as S.
  rewrite E, E' in S. cbn in S.
  assert (T : settled w l -> lg_txns lg = lg_txns lg').
  { intros K. pose proof (ledger_settled w od skip l W W' J C K) as T. rewrite E, E' in T. apply T. }
  assert (B : lists_built w lg) by (apply (built_lists w skip l lg); auto).
  assert (B' : lists_built w lg') by (apply (built_order w od); apply (built_lists (with_order w od) skip l lg'); auto; apply journal_order; auto).
  assert (Q' : plain_query w o \/ lg_txns lg = lg_txns lg') by (destruct Q; auto).
  destruct (o_exchange o) as [x|] eqn:Ex; [|apply balance_same; auto; [apply B|apply B']].
  destruct (X x Ex) as [V K]. apply (exchange_same w od o flat tot site site' lg lg' x); auto; [apply B|apply B'|]. destruct K; auto.
Qed.
Print Assumptions C79_balance_partial.

(** Register, of a journal that leaves no order open: the same lines in the same order, with the same amounts and
    the same running totals; totals of several commodities may come in another order. *)
Theorem C79_register_partial : forall w w' skip l lg lg' site site' o, other_run w w' -> parsed w l -> clear_names w l -> settled w l ->
  to_ledger w skip l = Ok lg -> to_ledger w' skip l = Ok lg' ->
  agree (Forall2 same_entry) (register_report w site o lg) (register_report w' site' o lg').
Proof.
  intros w w' skip l lg lg' site site' o (W & W' & od & ->) P C R E E'. pose proof (parsed_ok _ _ P) as J. pose proof (ledger_settled w od skip l W W' J C R) as S.
  rewrite E, E' in S. cbn in S. destruct S as [S T]. apply register_same; auto.
  - apply (built_lists w skip l lg); auto.
  - apply (built_order w od). apply (built_lists (with_order w od) skip l lg'); auto. apply journal_order. auto.
Qed.
Print Assumptions C79_register_partial.

(** Register, of any such journal: the same transactions with the same lines, in the same order but for the lines of one
    transaction; the same running totals after each transaction. *)
Theorem C79_register_open_partial : forall w w' skip l lg lg' site site' o, other_run w w' -> parsed w l -> clear_names w l -> rules l = [] \/ settled w l ->
  to_ledger w skip l = Ok lg -> to_ledger w' skip l = Ok lg' -> plain_query w o \/ settled w l ->
  both (fun rows rows' => exists gs gs', rows = concat gs /\ rows' = concat gs' /\ Forall2 same_group gs gs')
    (register_report w site o lg) (register_report w' site' o lg').
Proof.
  intros w w' skip l lg lg' site site' o (W & W' & od & ->) P C R E E' Q. pose proof (parsed_ok _ _ P) as J. pose proof (ledger_agrees w od skip l W W' J C R) as S.
  rewrite E, E' in S. cbn in S. apply register_groups; auto; [| |destruct Q as [Q|Q]; auto; right; pose proof (ledger_settled w od skip l W W' J C Q) as T; rewrite E, E' in T; apply T].
  - apply (built_lists w skip l lg); auto.
  - apply (built_order w od). apply (built_lists (with_order w od) skip l lg'); auto. apply journal_order. auto.
Qed.
Print Assumptions C79_register_open_partial.

(** What the commands print. *)
Theorem C79_printed_partial : forall depth w w' o file items, other_run w w' -> file_parses depth w file items -> clear_names w items -> rules items = [] \/ settled w items -> plain_query w o \/ settled w items ->
  (forall flat no_total, (forall lg, to_ledger w (o_no_balance_check o) items = Ok lg -> clear_exchange w items o lg) ->
     both (fun lines lines' => exists r r', balance_printed r lines /\ balance_printed r' lines' /\ same_report r r')
       (run_cmd depth w (CBalance flat no_total) o file) (run_cmd depth w' (CBalance flat no_total) o file)) /\
  both (fun lines lines' => exists gs gs' ls ls', lines = concat ls /\ lines' = concat ls' /\
          Forall2 (entry_printed (w_width w)) (concat gs) ls /\ Forall2 (entry_printed (w_width w)) (concat gs') ls' /\ Forall2 same_group gs gs')
    (run_cmd depth w CRegister o file) (run_cmd depth w' CRegister o file).
Proof.
  intros depth w w' o file items OR F C R Q. pose proof OR as (W & W' & od & EW). pose proof (parses_parsed _ _ _ _ F) as P.
  destruct (parses_order depth w od file items F) as [T T']. rewrite <- EW in T'.
  pose proof (C79_ledger_partial w w' (o_no_balance_check o) items OR P C R) as LS.
  assert (NN : forall c, (forall lines, run_cmd depth w c o file <> Ok lines) -> (forall lines, run_cmd depth w' c o file <> Ok lines) -> forall Q, both Q (run_cmd depth w c o file) (run_cmd depth w' c o file)).
  { intros c N N' Q0. destruct (run_cmd depth w c o file); [edestruct N; eauto| |]; (destruct (run_cmd depth w' c o file); [edestruct N'; eauto| |]); exact I. }
  destruct (to_ledger w (o_no_balance_check o) items) as [lg|e|e] eqn:E; destruct (to_ledger w' (o_no_balance_check o) items) as [lg'|e'|e'] eqn:E'; cbn in LS; try contradiction.
  - destruct (C69_printed depth w o file items lg W T E) as [PB PR]. destruct (C69_printed depth w' o file items lg' W' T' E') as [PB' PR']. split.
    + intros flat nt OX. pose proof (C79_balance_partial w w' _ items lg lg' (report_site lg) (report_site lg') o flat (negb nt) OR P C R E E' Q (OX lg eq_refl)) as B.
      destruct (balance_report w (report_site lg) o flat (negb nt) lg) as [r|x|x] eqn:ER; destruct (balance_report w' (report_site lg') o flat (negb nt) lg') as [r'|x'|x'] eqn:ER'; cbn in B; try contradiction.
      * destruct (PB flat nt r ER) as (lines & -> & L1). destruct (PB' flat nt r' ER') as (lines' & -> & L2). cbn. exists r, r'. auto.
      * apply NN; intros lines H; apply C69_balance in H; auto; destruct H as (i2 & lg2 & r2 & H1 & H2 & H3 & _); congruence.
      * apply NN; intros lines H; apply C69_balance in H; auto; destruct H as (i2 & lg2 & r2 & H1 & H2 & H3 & _); congruence.
      * apply NN; intros lines H; apply C69_balance in H; auto; destruct H as (i2 & lg2 & r2 & H1 & H2 & H3 & _); congruence.
      * apply NN; intros lines H; apply C69_balance in H; auto; destruct H as (i2 & lg2 & r2 & H1 & H2 & H3 & _); congruence.
    + pose proof (C79_register_open_partial w w' _ items lg lg' (report_site lg) (report_site lg') o OR P C R E E' Q) as B.
      destruct (register_report w (report_site lg) o lg) as [r|x|x] eqn:ER; destruct (register_report w' (report_site lg') o lg') as [r'|x'|x'] eqn:ER'; cbn in B; try contradiction.
      * destruct B as (gs & gs' & -> & -> & B). destruct (PR _ eq_refl) as (ls & -> & L1). destruct (PR' _ eq_refl) as (ls' & -> & L2). cbn. exists gs, gs', ls, ls'. rewrite EW in L2. cbn in L2. auto.
      * apply NN; intros lines H; apply C69_register in H; auto; destruct H as (i2 & lg2 & r2 & g2 & H1 & H2 & H3 & _); congruence.
      * apply NN; intros lines H; apply C69_register in H; auto; destruct H as (i2 & lg2 & r2 & g2 & H1 & H2 & H3 & _); congruence.
      * apply NN; intros lines H; apply C69_register in H; auto; destruct H as (i2 & lg2 & r2 & g2 & H1 & H2 & H3 & _); congruence.
      * apply NN; intros lines H; apply C69_register in H; auto; destruct H as (i2 & lg2 & r2 & g2 & H1 & H2 & H3 & _); congruence.
  - split; [intros flat nt _|]; apply NN; intros lines H; (apply C69_balance in H || apply C69_register in H); auto; [destruct H as (i2 & lg2 & r2 & H1 & H2 & H3 & _)..| |]; try congruence; destruct H as (i2 & lg2 & r2 & g2 & H1 & H2 & H3 & _); congruence.
  - split; [intros flat nt _|]; apply NN; intros lines H; (apply C69_balance in H || apply C69_register in H); auto; [destruct H as (i2 & lg2 & r2 & H1 & H2 & H3 & _)..| |]; try congruence; destruct H as (i2 & lg2 & r2 & g2 & H1 & H2 & H3 & _); congruence.
Qed.
Print Assumptions C79_printed_partial.

(** A journal in one commodity: every command prints the same text and exits with the same status in every run. *)
Theorem C79_one_commodity_partial : forall depth w w' c o file items cur, other_run w w' -> file_parses depth w file items -> clear_names w items ->
  one_commodity w items cur -> o_exchange o = None ->
  run_cmd depth w' c o file = run_cmd depth w c o file.
Proof.
  intros depth w w' c o file items cur (W & W' & od & ->) F C O X. unfold run_cmd. destruct (parses_order depth w od file items F) as [-> ->]. cbn [bind].
  pose proof (parsed_ok _ _ (parses_parsed _ _ _ _ F)) as J. apply agree_eq.
  assert (K : forall skip (f f' : ledger -> res (list str)),
    (forall lg lg', same_ledger w lg lg' -> lists_built w lg -> lists_built w lg' -> lg_txns lg = lg_txns lg' -> lg_prices lg = lg_prices lg' ->
       Forall (fun t => Forall (p_only cur) (t_postings t)) (lg_txns lg) -> f lg = f' lg') ->
    agree eq (l <- to_ledger (with_order w od) skip items ;; f' l) (l <- to_ledger w skip items ;; f l)).
  { intros skip f f' H. pose proof (ledger_exact w od skip items cur W W' J C O) as T.
    pose proof (fun lg => built_lists w skip items lg W J) as B. pose proof (fun lg => built_lists (with_order w od) skip items lg W' (journal_order _ _ _ J)) as B'.
    destruct (to_ledger w skip items) as [lg| |], (to_ledger (with_order w od) skip items) as [lg'| |]; cbn in *; try contradiction; auto.
    apply agree_eq. destruct T as (S & T1 & T2 & T3). symmetry. apply H; auto. apply (built_order w od). auto. }
  destruct c; unfold run_on; apply K; intros lg lg' S B B' T1 T2 T3.
  - rewrite (balance_exact cur w od o flat (negb no_total) (report_site lg) (report_site lg') lg lg' W W' S B B' T1 T3 X). reflexivity.
  - rewrite (register_exact cur w od o (report_site lg) (report_site lg') lg lg' W W' S B B' T1 T3). reflexivity.
  - destruct (lists_same w (with_order w od) (report_site lg) (report_site lg') lg lg' W W' S) as (E1 & E2 & E3). congruence.
  - destruct (lists_same w (with_order w od) (report_site lg) (report_site lg') lg lg' W W' S) as (E1 & E2 & E3). congruence.
  - unfold prices_report. rewrite T2. reflexivity.
  - destruct (lists_same w (with_order w od) (report_site lg) (report_site lg') lg lg' W W' S) as (E1 & E2 & E3). congruence.
  - reflexivity.
Qed.
Print Assumptions C79_one_commodity_partial.

(** ** Cases *)
Definition clear_check (w : world) (l : pledger) : bool :=
  same_meaning w (account_meant w l) (used_accounts l) && same_meaning w (commodity_meant w l) (used_commodities l) &&
  forallb (fun n => forallb (fun m => negb (str_eqb (w_lower w n) (w_lower w m)) || str_eqb n m || is_ok (l_get w n (pl_payees l))) (payee_names l)) (payee_names l) &&
  forallb (fun n => (length (filter (fun y => existsb (fun rx => w_rx w rx n) (py_regexes y)) (l_values (pl_payees l))) <=? 1)%nat) (payee_names l) &&
  (length (filter (fun a => match ac_payees a with [] => false | _ => true end) (l_values (pl_accounts l))) <=? 1)%nat.
Lemma one_left {A} (f : A -> bool) l a b : (length (filter f l) <= 1)%nat -> In a l -> In b l -> f a = true -> f b = true -> a = b.
Proof.
  intros H Ia Ib Ha Hb. assert (Xa : In a (filter f l)) by (apply filter_In; auto). assert (Xb : In b (filter f l)) by (apply filter_In; auto).
  destruct (filter f l) as [|x [|y r]]; [destruct Xa| |cbn in H; lia]. destruct Xa as [->|[]], Xb as [->|[]]. reflexivity.
Qed.
Lemma clear_check_ok w l : clear_check w l = true -> clear_names w l.
Proof.
  intros H. unfold clear_check in H. repeat (apply andb_prop in H; destruct H as [H ?]). rename H0 into H5, H1 into H4, H2 into H3, H3 into H2, H into H1.
  constructor.
  - intros n m Hn Hm E. eapply same_meaning_ok; eauto using used_account.
  - intros n m Hn Hm E. eapply same_meaning_ok; eauto using used_commodity.
  - intros n m Hn Hm E. rewrite forallb_forall in H3. apply mentioned_payee in Hn. apply mentioned_payee in Hm. specialize (H3 n Hn). rewrite forallb_forall in H3. specialize (H3 m Hm).
    rewrite E in H3. destruct (str_eqb_spec (w_lower w m) (w_lower w m)); [|congruence]. cbn in H3. destruct (str_eqb_spec n m); auto. cbn in H3. right. destruct (l_get w n (pl_payees l)); try discriminate. eauto.
  - intros n y z Hn Hy Hz (rx & R1 & R2) (rx' & R1' & R2'). rewrite forallb_forall in H4. apply mentioned_payee in Hn. specialize (H4 n Hn). apply Nat.leb_le in H4.
    eapply one_left; eauto; apply existsb_exists; eauto.
  - intros n a b Ha Hb (rx & R1 & _) (rx' & R1' & _). apply Nat.leb_le in H5. eapply one_left; eauto; cbn; [destruct (ac_payees a)|destruct (ac_payees b)]; auto; contradiction.
Qed.
Definition settled_check (w : world) (l : pledger) : bool :=
  forallb (fun t => forallb (fun p => match rp_kind p, rp_money p with Real, None => false | _, _ => true end) (t_postings t) ||
    existsb (fun c => forallb (fun p => match rp_kind p with
      | Real => match rp_money p with Some (_, n) => str_eqb (commodity_meant w l n) c | None => match rp_balance p with None => true | _ => false end end &&
                match rp_cost p with Some (_, n) => str_eqb (commodity_meant w l n) c | None => true end
      | _ => true end) (t_postings t)) (map (commodity_meant w l) (used_commodities l))) (journal_txns l).
Lemma settled_check_ok w l : settled_check w l = true -> settled w l.
Proof.
  intros H t Ht. unfold settled_check in H. rewrite forallb_forall in H. specialize (H t Ht). apply orb_prop in H. destruct H as [H|H]; [left|right].
  - intros p Hp K E. rewrite forallb_forall in H. specialize (H p Hp). rewrite K, E in H. discriminate.
  - apply existsb_exists in H. destruct H as (c & _ & H). exists c. intros p Hp K. rewrite forallb_forall in H. specialize (H p Hp). rewrite K in H. apply andb_prop in H. destruct H as [H1 H2]. split.
    + intros q n [E|E]; rewrite E in *; apply str_eqb_eq; auto.
    + intros E. rewrite E in H1. destruct (rp_balance p); [discriminate|auto].
Qed.
Definition reversed (w : world) : world := with_order w (fun _ _ l => rev l).
Lemma reversed_run t : other_run (w65 t) (reversed (w65 t)).
Proof.
  split; [split; [intros; apply Permutation_refl|exact ascii_lower_idem]|]. split; [split; [intros; symmetry; apply Permutation_rev|exact ascii_lower_idem]|]. eexists. reflexivity.
Qed.
(** Several commodities, an elided posting, an exchange, a virtual posting, an alias. *)
Definition t79 : list String.string :=
  ["account Assets:Cash"; "  alias purse"; "  payee Taxi"; "2021-03-02 Shop"; "  Expenses:Food  10.50 EUR"; "  Expenses:Drinks  2 USD @ 0.5 EUR"; "  purse";
   "2021-01-01 Job"; "  Assets:Bank  100 EUR"; "  Assets:Bank  5 USD"; "  (Budget)  7 EUR"; "  Income"; "2021-02-01 Change"; "  Assets:Cash  30 USD"; "  Assets:Bank  -20 EUR"]%string.
Definition l79 : pledger := get pl_new (tokenize_file 2 (w65 t79) (L "book")).
Example C79_case : other_run (w65 t79) (reversed (w65 t79)) /\ file_parses 2 (w65 t79) (L "book") l79 /\ clear_names (w65 t79) l79 /\ rules l79 = [] /\ plain_query (w65 t79) plain_opts /\
  run_cmd 2 (w65 t79) (CBalance true true) plain_opts (L "book") = Ok (map L
    ["           80.00 EUR"; "            5.00 USD  Assets:Bank"; "           30.00 USD"; "          -11.50 EUR  Assets:Cash"; "            7.00 EUR  Budget";
     "            2.00 USD  Expenses:Drinks"; "           10.50 EUR  Expenses:Food"; "         -100.00 EUR"; "           -5.00 USD  Income"]%string) /\
  run_cmd 2 (reversed (w65 t79)) (CBalance true true) plain_opts (L "book") = Ok (map L
    ["            5.00 USD"; "           80.00 EUR  Assets:Bank"; "          -11.50 EUR"; "           30.00 USD  Assets:Cash"; "            7.00 EUR  Budget";
     "            2.00 USD  Expenses:Drinks"; "           10.50 EUR  Expenses:Food"; "         -100.00 EUR"; "           -5.00 USD  Income"]%string).
Proof.
  split; [apply reversed_run|]. split; [apply file_parses_iff; vm_compute; reflexivity|]. split; [apply clear_check_ok; vm_compute; reflexivity|].
  split; [vm_compute; reflexivity|]. split; [intros n H; discriminate|]. split; vm_compute; reflexivity.
Qed.

(** The register of the same journal: the two lines that close the first transaction change places. *)
Example C79_register_open_case :
  run_cmd 2 (w65 t79) CRegister plain_opts (L "book") = Ok (map L
    ["2021-01-01 Job                                       Assets:Bank                              100.00 EUR       100.00 EUR";
     "                                                     Assets:Bank                                5.00 USD       100.00 EUR";
     "                                                                                                                 5.00 USD";
     "                                                     Income                                  -100.00 EUR         5.00 USD";
     "                                                     Income                                    -5.00 USD                0";
     "                                                     (Budget)                                   7.00 EUR         7.00 EUR";
     "2021-02-01 Change                                    Assets:Cash                               30.00 USD         7.00 EUR";
     "                                                                                                                30.00 USD";
     "                                                     Assets:Bank                              -20.00 EUR       -13.00 EUR";
     "                                                                                                                30.00 USD";
     "2021-03-02 Shop                                      Expenses:Food                             10.50 EUR        -2.50 EUR";
     "                                                                                                                30.00 USD";
     "                                                     Expenses:Drinks                            2.00 USD        -2.50 EUR";
     "                                                                                                                32.00 USD";
     "                                                     Assets:Cash                              -11.50 EUR       -14.00 EUR";
     "                                                                                                                32.00 USD"]%string) /\
  run_cmd 2 (reversed (w65 t79)) CRegister plain_opts (L "book") = Ok (map L
    ["2021-01-01 Job                                       Assets:Bank                              100.00 EUR       100.00 EUR";
     "                                                     Assets:Bank                                5.00 USD         5.00 USD";
     "                                                                                                               100.00 EUR";
     "                                                     Income                                    -5.00 USD       100.00 EUR";
     "                                                     Income                                  -100.00 EUR                0";
     "                                                     (Budget)                                   7.00 EUR         7.00 EUR";
     "2021-02-01 Change                                    Assets:Cash                               30.00 USD        30.00 USD";
     "                                                                                                                 7.00 EUR";
     "                                                     Assets:Bank                              -20.00 EUR        30.00 USD";
     "                                                                                                               -13.00 EUR";
     "2021-03-02 Shop                                      Expenses:Food                             10.50 EUR        30.00 USD";
     "                                                                                                                -2.50 EUR";
     "                                                     Expenses:Drinks                            2.00 USD        32.00 USD";
     "                                                                                                                -2.50 EUR";
     "                                                     Assets:Cash                              -11.50 EUR        32.00 USD";
     "                                                                                                               -14.00 EUR"]%string).
Proof. split; vm_compute; reflexivity. Qed.

(** All amounts written, in two commodities. *)
Definition t79w : list String.string :=
  ["2021-01-05 Shop"; "  Assets:Cash  3 USD"; "  Assets:Bank  -2 EUR"; "2021-01-01 Job"; "  Assets:Bank  100 EUR"; "  Income  -100 EUR"]%string.
Definition l79w : pledger := get pl_new (tokenize_file 2 (w65 t79w) (L "book")).
Example C79_register_case : other_run (w65 t79w) (reversed (w65 t79w)) /\ file_parses 2 (w65 t79w) (L "book") l79w /\ clear_names (w65 t79w) l79w /\ settled (w65 t79w) l79w /\
  run_cmd 2 (w65 t79w) CRegister plain_opts (L "book") = Ok (map L
    ["2021-01-01 Job                                       Assets:Bank                              100.00 EUR       100.00 EUR";
     "                                                     Income                                  -100.00 EUR                0";
     "2021-01-05 Shop                                      Assets:Cash                                3.00 USD         3.00 USD";
     "                                                     Assets:Bank                               -2.00 EUR         3.00 USD";
     "                                                                                                                -2.00 EUR"]%string) /\
  run_cmd 2 (reversed (w65 t79w)) CRegister plain_opts (L "book") = Ok (map L
    ["2021-01-01 Job                                       Assets:Bank                              100.00 EUR       100.00 EUR";
     "                                                     Income                                  -100.00 EUR                0";
     "2021-01-05 Shop                                      Assets:Cash                                3.00 USD         3.00 USD";
     "                                                     Assets:Bank                               -2.00 EUR        -2.00 EUR";
     "                                                                                                                 3.00 USD"]%string).
Proof.
  split; [apply reversed_run|]. split; [apply file_parses_iff; vm_compute; reflexivity|]. split; [apply clear_check_ok; vm_compute; reflexivity|].
  split; [apply settled_check_ok; vm_compute; reflexivity|]. split; vm_compute; reflexivity.
Qed.
(** One commodity, with a posting without an amount, an assertion of a balance, an alias, and a commodity by its symbol. *)
Definition t79c : list String.string :=
  ["commodity EUR"; "  alias e"; "account Assets:Cash"; "  alias purse"; "2021-03-02 Shop"; "  Expenses:Food  10.50 EUR"; "  Expenses:Drinks  2 e"; "  purse";
   "2021-01-01 Job"; "  Assets:Bank  100 EUR"; "  Income"; "2021-02-01 ATM"; "  Assets:Cash  20 EUR"; "  Assets:Bank  -20 e = 80 EUR"]%string.
Definition l79c : pledger := get pl_new (tokenize_file 2 (w65 t79c) (L "book")).
Fixpoint literal_free (n : node) : bool :=
  match n with
  | NMoney _ _ => false
  | NUnary _ c => literal_free c
  | NBinary _ a b => literal_free a && literal_free b
  | _ => true
  end.
Lemma literal_free_ok n : literal_free n = true -> no_literal n.
Proof. induction n; cbn; auto; try discriminate. intros H. apply andb_prop in H. destruct H. auto. Qed.
Definition one_check (w : world) (l : pledger) (c : str) : bool :=
  let ok (m : option (Qc * str)) := match m with Some (_, n) => str_eqb (commodity_meant w l n) c | None => true end in
  forallb (fun t => forallb (fun p => ok (rp_money p) && ok (rp_cost p) && ok (rp_balance p)) (t_postings t)) (journal_txns l) &&
  forallb (fun t => forallb (fun p => match rp_money p with
    | Some (_, n) => str_eqb n [] || str_eqb (commodity_meant w l n) c
    | None => match rp_expr p with Some e => match build_root w e with Ok n => literal_free n | _ => true end | None => true end end) (t_postings t)) (rules l).
Lemma one_check_ok w l c : one_check w l c = true -> one_commodity w l c.
Proof.
  intros H. unfold one_check in H. apply andb_prop in H. destruct H as [H K]. split.
  - intros t p q n Ht Hp D. rewrite forallb_forall in H. specialize (H t Ht). rewrite forallb_forall in H. specialize (H p Hp).
    apply andb_prop in H. destruct H as [H H3]. apply andb_prop in H. destruct H as [H1 H2].
    destruct D as [E|[E|E]]; rewrite E in *; apply str_eqb_eq; auto.
  - intros t p Ht Hp. rewrite forallb_forall in K. specialize (K t Ht). rewrite forallb_forall in K. specialize (K p Hp). destruct (rp_money p) as [[q n]|].
    + apply orb_prop in K. destruct K as [K|K]; [left|right]; apply str_eqb_eq; auto.
    + intros e n E B. rewrite E, B in K. apply literal_free_ok. auto.
Qed.
Example C79_one_commodity_case : other_run (w65 t79c) (reversed (w65 t79c)) /\ file_parses 2 (w65 t79c) (L "book") l79c /\ clear_names (w65 t79c) l79c /\
  one_commodity (w65 t79c) l79c (L "EUR") /\
  run_cmd 2 (reversed (w65 t79c)) (CBalance true false) plain_opts (L "book") = Ok (map L
    ["           80.00 EUR  Assets:Bank"; "            7.50 EUR  Assets:Cash"; "            2.00 EUR  Expenses:Drinks"; "           10.50 EUR  Expenses:Food";
     "         -100.00 EUR  Income"; "--------------------"; "                   0"]%string).
Proof.
  split; [apply reversed_run|]. split; [apply file_parses_iff; vm_compute; reflexivity|]. split; [apply clear_check_ok; vm_compute; reflexivity|].
  split; [apply one_check_ok; vm_compute; reflexivity|]. vm_compute; reflexivity.
Qed.

(** Automated transactions: a share of what is spent on food is added in the commodity of each purchase, by a factor and
    by an expression, and every line of the bank is counted in another commodity. *)
Lemma reversed_rules t : other_run (w84 t) (reversed (w84 t)).
Proof.
  split; [apply w84_ok|]. split; [split; [intros; symmetry; apply Permutation_rev|exact ascii_lower_idem]|]. eexists. reflexivity.
Qed.
Definition t79r : list String.string :=
  ["= food"; "  (Budget:Food)  -1"; "  Expenses:Tips  (amount * 0.1)"; "  Assets:Bank  -0.1"; "= bank"; "  (Seen)  1 CHF";
   "2021-03-02 Shop"; "  Expenses:Food  10 EUR"; "  Assets:Cash"; "2021-01-01 Job"; "  Assets:Bank  100 EUR"; "  Income  -100 EUR";
   "2021-02-01 Change"; "  Assets:Cash  30 USD"; "  Assets:Bank  -20 EUR"]%string.
Definition l79r : pledger := get pl_new (tokenize_file 2 (w84 t79r) (L "book")).
Example C79_rules_case : other_run (w84 t79r) (reversed (w84 t79r)) /\ file_parses 2 (w84 t79r) (L "book") l79r /\ clear_names (w84 t79r) l79r /\ length (rules l79r) = 2%nat /\ settled (w84 t79r) l79r /\
  run_cmd 2 (w84 t79r) (CBalance true true) plain_opts (L "book") = Ok (map L
    ["           79.00 EUR  Assets:Bank"; "           30.00 USD"; "          -10.00 EUR  Assets:Cash"; "          -10.00 EUR  Budget:Food"; "           10.00 EUR  Expenses:Food"; "            1.00 EUR  Expenses:Tips"; "         -100.00 EUR  Income"; "            2.00 CHF  Seen"]%string) /\
  run_cmd 2 (reversed (w84 t79r)) (CBalance true true) plain_opts (L "book") = Ok (map L
    ["           79.00 EUR  Assets:Bank"; "          -10.00 EUR"; "           30.00 USD  Assets:Cash"; "          -10.00 EUR  Budget:Food"; "           10.00 EUR  Expenses:Food"; "            1.00 EUR  Expenses:Tips"; "         -100.00 EUR  Income"; "            2.00 CHF  Seen"]%string).
Proof.
  split; [apply reversed_rules|]. split; [apply file_parses_iff; vm_compute; reflexivity|]. split; [apply clear_check_ok; vm_compute; reflexivity|].
  split; [vm_compute; reflexivity|]. split; [apply settled_check_ok; vm_compute; reflexivity|]. split; vm_compute; reflexivity.
Qed.
Definition t79q : list String.string :=
  ["= food"; "  (Budget:Food)  -1"; "  Expenses:Tips  (amount * 0.1)"; "  Assets:Bank  -0.1"; "= bank"; "  (Seen)  1 EUR";
   "2021-03-02 Shop"; "  Expenses:Food  10 EUR"; "  Assets:Cash"; "2021-01-01 Job"; "  Assets:Bank  100 EUR"; "  Income";
   "2021-02-01 Change"; "  Assets:Cash  20 EUR"; "  Assets:Bank  = 80 EUR"]%string.
Definition l79q : pledger := get pl_new (tokenize_file 2 (w84 t79q) (L "book")).
Example C79_one_commodity_rules_case : other_run (w84 t79q) (reversed (w84 t79q)) /\ file_parses 2 (w84 t79q) (L "book") l79q /\ clear_names (w84 t79q) l79q /\ length (rules l79q) = 2%nat /\
  one_commodity (w84 t79q) l79q (L "EUR") /\
  run_cmd 2 (reversed (w84 t79q)) CRegister plain_opts (L "book") = Ok (map L
    ["2021-01-01 Job                                       Assets:Bank                              100.00 EUR       100.00 EUR";
     "                                                     Income                                  -100.00 EUR                0";
     "                                                     (Seen)                                     1.00 EUR         1.00 EUR";
     "2021-02-01 Change                                    Assets:Cash                               20.00 EUR        21.00 EUR";
     "                                                     Assets:Bank                              -20.00 EUR         1.00 EUR";
     "                                                     (Seen)                                     1.00 EUR         2.00 EUR";
     "2021-03-02 Shop                                      Expenses:Food                             10.00 EUR        12.00 EUR";
     "                                                     Assets:Cash                              -10.00 EUR         2.00 EUR";
     "                                                     Expenses:Tips                              1.00 EUR         3.00 EUR";
     "                                                     Assets:Bank                               -1.00 EUR         2.00 EUR";
     "                                                     (Budget:Food)                            -10.00 EUR        -8.00 EUR"]%string).
Proof.
  split; [apply reversed_rules|]. split; [apply file_parses_iff; vm_compute; reflexivity|]. split; [apply clear_check_ok; vm_compute; reflexivity|].
  split; [vm_compute; reflexivity|]. split; [apply one_check_ok; vm_compute; reflexivity|]. vm_compute; reflexivity.
Qed.

(** A report in euros.  The rate of the exchange is listed in the other direction in the second run, the posting without
    an amount stands for two commodities, and one commodity has no price: the report is the same. *)
Definition t79x : list String.string :=
  ["P 2021-01-20 XAU 60 EUR"; "2021-01-01 Job"; "  Assets:Bank  1000 EUR"; "  Assets:Bank  5 USD"; "  Income"; "2021-01-12 Shares"; "  Assets:Shares  4 ACME @ 10 USD"; "  Assets:Cash";
   "2021-01-15 Dollars"; "  Assets:Cash  60 USD"; "  Assets:Bank  -30 EUR"; "2021-01-16 Found"; "  Assets:Shells  7 SHELL"; "  Assets:Gold  3 XAU"; "  Income"]%string.
Definition w79x : world :=
  {| w_lower := ascii_lower; w_numeric := fun _ => false; w_rx := fun _ _ => false; w_rx_ok := fun _ => true;
     w_width := None; w_read := fun f => if str_eqb f (L "book") then Some (text t79x) else None;
     w_glob := fun _ => None; w_two_timer := fun _ => None; w_now := 800000%Z; w_ord := fun _ _ l => l |}.
Definition o79x : opts :=
  {| o_real := false; o_begin := None; o_end := None; o_query := []; o_depth := None; o_exchange := Some (L "EUR"); o_no_balance_check := false |}.
Definition l79x : pledger := get pl_new (tokenize_file 2 w79x (L "book")).
(** What each commodity is worth, in half euros. *)
Definition v79x (c : str) : Qc :=
  if str_eqb c (L "EUR") then Q2Qc 2 else if str_eqb c (L "ACME") then Q2Qc 10 else if str_eqb c (L "XAU") then Q2Qc 120 else Q2Qc 1.
Lemma value_check v date ps : (forall c, v c <> 0) -> forallb (fun p => qc_eqb (v (pr_com p)) (pr_amount p * v (pr_cur p))) ps = true -> one_value date ps.
Proof.
  intros N H. exists v. split; auto. intros p (pre & post & -> & _). rewrite forallb_forall in H. specialize (H p (in_elt p pre post)).
  destruct (qc_eqb_spec (v (pr_com p)) (pr_amount p * v (pr_cur p))); auto. discriminate.
Qed.
Example C79_exchange_case : other_run w79x (reversed w79x) /\ file_parses 2 w79x (L "book") l79x /\ clear_names w79x l79x /\ rules l79x = [] /\ plain_query w79x o79x /\
  (forall lg, to_ledger w79x false l79x = Ok lg -> clear_exchange w79x l79x o79x lg) /\
  run_cmd 2 w79x CPrices o79x (L "book") = Ok (map L ["2021-01-20 XAU 60.00 EUR"; "2021-01-12 ACME 10.00 USD"; "2021-01-15 USD 0.50 EUR"]%string) /\
  run_cmd 2 (reversed w79x) CPrices o79x (L "book") = Ok (map L ["2021-01-20 XAU 60.00 EUR"; "2021-01-12 ACME 10.00 USD"; "2021-01-15 EUR 2.00 USD"]%string) /\
  run_cmd 2 (reversed w79x) (CBalance true false) o79x (L "book") = Ok (map L
    ["          972.50 EUR  Assets:Bank"; "           10.00 EUR  Assets:Cash"; "          180.00 EUR  Assets:Gold"; "           20.00 EUR  Assets:Shares"; "          7.00 SHELL  Assets:Shells";
     "        -1182.50 EUR"; "         -7.00 SHELL  Income"; "--------------------"; "                   0"]%string).
Proof.
  split; [split; [split; [intros; apply Permutation_refl|exact ascii_lower_idem]|]; split; [split; [intros; symmetry; apply Permutation_rev|exact ascii_lower_idem]|]; eexists; reflexivity|].
  split; [apply file_parses_iff; vm_compute; reflexivity|]. split; [apply clear_check_ok; vm_compute; reflexivity|].
  split; [vm_compute; reflexivity|]. split; [intros n H; discriminate|]. split; [|split; [|split]; vm_compute; reflexivity].
  intros lg E x Ex. injection Ex as <-.
  assert (K : match to_ledger w79x false l79x with Ok lg => forallb (fun p => qc_eqb (v79x (pr_com p)) (pr_amount p * v79x (pr_cur p))) (lg_prices lg) && is_ok (l_get w79x (L "EUR") (lg_commodities lg)) | _ => false end = true) by (vm_compute; reflexivity).
  rewrite E in K. apply andb_prop in K. destruct K as [K1 K2]. split.
  - apply (value_check v79x); [|exact K1]. intros c. unfold v79x. repeat match goal with |- context [if ?b then _ else _] => destruct b end; intros Z; apply (f_equal this) in Z; vm_compute in Z; discriminate.
  - left. destruct (l_get w79x (L "EUR") (lg_commodities lg)) as [c| |]; [exists c; reflexivity|discriminate|discriminate].
Qed.

(** Without these conditions two runs print different texts: amounts of two commodities in one line come in either
    order, the rate of an exchange is listed in either direction, and of two accounts that differ in letter case only
    the list shows either one. *)
Definition t79n : list String.string := ["2021-01-01 Job"; "  Cash  1 EUR"; "  cash  1 EUR"; "  Income"]%string.
Theorem C79_same_text_refuted :
  (other_run (w65 t79) (reversed (w65 t79)) /\ file_parses 2 (w65 t79) (L "book") l79 /\ clear_names (w65 t79) l79 /\ rules l79 = [] /\
  run_cmd 2 (reversed (w65 t79)) (CBalance true true) plain_opts (L "book") <> run_cmd 2 (w65 t79) (CBalance true true) plain_opts (L "book") /\
  run_cmd 2 (reversed (w65 t79)) CPrices plain_opts (L "book") <> run_cmd 2 (w65 t79) CPrices plain_opts (L "book")) /\
  (other_run (w65 t79n) (reversed (w65 t79n)) /\
  run_cmd 2 (reversed (w65 t79n)) CAccounts plain_opts (L "book") <> run_cmd 2 (w65 t79n) CAccounts plain_opts (L "book")).
Proof.
  split; [|split; [apply reversed_run|vm_compute; discriminate]].
  destruct C79_case as (A & B & C & D & _). split; [exact A|]. split; [exact B|]. split; [exact C|]. split; [exact D|]. split; vm_compute; discriminate.
Qed.
Print Assumptions C79_same_text_refuted.

(** With two ways from a commodity to the currency that do not agree, the amounts themselves depend on the run. *)
Definition t79y : list String.string :=
  ["P 2021-01-20 A 2 EUR"; "P 2021-01-20 K 3 A"; "P 2021-01-20 B 5 EUR"; "P 2021-01-20 K 7 B"; "2021-01-01 Job"; "  Assets:Bank  1 K"; "  Income  -1 K"]%string.
Definition w79y : world :=
  {| w_lower := ascii_lower; w_numeric := fun _ => false; w_rx := fun _ _ => false; w_rx_ok := fun _ => true;
     w_width := None; w_read := fun f => if str_eqb f (L "book") then Some (text t79y) else None;
     w_glob := fun _ => None; w_two_timer := fun _ => None; w_now := 800000%Z; w_ord := fun _ _ l => l |}.
Definition l79y : pledger := get pl_new (tokenize_file 2 w79y (L "book")).
Definition half_reversed (w : world) : world := with_order w (fun s _ l => if Nat.even s then rev l else l).
Theorem C79_exchange_refuted : other_run w79y (half_reversed w79y) /\ file_parses 2 w79y (L "book") l79y /\ clear_names w79y l79y /\ settled w79y l79y /\
  run_cmd 2 w79y (CBalance true true) o79x (L "book") = Ok (map L ["           35.00 EUR  Assets:Bank"; "          -35.00 EUR  Income"]%string) /\
  run_cmd 2 (half_reversed w79y) (CBalance true true) o79x (L "book") = Ok (map L ["            6.00 EUR  Assets:Bank"; "           -6.00 EUR  Income"]%string).
Proof.
  split; [split; [split; [intros; apply Permutation_refl|exact ascii_lower_idem]|]; split; [split; [|exact ascii_lower_idem]|]; [|eexists; reflexivity]|].
  - intros s A l. cbn. destruct (Nat.even s); [symmetry; apply Permutation_rev|apply Permutation_refl].
  - split; [apply file_parses_iff; vm_compute; reflexivity|]. split; [apply clear_check_ok; vm_compute; reflexivity|].
    split; [apply settled_check_ok; vm_compute; reflexivity|]. split; vm_compute; reflexivity.
Qed.
Print Assumptions C79_exchange_refuted.
