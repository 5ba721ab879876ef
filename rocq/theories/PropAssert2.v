(** C83: the reports of some accounts, or cut to a depth, for journals that state balances. *)
From Coq Require Import Lia Sorting.Sorted.
From Verif Require Import Base BaseFacts Numerals Money Alist Comment Txn Expr Filter Price Tokens Ledger Reports App Spec MoneyFacts SpecList SpecTxn TxnFacts SpecLedger
  TokenFacts JournalFacts LedgerFacts LedgerFacts2 LedgerFacts3 PropAlist PropTxn PropLedger SpecQuery SpecExpr ExprFacts PropExpr PropQuery SpecReports ReportFacts ReportFacts2 ReportFacts3 PropReports PropApp
  SpecText SpecDates SpecTokens SpecJournal JournalRead PropJournal SpecLayout PropLayout SpecPrice PropPrice SpecBook BookFacts PropBook PropBook2 SpecAsk PropAsk SpecExchange ExchangeFacts PropExchange
  SpecWords PropRuleQuery SpecAssert AssertFacts PropAssert SpecRules ShownFacts RuleFacts RuleFacts2 PropRules SpecExchange2 PropExchange2.
Open Scope Qc_scope.

Theorem C83_asked_balance : forall depth w o file l us flat no_total A, world_ok w -> file_parses depth w file l -> stated_journal w l ->
  date_sorted (pl_txns l) us ->
  let skip := o_no_balance_check o in
  all_in_order w l skip nothing us -> asked_accounts w (o_query o) A -> o_exchange o = None -> (flat = true -> can_be_cut w o l) ->
  let total := fun P => total_added w l skip o (fun n => A n && P n) nothing us in
  exists r lines, run_cmd depth w (CBalance flat no_total) o file = Ok lines /\ balance_printed r lines /\
    (if flat then flat_cut_shows o total r else tree_cut_shows o total r) /\ total_shows total (negb no_total) r.
Proof.
  intros depth w o file l us flat nt A Hw HF P DU skip IO HA OX HC total. pose proof (file_parsed _ _ _ _ HF) as Hp. apply file_parses_iff in HF.
  destruct (stated_outcome w skip l us Hw Hp P DU) as [(_ & lg & E & B)|(N & _)]; [|contradiction]. pose proof (made_plain _ _ _ _ Hp E) as M.
  destruct (shown_report w (report_site lg) o flat (negb nt) lg A Hw (stated_whole _ _ _ _ Hw Hp P E B) HA OX) as (r & Er).
  { intros Ef d Ed. destruct (HC Ef d Ed) as [C1 C2]. split; auto. intros t p Ht Hi. destruct (stated_named w l skip lg Hp P B t p Ht Hi) as (n & N1 & ->). auto. }
  destruct (C69_printed depth w o file l lg Hw HF E) as [HP _]. destruct (HP flat nt r Er) as (lines & L1 & L2). exists r, lines. do 2 (split; auto).
  apply (shown_balance w (report_site lg) o flat (negb nt) lg A r (fun P => total_added w l skip o P nothing us)); auto.
  intros Q c. apply (stated_totals w l skip lg us); auto.
Qed.
Print Assumptions C83_asked_balance.
Theorem C83_asked_register : forall depth w o file l us A, world_ok w -> file_parses depth w file l -> stated_journal w l ->
  date_sorted (pl_txns l) us ->
  let skip := o_no_balance_check o in
  all_in_order w l skip nothing us -> asked_accounts w (o_query o) A ->
  exists rows groups ess, run_cmd depth w CRegister o file = Ok (concat groups) /\ Forall2 (entry_printed (w_width w)) rows groups /\
    all_entries w l skip nothing us ess /\ register_asked_shows w o l A us ess rows.
Proof.
  intros depth w o file l us A Hw HF P DU skip IO HA. pose proof (file_parsed _ _ _ _ HF) as Hp. apply file_parses_iff in HF.
  destruct (stated_outcome w skip l us Hw Hp P DU) as [(_ & lg & E & B)|(N & _)]; [|contradiction]. pose proof (made_plain _ _ _ _ Hp E) as M.
  pose proof (stated_whole _ _ _ _ Hw Hp P E B) as WT. destruct (shown_rows w (report_site lg) o lg A Hw M WT HA) as (rows & R).
  destruct (C69_printed depth w o file l lg Hw HF E) as [_ HR]. destruct (HR rows R) as (groups & G1 & G2).
  destruct (stated_all w l P) as [_ R0]. inversion B as [ts dir costs sorted run imps _ _ JR DS RZ LR _|]; [|congruence].
  assert (FU : Forall2 (stated_txn_named w l) us sorted).
  { apply (sort_related (stated_txn_named w l) (pl_txns l) us ts sorted); auto; [intros u t ((X & _) & _); auto|eapply read_stated_named; eauto|eapply stated_dated; eauto]. }
  destruct (entries_all w l skip us sorted run _ _ nothing FU RZ LR) as [FE FH].
  exists rows, groups, (ledger_lines (lg_txns lg)). do 3 (split; auto). eapply shown_register; eauto.
Qed.
Print Assumptions C83_asked_register.
(** The journal of C83, cut to one level, and the register of one account. *)
Definition one_level : opts :=
  {| o_real := false; o_begin := None; o_end := None; o_query := [L "assets"; L "or"; L "/Lost/"]; o_depth := Some 1%nat; o_exchange := None; o_no_balance_check := false |}.
Definition l83q : pledger := get pl_new (tokenize_file 2 (w84 t83) (L "book")).
Definition us83q : list (txn rposting) := by_date (pl_txns l83q).
Example C83_case_asked : world_ok (w84 t83) /\ file_parses 2 (w84 t83) (L "book") l83q /\ stated_journal (w84 t83) l83q /\ date_sorted (pl_txns l83q) us83q /\
  asked_accounts (w84 t83) (o_query one_level) (fun n => w_rx (w84 t83) (L "(?i)assets") n || w_rx (w84 t83) (L "Lost") n) /\ can_be_cut (w84 t83) one_level l83q /\ o_exchange one_level = None /\
  all_in_order (w84 t83) l83q (o_no_balance_check one_level) nothing us83q /\
  run_cmd 2 (w84 t83) (CBalance true false) one_level (L "book") = Ok (map L
    ["           18.50 EUR"; "           2.00 ACME  Assets"; "            1.50 EUR  Expenses"; "--------------------"; "           20.00 EUR"; "           2.00 ACME"]%string) /\
  run_cmd 2 (w84 t83) CRegister one_level (L "book") = Ok (map L
    ["2021-01-01 Opening                                   Assets:Cash                               50.00 EUR        50.00 EUR";
     "2021-01-02 Shop                                      Assets:Cash                              -10.00 EUR        40.00 EUR";
     "2021-01-03 Counted                                   Assets:Cash                               -1.50 EUR        38.50 EUR";
     "                                                     Expenses:Lost                              1.50 EUR        40.00 EUR";
     "2021-01-04 Shares                                    Assets:Broker                             2.00 ACME        40.00 EUR";
     "                                                                                                                2.00 ACME";
     "                                                     Assets:Cash                              -20.00 EUR        20.00 EUR";
     "                                                                                                                2.00 ACME"]%string).
Proof.
  assert (HF : file_parses 2 (w84 t83) (L "book") l83q) by (apply file_parses_iff; vm_compute; reflexivity).
  assert (P : stated_journal (w84 t83) l83q) by (apply stated_check_ok; vm_compute; reflexivity).
  assert (D : date_sorted (pl_txns l83q) us83q) by (apply by_date_sorted; exact (stated_dated _ _ (file_parsed _ _ _ _ HF) P)).
  split; [exact (w84_ok _)|]. split; [exact HF|]. split; [exact P|]. split; [exact D|].
  split; [apply aa_or; [apply PropAsk.plain_word; reflexivity|apply aw_regex; [reflexivity|split; [cbn; intuition discriminate|reflexivity]]]|].
  split.
  { intros d E. injection E as <-. split; [constructor|]. intros n (t & p & Ht & Hp & <-).
    assert (X : forallb (fun t => forallb (fun p => match account_meant (w84 t83) l83q (rp_account p) with c :: _ => negb (c =? 58)%N | [] => false end) (t_postings t)) (pl_txns l83q) = true) by (vm_compute; reflexivity).
    rewrite forallb_forall in X. apply X in Ht. rewrite forallb_forall in Ht. apply Ht in Hp. clear -Hp. destruct (account_meant (w84 t83) l83q (rp_account p)) as [|c r]; [discriminate|].
    split; [discriminate|]. intros (x & E). injection E as -> _. discriminate. }
  split; [reflexivity|]. split; [refine (order_of_run 2 (w84 t83) CCheck plain_opts (L "book") l83q us83q (w84_ok _) HF P D _); vm_compute; reflexivity|]. split; vm_compute; reflexivity.
Qed.
