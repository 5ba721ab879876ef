(** C73: the balance report adds up what the journal says. *)
From Coq Require Import Lia.
From Verif Require Import Base BaseFacts Numerals Money Alist Comment Txn Expr Filter Price Tokens Ledger Reports App Spec MoneyFacts SpecList SpecTxn TxnFacts SpecLedger
  TokenFacts JournalFacts LedgerFacts LedgerFacts2 LedgerFacts3 PropTxn PropLedger SpecQuery SpecReports ReportFacts ReportFacts2 ReportFacts3 PropReports PropApp
  SpecText SpecDates SpecTokens SpecJournal JournalRead PropJournal SpecLayout PropLayout SpecBook BookFacts.
Open Scope Qc_scope.

(** ** The ledger is made exactly if all transactions are in order *)
Lemma accepted_all w l skip us sorted run ts' imps : Forall2 (plain_txn w l) us sorted -> ledger_run skip run sorted ts' imps -> Forall (in_order w l) us.
Proof.
  intros F R. revert us F. induction R as [|run run' t t' prs ts ts' prices (V & _) _ R IH]; intros us F; inversion F; subst; constructor; auto.
  eapply verdict_plain; eauto.
Qed.
Lemma refused_some w l skip us sorted run v : Forall2 (plain_txn w l) us sorted -> stopped_run skip run sorted v -> ~ Forall (in_order w l) us.
Proof.
  intros F R. revert us F. induction R as [run t ts v V N|run run' t t' prs ts v (V & _) _ R IH]; intros us F A; inversion F as [|u ? us' ? PT F']; subst; inversion A as [|? ? A1 A2]; subst.
  - apply N. eapply verdict_plain; eauto.
  - exact (IH us' F' A2).
Qed.
Lemma plain_outcome w skip l : world_ok w -> parsed w l -> plain_journal w l ->
  (Forall (in_order w l) (pl_txns l) /\ exists lg, to_ledger w skip l = Ok lg /\ ledger_built w skip l lg) \/
  (~ Forall (in_order w l) (pl_txns l) /\ exists e, to_ledger w skip l = Err e).
Proof.
  intros Hw Hp P. destruct (journal_all w l P) as [_ R0]. destruct (to_ledger_plain w skip l Hw (parsed_ok _ _ Hp) R0) as [(lg & E & B)|[(e & v & E & _ & R)|(E & t & p & Ht & Hi & Z)]].
  - left. split; eauto. destruct B as [ts dir costs sorted run imps _ _ JR DS _ LR _|]; [|congruence].
    pose proof (read_all _ _ _ _ _ _ _ _ P JR) as F. destruct DS as [PM _]. destruct (perm_forall2 _ _ _ _ F PM) as (us & PU & FU).
    eapply Permutation_Forall; [symmetry; exact PU|]. eapply accepted_all; eauto.
  - right. split; eauto. destruct R as (al & cs & pays & ts & dir & costs & sorted & run & JR & DS & _ & SR).
    pose proof (read_all _ _ _ _ _ _ _ _ P JR) as F. destruct DS as [PM _]. destruct (perm_forall2 _ _ _ _ F PM) as (us & PU & FU).
    intros A. eapply refused_some; eauto. eapply Permutation_Forall; eauto.
  - destruct (pj_postings _ _ P t p Ht Hi) as (_ & _ & _ & X). contradiction.
Qed.
Lemma plain_dated w l : parsed w l -> plain_journal w l -> forall t, In t (pl_txns l) -> exists d, t_date t = Some d.
Proof.
  intros Hp P t Ht. pose proof (jo_txns w l (parsed_ok _ _ Hp)) as D. rewrite Forall_forall in D. apply D in Ht as X. unfold rtxn_ok in X.
  rewrite (pj_txns _ _ P t Ht) in X. apply X.
Qed.
(** All the postings of the ledger have amounts, all its transactions dates. *)
Lemma ledger_whole w l skip lg : parsed w l -> plain_journal w l -> ledger_built w skip l lg ->
  forall t, In t (lg_txns lg) -> (exists d, t_date t = Some d) /\ forall p, In p (t_postings t) -> p_amount p <> None.
Proof.
  intros Hp P B. destruct (journal_all w l P) as [_ R0]. destruct B as [ts dir costs sorted run imps _ _ JR DS _ LR _|]; [|congruence].
  pose proof (read_all _ _ _ _ _ _ _ _ P JR) as F. destruct DS as [PM _]. destruct (perm_forall2 _ _ _ _ F PM) as (us & PU & FU).
  assert (DU : forall t, In t us -> exists d, t_date t = Some d).
  { intros t Ht. apply (plain_dated w l Hp P). eapply Permutation_in; [symmetry; exact PU|auto]. }
  apply run_txns in LR. clear - FU LR DU. revert us FU DU. induction LR as [|t1 t2 sorted ts2 (run0 & prs & LT) LR IH]; intros us FU DU t Ht; [destruct Ht|].
  inversion FU as [|u ? us' ? PT FU']; subst. destruct Ht as [<-|Ht]; [|eapply IH; eauto; intros; apply DU; right; auto].
  destruct LT as (_ & (D & _) & (kept & fills & E & F2 & HF & _) & _). destruct PT as (D' & R & PP). split; [rewrite D, D'; apply DU; left; auto|].
  intros p Hi. rewrite E in Hi. rewrite !in_app_iff in Hi. destruct Hi as [Hi|[Hi|Hi]].
  - clear -F2 Hi. induction F2 as [|x y ps ps' K F IH]; destruct Hi; subst; [apply K|auto].
  - apply (HF p Hi).
  - apply filter_In in Hi. destruct Hi as [Hi N]. clear -R PP Hi N. induction R as [|x y ps ps' Q F IH]; [destruct Hi|]. inversion PP as [|? ? (_ & _ & X & _) PP']; subst.
    destruct Hi as [->|Hi]; auto. destruct Q as (_ & K & _ & A & _). rewrite A. rewrite K in N.
    destruct (rp_money x); [discriminate|]. exfalso. apply X; auto. intros E. rewrite E in N. discriminate.
Qed.
Lemma report_whole w site o flat tot lg : whole_report o ->
  (forall t, In t (lg_txns lg) -> (exists d, t_date t = Some d) /\ forall p, In p (t_postings t) -> p_amount p <> None) ->
  exists r, balance_report w site o flat tot lg = Ok r.
Proof.
  intros (Q & D & X) H. unfold balance_report, query_node. rewrite Q, D, X. cbn.
  destruct (select_whole w o (lg_txns lg) (lg_commodities lg)) as (sel & -> & I); [intros t Ht; apply (H t Ht)|]. cbn [bind].
  unfold account_balances. destruct (balances_whole (flat_map snd sel)) with (bals := @nil (str * balance)) as (bals & ->).
  { intros p Hi. destruct (I p Hi) as (t & T1 & T2). apply (H t T1). auto. }
  cbn [bind]. destruct flat; cbn [flat_balances bind]; destruct (_ && _); eauto.
Qed.
Lemma query_none w o q : whole_report o -> query_node w o = Ok q -> q = None.
Proof. intros (Q & _) E. unfold query_node in E. rewrite Q in E. cbn in E. congruence. Qed.

(** ** C73 *)
(** The flat report: one row for each account with a balance, in order of the names, with the balance the journal
    gives it. *)
Definition adds_up (w : world) (o : opts) (l : pledger) (r : breport) : Prop :=
  ascending (map br_label (bp_rows r)) /\
  (forall row, In row (bp_rows r) -> shown_amounts (br_moneys row) /\ br_moneys row <> [] /\
     forall c, moneys_amt (br_moneys row) c = book_total w o l (str_eqb (br_label row)) c) /\
  (forall a c, book_total w o l (str_eqb a) c <> 0 -> In a (map br_label (bp_rows r))).
(** The report with sub-accounts: the row of an account shows what the journal puts into it and its sub-accounts. *)
Definition adds_up_tree (w : world) (o : opts) (l : pledger) (r : breport) : Prop :=
  exists accs, ascending accs /\
    Forall2 (fun a row => br_indent row = levels a /\ (exists part more, own_part a part /\ br_label row = part ++ more) /\
      shown_amounts (br_moneys row) /\ br_moneys row <> [] /\
      (~ begins_with_colon a -> forall c, moneys_amt (br_moneys row) c = book_total w o l (inside a) c)) accs (bp_rows r).
(** The total. *)
Definition total_adds_up (w : world) (o : opts) (l : pledger) (tot : bool) (r : breport) : Prop :=
  (bp_total r <> None <-> tot = true /\ (2 <= length (bp_rows r))%nat) /\
  forall ms, bp_total r = Some ms -> (ms = [MZero] \/ shown_amounts ms /\ ms <> []) /\
    forall c, moneys_amt ms c = book_total w o l (fun _ => true) c.

Lemma made_plain w skip l lg : parsed w l -> to_ledger w skip l = Ok lg -> made_from w lg.
Proof. intros Hp E. exists skip, l. auto. Qed.
Lemma subtotal_book w o l skip lg tps A c : plain_journal w l -> ledger_built w skip l lg -> reported_postings w o None lg tps ->
  subtotal (map snd tps) A c = book_total w o l A c.
Proof. intros P B R. rewrite (reported_totals _ _ _ _ _ _ R). rewrite (ledger_totals w l skip) by auto. reflexivity. Qed.
Lemma subtotal_eqb ps a c : subtotal ps (fun n => str_eqb n a) c = subtotal ps (str_eqb a) c.
Proof.
  unfold subtotal. f_equal. f_equal. apply filter_ext. intros p. destruct (str_eqb_spec (p_account p) a), (str_eqb_spec a (p_account p)); congruence.
Qed.
Lemma flat_adds_up w site o tot l skip lg r : world_ok w -> parsed w l -> plain_journal w l -> whole_report o -> to_ledger w skip l = Ok lg -> ledger_built w skip l lg ->
  balance_report w site o true tot lg = Ok r -> adds_up w o l r /\ total_adds_up w o l tot r.
Proof.
  intros Hw Hp P O E B H. pose proof O as (_ & OD & OX). pose proof (made_plain _ _ _ _ Hp E) as M. split.
  - destruct (C56_flat_rows_partial w site o tot lg r Hw M OX H) as (q & tps & Q & R & A & F1 & F2). pose proof (query_none w o q O Q). subst q.
    assert (C : cuts o (fun n => n)) by (intros n; rewrite OD; auto). split; auto. split.
    + intros row Hi. destruct (F1 row _ Hi C) as (X1 & X2 & X3). do 2 (split; auto). intros c. rewrite X3. rewrite subtotal_eqb. eapply subtotal_book; eauto.
    + intros a c Hn. apply (F2 (fun n => n) a c C). rewrite subtotal_eqb, (subtotal_book w o l skip lg) by auto. auto.
  - destruct (C57_total w site o true tot lg r Hw M OX H) as (q & tps & Q & R & T1 & T2). pose proof (query_none w o q O Q). subst q.
    split; auto. intros ms Em. destruct (T2 ms Em) as [X Y]. split; auto. intros c. rewrite Y. eapply subtotal_book; eauto.
Qed.
Lemma tree_adds_up w site o tot l skip lg r : world_ok w -> parsed w l -> plain_journal w l -> whole_report o -> to_ledger w skip l = Ok lg -> ledger_built w skip l lg ->
  balance_report w site o false tot lg = Ok r -> adds_up_tree w o l r /\ total_adds_up w o l tot r.
Proof.
  intros Hw Hp P O E B H. pose proof O as (_ & OD & OX). pose proof (made_plain _ _ _ _ Hp E) as M. split.
  - destruct (C55_tree_rows_partial w site o tot lg r Hw M OX H) as (q & tps & accs & Q & R & A & F). pose proof (query_none w o q O Q). subst q.
    exists accs. split; auto. eapply forall2_weaken; [|exact F]. intros a row (H1 & H2 & _ & H4 & H5 & H6). do 4 (split; auto). intros Hc c. rewrite H6 by auto. eapply subtotal_book; eauto.
  - destruct (C57_total w site o false tot lg r Hw M OX H) as (q & tps & Q & R & T1 & T2). pose proof (query_none w o q O Q). subst q.
    split; auto. intros ms Em. destruct (T2 ms Em) as [X Y]. split; auto. intros c. rewrite Y. eapply subtotal_book; eauto.
Qed.

(** A file with a plain journal all whose transactions are in order has a balance report, which adds up what the
    journal says. *)
Theorem C73_balance_adds_up : forall depth w o file l flat no_total, world_ok w -> file_parses depth w file l -> plain_journal w l -> whole_report o ->
  Forall (in_order w l) (pl_txns l) ->
  exists r lines, run_cmd depth w (CBalance flat no_total) o file = Ok lines /\ balance_printed r lines /\
    (if flat then adds_up w o l r else adds_up_tree w o l r) /\ total_adds_up w o l (negb no_total) r.
Proof.
  intros depth w o file l flat nt Hw HF P O A. assert (Hp : parsed w l) by (destruct HF as (c & _ & F); exists depth, (Some file), [file], c; auto).
  apply file_parses_iff in HF. destruct (plain_outcome w (o_no_balance_check o) l Hw Hp P) as [(_ & lg & E & B)|(N & _)]; [|contradiction].
  destruct (report_whole w (report_site lg) o flat (negb nt) lg O (ledger_whole _ _ _ _ Hp P B)) as (r & Er).
  destruct (C69_printed depth w o file l lg Hw HF E) as [HP _]. destruct (HP flat nt r Er) as (lines & L1 & L2). exists r, lines. do 2 (split; auto).
  destruct flat; [eapply flat_adds_up|eapply tree_adds_up]; eauto.
Qed.
Print Assumptions C73_balance_adds_up.
(** Otherwise every command fails with status 1. *)
Theorem C73_refused : forall depth w c o file l, world_ok w -> file_parses depth w file l -> plain_journal w l ->
  ~ Forall (in_order w l) (pl_txns l) -> exit_status (run_cmd depth w c o file) = 1%Z.
Proof.
  intros depth w c o file l Hw HF P N. assert (Hp : parsed w l) by (destruct HF as (t & _ & F); exists depth, (Some file), [file], t; auto).
  apply file_parses_iff in HF. unfold run_cmd. rewrite HF. cbn [bind]. unfold run_on.
  assert (X : forall skip, exists e, to_ledger w skip l = Err e).
  { intros skip. destruct (plain_outcome w skip l Hw Hp P) as [(A & _)|(_ & e & E)]; [contradiction|eauto]. }
  destruct c; [destruct (X (o_no_balance_check o)) as (e & ->)..|destruct (X false) as (e & ->)]; reflexivity.
Qed.
Print Assumptions C73_refused.
(** check accepts exactly the journals in order. *)
Theorem C73_check : forall depth w o file l, world_ok w -> file_parses depth w file l -> plain_journal w l ->
  (exit_status (run_cmd depth w CCheck o file) = 0%Z <-> Forall (in_order w l) (pl_txns l)).
Proof.
  intros depth w o file l Hw HF P. assert (Hp : parsed w l) by (destruct HF as (t & _ & F); exists depth, (Some file), [file], t; auto).
  destruct (plain_outcome w false l Hw Hp P) as [(A & lg & E & _)|(N & e & E)]; apply file_parses_iff in HF; unfold run_cmd; rewrite HF; cbn [bind]; unfold run_on; rewrite E; cbn; split; auto; discriminate || contradiction.
Qed.
Print Assumptions C73_check.
(** From the text of the journal to the text of the report. *)
Theorem C73_from_the_text : forall d w o path s l flat no_total, world_ok w -> blanks_not_numeric w ->
  w_read w path = Some s -> journal_written w pl_new l s -> plain_journal w l -> whole_report o ->
  (Forall (in_order w l) (pl_txns l) ->
   exists r lines, run_cmd (S d) w (CBalance flat no_total) o path = Ok lines /\ balance_printed r lines /\
     (if flat then adds_up w o l r else adds_up_tree w o l r) /\ total_adds_up w o l (negb no_total) r) /\
  (~ Forall (in_order w l) (pl_txns l) -> exit_status (run_cmd (S d) w (CBalance flat no_total) o path) = 1%Z).
Proof.
  intros d w o path s l flat nt Hw Hb Hr J P O.
  assert (F : file_parses (S d) w path l) by (apply file_parses_iff; eapply C67_file_read_as_written; eauto).
  split; [intros A; eapply C73_balance_adds_up; eauto|intros N; eapply C73_refused; eauto].
Qed.
Print Assumptions C73_from_the_text.

(** ** Journals that meet the hypotheses *)
Definition used_accounts (l : pledger) : list str := flat_map (fun t => map rp_account (t_postings t)) (pl_txns l).
Definition money_names (m : option (Qc * str)) : list str := match m with Some (_, c) => [c] | None => [] end.
Definition used_commodities (l : pledger) : list str :=
  flat_map (fun p => [pp_commodity p; pp_other p]) (pl_prices l) ++
  flat_map (fun t => flat_map (fun p => money_names (rp_money p) ++ money_names (rp_cost p) ++ money_names (rp_balance p)) (t_postings t)) (pl_txns l).
Definition same_meaning (w : world) (f : str -> str) (ns : list str) : bool :=
  forallb (fun n => forallb (fun m => negb (str_eqb (w_lower w n) (w_lower w m)) || str_eqb (f n) (f m)) ns) ns.
Definition is_none {A} (x : option A) : bool := match x with None => true | _ => false end.
Definition plain_check (w : world) (l : pledger) : bool :=
  forallb (fun t => match t_type t with TReal => true | _ => false end &&
    forallb (fun p => is_none (rp_balance p) && is_none (rp_expr p) && (kind_eqb (rp_kind p) Real || negb (is_none (rp_money p))) &&
      match rp_money p, rp_cost p, rp_cost_type p with Some (q, _), Some _, Some PTotal => negb (qc_eqb q 0) | _, _, _ => true end) (t_postings t)) (pl_txns l) &&
  same_meaning w (account_meant w l) (used_accounts l) && same_meaning w (commodity_meant w l) (used_commodities l) &&
  forallb (fun a => match ac_payees a with [] => true | _ => false end) (l_values (pl_accounts l)).
Lemma same_meaning_ok w f ns n m : same_meaning w f ns = true -> In n ns -> In m ns -> w_lower w n = w_lower w m -> f n = f m.
Proof.
  intros H Hn Hm E. unfold same_meaning in H. rewrite forallb_forall in H. apply H in Hn. rewrite forallb_forall in Hn. apply Hn in Hm.
  rewrite E in Hm. destruct (str_eqb_spec (w_lower w m) (w_lower w m)); [|congruence]. cbn in Hm. destruct (str_eqb_spec (f n) (f m)); auto. discriminate.
Qed.
Lemma used_account l n : mentions_account l n -> In n (used_accounts l).
Proof. intros (t & p & Ht & Hp & <-). apply in_flat_map. exists t. split; auto. apply in_map. auto. Qed.
Lemma used_commodity l n : mentions_commodity l n -> In n (used_commodities l).
Proof.
  intros [(p & Hp & E)|(t & p & q & Ht & Hp & E)]; apply in_app_iff.
  - left. apply in_flat_map. exists p. split; auto. destruct E as [->| ->]; cbn; auto.
  - right. apply in_flat_map. exists t. split; auto. apply in_flat_map. exists p. split; auto. rewrite !in_app_iff.
    destruct E as [->|[->| ->]]; cbn; auto.
Qed.
Lemma plain_check_ok w l : plain_check w l = true -> plain_journal w l.
Proof.
  intros H. unfold plain_check in H. rewrite !andb_true_iff in H. destruct H as (((H1 & H2) & H3) & H4). rewrite forallb_forall in H1.
  constructor.
  - intros t Ht. apply H1 in Ht. apply andb_true_iff in Ht. destruct Ht as [X _]. destruct (t_type t); auto; discriminate.
  - intros t p Ht Hp. apply H1 in Ht. apply andb_true_iff in Ht. destruct Ht as [_ X]. rewrite forallb_forall in X. apply X in Hp. rewrite !andb_true_iff in Hp.
    destruct Hp as (((P1 & P2) & P3) & P4). split; [destruct (rp_balance p); auto; discriminate|]. split; [destruct (rp_expr p); auto; discriminate|]. split.
    + intros K E. rewrite E in P3. destruct (rp_kind p); try discriminate. congruence.
    + intros (c & k & E1 & E2 & E3). rewrite E1, E2, E3 in P4. discriminate.
  - intros n m Hn Hm. apply (same_meaning_ok w _ (used_accounts l)); auto using used_account.
  - intros n m Hn Hm. apply (same_meaning_ok w _ (used_commodities l)); auto using used_commodity.
  - intros a Ha. rewrite forallb_forall in H4. apply H4 in Ha. destruct (ac_payees a); auto. discriminate.
Qed.
Definition cancels (w : world) (l : pledger) (k : kind) (t : txn rposting) : bool :=
  forallb (fun c => qc_eqb (kind_value w l k t c) 0)
    (map (commodity_meant w l) (flat_map (fun p => money_names (rp_money p) ++ money_names (rp_cost p)) (t_postings t))).
Definition names_of (w : world) (l : pledger) (t : txn rposting) : list str :=
  map (commodity_meant w l) (flat_map (fun p => money_names (rp_money p) ++ money_names (rp_cost p)) (t_postings t)).
Lemma unnamed_zero w l k t c : ~ In c (names_of w l t) -> kind_value w l k t c = 0.
Proof.
  unfold names_of. intros N. unfold kind_value. apply qsum_zero. intros x Hx. apply in_map_iff in Hx. destruct Hx as (p & <- & Hp).
  destruct (kind_eqb (rp_kind p) k); auto.
  assert (W : forall m, In m (opt_list (rp_money p) ++ opt_list (rp_cost p)) -> written_in w l m c = 0).
  { intros [q n] Hm. unfold written_in. cbn [fst snd]. destruct (str_eqb_spec (commodity_meant w l n) c) as [<-|]; auto. exfalso. apply N. apply in_map.
    apply in_flat_map. exists p. split; auto. rewrite in_app_iff in *. destruct (rp_money p) as [[]|], (rp_cost p) as [[]|]; cbn in *; intuition congruence. }
  unfold written_value. destruct (rp_money p) as [[q n]|]; auto. destruct (rp_cost p) as [x|].
  + assert (E : written_in w l x c = 0) by (apply W; cbn; auto). rewrite E. destruct (rp_cost_type p) as [[]|]; try destruct (qc_neg q); ring.
  + apply W. cbn. auto.
Qed.
Lemma cancels_ok w l k t : cancels w l k t = true -> balanced (kind_value w l k t).
Proof.
  intros H c. unfold cancels in H. rewrite forallb_forall in H.
  destruct (in_dec (fun a b => reflect_dec _ _ (str_eqb_spec a b)) c (names_of w l t)) as [I|N]; [|apply unnamed_zero; auto].
  apply H in I. destruct (qc_eqb_spec (kind_value w l k t c) 0); auto. discriminate.
Qed.
Definition order_check (w : world) (l : pledger) (t : txn rposting) : bool :=
  cancels w l VirtualMustBalance t && match filter open_posting (t_postings t) with [] => cancels w l Real t | [_] => true | _ => false end.
Lemma order_check_ok w l ts : forallb (order_check w l) ts = true -> Forall (in_order w l) ts.
Proof.
  intros H. rewrite forallb_forall in H. apply Forall_forall. intros t Ht. apply H in Ht. apply andb_true_iff in Ht. destruct Ht as [H1 H2].
  split; [left; apply cancels_ok; auto|]. destruct (filter open_posting (t_postings t)) as [|x [|y z]]; auto; [left; apply cancels_ok; auto|discriminate].
Qed.
(** Costs, an elided posting, a virtual posting, an alias, several days. *)
Definition t73 : list String.string :=
  ["account Assets:Cash"; "  alias purse"; "2021-03-02 Shop"; "  Expenses:Food  10.50 EUR"; "  Expenses:Drinks  2 USD @ 0.5 EUR"; "  purse";
   "2021-01-01 Job"; "  Assets:Bank  100 EUR"; "  (Budget)  7 EUR"; "  Income  -100 EUR"; "2021-02-01 Cash"; "  Assets:Cash  30 EUR"; "  Assets:Bank"]%string.
Definition l73 : pledger := get pl_new (tokenize_file 2 (w65 t73) (L "book")).
Example C73_case : world_ok (w65 t73) /\ file_parses 2 (w65 t73) (L "book") l73 /\ plain_journal (w65 t73) l73 /\ whole_report plain_opts /\
  Forall (in_order (w65 t73) l73) (pl_txns l73) /\
  map (fun a => map (fun c => this (book_total (w65 t73) plain_opts l73 (str_eqb (L a)) (L c))) ["EUR"; "USD"]%string)
      ["Assets:Bank"; "Assets:Cash"; "Budget"; "Expenses:Drinks"; "purse"]%string =
  [[70 # 1; 0 # 1]; [37 # 2; 0 # 1]; [7 # 1; 0 # 1]; [0 # 1; 2 # 1]; [0 # 1; 0 # 1]]%Q /\
  run_cmd 2 (w65 t73) (CBalance true true) plain_opts (L "book") = Ok (map L
    ["           70.00 EUR  Assets:Bank"; "           18.50 EUR  Assets:Cash"; "            7.00 EUR  Budget"; "            2.00 USD  Expenses:Drinks";
     "           10.50 EUR  Expenses:Food"; "         -100.00 EUR  Income"]%string).
Proof.
  split; [split; [intros; apply Permutation_refl|exact ascii_lower_idem]|]. split; [apply file_parses_iff; vm_compute; reflexivity|].
  split; [apply plain_check_ok; vm_compute; reflexivity|]. split; [repeat split|]. split; [|split; vm_compute; reflexivity].
  apply order_check_ok. vm_compute. reflexivity.
Qed.
(** Not in order. *)
Definition t73b : list String.string := ["2021-01-01 Job"; "  Assets:Bank  100 EUR"; "  Income  -90 EUR"]%string.
Definition l73b : pledger := get pl_new (tokenize_file 2 (w65 t73b) (L "book")).
Example C73_refused_case : file_parses 2 (w65 t73b) (L "book") l73b /\ plain_journal (w65 t73b) l73b /\ ~ Forall (in_order (w65 t73b) l73b) (pl_txns l73b).
Proof.
  assert (F : file_parses 2 (w65 t73b) (L "book") l73b) by (apply file_parses_iff; vm_compute; reflexivity).
  assert (P : plain_journal (w65 t73b) l73b) by (apply plain_check_ok; vm_compute; reflexivity). do 2 (split; auto).
  assert (W : world_ok (w65 t73b)) by (split; [intros; apply Permutation_refl|exact ascii_lower_idem]).
  intros A. apply (C73_check 2 _ plain_opts _ _ W F P) in A. vm_compute in A. discriminate.
Qed.
(** Only a period, only the real postings. *)
Definition opts73 : opts :=
  {| o_real := true; o_begin := Some 737791%Z; o_end := Some 737822%Z; o_query := []; o_depth := None; o_exchange := None; o_no_balance_check := false |}.
Example C73_period_case : whole_report opts73 /\
  run_cmd 2 (w65 t73) (CBalance false true) opts73 (L "book") = Ok (map L ["          -30.00 EUR    Bank"; "           30.00 EUR    Cash"]%string).
Proof. split; [repeat split|vm_compute; reflexivity]. Qed.
(** A journal as text. *)
Definition t73c : list String.string := ["2021-01-01 Shop"; "  Food  10 EUR"; "  Cash"]%string.
Definition post73 (a : str) (m : option (Qc * str)) : rposting :=
  {| rp_account := a; rp_money := m; rp_cost_type := None; rp_cost := None; rp_balance := None; rp_comments := []; rp_expr := None;
     rp_kind := Real; rp_payee := Some (L "Shop") |}.
Definition txn73 : txn rposting :=
  {| t_date := Some 737790%Z; t_edate := None; t_cleared := CUnknown; t_code := None; t_desc := L "Shop"; t_payee := Some (L "Shop");
     t_postings := [post73 (L "Food") (Some (of_Z 10, L "EUR")); post73 (L "Cash") None]; t_comments := []; t_type := TReal; t_tags := [] |}.
Definition l73c : pledger := add_txn txn73 pl_new.
Definition s73c : str := [] ++ (L "2021-01-01 Shop" ++ c_nl :: [] ++ (L "  Food  10 EUR" ++ c_nl :: L "  Cash" ++ nl)) ++ [] ++ [].
Lemma w65_blanks t : blanks_not_numeric (w65 t).
Proof.
  intros c H. unfold is_numeric. destruct (c <? 128)%N; [|reflexivity]. unfold is_ws, is_sep in H. unfold is_digit.
  destruct (N.leb_spec 48 c); [|reflexivity]. destruct (N.leb_spec c 57); [|reflexivity]. exfalso.
  assert (X : (c = 48 \/ c = 49 \/ c = 50 \/ c = 51 \/ c = 52 \/ c = 53 \/ c = 54 \/ c = 55 \/ c = 56 \/ c = 57)%N) by lia.
  decompose [or] X; subst; discriminate.
Qed.
Example C73_written_case : w_read (w65 t73c) (L "book") = Some s73c /\ journal_written (w65 t73c) pl_new l73c s73c /\
  plain_journal (w65 t73c) l73c /\ Forall (in_order (w65 t73c) l73c) (pl_txns l73c).
Proof.
  split; [vm_compute; reflexivity|]. split; [|split; [apply plain_check_ok; vm_compute; reflexivity|apply order_check_ok; vm_compute; reflexivity]].
  set (w := w65 t73c).
  refine (jw_item w _ [] _ _ _ _ _ _ _); [constructor| |refine (jw_end w _ [] [] _ _); [constructor|apply blanks_nil]].
  refine (iw_transaction w _ txn73 _ _).
  refine (tw w 737790 None (L "Shop") None None [] (t_postings txn73) (L "2021-01-01 Shop") [] (L "  Food  10 EUR" ++ c_nl :: L "  Cash" ++ nl) _ _ _).
  - exists (L "2021-01-01"), [], (L " "), [], [], [], [], [].
    split; [reflexivity|]. split; [apply (day_b 2021 1 1 (L "2021") (L "01") (L "01") 45%N); try reflexivity; try discriminate; cbn; auto|].
    split; [reflexivity|]. split; [split; [apply spaces_b; reflexivity|discriminate]|]. split; [left; reflexivity|]. split; [left; reflexivity|].
    split; [|split; [apply spaces_b; reflexivity|split; reflexivity]].
    split; [apply free_b; reflexivity|]. split; [intros (c & r & E & H); inv E; cbn in H; intuition discriminate|]. split; [intros r; split; discriminate|].
    intros ds r Hd E. destruct ds as [|x ds]; [discriminate|]. inv E. specialize (Hd 83%N (or_introl eq_refl)). lia.
  - constructor.
  - refine (pl_line w _ [] (L "  ") (post73 (L "Food") (Some (of_Z 10, L "EUR"))) [] [] (L "Food  10 EUR") [] _ _ _ _ _ _ _ _ _);
      [constructor|split; [apply blanks_b; reflexivity|discriminate]| |constructor|reflexivity|reflexivity|].
    + exists (L "Food"). split; [apply name_b; [discriminate|reflexivity]|].
      split; [refine (af_real _ _ _ eq_refl _ _ _); [reflexivity|discriminate|discriminate]|].
      split; [eexists _, _; split; [reflexivity|split; [discriminate|reflexivity]]|]. right.
      exists (L "  "), [], (L "10 EUR"). split; [reflexivity|].
      split; [right; exists c_sp, c_sp; split; [reflexivity|]; split; [reflexivity|]; split; [reflexivity|]; split; discriminate|].
      split; [apply one_line_b; reflexivity|]. split; [apply blanks_nil|]. right.
      refine (de_parts w (post73 (L "Food") (Some (of_Z 10, L "EUR"))) [] [L "10 EUR"] [] [] [] (L "10 EUR") [] eq_refl _ _ _ _ _ _ _ _);
        [|reflexivity|reflexivity|left; auto|discriminate|constructor|apply blanks_nil|reflexivity].
      exists (L "10 EUR"). split; [|reflexivity]. refine (mw_after w _ _ (L "10") (L " ") (L "EUR") _ _ _).
      * apply (literal_b false (L "10") false []); try reflexivity; try discriminate; qc.
      * apply blanks_b. reflexivity.
      * apply word_b; reflexivity.
    + refine (pl_line w _ [] (L "  ") (post73 (L "Cash") None) [] [] (L "Cash") [] _ _ _ _ _ _ _ _ _);
        [constructor|split; [apply blanks_b; reflexivity|discriminate]| |constructor|reflexivity|reflexivity|constructor].
      exists (L "Cash"). split; [apply name_b; [discriminate|reflexivity]|].
      split; [refine (af_real _ _ _ eq_refl _ _ _); [reflexivity|discriminate|discriminate]|].
      split; [eexists _, _; split; [reflexivity|split; [discriminate|reflexivity]]|]. left. split; [reflexivity|]. split; [|reflexivity]. repeat split.
Qed.
