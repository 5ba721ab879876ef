(** C81: a report in another commodity shows what the accounts are worth at the prices of the journal. *)
From Coq Require Import Lia Sorting.Sorted.
From Verif Require Import Base BaseFacts Numerals Money Alist Comment Txn Expr Filter Price Tokens Ledger Reports App Spec MoneyFacts SpecList SpecTxn TxnFacts SpecLedger
  TokenFacts JournalFacts LedgerFacts LedgerFacts2 LedgerFacts3 PropAlist PropTxn PropLedger SpecQuery SpecExpr ExprFacts PropExpr PropQuery SpecReports ReportFacts ReportFacts2 ReportFacts3 PropReports PropApp
  SpecText SpecDates SpecTokens SpecJournal JournalRead PropJournal SpecLayout PropLayout SpecPrice PropPrice SpecBook BookFacts PropBook PropBook2 SpecAsk PropAsk SpecExchange ExchangeFacts.
Open Scope Qc_scope.

(** ** The rates of the report are those asked for *)
Lemma answers_add_none w q A : answers w q A -> adds_no_commodity w q.
Proof. intros H. destruct q as [n|]; cbn; auto. intros p t cs v cs' E. specialize (H t p cs). cbn in H. congruence. Qed.
Lemma ledger_names w l skip lg x : world_ok w -> plain_journal w l -> ledger_built w skip l lg ->
  (exists c, l_get w x (lg_commodities lg) = Ok c /\ names_commodity w l x (cu_name c)) \/
  ((forall c, l_get w x (lg_commodities lg) <> Ok c) /\ (exists e, l_get w x (lg_commodities lg) = Err e) /\ forall c, ~ names_commodity w l x c).
Proof.
  intros Hw P B. destruct (journal_all w l P) as [_ R0]. destruct B as [ts dir costs sorted run imps _ (_ & LB & _) JR DS _ LR EP|]; [|congruence].
  pose proof (jr_new_commodities _ _ _ _ _ _ _ _ JR) as [N _].
  destruct (C22_lookup_total w _ _ _ x Hw LB) as [(c & _ & E)|E].
  - left. exists c. split; auto. destruct (N x c E) as [D|(D & m & Hm & Lm & ->)]; [left; eauto|]. right. cbn. auto.
  - right. split; [congruence|]. split; [eauto|]. intros c [(c0 & E0 & _)|(_ & Mc & Lc)].
    + apply (jr_commodities _ _ _ _ _ _ _ _ JR) in E0. congruence.
    + destruct (jr_found_commodities _ _ _ _ _ _ _ _ JR c Mc) as (e & Ee). apply (lower_get w c x) in Ee; [congruence|auto].
Qed.
(** The rates of a report on the ledger. *)
Lemma asked_rates w o l skip lg q tps rate cur A : world_ok w -> parsed w l -> plain_journal w l -> ledger_built w skip l lg -> answers w q A ->
  report_data w o lg q tps rate cur ->
  exists cur' rates, rates_asked w o l cur' rates /\ forall ms c, converted rate cur ms c = changed rates cur' (moneys_amt ms) c.
Proof.
  intros Hw Hp P B HA [_ _ (cs & _ & EC & RR)]. specialize (EC (answers_add_none _ _ _ HA)). subst cs. unfold rates_asked.
  assert (Z : forall cur0 cur1 ms c, converted (fun _ => None) cur0 ms c = changed [] cur1 (moneys_amt ms) c).
  { intros. rewrite converted_id. unfold changed. cbn [map existsb]. destruct (str_eqb_spec c cur1) as [->|]; auto. change (qsum []) with 0. ring. }
  destruct RR as [cur E|x cur E N|x c site mults E EL EC].
  - exists cur, []. rewrite E. split; auto.
  - exists cur, []. rewrite E. split; auto. left. split; auto. destruct (ledger_names w l skip lg x Hw P B) as [(c & X & _)|(_ & _ & X)]; auto. destruct (N c). auto.
  - exists (cu_name c), mults. rewrite E. pose proof (rates_found w site (cu_name c) (lg_prices lg) mults Hw EC) as RI. split.
    + right. destruct (ledger_names w l skip lg x Hw P B) as [(c0 & X & Y)|(X & _)]; [|destruct (X c); auto]. assert (c0 = c) by congruence. subst c0.
      split; auto. exists (lg_prices lg). split; auto. eapply ledger_prices; eauto.
    + intros ms k. apply converted_changed; [apply RI|eapply rates_not_cur; eauto].
Qed.

(** ** There is a report *)
Lemma conv_all w site mults cur vb : world_ok w -> (forall a b, In (a, b) vb -> good_bal b) -> exists vb1, conv_entries w site mults cur vb = Ok vb1.
Proof.
  intros Hw. unfold conv_entries. induction vb as [|[a b] vb IH]; intros G; cbn [mapM]; [eauto|].
  assert (Go : good_bal (w_ord w site _ b)) by (eapply good_perm; [apply (G a); left; auto|symmetry; apply Hw]).
  destruct (convert_balance_ok mults cur _ Go) as (b' & E & _). cbn [snd]. rewrite E. cbn [bind]. destruct IH as (vb1 & ->); [intros x y X; apply (G x); right; auto|]. cbn [bind]. eauto.
Qed.
Lemma report_exchanged w site o flat tot l skip lg A : world_ok w -> parsed w l -> plain_journal w l -> ledger_built w skip l lg -> asked_accounts w (o_query o) A ->
  (flat = true -> can_be_cut w o l) ->
  (exists r, balance_report w site o flat tot lg = Ok r) \/
  (balance_report w site o flat tot lg = Panic PDivZero /\ exists x cur p, o_exchange o = Some x /\ names_commodity w l x cur /\ usable (w_now w) (lg_prices lg) p /\ pr_amount p = 0).
Proof.
  intros Hw Hp P B HA HC. destruct (o_exchange o) as [x|] eqn:X; [|left; eapply report_asked; eauto].
  pose proof (ledger_whole _ _ _ _ Hp P B) as H. destruct (asked_node w o A HA) as (q & Q & AN). unfold balance_report. rewrite Q, X. cbn [bind].
  destruct (select_asked w o q A (lg_txns lg) (lg_commodities lg) AN) as (sel & -> & I); [intros t Ht; apply (H t Ht)|]. cbn [bind].
  assert (IN : forall p, In p (flat_map snd sel) -> exists t, In t (lg_txns lg) /\ In p (t_postings t)).
  { intros p Hi. apply in_flat_map in Hi. destruct Hi as ([t ps] & H1 & H2). destruct (I t ps H1) as [T1 T2]. exists t. split; auto. }
  destruct (balances_whole (flat_map snd sel)) with (bals := @nil (str * balance)) as (bals & Eb).
  { intros p Hi. destruct (IN p Hi) as (t & T1 & T2). apply (H t T1). auto. }
  unfold account_balances. rewrite Eb. cbn [bind].
  destruct (account_balances_ok _ _ _ Eb empty_good) as (G1 & _).
  assert (Y : exists vb, (if flat then flat_balances w site (o_depth o) bals else Ok (tree_balances w site bals)) = Ok vb /\ good_map vb).
  { destruct flat.
    - assert (Y : exists vb, flat_balances w site (o_depth o) bals = Ok vb).
      { destruct (o_depth o) as [d|] eqn:Ed; [|cbn; eauto]. destruct (HC eq_refl d Ed) as [D1 D2]. eapply C56_depth_succeeds_partial; eauto.
        intros p Hi. destruct (IN p Hi) as (t & T1 & T2). destruct (ledger_accounts _ _ _ _ P B t p T1 T2) as (n & N1 & ->). apply D2. auto. }
      destruct Y as (vb & Y). exists vb. split; auto. eapply (flat_balances_ok w Hw); eauto.
    - eexists. split; [reflexivity|]. apply (tree_balances_ok w Hw); auto. }
  destruct Y as (vb & -> & GV). cbn [bind].
  destruct (ledger_names w l skip lg x Hw P B) as [(c & E & NC)|(_ & (e & E) & _)]; rewrite E.
  2:{ left. cbn [bind]. destruct (_ && _); eauto. }
  destruct (C37_outcomes w (100 + site) (cu_name c) (w_now w) (lg_prices lg) Hw) as [(mults & EC)|(EC & p & U & Z)]; rewrite EC; cbn [bind].
  2:{ right. split; auto. exists x, (cu_name c), p. auto. }
  left. change (mapM _ vb) with (conv_entries w (103 + site) mults (cu_name c) vb). destruct (conv_all w (103 + site) mults (cu_name c) vb Hw) as (vb1 & ->); [apply GV|]. cbn [bind].
  destruct (_ && _); [|eauto]. destruct mults as [|mu mults']; [cbn [bind]; eauto|]. cbn [unwrap bind]. unfold get_unwrap. rewrite E. cbn [bind].
  assert (Gt : good_bal (sum_balances (map snd (w_ord w (104 + site) _ bals)))).
  { destruct (sum_entries_ok (fun _ => true) (w_ord w (104 + site) _ bals)) as [S1 _].
    - intros a b Hi. eapply G1. eapply Permutation_in; [apply Hw|exact Hi].
    - assert (F : forall m : balances, filter (fun _ => true) m = m) by (induction m; cbn; congruence). rewrite F in S1. exact S1. }
  match goal with |- context [convert_balance ?b ?m ?k] => destruct (convert_balance_ok m k b) as (b' & -> & _) end.
  - eapply good_perm; [exact Gt|symmetry; apply Hw].
  - cbn [bind]. eauto.
Qed.

(** ** C81 *)
Definition worth_flat (w : world) (o : opts) (l : pledger) (A : str -> bool) (cur : str) (rates : list (str * Qc)) (r : breport) : Prop :=
  ascending (map br_label (bp_rows r)) /\ forall cut, cut_to_depth o cut ->
  (forall row, In row (bp_rows r) -> shown_amounts (br_moneys row) /\ br_moneys row <> [] /\
     forall c, moneys_amt (br_moneys row) c = changed rates cur (asked_total w o l A (fun n => str_eqb (cut n) (br_label row))) c) /\
  (forall a c, changed rates cur (asked_total w o l A (fun n => str_eqb (cut n) a)) c <> 0 -> In a (map br_label (bp_rows r))).
Definition worth_tree (w : world) (o : opts) (l : pledger) (A : str -> bool) (cur : str) (rates : list (str * Qc)) (r : breport) : Prop :=
  exists accs, ascending accs /\
    Forall2 (fun a row => br_indent row = levels a /\ (exists part more, own_part a part /\ br_label row = part ++ more) /\
      (forall d, o_depth o = Some d -> (levels a <= d)%nat) /\ shown_amounts (br_moneys row) /\ br_moneys row <> [] /\
      (~ begins_with_colon a -> forall c, moneys_amt (br_moneys row) c = changed rates cur (asked_total w o l A (inside a)) c)) accs (bp_rows r).
Definition worth_total (w : world) (o : opts) (l : pledger) (A : str -> bool) (tot : bool) (cur : str) (rates : list (str * Qc)) (r : breport) : Prop :=
  (bp_total r <> None <-> tot = true /\ (2 <= length (bp_rows r))%nat) /\
  forall ms, bp_total r = Some ms -> (ms = [MZero] \/ shown_amounts ms /\ ms <> []) /\
    forall c, moneys_amt ms c = changed rates cur (asked_total w o l A (fun _ => true)) c.
Lemma report_worth w site o flat tot l skip lg A r : world_ok w -> parsed w l -> plain_journal w l -> to_ledger w skip l = Ok lg -> ledger_built w skip l lg ->
  asked_accounts w (o_query o) A -> balance_report w site o flat tot lg = Ok r ->
  exists cur rates, rates_asked w o l cur rates /\ (if flat then worth_flat w o l A cur rates r else worth_tree w o l A cur rates r) /\ worth_total w o l A tot cur rates r.
Proof.
  intros Hw Hp P E B HA Er. destruct (asked_node w o A HA) as (q0 & Q0 & AN). pose proof (made_plain _ _ _ _ Hp E) as M.
  assert (ST : forall q tps rate cur, report_data w o lg q tps rate cur -> q = q0 /\ forall Q c, moneys_amt (amounts_of (map snd tps) Q) c = asked_total w o l A Q c).
  { intros q tps rate cur [D1 D2 _]. assert (q = q0) by congruence. subst q. split; auto. intros Q c. rewrite amounts_subtotal. eapply subtotal_asked; eauto. }
  assert (SH : (bp_total r <> None <-> tot = true /\ (2 <= length (bp_rows r))%nat) /\ forall ms, bp_total r = Some ms -> ms = [MZero] \/ shown_amounts ms /\ ms <> []).
  { destruct (report_parts _ _ _ _ _ _ _ Hw M Er) as (q & tps & rate & cur & bals & vb & vb1 & _ & _ & _ & _ & _ & T1 & T2). split; auto. intros ms Em. apply (T2 ms Em). }
  destruct flat.
  - destruct (flat_rows _ _ _ _ _ _ Hw M Er) as (q & tps & rate & cur0 & RD & AS & F1 & F2 & _ & FT). destruct (ST _ _ _ _ RD) as [-> S].
    destruct (asked_rates w o l skip lg q0 tps rate cur0 A Hw Hp P B AN RD) as (cur & rates & RA & RC). exists cur, rates. split; auto.
    assert (S' : forall Q c, converted rate cur0 (amounts_of (map snd tps) Q) c = changed rates cur (asked_total w o l A Q) c) by (intros; rewrite RC; apply changed_ext; intros; apply S).
    split; [split; auto; intros cut C; split|split; [apply SH|]].
    + intros row Hi. destruct (F1 row cut Hi C) as (_ & X1 & X2 & X3). do 2 (split; auto). intros c. rewrite X3. apply S'.
    + intros a c N. apply (F2 cut a c C). rewrite S'. auto.
    + intros ms Em. split; [apply SH; auto|]. intros c. rewrite (FT ms Em). apply S'.
  - destruct (tree_rows _ _ _ _ _ _ Hw M Er) as (q & tps & rate & cur0 & accs & RD & AS & F & FT). destruct (ST _ _ _ _ RD) as [-> S].
    destruct (asked_rates w o l skip lg q0 tps rate cur0 A Hw Hp P B AN RD) as (cur & rates & RA & RC). exists cur, rates. split; auto.
    assert (S' : forall Q c, converted rate cur0 (amounts_of (map snd tps) Q) c = changed rates cur (asked_total w o l A Q) c) by (intros; rewrite RC; apply changed_ext; intros; apply S).
    split; [|split; [apply SH|]].
    + exists accs. split; auto. eapply forall2_weaken; [|exact F]. intros a row (H1 & H2 & H3 & H4 & H5 & H6). do 5 (split; auto). intros Hc c. rewrite H6 by auto. apply S'.
    + intros ms Em. split; [apply SH; auto|]. intros c. rewrite (FT ms Em). apply S'.
Qed.
(** A price that is zero and can be used makes the program stop. *)
Definition stopped_by_zero (w : world) (o : opts) (l : pledger) : Prop :=
  exists x cur ps p, o_exchange o = Some x /\ names_commodity w l x cur /\ journal_prices w l ps /\ usable (w_now w) ps p /\ pr_amount p = 0.
Theorem C81_outcome : forall depth w o file l flat no_total A, world_ok w -> file_parses depth w file l -> plain_journal w l ->
  Forall (in_order w l) (pl_txns l) -> asked_accounts w (o_query o) A -> (flat = true -> can_be_cut w o l) ->
  (exists r lines cur rates, run_cmd depth w (CBalance flat no_total) o file = Ok lines /\ balance_printed r lines /\ rates_asked w o l cur rates /\
    (if flat then worth_flat w o l A cur rates r else worth_tree w o l A cur rates r) /\ worth_total w o l A (negb no_total) cur rates r) \/
  (run_cmd depth w (CBalance flat no_total) o file = Panic PDivZero /\ stopped_by_zero w o l).
Proof.
  intros depth w o file l flat nt A Hw HF P IO HA HC. assert (Hp : parsed w l) by (destruct HF as (c & _ & F); exists depth, (Some file), [file], c; auto).
  apply file_parses_iff in HF. destruct (plain_outcome w (o_no_balance_check o) l Hw Hp P) as [(_ & lg & E & B)|(N & _)]; [|contradiction].
  destruct (report_exchanged w (report_site lg) o flat (negb nt) l _ lg A Hw Hp P B HA HC) as [(r & Er)|(Er & x & cur & p & X1 & X2 & X3 & X4)].
  - left. destruct (C69_printed depth w o file l lg Hw HF E) as [HP _]. destruct (HP flat nt r Er) as (lines & L1 & L2).
    destruct (report_worth w _ o flat _ l _ lg A r Hw Hp P E B HA Er) as (cur & rates & W1 & W2 & W3). exists r, lines, cur, rates. auto.
  - right. split.
    + unfold run_cmd. rewrite HF. cbn [bind]. unfold run_on. rewrite E. cbn [bind]. rewrite Er. reflexivity.
    + exists x, cur, (lg_prices lg), p. do 2 (split; auto). split; auto. eapply ledger_prices; eauto.
Qed.
Print Assumptions C81_outcome.
Theorem C81_balance : forall depth w o file l flat no_total A, world_ok w -> file_parses depth w file l -> plain_journal w l ->
  Forall (in_order w l) (pl_txns l) -> asked_accounts w (o_query o) A -> (flat = true -> can_be_cut w o l) -> no_zero_price l ->
  exists r lines cur rates, run_cmd depth w (CBalance flat no_total) o file = Ok lines /\ balance_printed r lines /\ rates_asked w o l cur rates /\
    (if flat then worth_flat w o l A cur rates r else worth_tree w o l A cur rates r) /\ worth_total w o l A (negb no_total) cur rates r.
Proof.
  intros depth w o file l flat nt A Hw HF P IO HA HC NZ. destruct (C81_outcome depth w o file l flat nt A Hw HF P IO HA HC) as [X|(_ & x & cur & ps & p & _ & _ & JP & U & Z)]; auto.
  exfalso. eapply prices_nonzero; eauto. destruct U as (pre & post & -> & _). apply in_app_iff. right. left. auto.
Qed.
Print Assumptions C81_balance.
(** From the text of the journal to the text of the report. *)
Theorem C81_from_the_text : forall d w o path s l flat no_total A, world_ok w -> blanks_not_numeric w ->
  w_read w path = Some s -> journal_written w pl_new l s -> plain_journal w l -> Forall (in_order w l) (pl_txns l) -> asked_accounts w (o_query o) A ->
  (flat = true -> can_be_cut w o l) -> no_zero_price l ->
  exists r lines cur rates, run_cmd (S d) w (CBalance flat no_total) o path = Ok lines /\ balance_printed r lines /\ rates_asked w o l cur rates /\
    (if flat then worth_flat w o l A cur rates r else worth_tree w o l A cur rates r) /\ worth_total w o l A (negb no_total) cur rates r.
Proof.
  intros d w o path s l flat nt A Hw Hb Hr J P IO HA HC NZ.
  assert (F : file_parses (S d) w path l) by (apply file_parses_iff; eapply C67_file_read_as_written; eauto). eapply C81_balance; eauto.
Qed.
Print Assumptions C81_from_the_text.

(** ** Cases: a price from a directive, a price paid, an exchange; a commodity without prices *)
Definition t81 : list String.string :=
  ["P 2021-01-05 XAU 50 EUR"; "P 2021-01-20 XAU 60 EUR"; "2021-01-01 Job"; "  Assets:Bank  1000 EUR"; "  Income"; "2021-01-10 Gold"; "  Assets:Gold  3 XAU"; "  Assets:Bank  -150 EUR";
   "2021-01-12 Shares"; "  Assets:Shares  4 ACME @ 10 USD"; "  Assets:Cash  -40 USD"; "2021-01-15 Dollars"; "  Assets:Cash  60 USD"; "  Assets:Bank  -30 EUR";
   "2021-01-16 Found"; "  Assets:Shells  7 SHELL"; "  Income"]%string.
Definition w81 : world :=
  {| w_lower := ascii_lower; w_numeric := fun _ => false;
     w_rx := fun rx s => if starts_with (L "(?i)") rx then occurs (ascii_lower (skipn 4 rx)) (ascii_lower s) else occurs rx s;
     w_rx_ok := fun _ => true; w_width := None; w_read := fun p => if str_eqb p (L "book") then Some (text t81) else None;
     w_glob := fun _ => None; w_two_timer := fun _ => None; w_now := 800000%Z; w_ord := fun _ _ l => l |}.
Definition l81 : pledger := get pl_new (tokenize_file 2 w81 (L "book")).
Definition ask_in (x : String.string) (q : list String.string) : opts :=
  {| o_real := false; o_begin := None; o_end := None; o_query := map L q; o_depth := None; o_exchange := Some (L x); o_no_balance_check := false |}.
Definition trade_check (w : world) (l : pledger) (t : txn rposting) : bool :=
  cancels w l VirtualMustBalance t && (match filter open_posting (t_postings t) with [] => true | _ => false end) &&
  existsb (fun c => qc_pos (kind_value w l Real t c)) (names_of w l t) && existsb (fun c => qc_neg (kind_value w l Real t c)) (names_of w l t).
Lemma trade_check_ok w l ts : forallb (fun t => order_check w l t || trade_check w l t) ts = true -> Forall (in_order w l) ts.
Proof.
  intros H. rewrite forallb_forall in H. apply Forall_forall. intros t Ht. apply H in Ht. apply orb_true_iff in Ht. destruct Ht as [Ht|Ht].
  - pose proof (order_check_ok w l [t]) as X. cbn [forallb] in X. rewrite Ht in X. specialize (X eq_refl). inversion X; auto.
  - unfold trade_check in Ht. rewrite !andb_true_iff in Ht. destruct Ht as (((H1 & H2) & H3) & H4). split; [left; apply cancels_ok; auto|].
    destruct (filter open_posting (t_postings t)); [|discriminate]. right. apply existsb_exists in H3, H4. destruct H3 as (c & _ & H3), H4 as (d & _ & H4).
    split; [exists c; destruct (qc_pos_spec (kind_value w l Real t c))|exists d; destruct (qc_neg_spec (kind_value w l Real t d))]; auto; discriminate.
Qed.
Definition zero_check (l : pledger) : bool :=
  forallb (fun p => negb (qc_eqb (pp_quantity p) 0)) (pl_prices l) &&
  forallb (fun t => forallb (fun p => match rp_cost p with Some (k, _) => negb (qc_eqb k 0) | None => true end) (t_postings t)) (pl_txns l).
Lemma zero_check_ok l : zero_check l = true -> no_zero_price l.
Proof.
  intros H. apply andb_true_iff in H. destruct H as [H1 H2]. rewrite forallb_forall in H1, H2. split.
  - intros p Hp. apply H1 in Hp. destruct (qc_eqb_spec (pp_quantity p) 0); [discriminate|auto].
  - intros t p k x Ht Hp E. apply H2 in Ht. rewrite forallb_forall in Ht. apply Ht in Hp. rewrite E in Hp. destruct (qc_eqb_spec k 0); [discriminate|auto].
Qed.
(** The commodity is asked for in small letters.  A share is worth ten dollars, a dollar half a euro, and of the two
    prices of gold in the directives the later one counts, also against the one of the exchange. *)
Example C81_case : world_ok w81 /\ file_parses 2 w81 (L "book") l81 /\ plain_journal w81 l81 /\ Forall (in_order w81 l81) (pl_txns l81) /\
  asked_accounts w81 (o_query (ask_in "eur" [])) (fun _ => true) /\ can_be_cut w81 (ask_in "eur" []) l81 /\ no_zero_price l81 /\
  run_cmd 2 w81 (CBalance true false) (ask_in "eur" []) (L "book") = Ok (map L
    ["          820.00 EUR  Assets:Bank"; "           10.00 EUR  Assets:Cash"; "          180.00 EUR  Assets:Gold"; "           20.00 EUR  Assets:Shares";
     "          7.00 SHELL  Assets:Shells"; "        -1000.00 EUR"; "         -7.00 SHELL  Income"; "--------------------"; "           30.00 EUR"]%string) /\
  run_cmd 2 w81 (CBalance false true) (ask_in "USD" ["assets"; "and"; "/S/"]%string) (L "book") = Ok (map L
    ["           40.00 USD"; "          7.00 SHELL  Assets"; "           40.00 USD    Shares"; "          7.00 SHELL    Shells"]%string).
Proof.
  split; [split; [intros; apply Permutation_refl|exact ascii_lower_idem]|]. split; [apply file_parses_iff; vm_compute; reflexivity|].
  split; [apply plain_check_ok; vm_compute; reflexivity|]. split; [apply trade_check_ok; vm_compute; reflexivity|]. split; [apply aa_all|]. split; [intros d E; discriminate|].
  split; [apply zero_check_ok; vm_compute; reflexivity|]. split; vm_compute; reflexivity.
Qed.
(** The prices and the rates of that journal. *)
Definition shown_price (p : price) : Z * str * Q * str := (pr_date p, pr_com p, this (pr_amount p), pr_cur p).
Definition lg81 : ledger := get {| lg_accounts := l_new; lg_commodities := l_new; lg_payees := l_new; lg_txns := []; lg_prices := [] |} (to_ledger w81 false l81).
Example C81_case_rates : exists ps rates, journal_prices w81 l81 ps /\ rates_into ps (w_now w81) (L "EUR") rates /\ rates_asked w81 (ask_in "eur" []) l81 (L "EUR") rates /\
  map shown_price ps = [(737794%Z, L "XAU", 50 # 1, L "EUR"); (737809%Z, L "XAU", 60 # 1, L "EUR"); (737801%Z, L "ACME", 10 # 1, L "USD");
    (737799%Z, L "XAU", 50 # 1, L "EUR"); (737804%Z, L "USD", 1 # 2, L "EUR")]%Q /\
  map (fun kr => (fst kr, this (snd kr))) rates = [(L "XAU", 60 # 1); (L "USD", 1 # 2); (L "ACME", 5 # 1)]%Q /\
  map (fun c => this (changed rates (L "EUR") (asked_total w81 (ask_in "eur" []) l81 (fun _ => true) (fun n => str_eqb n (L "Assets:Cash"))) (L c))) ["EUR"; "USD"; "ACME"]%string = [10 # 1; 0 # 1; 0 # 1]%Q /\
  map (fun c => this (changed rates (L "EUR") (asked_total w81 (ask_in "eur" []) l81 (fun _ => true) (fun _ => true)) (L c))) ["EUR"; "USD"; "SHELL"]%string = [30 # 1; 0 # 1; 0 # 1]%Q.
Proof.
  destruct C81_case as (Hw & HF & P & IO & _). assert (Hp : parsed w81 l81) by (destruct HF as (c & _ & F); exists 2%nat, (Some (L "book")), [L "book"], c; auto).
  destruct (plain_outcome w81 false l81 Hw Hp P) as [(_ & lg & E & B)|(N & _)]; [|contradiction].
  assert (EL : lg = lg81) by (unfold lg81; rewrite E; reflexivity). subst lg.
  set (rates := get [] (conversion w81 0 (L "EUR") (w_now w81) (lg_prices lg81))).
  assert (C : conversion w81 0 (L "EUR") (w_now w81) (lg_prices lg81) = Ok rates).
  { unfold rates. destruct (conversion w81 0 (L "EUR") (w_now w81) (lg_prices lg81)) eqn:X; [reflexivity| |]; exfalso;
      assert (Y : match conversion w81 0 (L "EUR") (w_now w81) (lg_prices lg81) with Ok _ => true | _ => false end = true) by (vm_compute; reflexivity); rewrite X in Y; discriminate. }
  pose proof (ledger_prices _ _ _ _ Hp P B) as JP. pose proof (rates_found w81 0 (L "EUR") _ rates Hw C) as RI.
  exists (lg_prices lg81), rates. split; [exact JP|]. split; [exact RI|]. split; [|split; [|split; [|split]]]; [|vm_compute; reflexivity..].
  right. split; [|exists (lg_prices lg81); split; [exact JP|exact RI]]. right. split; [intros c; vm_compute; discriminate|]. split; [|reflexivity].
  left. assert (X : match pl_prices l81 with p :: _ => str_eqb (L "EUR") (pp_other p) | [] => false end = true) by (vm_compute; reflexivity).
  destruct (pl_prices l81) as [|p r]; [discriminate|]. exists p. split; [left; auto|]. right. destruct (str_eqb_spec (L "EUR") (pp_other p)); [auto|discriminate].
Qed.
(** A price of zero that is to be turned round stops the program. *)
Definition w81z : world := {| w_lower := ascii_lower; w_numeric := fun _ => false; w_rx := fun _ _ => false; w_rx_ok := fun _ => true; w_width := None;
  w_read := fun p => if str_eqb p (L "book") then Some (text ["P 2021-01-05 XAU 0 EUR"; "2021-01-10 Gold"; "  Assets:Gold  3 XAU"; "  Income"]%string) else None;
  w_glob := fun _ => None; w_two_timer := fun _ => None; w_now := 800000%Z; w_ord := fun _ _ l => l |}.
Example C81_case_zero : file_parses 2 w81z (L "book") (get pl_new (tokenize_file 2 w81z (L "book"))) /\
  plain_journal w81z (get pl_new (tokenize_file 2 w81z (L "book"))) /\ Forall (in_order w81z (get pl_new (tokenize_file 2 w81z (L "book")))) (pl_txns (get pl_new (tokenize_file 2 w81z (L "book")))) /\
  run_cmd 2 w81z (CBalance true false) (ask_in "XAU" []) (L "book") = Panic PDivZero /\
  run_cmd 2 w81z (CBalance true false) (ask_in "EUR" []) (L "book") = Ok [].
Proof.
  split; [apply file_parses_iff; vm_compute; reflexivity|]. split; [apply plain_check_ok; vm_compute; reflexivity|]. split; [apply order_check_ok; vm_compute; reflexivity|].
  split; vm_compute; reflexivity.
Qed.
