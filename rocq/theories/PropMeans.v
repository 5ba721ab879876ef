(** C94: the reports depend only on the transactions and on what the names in them mean. *)
From Coq Require Import Lia.
From Verif Require Import Base BaseFacts Numerals Money Alist Comment Txn Expr Filter Price Tokens Ledger Reports App Spec MoneyFacts SpecList SpecTxn TxnFacts SpecLedger AlistFacts JournalFacts
  LedgerFacts LedgerFacts2 LedgerFacts3 PropTxn PropLedger SpecReports ReportFacts ReportFacts2 PropReports PropApp PropRules SpecBook PropBook SpecSame SameFacts SameFacts5 PropSame PropAsk SpecMeans MeansFacts MeansFacts2 MeansFacts3.
Open Scope Qc_scope.

Lemma described w skip l lg t : ledger_built w skip l lg -> In t (lg_txns lg) -> describes l (t_desc t).
Proof.
  intros B Ht. destruct (built_sorted w skip l lg B) as (al & cs & pays & ts & dir & costs & sorted & JR & (PM & _) & SH & _).
  assert (H : In (header t) (map header (lg_txns lg))) by (apply in_map; auto). rewrite (Forall2_headers _ _ SH) in H.
  assert (H1 : In (header t) (map header ts)) by (eapply Permutation_in; [apply Permutation_map; symmetry; exact PM|exact H]).
  rewrite (reads_headers _ _ _ _ _ _ (jr_txns _ _ _ _ _ _ _ _ JR)) in H1. apply in_map_iff in H1. destruct H1 as (t0 & E & H1). exists t0. split; auto. unfold header in E. congruence.
Qed.
Lemma named_found w skip l lg c : ledger_built w skip l lg -> amount_names l c -> exists e, l_get w c (lg_commodities lg) = Ok e.
Proof.
  intros B Hc. destruct (built_sorted w skip l lg B) as (al & cs & pays & ts & dir & costs & sorted & JR & _ & _ & _ & EC & _).
  destruct (jr_found_commodities _ _ _ _ _ _ _ _ JR c) as (e & E); [right; exact Hc|]. exists e. apply EC. auto.
Qed.
Lemma register_equal w site o l l' skip lg lg' : world_ok w -> ledger_built w skip l lg -> same_entries w o l l' lg lg' ->
  register_report w site o lg' = register_report w site o lg.
Proof.
  intros W B (E & SC & SP & _). unfold register_report. destruct (query_node w o) as [q| |] eqn:Q; cbn [bind]; try reflexivity. rewrite E.
  assert (HU : forall m c, q = Some m -> names_commodity m c -> uses_commodity w o l c) by (intros m c -> Hc; right; right; exists m; auto).
  pose proof (select_means w (uses_commodity w o l) o q (lg_txns lg) HU _ _ SC) as SM.
  destruct (select_txns w o q (lg_txns lg) (lg_commodities lg)) as [[sel cs]|e|e] eqn:E1, (select_txns w o q (lg_txns lg) (lg_commodities lg')) as [[sel' cs']|e'|e'];
    cbn in SM |- *; try contradiction; try (subst; reflexivity). destruct SM as [ES _]. cbn in ES. subst sel'. symmetry. apply (register_means w (payee_used l)); auto.
  apply Forall_forall. intros x Hx. right. apply (described w skip l lg); auto. rewrite <- (select_heads _ _ _ _ _ _ _ E1). apply in_map. auto.
Qed.
Lemma balance_equal w site o flat tot l l' skip lg lg' : world_ok w -> ledger_built w skip l lg -> ledger_built w skip l' lg' -> means_same w o l l' ->
  same_entries w o l l' lg lg' -> o_exchange o = None \/ same_rates w l l' /\ (forall x, o_exchange o = Some x -> amount_names l x) ->
  balance_report w site o flat tot lg' = balance_report w site o flat tot lg.
Proof.
  intros W B B' M (E & SC & SP & SR) X. unfold balance_report. destruct (query_node w o) as [q| |] eqn:Q; cbn [bind]; try reflexivity. rewrite E.
  assert (HU : forall m c, q = Some m -> names_commodity m c -> uses_commodity w o l c) by (intros m c -> Hc; right; right; exists m; auto).
  pose proof (select_means w (uses_commodity w o l) o q (lg_txns lg) HU _ _ SC) as SM.
  destruct (select_txns w o q (lg_txns lg) (lg_commodities lg)) as [[sel cs]|e|e] eqn:E1, (select_txns w o q (lg_txns lg) (lg_commodities lg')) as [[sel' cs']|e'|e'] eqn:E1';
    cbn in SM |- *; try contradiction; try (subst; reflexivity). destruct SM as [ES SCS]. cbn in ES, SCS. subst sel'.
  destruct (o_exchange o) as [x|] eqn:Ex.
  2:{ reflexivity. }
  destruct X as [X|[SRt X]]; [discriminate|]. rewrite (SR SRt). specialize (X x eq_refl).
  destruct (named_found w skip l lg x B X) as (c & Ec). destruct (named_found w skip l' lg' x B') as (c' & Ec').
  { destruct X as (t & p & qq & H1 & H2). exists t, p, qq. rewrite (sm_txns _ _ _ _ M). auto. }
  destruct SC as (B1 & B1' & _). destruct (select_extends _ _ _ _ _ _ _ B1 E1) as [_ [G _]]. destruct (select_extends _ _ _ _ _ _ _ B1' E1') as [_ [G' _]].
  destruct SCS as (_ & _ & SN). specialize (SN x (or_introl X)). rewrite (nm_got _ _ _ _ _ (G _ _ Ec)), (nm_got _ _ _ _ _ (G' _ _ Ec')) in SN.
  rewrite (G _ _ Ec), (G' _ _ Ec'), SN. cbn [unwrap bind]. unfold get_unwrap. rewrite (G _ _ Ec), (G' _ _ Ec'). cbn [unwrap bind]. rewrite SN. reflexivity.
Qed.

(** [check] gives the same verdict, and for an accepted journal the reports have the same transactions to draw on. *)
Theorem C94_ledger : forall w o skip l l', world_ok w -> parsed w l -> parsed w l' -> means_same w o l l' -> clear_uses w o l -> clear_uses w o l' ->
  match to_ledger w skip l, to_ledger w skip l' with
  | Ok lg, Ok lg' => lg_txns lg' = lg_txns lg /\ (same_rates w l l' -> lg_prices lg' = lg_prices lg)
  | Err e, Err e' => e' = e
  | Panic e, Panic e' => e' = e
  | _, _ => False
  end.
Proof.
  intros w o skip l l' W P P' M C C'. pose proof (ledger_means w o skip l l' W (parsed_ok _ _ P) (parsed_ok _ _ P') M C C') as H.
  destruct (to_ledger w skip l), (to_ledger w skip l'); cbn in H; try contradiction; auto. destruct H as (H1 & _ & _ & H2). auto.
Qed.
Print Assumptions C94_ledger.
Lemma run_equal {A} w o skip l l' (f f' : ledger -> res A) : world_ok w -> parsed w l -> parsed w l' -> means_same w o l l' -> clear_uses w o l -> clear_uses w o l' ->
  (forall lg lg', ledger_built w skip l lg -> ledger_built w skip l' lg' -> same_entries w o l l' lg lg' -> f' lg' = f lg) ->
  (lg <- to_ledger w skip l' ;; f' lg) = (lg <- to_ledger w skip l ;; f lg).
Proof.
  intros W P P' M C C' F. pose proof (ledger_means w o skip l l' W (parsed_ok _ _ P) (parsed_ok _ _ P') M C C') as H.
  destruct (to_ledger w skip l) as [lg| |] eqn:E, (to_ledger w skip l') as [lg'| |] eqn:E'; cbn in H |- *; try contradiction; try (subst; reflexivity).
  apply F; [apply to_ledger_built; auto using parsed_ok|apply to_ledger_built; auto using parsed_ok|exact H].
Qed.
Lemma site_equal w o l l' lg lg' : same_entries w o l l' lg lg' -> report_site lg' = report_site lg.
Proof. intros (E & _). unfold report_site. rewrite E. reflexivity. Qed.

(** [check]: the same status. *)
Theorem C94_check : forall depth w o file file' l l', world_ok w -> file_parses depth w file l -> file_parses depth w file' l' ->
  means_same w o l l' -> clear_uses w o l -> clear_uses w o l' ->
  exit_status (run_cmd depth w CCheck o file') = exit_status (run_cmd depth w CCheck o file).
Proof.
  intros depth w o file file' l l' W F F' M C C'. unfold run_cmd. pose proof (parses_parsed _ _ _ _ F) as P. pose proof (parses_parsed _ _ _ _ F') as P'.
  apply file_parses_iff in F. apply file_parses_iff in F'. rewrite F, F'. cbn [bind run_on].
  pose proof (ledger_means w o false l l' W (parsed_ok _ _ P) (parsed_ok _ _ P') M C C') as H.
  destruct (to_ledger w false l), (to_ledger w false l'); cbn in H |- *; try contradiction; reflexivity.
Qed.
Print Assumptions C94_check.
(** Register: the same text and status, for any query. *)
Theorem C94_register : forall depth w o file file' l l', world_ok w -> file_parses depth w file l -> file_parses depth w file' l' ->
  means_same w o l l' -> clear_uses w o l -> clear_uses w o l' ->
  run_cmd depth w CRegister o file' = run_cmd depth w CRegister o file.
Proof.
  intros depth w o file file' l l' W F F' M C C'. unfold run_cmd. pose proof (parses_parsed _ _ _ _ F) as P. pose proof (parses_parsed _ _ _ _ F') as P'.
  apply file_parses_iff in F. apply file_parses_iff in F'. rewrite F, F'. cbn [bind run_on]. apply (run_equal w o); auto.
  intros lg lg' B B' S. rewrite (site_equal _ _ _ _ _ _ S), (register_equal w _ o l l' (o_no_balance_check o) lg lg' W B S). reflexivity.
Qed.
Print Assumptions C94_register.
(** Balance: the same text and status, flat or as a tree, for any query, depth and dates; converted, when the price lines
    are the same and the commodity asked for is one of those posted. *)
Theorem C94_balance : forall depth w o flat no_total file file' l l', world_ok w -> file_parses depth w file l -> file_parses depth w file' l' ->
  means_same w o l l' -> clear_uses w o l -> clear_uses w o l' ->
  o_exchange o = None \/ same_rates w l l' /\ (forall x, o_exchange o = Some x -> amount_names l x) ->
  run_cmd depth w (CBalance flat no_total) o file' = run_cmd depth w (CBalance flat no_total) o file.
Proof.
  intros depth w o flat no_total file file' l l' W F F' M C C' X. unfold run_cmd. pose proof (parses_parsed _ _ _ _ F) as P. pose proof (parses_parsed _ _ _ _ F') as P'.
  apply file_parses_iff in F. apply file_parses_iff in F'. rewrite F, F'. cbn [bind run_on]. apply (run_equal w o); auto.
  intros lg lg' B B' S. rewrite (site_equal _ _ _ _ _ _ S), (balance_equal w _ o flat _ l l' (o_no_balance_check o) lg lg' W B B' M S X). reflexivity.
Qed.
Print Assumptions C94_balance.
(** Price lines change no report that is not converted. *)
Theorem C94_price_lines : forall depth w o c file file' l l', world_ok w -> file_parses depth w file l -> file_parses depth w file' l' ->
  pl_accounts l' = pl_accounts l -> pl_payees l' = pl_payees l -> pl_commodities l' = pl_commodities l -> pl_txns l' = pl_txns l ->
  clear_uses w o l -> clear_uses w o l' -> o_exchange o = None ->
  c = CRegister \/ (exists flat no_total, c = CBalance flat no_total) ->
  run_cmd depth w c o file' = run_cmd depth w c o file.
Proof.
  intros depth w o c file file' l l' W F F' E1 E2 E3 E4 C C' X Hc.
  assert (M : means_same w o l l').
  { constructor; auto; intros; unfold account_meant, commodity_meant, payee_stands, payee_declared, claimed_by; rewrite ?E1, ?E2, ?E3; tauto. }
  destruct Hc as [->|(flat & nt & ->)]; [eapply C94_register|eapply C94_balance]; eauto.
Qed.
Print Assumptions C94_price_lines.

(** ** Cases *)
Fixpoint node_commodities (n : node) : list str :=
  match n with
  | NMoney x _ => [x]
  | NUnary _ a => node_commodities a
  | NBinary _ a b => node_commodities a ++ node_commodities b
  | _ => []
  end.
Lemma node_named n c : names_commodity n c -> In c (node_commodities n).
Proof. induction n; cbn; try tauto; auto. intros [H|H]; apply in_or_app; auto. Qed.
Definition read_commodities (w : world) (e : str) : list str := match build_root w e with Ok n => node_commodities n | _ => [] end.
Definition named_in (w : world) (o : opts) (l : pledger) : list str :=
  flat_map (fun t => read_commodities w (get_filter_query t) ++
    flat_map (fun p => match rp_expr p with Some e => read_commodities w e | None => [] end) (t_postings t)) (rules l) ++
  match query_node w o with Ok (Some n) => node_commodities n | _ => [] end.
Lemma named_in_ok w o l c : rule_names w l c \/ query_names w o c -> In c (named_in w o l).
Proof.
  intros [(t & n & Ht & Hc & H)|(n & E & Hc)]; apply in_or_app; [left|right; rewrite E; apply node_named; auto].
  apply in_flat_map. exists t. split; auto. apply in_or_app. apply node_named in Hc. unfold read_commodities. destruct H as [H|(p & e & Hp & He & H)]; [left; rewrite H; auto|].
  right. apply in_flat_map. exists p. split; auto. rewrite He, H. auto.
Qed.
Lemma used_in_ok w o l c : uses_commodity w o l c -> In c (named_in w o l ++ used_commodities l).
Proof. intros [H|H]; apply in_or_app; [right; apply used_commodity; right; auto|left; apply named_in_ok; auto]. Qed.
Definition stands_list (w : world) (l : pledger) (n : str) : list str :=
  match l_get w n (pl_payees l) with
  | Ok y => [py_name y]
  | _ => match map py_name (filter (fun y => existsb (fun rx => w_rx w rx n) (py_regexes y)) (l_values (pl_payees l))) with [] => [n] | ms => ms end
  end.
Lemma stands_ok w l n m : payee_stands w l n m <-> In m (stands_list w l n).
Proof.
  unfold payee_stands, stands_list. set (f := fun y : payee => existsb (fun rx => w_rx w rx n) (py_regexes y)).
  assert (F : forall y, claims_name w n y <-> f y = true) by (intros y; unfold claims_name, f; rewrite existsb_exists; tauto).
  assert (K : (exists y, In y (l_values (pl_payees l)) /\ claims_name w n y /\ m = py_name y) <-> In m (map py_name (filter f (l_values (pl_payees l))))).
  { rewrite in_map_iff. split; [intros (y & H1 & H2 & ->); exists y; split; auto; apply filter_In; split; auto; apply F; auto|].
    intros (y & <- & H). apply filter_In in H. destruct H. exists y. split; auto. split; auto. apply F. auto. }
  assert (Z : (forall y, In y (l_values (pl_payees l)) -> ~ claims_name w n y) <-> map py_name (filter f (l_values (pl_payees l))) = []).
  { split.
    - intros H. destruct (filter f (l_values (pl_payees l))) as [|y r] eqn:E; auto. exfalso. assert (Hy : In y (filter f (l_values (pl_payees l)))) by (rewrite E; left; auto).
      apply filter_In in Hy. destruct Hy as [Hy Hf]. apply (H y Hy). apply F. auto.
    - intros H y Hy Hc. apply F in Hc. assert (Hx : In y (filter f (l_values (pl_payees l)))) by (apply filter_In; auto). destruct (filter f (l_values (pl_payees l))); [destruct Hx|discriminate]. }
  destruct (l_get w n (pl_payees l)) as [y|e|e] eqn:E.
  - cbn. split; [intros [(z & H & ->)|[H _]]; [left; congruence|destruct (H y); auto]|]. intros [<-|[]]. left. exists y. auto.
  - assert (NG : forall y, Err e <> Ok (A := payee) y) by (intros; discriminate).
    destruct (map py_name (filter f (l_values (pl_payees l)))) as [|x r] eqn:EM.
    + split; [intros [(z & H & _)|[_ [H|[_ ->]]]]; [discriminate|apply K in H; destruct H|left; auto]|]. intros [<-|[]]. right. split; auto. right. split; auto. apply Z. auto.
    + split; [intros [(z & H & _)|[_ [H|[H _]]]]; [discriminate|apply K; auto|apply Z in H; discriminate]|]. intros H. right. split; auto. left. apply K. auto.
  - assert (NG : forall y, Panic e <> Ok (A := payee) y) by (intros; discriminate).
    destruct (map py_name (filter f (l_values (pl_payees l)))) as [|x r] eqn:EM.
    + split; [intros [(z & H & _)|[_ [H|[_ ->]]]]; [discriminate|apply K in H; destruct H|left; auto]|]. intros [<-|[]]. right. split; auto. right. split; auto. apply Z. auto.
    + split; [intros [(z & H & _)|[_ [H|[H _]]]]; [discriminate|apply K; auto|apply Z in H; discriminate]|]. intros H. right. split; auto. left. apply K. auto.
Qed.
Definition claimers (w : world) (l : pledger) (m : str) : list str :=
  map ac_name (filter (fun a => existsb (fun rx => w_rx w rx m) (ac_payees a)) (l_values (pl_accounts l))).
Lemma claimers_ok w l m a : claimed_by w l m a <-> In a (claimers w l m).
Proof.
  unfold claimed_by, claimers. rewrite in_map_iff. split.
  - intros (x & H & (rx & H1 & H2) & <-). exists x. split; auto. apply filter_In. split; auto. apply existsb_exists. exists rx. auto.
  - intros (x & <- & H). apply filter_In in H. destruct H as [H H1]. apply existsb_exists in H1. destruct H1 as (rx & H1 & H2). exists x. split; auto. split; auto. exists rx. auto.
Qed.
Definition names_eqb (a b : list str) : bool := if list_eq_dec (list_eq_dec N.eq_dec) a b then true else false.
Lemma names_eqb_ok a b : names_eqb a b = true -> a = b.
Proof. unfold names_eqb. destruct (list_eq_dec (list_eq_dec N.eq_dec) a b); [auto|discriminate]. Qed.
Definition means_check (w : world) (o : opts) (l l' : pledger) : bool :=
  forallb (fun n => str_eqb (account_meant w l' n) (account_meant w l n)) (used_accounts l) &&
  forallb (fun n => str_eqb (commodity_meant w l' n) (commodity_meant w l n)) (named_in w o l ++ used_commodities l) &&
  forallb (fun n => names_eqb (stands_list w l' n) (stands_list w l n)) (payee_names l) &&
  forallb (fun d => str_eqb (payee_declared w l' d) (payee_declared w l d)) (map t_desc (journal_txns l)) &&
  forallb (fun n => forallb (fun m => names_eqb (claimers w l' m) (claimers w l m)) (stands_list w l n)) (payee_names l).
Lemma means_check_ok w o l l' : pl_txns l' = pl_txns l -> means_check w o l l' = true -> means_same w o l l'.
Proof.
  intros T H. unfold means_check in H. apply andb_prop in H. destruct H as [H H5]. apply andb_prop in H. destruct H as [H H4]. apply andb_prop in H. destruct H as [H H3].
  apply andb_prop in H. destruct H as [H1 H2]. rewrite forallb_forall in H1, H2, H3, H4, H5. constructor; auto.
  - intros n Hn. apply str_eqb_eq. apply H1. apply used_account. auto.
  - intros c Hc. apply str_eqb_eq. apply H2. apply used_in_ok. auto.
  - intros n m Hn. apply mentioned_payee in Hn. rewrite !stands_ok. rewrite (names_eqb_ok _ _ (H3 n Hn)). tauto.
  - intros d (t & Ht & <-). apply str_eqb_eq. apply H4. apply in_map. auto.
  - intros n m a Hn Hm. apply mentioned_payee in Hn. apply stands_ok in Hm. specialize (H5 n Hn). rewrite forallb_forall in H5. rewrite !claimers_ok, (names_eqb_ok _ _ (H5 m Hm)). tauto.
Qed.
Definition uses_check (w : world) (o : opts) (l : pledger) : bool :=
  clear_check w l &&
  forallb (fun c => forallb (fun n => negb (str_eqb (w_lower w c) (w_lower w n)) || str_eqb (commodity_meant w l c) (commodity_meant w l n)) (named_in w o l ++ used_commodities l)) (named_in w o l) &&
  forallb (fun d => forallb (fun n => negb (str_eqb (w_lower w d) (w_lower w n)) || str_eqb d n || is_ok (l_get w d (pl_payees l))) (map t_desc (journal_txns l) ++ payee_names l)) (map t_desc (journal_txns l)).
Lemma uses_check_ok w o l : uses_check w o l = true -> clear_uses w o l.
Proof.
  intros H. unfold uses_check in H. apply andb_prop in H. destruct H as [H H3]. apply andb_prop in H. destruct H as [H1 H2]. rewrite forallb_forall in H2, H3. constructor.
  - apply clear_check_ok. auto.
  - intros c n Hc Hn E. specialize (H2 c (named_in_ok _ _ _ _ Hc)). rewrite forallb_forall in H2.
    assert (Hi : In n (named_in w o l ++ used_commodities l)) by (destruct Hn as [Hn|Hn]; [apply used_in_ok; auto|apply in_or_app; right; apply used_commodity; auto]).
    specialize (H2 n Hi). rewrite E in H2. destruct (str_eqb_spec (w_lower w n) (w_lower w n)); [|congruence]. apply str_eqb_eq. exact H2.
  - intros d n (t & Ht & <-) Hn E. specialize (H3 (t_desc t) (in_map t_desc _ _ Ht)). rewrite forallb_forall in H3.
    assert (Hi : In n (map t_desc (journal_txns l) ++ payee_names l)).
    { apply in_or_app. destruct Hn as [(t' & Ht' & <-)|Hn]; [left; apply in_map; auto|right; apply mentioned_payee; auto]. }
    specialize (H3 n Hi). rewrite E in H3. destruct (str_eqb_spec (w_lower w n) (w_lower w n)); [|congruence]. cbn in H3. destruct (str_eqb_spec (t_desc t) n); auto. cbn in H3.
    right. destruct (l_get w (t_desc t) (pl_payees l)); try discriminate. eauto.
Qed.
Definition w94 (t t' : list Coq.Strings.String.string) : world :=
  {| w_lower := ascii_lower; w_numeric := fun _ => false;
     w_rx := fun rx s => if starts_with (L "(?i)") rx then occurs (ascii_lower (skipn 4 rx)) (ascii_lower s) else occurs rx s;
     w_rx_ok := fun _ => true; w_width := None;
     w_read := fun p => if str_eqb p (L "book") then Some (text t) else if str_eqb p (L "copy") then Some (text t') else None;
     w_glob := fun _ => None; w_two_timer := fun _ => None; w_now := 800000%Z; w_ord := fun _ _ l => l |}.
Lemma w94_ok t t' : world_ok (w94 t t').
Proof. split; [intros; apply Permutation_refl|exact ascii_lower_idem]. Qed.
(** A rule with a commodity in its condition, an alias, a payee with an alias, a payee's account. *)
Definition txns94 : list Coq.Strings.String.string :=
  ["= food"; "  (Budget)  -1"; "  (Count)  1 MEALS";
   "2021-03-02 Shop"; "  Expenses:Food  10 EUR"; "  purse";
   "2021-01-01 Job"; "  Assets:Bank  100 EUR"; "  Assets:Bank  5 USD"; "  Income";
   "2021-02-01 Cab | Taxi"; "  Unknown  3 EUR"; "  purse  -3 EUR"]%string.
Definition heads94 : list Coq.Strings.String.string :=
  ["account Assets:Cash"; "  alias purse"; "account Expenses:Travel"; "  payee Taxi"; "payee Grocer"; "  alias Shop"; "P 2021-01-05 USD 0.8 EUR"]%string.
(** The declarations in another order, one account of them with an alias more; more accounts, commodities and payees; other prices. *)
Definition heads94' : list Coq.Strings.String.string :=
  ["commodity GBP"; "  note sterling"; "P 2021-01-06 GBP 1.2 EUR"; "payee Nobody"; "payee Grocer"; "  alias Shop"; "account Expenses:Travel"; "  payee Taxi"; "  alias trip"; "account Assets:Chest";
   "account Assets:Cash"; "  alias purse"; "  note small change"; "commodity EUR"]%string.
Definition w94a : world := w94 (heads94 ++ txns94) (heads94' ++ txns94).
Definition l94 : pledger := get pl_new (tokenize_file 2 w94a (L "book")).
Definition l94' : pledger := get pl_new (tokenize_file 2 w94a (L "copy")).
Definition o94 : opts := ask ["assets"; "or"; "food"]%string None.
Lemma f94 : file_parses 2 w94a (L "book") l94.
Proof. apply file_parses_iff. vm_compute. reflexivity. Qed.
Lemma f94' : file_parses 2 w94a (L "copy") l94'.
Proof. apply file_parses_iff. vm_compute. reflexivity. Qed.
Lemma t94 : pl_txns l94' = pl_txns l94.
Proof. vm_compute. reflexivity. Qed.
Example C94_case : world_ok w94a /\ file_parses 2 w94a (L "book") l94 /\ file_parses 2 w94a (L "copy") l94' /\
  means_same w94a o94 l94 l94' /\ clear_uses w94a o94 l94 /\ clear_uses w94a o94 l94' /\ length (rules l94) = 1%nat /\
  (length (l_values (pl_accounts l94)) = 2 /\ length (l_values (pl_accounts l94')) = 3)%nat /\ pl_prices l94' <> pl_prices l94 /\
  run_cmd 2 w94a CRegister o94 (L "copy") = Ok (map L
    ["2021-01-01 Job                                       Assets:Bank                              100.00 EUR       100.00 EUR";
     "                                                     Assets:Bank                                5.00 USD       100.00 EUR";
     "                                                                                                                 5.00 USD";
     "2021-02-01 Cab                                       Assets:Cash                               -3.00 EUR        97.00 EUR";
     "                                                                                                                 5.00 USD";
     "2021-03-02 Grocer                                    Expenses:Food                             10.00 EUR       107.00 EUR";
     "                                                                                                                 5.00 USD";
     "                                                     Assets:Cash                              -10.00 EUR        97.00 EUR";
     "                                                                                                                 5.00 USD"]%string) /\
  run_cmd 2 w94a (CBalance true true) plain_opts (L "copy") = Ok (map L
    ["          100.00 EUR"; "            5.00 USD  Assets:Bank"; "          -13.00 EUR  Assets:Cash"; "          -10.00 EUR  Budget"; "          1.00 MEALS  Count";
     "           10.00 EUR  Expenses:Food"; "            3.00 EUR  Expenses:Travel"; "         -100.00 EUR"; "           -5.00 USD  Income"]%string).
Proof.
  split; [apply w94_ok|]. split; [apply f94|]. split; [apply f94'|]. split; [apply means_check_ok; [apply t94|vm_compute; reflexivity]|].
  split; [apply uses_check_ok; vm_compute; reflexivity|]. split; [apply uses_check_ok; vm_compute; reflexivity|]. split; [vm_compute; reflexivity|].
  split; [vm_compute; split; reflexivity|]. split; [intros H; apply (f_equal (map pp_date)) in H; vm_compute in H; discriminate|]. split; vm_compute; reflexivity.
Qed.
(** Converted: the declarations differ, the price line is the same. *)
Definition w94x : world := w94 (heads94 ++ txns94) (["account Assets:Chest"; "commodity CHF"; "payee Nobody"]%string ++ heads94 ++ txns94)%list.
Definition o94x : opts :=
  {| o_real := false; o_begin := None; o_end := None; o_query := []; o_depth := None; o_exchange := Some (L "EUR"); o_no_balance_check := false |}.
Definition l94x : pledger := get pl_new (tokenize_file 2 w94x (L "book")).
Definition l94x' : pledger := get pl_new (tokenize_file 2 w94x (L "copy")).
Lemma posted_ok l c q : existsb (fun t => existsb (fun p => match rp_money p with Some (a, k) => qc_eqb a q && str_eqb k c | None => false end) (t_postings t)) (pl_txns l) = true -> amount_names l c.
Proof.
  intros H. apply existsb_exists in H. destruct H as (t & Ht & H). apply existsb_exists in H. destruct H as (p & Hp & H). destruct (rp_money p) as [[a k]|] eqn:E; [|discriminate].
  apply andb_prop in H. destruct H as [_ H]. apply str_eqb_eq in H. subst k. exists t, p, a. auto.
Qed.
Definition rates_check (w : world) (l l' : pledger) : bool :=
  forallb (fun p => str_eqb (commodity_meant w l' (pp_commodity p)) (commodity_meant w l (pp_commodity p)) && str_eqb (commodity_meant w l' (pp_other p)) (commodity_meant w l (pp_other p))) (pl_prices l).
Lemma rates_check_ok w l l' : pl_prices l' = pl_prices l -> rates_check w l l' = true -> same_rates w l l'.
Proof.
  intros E H. split; auto. intros p c Hp Hc. unfold rates_check in H. rewrite forallb_forall in H. specialize (H p Hp). apply andb_prop in H. destruct H as [H1 H2].
  destruct Hc as [->| ->]; apply str_eqb_eq; auto.
Qed.
Example C94_exchange_case : world_ok w94x /\ file_parses 2 w94x (L "book") l94x /\ file_parses 2 w94x (L "copy") l94x' /\
  means_same w94x o94x l94x l94x' /\ clear_uses w94x o94x l94x /\ clear_uses w94x o94x l94x' /\ same_rates w94x l94x l94x' /\ (forall x, o_exchange o94x = Some x -> amount_names l94x x) /\
  run_cmd 2 w94x (CBalance true true) o94x (L "copy") = Ok (map L
    ["          104.00 EUR  Assets:Bank"; "          -13.00 EUR  Assets:Cash"; "          -10.00 EUR  Budget"; "          1.00 MEALS  Count";
     "           10.00 EUR  Expenses:Food"; "            3.00 EUR  Expenses:Travel"; "         -104.00 EUR  Income"]%string).
Proof.
  split; [apply w94_ok|]. split; [apply file_parses_iff; vm_compute; reflexivity|]. split; [apply file_parses_iff; vm_compute; reflexivity|].
  split; [apply means_check_ok; vm_compute; reflexivity|]. split; [apply uses_check_ok; vm_compute; reflexivity|]. split; [apply uses_check_ok; vm_compute; reflexivity|].
  split; [apply rates_check_ok; vm_compute; reflexivity|]. split; [intros x H; injection H as <-; apply (posted_ok _ _ (Q2Qc 10)); vm_compute; reflexivity|]. vm_compute. reflexivity.
Qed.
(** Without clear names a price line can change a report: [usd] in the line, [USD] in the posting, declared nowhere. *)
Definition t94n : list Coq.Strings.String.string := ["2021-01-01 Job"; "  Assets  5 USD"; "  Income"]%string.
Definition w94n : world := reversed (w94 t94n (["P 2021-01-05 usd 0.8 EUR"]%string ++ t94n)%list).
Example C94_clear_needed : world_ok w94n /\
  (forall l l', file_parses 2 w94n (L "book") l -> file_parses 2 w94n (L "copy") l' ->
    pl_accounts l' = pl_accounts l /\ pl_payees l' = pl_payees l /\ pl_commodities l' = pl_commodities l /\ pl_txns l' = pl_txns l) /\
  run_cmd 2 w94n (CBalance true true) plain_opts (L "book") = Ok (map L ["            5.00 USD  Assets"; "           -5.00 USD  Income"]%string) /\
  run_cmd 2 w94n (CBalance true true) plain_opts (L "copy") = Ok (map L ["            5.00 usd  Assets"; "           -5.00 usd  Income"]%string).
Proof.
  split; [split; [intros; symmetry; apply Permutation_rev|exact ascii_lower_idem]|]. split.
  - intros l l' F F'. apply file_parses_iff in F. apply file_parses_iff in F'. vm_compute in F. vm_compute in F'. injection F as <-. injection F' as <-. cbn. auto.
  - split; vm_compute; reflexivity.
Qed.
