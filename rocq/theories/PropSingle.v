(** C107: a report in the commodity that everything is in. *)
From Coq Require Import Lia.
From Verif Require Import Base BaseFacts Numerals Money Alist Comment Txn Expr Filter Price Tokens Ledger Reports App Spec MoneyFacts SpecList SpecTxn TxnFacts SpecLedger
  AlistFacts TokenFacts JournalFacts LedgerFacts LedgerFacts2 LedgerFacts3 EvalFacts PropAlist PropTxn PropLedger SpecQuery SpecExpr ExprFacts PropExpr PropQuery SpecReports ReportFacts ReportFacts2 ReportFacts3 PropReports PropApp
  SpecText SpecDates SpecTokens SpecJournal JournalRead PropJournal SpecLayout PropLayout SpecPrice PropPrice SpecBook BookFacts PropBook PropBook2 SpecExchange ExchangeFacts
  SpecSame SameFacts SameRead SameFacts2 SameFacts3 SameFacts4 SameRules PropSame PropLists PropAsk PropRules SpecSingle.
Open Scope Qc_scope.

(** ** What the commodity asked for is *)
Lemma meant_found w skip l lg x : world_ok w -> parsed w l -> clear_names w l -> mentions_commodity l x -> to_ledger w skip l = Ok lg ->
  buildable w cu_name cu_aliases (lg_commodities lg) /\ exists e, l_get w x (lg_commodities lg) = Ok e /\ cu_name e = commodity_meant w l x.
Proof.
  intros Hw Hp C M H. destruct (ledger_lists w skip l lg Hw Hp H) as (cs & LB & _ & _ & F & _ & _ & _ & _ & _ & N & _ & X & _).
  split; [apply LB|]. destruct (F x M) as (e & E). exists e. split; [apply X; exact E|].
  destruct (proj1 N x e E) as [D|(D & m & Hm & Lm & ->)].
  - unfold commodity_meant. rewrite D. auto.
  - cbn. transitivity (commodity_meant w l m); [|apply (cn_commodities _ _ C); auto].
    unfold commodity_meant. destruct (l_get w m (pl_commodities l)) as [y| |] eqn:Ey; auto. destruct (D y). eapply get_lower; eauto.
Qed.
Lemma ledger_only w skip l c lg : world_ok w -> journal_ok w l -> clear_names w l -> one_commodity w l c -> to_ledger w skip l = Ok lg ->
  Forall (fun t => Forall (p_only c) (t_postings t)) (lg_txns lg).
Proof.
  intros Hw J C O E. assert (W : with_order w (w_ord w) = w) by (destruct w; reflexivity).
  pose proof (ledger_exact w (w_ord w) skip l c Hw) as X. rewrite W in X. specialize (X Hw J C O). rewrite E in X. cbn in X. tauto.
Qed.

(** ** Nothing is converted *)
Lemma ord_short w site (b : balance) : world_ok w -> (length b <= 1)%nat -> w_ord w site _ b = b.
Proof.
  intros Hw H. pose proof (proj1 Hw site _ b) as P. destruct b as [|x [|y b]]; cbn in H; [apply Permutation_nil; symmetry; exact P|apply Permutation_length_1_inv; symmetry; exact P|lia].
Qed.
Lemma perm_short {A} (l l' : list A) : Permutation l l' -> (length l <= 1)%nat -> l' = l.
Proof. intros P H. destruct l as [|x [|y b]]; cbn in H; [apply Permutation_nil; auto|apply Permutation_length_1_inv; auto|lia]. Qed.
Lemma idle_convert c cur mults b : good_bal b -> b_only c b -> hget str_eqb c mults = None -> convert_balance b mults cur = Ok b.
Proof.
  intros G B N. destruct (convert_balance_ok mults cur b G) as (b' & E & G' & A). rewrite E. f_equal.
  apply perm_short; [|destruct G; eapply only_short; eauto]. apply same_amounts; auto. intros k. rewrite A.
  pose proof G as [W Z]. pose proof (only_short c b W Z B) as S. destruct b as [|[k0 m] [|y b]]; [reflexivity| |cbn in S; lia].
  destruct (only_entry c _ (k0, m) W B (or_introl eq_refl)) as [E1 E2]; [inversion Z; auto|]. cbn in E1, E2. subst k0.
  unfold converted, bal_amt. cbn [map snd]. destruct m as [|q d]; [reflexivity|]. cbn in E2. subst d. rewrite N. reflexivity.
Qed.
Lemma idle_entries w site c cur mults (vb : balances) : world_ok w -> (forall a b, In (a, b) vb -> good_bal b /\ b_only c b) -> hget str_eqb c mults = None ->
  mapM (fun e : str * balance => b <- convert_balance (w_ord w site _ (snd e)) mults cur ;; Ok (fst e, b)) vb = Ok vb.
Proof.
  intros Hw G N. induction vb as [|[a b] vb IH]; cbn [mapM]; auto. destruct (G a b (or_introl eq_refl)) as [G1 G2]. cbn [fst snd].
  rewrite ord_short; auto; [|destruct G1; eapply only_short; eauto]. rewrite (idle_convert c); auto. cbn [bind]. rewrite IH; [reflexivity|]. intros x y I. apply (G x y). right. auto.
Qed.
Lemma select_exchange w o o' n ts : same_but_exchange o o' -> forall cs, select_txns w o' n ts cs = select_txns w o n ts cs.
Proof.
  intros (_ & R & B & E & _). induction ts as [|t ts IH]; intros cs; cbn [select_txns]; auto.
  assert (P : forall ps cs, select_postings w o' n t ps cs = select_postings w o n t ps cs).
  { induction ps as [|p ps IHp]; intros cs0; cbn [select_postings]; auto. unfold filter_posting. rewrite R, B, E.
    match goal with |- bind ?a _ = _ => destruct a as [[b c1]| |] end; auto. cbn [bind]. rewrite IHp. auto. }
  rewrite P. destruct (select_postings w o n t (t_postings t) cs) as [[r c1]| |]; auto. cbn [bind]. rewrite IH. auto.
Qed.
Lemma query_exchange w o o' : same_but_exchange o o' -> query_node w o' = query_node w o.
Proof. intros (Q & _). unfold query_node. rewrite Q. auto. Qed.
Lemma usable_in date ps p : usable date ps p -> In p ps.
Proof. intros (a & b & -> & _). apply in_or_app. right. left. auto. Qed.

Lemma report_single w site o o' flat tot lg c x e : world_ok w -> same_but_exchange o o' -> o_exchange o = None -> o_exchange o' = Some x ->
  buildable w cu_name cu_aliases (lg_commodities lg) -> l_get w x (lg_commodities lg) = Ok e -> cu_name e = c ->
  Forall (fun t => Forall (p_only c) (t_postings t)) (lg_txns lg) ->
  balance_report w site o' flat tot lg = balance_report w site o flat tot lg \/
  balance_report w site o' flat tot lg = Panic PDivZero /\ exists p, In p (lg_prices lg) /\ pr_amount p = 0.
Proof.
  intros Hw S N X LB E EC P. unfold balance_report. rewrite (query_exchange w o o' S). destruct (query_node w o) as [n| |]; auto. cbn [bind].
  rewrite (select_exchange w o o' n _ S). destruct (select_txns w o n (lg_txns lg) (lg_commodities lg)) as [[sel cs]| |] eqn:ES; auto. cbn [bind].
  destruct (account_balances sel) as [bals| |] eqn:EB; auto. cbn [bind]. pose proof S as (_ & _ & _ & _ & D & _). rewrite D, X, N.
  assert (PO : Forall (p_only c) (flat_map snd sel)).
  { pose proof (selected_only c w o n _ _ _ _ P ES) as F. clear - F. induction F as [|y l H F IH]; cbn; auto. apply Forall_app. auto. }
  pose proof (balances_only c _ _ PO EB) as MO. destruct (account_balances_ok _ _ _ EB empty_good) as (GM & _).
  assert (VG : forall vb, (if flat then flat_balances w site (o_depth o) bals else Ok (tree_balances w site bals)) = Ok vb -> forall a b, In (a, b) vb -> good_bal b /\ b_only c b).
  { intros vb EV a b I. destruct flat.
    - destruct (flat_balances_ok w Hw site _ bals vb EV GM) as (R1 & R2 & _). split; [eapply R1; eauto|]. intros k K. rewrite (R2 a b I). apply MO. auto.
    - injection EV as <-. destruct (tree_cases w Hw site bals GM) as (T1 & T2 & _). split; [eapply T1; eauto|]. intros k K. rewrite (proj2 (T2 a b I)). unfold treeamt.
      destruct (pre_of bals a); [apply MO; auto|]. rewrite <- entries_sum_one by apply GM. apply MO. auto. }
  destruct (if flat then flat_balances w site (o_depth o) bals else Ok (tree_balances w site bals)) as [vb| |]; auto. cbn [bind]. specialize (VG vb eq_refl).
  destruct (select_extends w o n _ _ _ _ LB ES) as [_ [XT _]]. pose proof (XT _ _ E) as E'. rewrite E', EC.
  destruct (C37_outcomes w (100 + site) c (w_now w) (lg_prices lg) Hw) as [(mults & EM)|(EM & p & U & Z)]; [left|right; rewrite EM; split; [reflexivity|exists p; split; auto; eapply usable_in; eauto]].
  rewrite EM. cbn [bind].
  assert (NC : hget str_eqb c mults = None).
  { destruct (hget str_eqb c mults) as [q|] eqn:Q; auto. exfalso. apply (hget_In str_eqb str_eqb_spec) in Q. eapply rates_not_cur; [eapply rates_found; eauto|]. apply in_map_iff. exists (c, q). auto. }
  match goal with |- context [mapM ?f vb] => replace (mapM f vb) with (Ok vb : res balances) by (symmetry; apply (idle_entries w (103 + site) c c mults vb Hw VG NC)) end. cbn [bind]. cbn zeta.
  destruct (tot && _); auto. destruct mults as [|m0 mults]; auto. cbn [unwrap bind]. unfold get_unwrap. rewrite E'. cbn [bind]. rewrite EC.
  set (tl := sum_balances (map snd (w_ord w (104 + site) _ bals))).
  assert (T : good_bal tl /\ b_only c tl).
  { assert (PB : Permutation bals (w_ord w (104 + site) _ bals)) by (symmetry; apply Hw).
    destruct (sum_entries_ok (fun _ => true) (w_ord w (104 + site) _ bals)) as [T1 T2].
    { intros a b I. apply (proj2 GM a b). eapply Permutation_in; [symmetry; exact PB|exact I]. }
    assert (FT : forall A (l : list A), filter (fun _ => true) l = l) by (induction l; cbn; congruence). rewrite FT in T1, T2. fold tl in T1, T2. split; auto.
    intros k K. rewrite T2. rewrite <- (MO (fun _ => true) k K). unfold entries_sum. rewrite !FT. apply qsum_perm. apply Permutation_map. symmetry. exact PB. }
  destruct T as [T1 T2]. rewrite ord_short; auto; [|destruct T1; eapply only_short; eauto]. rewrite (idle_convert c); auto.
Qed.

(** ** C107 *)
Theorem C107_own_commodity : forall depth w flat no_total o o' x file l c, world_ok w -> file_parses depth w file l -> clear_names w l -> one_commodity w l c ->
  mentions_commodity l x -> commodity_meant w l x = c -> same_but_exchange o o' -> o_exchange o = None -> o_exchange o' = Some x ->
  run_cmd depth w (CBalance flat no_total) o' file = run_cmd depth w (CBalance flat no_total) o file \/
  run_cmd depth w (CBalance flat no_total) o' file = Panic PDivZero /\ zero_price w (o_no_balance_check o) l.
Proof.
  intros depth w flat no_total o o' x file l c Hw HF C O M MC S N X. assert (Hp : parsed w l) by (destruct HF as (k & _ & F); exists depth, (Some file), [file], k; auto). apply file_parses_iff in HF. unfold run_cmd. rewrite HF. cbn [bind]. unfold run_on.
  pose proof S as (_ & _ & _ & _ & _ & NB). rewrite NB. destruct (to_ledger w (o_no_balance_check o) l) as [lg| |] eqn:E; auto. cbn [bind].
  destruct (meant_found _ _ _ _ x Hw Hp C M E) as (LB & e & Ee & En). pose proof (ledger_only _ _ _ c _ Hw (parsed_ok _ _ Hp) C O E) as P.
  destruct (report_single w (report_site lg) o o' flat (negb no_total) lg c x e Hw S N X LB Ee (eq_trans En MC) P) as [->|(-> & p & Ip & Zp)]; auto.
  right. split; auto. exists lg, p. auto.
Qed.
Print Assumptions C107_own_commodity.
(** The other commands do not convert at all. *)
Theorem C107_only_balance : forall depth w c o o' file, same_but_exchange o o' -> (forall flat no_total, c <> CBalance flat no_total) ->
  run_cmd depth w c o' file = run_cmd depth w c o file.
Proof.
  intros depth w c o o' file S NB. unfold run_cmd. destruct (tokenize_file depth w file) as [l| |]; auto. cbn [bind]. unfold run_on. pose proof S as (_ & _ & _ & _ & _ & K). rewrite K.
  destruct c; auto; [destruct (NB flat no_total); auto|]. destruct (to_ledger w (o_no_balance_check o) l) as [lg| |]; auto. cbn [bind].
  unfold register_report. rewrite (query_exchange w o o' S). destruct (query_node w o) as [n| |]; auto. cbn [bind]. rewrite (select_exchange w o o' n _ S). auto.
Qed.
Print Assumptions C107_only_balance.

(** A commodity that the journal does not know is as good as none. *)
Lemma report_unknown w site o o' flat tot lg x : world_ok w -> same_but_exchange o o' -> o_exchange o = None -> o_exchange o' = Some x ->
  (exists e, l_get w x (lg_commodities lg) = Err e) -> (forall n, query_node w o = Ok n -> adds_no_commodity w n) ->
  balance_report w site o' flat tot lg = balance_report w site o flat tot lg.
Proof.
  intros Hw S N X (e & E) Q. unfold balance_report. rewrite (query_exchange w o o' S). destruct (query_node w o) as [n| |]; auto. cbn [bind]. specialize (Q n eq_refl).
  rewrite (select_exchange w o o' n _ S). destruct (select_txns w o n (lg_txns lg) (lg_commodities lg)) as [[sel cs]| |] eqn:ES; auto. cbn [bind].
  apply select_adds_none in ES; auto. subst cs. destruct (account_balances sel) as [bals| |]; auto. cbn [bind]. pose proof S as (_ & _ & _ & _ & D & _). rewrite D, X, N, E.
  destruct (if flat then flat_balances w site (o_depth o) bals else Ok (tree_balances w site bals)) as [vb| |]; auto.
Qed.
Theorem C107_unknown_commodity : forall depth w flat no_total o o' x file l, world_ok w -> file_parses depth w file l -> rules l = [] ->
  (forall e, l_get w x (pl_commodities l) <> Ok e) -> (forall n, mentions_commodity l n -> w_lower w n <> w_lower w x) ->
  (forall q, query_node w o = Ok q -> adds_no_commodity w q) -> same_but_exchange o o' -> o_exchange o = None -> o_exchange o' = Some x ->
  run_cmd depth w (CBalance flat no_total) o' file = run_cmd depth w (CBalance flat no_total) o file.
Proof.
  intros depth w flat no_total o o' x file l Hw HF R U M Q S N X. assert (Hp : parsed w l) by (destruct HF as (k & _ & F); exists depth, (Some file), [file], k; auto). apply file_parses_iff in HF.
  unfold run_cmd. rewrite HF. cbn [bind]. unfold run_on. pose proof S as (_ & _ & _ & _ & _ & NB). rewrite NB. destruct (to_ledger w (o_no_balance_check o) l) as [lg| |] eqn:E; auto. cbn [bind].
  rewrite (report_unknown w (report_site lg) o o' flat (negb no_total) lg x); auto.
  destruct (ledger_lists w _ l lg Hw Hp E) as (cs & LB & BC & _ & _ & _ & _ & _ & _ & _ & NA & _ & _ & EC). rewrite (EC R).
  destruct (C22_lookup_total w _ _ _ x Hw BC) as [(c & _ & Ec)|Ec]; [|eauto]. exfalso.
  destruct (proj1 NA x c Ec) as [D|(_ & m & Hm & Lm & _)]; [exact (U c D)|exact (M m Hm Lm)].
Qed.
Print Assumptions C107_unknown_commodity.

(** ** A case: aliases, an automated transaction, prices, a transaction with a posting to fill in *)
Definition t107 : list String.string :=
  ["commodity EUR"; "  alias e"; "P 2021-01-01 USD 0.8 EUR"; "P 2021-01-02 EUR 1.1 CHF"; "= food"; "  (Budget:Food)  -1"; "  Expenses:Tips  (amount * 0.1)"; "  Assets:Bank  -0.1";
   "2021-03-02 Shop"; "  Expenses:Food  10 e"; "  Assets:Cash"; "2021-01-01 Job"; "  Assets:Bank  100 EUR = 100 eur"; "  Income"]%string.
Definition z107 : list String.string := (t107 ++ ["P 2021-01-03 EUR 0 XXX"])%list%string.
Definition w107 : world :=
  {| w_lower := ascii_lower; w_numeric := fun _ => false;
     w_rx := fun rx s => if starts_with (L "(?i)") rx then occurs (ascii_lower (skipn 4 rx)) (ascii_lower s) else occurs rx s;
     w_rx_ok := fun _ => true; w_width := None;
     w_read := fun p => if str_eqb p (L "book") then Some (text t107) else if str_eqb p (L "zero") then Some (text z107) else None;
     w_glob := fun _ => None; w_two_timer := fun _ => None; w_now := 800000%Z; w_ord := fun _ A l => rev l |}.
Lemma w107_ok : world_ok w107.
Proof. split; [intros; symmetry; apply Permutation_rev|exact ascii_lower_idem]. Qed.
Definition l107 (f : String.string) : pledger := get pl_new (tokenize_file 2 w107 (L f)).
Definition in107 (x : option String.string) : opts :=
  {| o_real := false; o_begin := None; o_end := None; o_query := []; o_depth := None; o_exchange := option_map L x; o_no_balance_check := false |}.
Definition mentions_check (l : pledger) (n : str) : bool := existsb (str_eqb n) (flat_map (fun p => [pp_commodity p; pp_other p]) (pl_prices l)).
Lemma mentions_check_ok l n : mentions_check l n = true -> mentions_commodity l n.
Proof.
  intros H. apply existsb_exists in H as (m & I & E). apply str_eqb_eq in E. subst m. apply in_flat_map in I as (p & Ip & I). left. exists p. split; auto. destruct I as [<-|[<-|[]]]; auto.
Qed.
Lemma mentions_lines_ok l n : existsb (fun t => existsb (fun p => match rp_money p with Some (_, m) => str_eqb n m | None => false end) (t_postings t)) (pl_txns l) = true -> mentions_commodity l n.
Proof.
  intros H. apply existsb_exists in H as (t & It & H). apply existsb_exists in H as (p & Ip & H). destruct (rp_money p) as [[q m]|] eqn:E; [|discriminate]. apply str_eqb_eq in H. subst m. right. exists t, p, q. auto.
Qed.
Example C107_case : world_ok w107 /\ file_parses 2 w107 (L "book") (l107 "book") /\ clear_names w107 (l107 "book") /\ one_commodity w107 (l107 "book") (L "EUR") /\
  length (rules (l107 "book")) = 1%nat /\
  mentions_commodity (l107 "book") (L "EUR") /\ mentions_commodity (l107 "book") (L "e") /\ commodity_meant w107 (l107 "book") (L "e") = L "EUR" /\ same_but_exchange (in107 None) (in107 (Some "e"%string)) /\
  run_cmd 2 w107 (CBalance true false) (in107 (Some "e"%string)) (L "book") = Ok (map L
    ["           99.00 EUR  Assets:Bank"; "          -10.00 EUR  Assets:Cash"; "          -10.00 EUR  Budget:Food"; "           10.00 EUR  Expenses:Food"; "            1.00 EUR  Expenses:Tips"; "         -100.00 EUR  Income"; "--------------------"; "          -10.00 EUR"]%string) /\
  run_cmd 2 w107 (CBalance false false) (in107 (Some "e"%string)) (L "book") = run_cmd 2 w107 (CBalance false false) (in107 None) (L "book").
Proof.
  split; [exact w107_ok|]. split; [apply file_parses_iff; vm_compute; reflexivity|]. split; [apply clear_check_ok; vm_compute; reflexivity|].
  split; [apply one_check_ok; vm_compute; reflexivity|]. split; [vm_compute; reflexivity|]. split; [apply mentions_check_ok; vm_compute; reflexivity|]. split; [apply mentions_lines_ok; vm_compute; reflexivity|].
  split; [vm_compute; reflexivity|]. split; [repeat split|]. split; vm_compute; reflexivity.
Qed.
(** A zero price ends the command even though nothing is to be converted; another commodity is seen. *)
Example C107_zero : file_parses 2 w107 (L "zero") (l107 "zero") /\ clear_names w107 (l107 "zero") /\ one_commodity w107 (l107 "zero") (L "EUR") /\
  run_cmd 2 w107 (CBalance true true) (in107 (Some "EUR"%string)) (L "zero") = Panic PDivZero /\
  run_cmd 2 w107 (CBalance true true) (in107 None) (L "zero") = run_cmd 2 w107 (CBalance true true) (in107 None) (L "book") /\
  run_cmd 2 w107 (CBalance true true) (in107 (Some "USD"%string)) (L "book") <> run_cmd 2 w107 (CBalance true true) (in107 None) (L "book").
Proof.
  split; [apply file_parses_iff; vm_compute; reflexivity|]. split; [apply clear_check_ok; vm_compute; reflexivity|]. split; [apply one_check_ok; vm_compute; reflexivity|].
  split; [vm_compute; reflexivity|]. split; [vm_compute; reflexivity|]. vm_compute. intros H. discriminate H.
Qed.
(** Two commodities, and a third is asked for. *)
Definition u107 : list String.string :=
  ["commodity EUR"; "  alias e"; "P 2021-01-01 USD 0.8 EUR"; "2021-01-01 Job"; "  Assets:Bank  100 EUR"; "  Assets:Dollars  10 USD"; "  Income  -108 e"]%string.
Definition m107 : world := w84 u107.
Definition lu107 : pledger := get pl_new (tokenize_file 2 m107 (L "book")).
Definition names_of (l : pledger) : list str :=
  flat_map (fun p => [pp_commodity p; pp_other p]) (pl_prices l) ++
  flat_map (fun t => flat_map (fun p => flat_map (fun m : option (Qc * str) => match m with Some (_, n) => [n] | None => [] end) [rp_money p; rp_cost p; rp_balance p]) (t_postings t)) (pl_txns l).
Lemma names_of_all l n : mentions_commodity l n -> In n (names_of l).
Proof.
  intros [(p & Ip & H)|(t & p & q & It & Ip & H)]; apply in_or_app; [left|right].
  - apply in_flat_map. exists p. split; auto. destruct H as [->| ->]; cbn; auto.
  - apply in_flat_map. exists t. split; auto. apply in_flat_map. exists p. split; auto. cbn [flat_map]. rewrite !in_app_iff. destruct H as [-> | [-> | ->]]; cbn; auto.
Qed.
Example C107_unknown_case : world_ok m107 /\ file_parses 2 m107 (L "book") lu107 /\ rules lu107 = [] /\ (forall e, l_get m107 (L "GBP") (pl_commodities lu107) <> Ok e) /\
  (forall n, mentions_commodity lu107 n -> w_lower m107 n <> w_lower m107 (L "GBP")) /\ (forall q, query_node m107 (in107 None) = Ok q -> adds_no_commodity m107 q) /\
  run_cmd 2 m107 (CBalance true true) (in107 (Some "GBP"%string)) (L "book") = Ok (map L ["          100.00 EUR  Assets:Bank"; "           10.00 USD  Assets:Dollars"; "         -108.00 EUR  Income"]%string).
Proof.
  split; [apply w84_ok|]. split; [apply file_parses_iff; vm_compute; reflexivity|]. split; [vm_compute; reflexivity|]. split; [intros e; vm_compute; discriminate|]. split.
  { intros n H. apply names_of_all in H. assert (K : forallb (fun n => negb (str_eqb (w_lower m107 n) (w_lower m107 (L "GBP")))) (names_of lu107) = true) by (vm_compute; reflexivity).
    rewrite forallb_forall in K. specialize (K n H). intros X. rewrite X in K. vm_compute in K. discriminate K. }
  split; [intros q H; vm_compute in H; injection H as <-; exact I|]. vm_compute. reflexivity.
Qed.
