(** C108: price lines that say nothing new. *)
From Coq Require Import Lia.
From Verif Require LiteralFacts.
From Verif Require Import Base BaseFacts Numerals Money Alist Comment Txn Expr Filter Price Tokens Ledger Reports App Spec MoneyFacts SpecList SpecTxn TxnFacts SpecLedger
  AlistFacts JournalFacts LedgerFacts LedgerFacts2 LedgerFacts3 SpecPrice PriceFacts SpecReports PropReports PropApp SpecText SpecTokens SpecJournal JournalRead PropJournal SpecLayout PropLayout SpecBook BookFacts PropBook PropAsk PropRules PropLedger PropTxn SpecNews.

(** ** The names *)
Lemma sadd_old n s : In n s -> sadd str_eqb n s = s.
Proof. intros H. unfold sadd. assert (E : existsb (str_eqb n) s = true) by (apply existsb_exists; exists n; split; auto; apply str_eqb_refl). rewrite E. auto. Qed.
Lemma mentioned_in l n : mentions_commodity l n -> In n (commodity_names l).
Proof.
  intros H. apply commodity_names_iff. destruct H as [(p & Ip & H)|(t & p & q & It & Ip & H)]; [left; exists p; tauto|]. right. exists p, q. split; [|tauto].
  apply in_flat_map. exists t. auto.
Qed.
Lemma names_added w l l' extra : prices_added l l' extra -> Forall (no_news w l) extra -> commodity_names l' = commodity_names l.
Proof.
  intros [_ _ _ T P] F. unfold commodity_names. rewrite T, P, fold_left_app. fold (commodity_names l). clear P.
  induction F as [|p extra (M1 & M2 & _) F IH]; cbn [fold_left]; auto. rewrite (sadd_old (pp_commodity p)), (sadd_old (pp_other p)) by (apply mentioned_in; auto). exact IH.
Qed.
(** ** The prices *)
Lemma mapM_both {A B} (f : A -> res B) l : forall l' xs ys, mapM f l = Ok xs -> mapM f l' = Ok ys -> mapM f (l ++ l') = Ok (xs ++ ys).
Proof.
  induction l as [|a l IH]; cbn [mapM app]; intros l' xs ys H K; [injection H as <-; auto|]. bind_inv H. bind_inv H. injection H as <-. rewrite (IH _ _ _ Hb0 K), Hb. auto.
Qed.
Lemma mapM_stops {A B} (f : A -> res B) l : forall l', (forall xs, mapM f l <> Ok xs) -> mapM f (l ++ l') = mapM f l.
Proof.
  induction l as [|a l IH]; cbn [mapM app]; intros l' H; [destruct (H []); auto|]. destruct (f a) as [x| |]; auto. cbn [bind] in *. rewrite IH; auto. intros xs E. rewrite E in H. apply (H (x :: xs)). auto.
Qed.
(** A price that does not count: after the day, or not newer than one of the prices before it for the same pair. *)
Definition idle (date : Z) (ps : list price) (p : price) : Prop :=
  (date < pr_date p)%Z \/ exists q, In q ps /\ (pr_date p <= pr_date q)%Z /\ (pr_date q <= date)%Z /\ pair_key q = pair_key p.
Lemma idle_prices date ps extra more : Forall (idle date ps) extra -> prices_nodup date (ps ++ extra ++ more) = prices_nodup date (ps ++ more).
Proof.
  intros F. unfold prices_nodup. rewrite !fold_left_app. f_equal. destruct (prices_nodup_spec date ps) as (_ & _ & H). unfold prices_nodup in H.
  induction F as [|p extra I F IH]; cbn [fold_left]; auto. replace (nodup_step date (fold_left (nodup_step date) ps []) p) with (fold_left (nodup_step date) ps []); [exact IH|].
  symmetry. unfold nodup_step. destruct (Z.ltb_spec date (pr_date p)) as [|L]; auto. destruct I as [I|(q & Iq & D1 & D2 & K)]; [lia|].
  destruct (H q Iq D2) as (x & E & Dx). rewrite <- K.
  match goal with |- match ?h with _ => _ end = _ => assert (EH : h = Some x) by exact E; rewrite EH end.
  destruct (Z.ltb_spec (pr_date x) (pr_date p)); auto. lia.
Qed.
Lemma conversion_prices w site cur date ps ps' : prices_nodup date ps = prices_nodup date ps' -> conversion w site cur date ps = conversion w site cur date ps'.
Proof. intros E. unfold conversion, conv_paths, conv_nodes. rewrite E. auto. Qed.
(** Balancing only adds to the prices. *)
Definition add_prices (ps : list price) (r : list (txn posting) * balances * list price) : list (txn posting) * balances * list price := (fst r, ps ++ snd r).
Lemma balance_adds w skip ts : forall site b ps, balance_all w site skip ts b ps = (r <- balance_all w site skip ts b [] ;; Ok (add_prices ps r)).
Proof.
  induction ts as [|t ts IH]; intros site b ps; cbn [balance_all]; [cbn; unfold add_prices; cbn; rewrite app_nil_r; auto|].
  destruct (t_date t) as [d|]; cbn [unwrap bind]; auto. destruct (txn_balance _ skip t b) as [[[x t'] b']| |]; auto. cbn [bind]. destruct (implicit_price d _) as [prs| |]; auto. cbn [bind].
  rewrite (IH _ _ (ps ++ prs)), (IH _ _ ([] ++ prs)). destruct (balance_all w (S (S site)) skip ts b' []) as [[[r' b2] p2]| |]; auto. cbn. unfold add_prices. cbn. rewrite app_assoc. auto.
Qed.
(** The two ledgers differ in the added prices only. *)
Definition ledger_with (ps : list price) (lg : ledger) : ledger :=
  {| lg_accounts := lg_accounts lg; lg_commodities := lg_commodities lg; lg_txns := lg_txns lg; lg_prices := ps; lg_payees := lg_payees lg |}.
Lemma phase_adds w skip cs al pays ps extra raw :
  match balance_phase w skip (cs, al, pays, ps, raw) with
  | Ok lg => exists more, lg_prices lg = ps ++ more /\ balance_phase w skip (cs, al, pays, ps ++ extra, raw) = Ok (ledger_with (ps ++ extra ++ more) lg)
  | Err e => balance_phase w skip (cs, al, pays, ps ++ extra, raw) = Err e
  | Panic e => balance_phase w skip (cs, al, pays, ps ++ extra, raw) = Panic e
  end.
Proof.
  unfold balance_phase. set (ts := sort_txns _). set (c := flat_map snd raw). rewrite (balance_adds w skip ts 8 _ (ps ++ c)), (balance_adds w skip ts 8 _ ((ps ++ extra) ++ c)).
  destruct (balance_all w 8 skip ts (fresh_balances al) []) as [[[ts1 b1] p1]| |]; cbn [bind add_prices fst snd]; auto.
  destruct (flat_map (fun x : raw_result => snd (fst x)) raw) as [|a autos].
  - exists (c ++ p1). cbn. split; [rewrite app_assoc; auto|]. unfold ledger_with. cbn. rewrite <- !app_assoc. auto.
  - destruct (mapM _ (a :: autos)) as [nodes| |]; cbn [bind]; auto. destruct (auto_all w (combine nodes (a :: autos)) ts1 _) as [[ts2 s]| |]; cbn [bind]; auto.
    rewrite (balance_adds w skip ts2 _ _ ((ps ++ c) ++ p1)), (balance_adds w skip ts2 _ _ (((ps ++ extra) ++ c) ++ p1)).
    destruct (balance_all w _ skip ts2 (fresh_balances (as_accs s)) []) as [[[ts3 b3] p3]| |]; cbn [bind add_prices fst snd]; auto.
    exists (c ++ p1 ++ p3). cbn. split; [rewrite <- !app_assoc; auto|]. unfold ledger_with. cbn. rewrite <- !app_assoc. auto.
Qed.
Lemma prices_same w l extra cs ps : (forall n, mentions_commodity l n -> exists e, l_get w n cs = Ok e) -> Forall (no_news w l) extra -> mapM (price_of w cs) (pl_prices l) = Ok ps ->
  exists xs, mapM (price_of w cs) extra = Ok xs /\ Forall (idle (w_now w) ps) xs.
Proof.
  intros F N E. assert (G : forall q, In q (pl_prices l) -> exists x, In x ps /\ price_of w cs q = Ok x).
  { clear - E. revert ps E. induction (pl_prices l) as [|p l0 IH]; cbn [mapM]; intros ps E q I; [destruct I|]. bind_inv E. bind_inv E. injection E as <-. destruct I as [<-|I]; [exists a; split; auto; left; auto|].
    destruct (IH _ Hb0 q I) as (x & X & Y). exists x. split; auto. right. auto. }
  induction N as [|p extra (M1 & M2 & H) N (xs & X1 & X2)]; cbn [mapM]; [exists []; split; auto|].
  destruct (F _ M1) as (c & Ec), (F _ M2) as (d & Ed). unfold price_of at 1, get_unwrap. rewrite Ec, Ed. cbn [bind]. rewrite X1. cbn [bind]. eexists. split; [reflexivity|]. constructor; auto.
  destruct H as [H|(q & Iq & D1 & D2 & K)]; [left; auto|right]. destruct (G q Iq) as (x & Ix & Ex). exists x. split; auto. unfold price_of, get_unwrap in Ex.
  destruct K as [[K1 K2]|[K1 K2]]; rewrite K1, K2, Ec, Ed in Ex; cbn [bind] in Ex; injection Ex as <-; cbn; (split; [auto|]; split; [auto|]); apply pair_key_iff; unfold same_pair; cbn; auto.
Qed.
Lemma ledger_added w skip l l' extra : world_ok w -> journal_ok w l -> prices_added l l' extra -> Forall (no_news w l) extra ->
  match to_ledger w skip l with
  | Ok lg => exists ps, to_ledger w skip l' = Ok (ledger_with ps lg) /\ prices_nodup (w_now w) ps = prices_nodup (w_now w) (lg_prices lg)
  | Err e => to_ledger w skip l' = Err e
  | Panic e => to_ledger w skip l' = Panic e
  end.
Proof.
  intros Hw J PA N. rewrite !to_ledger_phases. pose proof (names_added w l l' extra PA N) as EC. pose proof PA as [A1 A2 A3 A4 A5].
  assert (EA : account_names l' = account_names l) by (unfold account_names; rewrite A4; auto). assert (EP : payee_names l' = payee_names l) by (unfold payee_names; rewrite A4; auto).
  destruct (names_exist w l Hw J) as (cs & al & pays & E1 & E2 & E3 & NO). destruct (found_names _ _ _ _ _ NO) as (_ & F & _).
  unfold read_phase. rewrite A1, A2, A3, A4, A5, EC, EA, EP, E1, E2, E3. cbn [bind].
  destruct (mapM (price_of w cs) (pl_prices l)) as [ps|e|e] eqn:EM.
  - destruct (prices_same w l extra cs ps F N EM) as (xs & X1 & X2). rewrite (mapM_both _ _ _ _ _ EM X1). cbn [bind].
    destruct (mapM (txn_of_raw w _ al pays cs) (pl_txns l)) as [raw| |]; cbn [bind]; auto. pose proof (phase_adds w skip cs al pays ps xs raw) as H.
    match type of H with match ?b with _ => _ end => match goal with |- match ?b' with _ => _ end => change b' with b; revert H; destruct b as [lg|e|e]; intros H; auto end end. destruct H as (more & H1 & H2). eexists. split; [exact H2|]. rewrite H1. apply idle_prices. auto.
  - rewrite mapM_stops, EM by (rewrite EM; discriminate). reflexivity.
  - rewrite mapM_stops, EM by (rewrite EM; discriminate). reflexivity.
Qed.
Lemma report_added w site o flat tot lg ps : prices_nodup (w_now w) ps = prices_nodup (w_now w) (lg_prices lg) -> balance_report w site o flat tot (ledger_with ps lg) = balance_report w site o flat tot lg.
Proof.
  intros E. unfold balance_report, ledger_with. cbn [lg_txns lg_commodities lg_prices]. destruct (query_node w o) as [n| |]; auto. cbn [bind].
  destruct (select_txns w o n (lg_txns lg) (lg_commodities lg)) as [[sel cs]| |]; auto. cbn [bind]. destruct (account_balances sel) as [bals| |]; auto. cbn [bind].
  destruct (if flat then _ else _) as [vb| |]; auto. cbn [bind]. destruct (o_exchange o) as [x|]; auto. destruct (l_get w x cs) as [c| |]; auto.
  rewrite (conversion_prices w _ _ _ _ _ E). auto.
Qed.

(** ** C108 *)
Theorem C108_no_news : forall depth w c o file file' l l' extra, world_ok w -> file_parses depth w file l -> file_parses depth w file' l' ->
  prices_added l l' extra -> Forall (no_news w l) extra -> c <> CPrices -> c <> CCheck ->
  run_cmd depth w c o file' = run_cmd depth w c o file.
Proof.
  intros depth w c o file file' l l' extra Hw HF HF' PA N NP NC.
  assert (Hp : parsed w l) by (destruct HF as (k & _ & F); exists depth, (Some file), [file], k; auto). apply file_parses_iff in HF, HF'. unfold run_cmd. rewrite HF, HF'. cbn [bind]. unfold run_on.
  pose proof (ledger_added w (o_no_balance_check o) l l' extra Hw (parsed_ok _ _ Hp) PA N) as H.
  destruct c; try congruence; (destruct (to_ledger w (o_no_balance_check o) l) as [lg|e|e]; [destruct H as (ps & -> & E); cbn [bind]; auto|rewrite H; reflexivity|rewrite H; reflexivity]).
  change (report_site (ledger_with ps lg)) with (report_site lg). rewrite report_added; auto.
Qed.
Print Assumptions C108_no_news.
Theorem C108_check : forall depth w o file file' l l' extra, world_ok w -> file_parses depth w file l -> file_parses depth w file' l' ->
  prices_added l l' extra -> Forall (no_news w l) extra ->
  exit_status (run_cmd depth w CCheck o file') = exit_status (run_cmd depth w CCheck o file).
Proof.
  intros depth w o file file' l l' extra Hw HF HF' PA N.
  assert (Hp : parsed w l) by (destruct HF as (k & _ & F); exists depth, (Some file), [file], k; auto). apply file_parses_iff in HF, HF'. unfold run_cmd. rewrite HF, HF'. cbn [bind]. unfold run_on.
  pose proof (ledger_added w false l l' extra Hw (parsed_ok _ _ Hp) PA N) as H. destruct (to_ledger w false l) as [lg| |]; [destruct H as (ps & -> & _)|rewrite H|rewrite H]; reflexivity.
Qed.
Print Assumptions C108_check.

(** ** From texts *)
Definition with_prices (l : pledger) (extra : list parsed_price) : pledger := fold_left (fun l p => add_price p l) extra l.
Lemma with_prices_added extra : forall l, prices_added l (with_prices l extra) extra.
Proof.
  induction extra as [|p extra IH]; intros l; [split; auto; cbn; rewrite app_nil_r; auto|]. destruct (IH (add_price p l)) as [A1 A2 A3 A4 A5]. split; auto. change (with_prices l (p :: extra)) with (with_prices (add_price p l) extra).
  rewrite A5. cbn. rewrite <- app_assoc. auto.
Qed.
Lemma blank_more g b : blank_lines g -> blanks b -> blank_lines (g ++ b ++ [c_nl]).
Proof.
  intros G B. induction G as [|b' r B' G IH]; cbn [app]; [apply (bl_line b []); auto; constructor|]. rewrite <- app_assoc. cbn [app]. apply bl_line; auto.
Qed.
Lemma prices_written w extra lines : Forall2 price_written extra lines -> forall l g, blank_lines g -> journal_written w l (with_prices l extra) (g ++ concat lines).
Proof.
  induction 1 as [|p s extra lines H F IH]; intros l g G; cbn [concat].
  - rewrite <- (app_nil_r ([] : str)). apply jw_end; auto. intros c [].
  - apply (jw_item w l g (add_price p l) s); auto; [constructor; auto|]. apply (IH (add_price p l) []). constructor.
Qed.
Lemma prices_after w extra lines l0 l s : Forall2 price_written extra lines -> journal_written w l0 l s -> journal_written w l0 (with_prices l extra) (s ++ c_nl :: concat lines).
Proof.
  intros F H. induction H as [l g b G B|l g l1 s l2 r G I J IH].
  - replace ((g ++ b) ++ c_nl :: concat lines) with ((g ++ b ++ [c_nl]) ++ concat lines) by (rewrite <- !app_assoc; auto). apply prices_written; auto. apply blank_more; auto.
  - rewrite <- !app_assoc. eapply jw_item; eauto.
Qed.
Theorem C108_text : forall d w c o file file' s l extra lines, world_ok w -> blanks_not_numeric w -> journal_written w pl_new l s -> w_read w file = Some s ->
  Forall2 price_written extra lines -> w_read w file' = Some (s ++ [c_nl] ++ concat lines) -> Forall (no_news w l) extra -> c <> CPrices -> c <> CCheck ->
  run_cmd (S d) w c o file' = run_cmd (S d) w c o file.
Proof.
  intros d w c o file file' s l extra lines Hw BN JW R F R' N NP NC. apply (C108_no_news (S d) w c o file file' l (with_prices l extra) extra); auto.
  - apply file_parses_iff. eapply C67_file_read_as_written; eauto.
  - apply file_parses_iff. eapply C67_file_read_as_written; eauto. apply prices_after; auto.
  - apply with_prices_added.
Qed.
Print Assumptions C108_text.

(** ** A case: today is in July 2021 *)
Definition t108 : list String.string :=
  ["P 2021-02-01 USD 0.8 EUR"; "= food"; "  (Budget)  -1"; "2021-01-01 Job"; "  Assets:Bank  100 EUR"; "  Income"; "2021-03-01 Shop"; "  Food  10 USD"; "  Assets:Card"]%string.
Definition old108 : list String.string := ["P 2021-01-01 USD 0.5 EUR"; "P 2021-02-01 EUR 3 USD"; "P 2021-12-01 USD 2 EUR"]%string.
Definition new108 : list String.string := ["P 2021-02-02 USD 0.5 EUR"]%string.
Definition w108 : world :=
  {| w_lower := ascii_lower; w_numeric := fun _ => false;
     w_rx := fun rx s => if starts_with (L "(?i)") rx then occurs (ascii_lower (skipn 4 rx)) (ascii_lower s) else occurs rx s;
     w_rx_ok := fun _ => true; w_width := None;
     w_read := fun p => option_map snd (find (fun f => str_eqb (fst f) p) [(L "book", text t108); (L "more", text (t108 ++ old108)); (L "news", text (t108 ++ new108))]);
     w_glob := fun _ => None; w_two_timer := fun _ => None; w_now := 738000%Z; w_ord := fun _ A l => rev l |}.
Lemma w108_ok : world_ok w108.
Proof. split; [intros; symmetry; apply Permutation_rev|exact ascii_lower_idem]. Qed.
Definition l108 (f : String.string) : pledger := get pl_new (tokenize_file 2 w108 (L f)).
Definition in108 (x : String.string) : opts :=
  {| o_real := false; o_begin := None; o_end := None; o_query := []; o_depth := None; o_exchange := Some (L x); o_no_balance_check := false |}.
Definition extra108 : list parsed_price := skipn 1 (pl_prices (l108 "more")).
Definition names_check (l : pledger) (n : str) : bool := existsb (fun q => str_eqb (pp_commodity q) n || str_eqb (pp_other q) n) (pl_prices l).
Definition news_check (w : world) (l : pledger) (p : parsed_price) : bool :=
  names_check l (pp_commodity p) && names_check l (pp_other p) &&
  ((w_now w <? pp_date p)%Z || existsb (fun q => (pp_date p <=? pp_date q)%Z && (pp_date q <=? w_now w)%Z &&
     (str_eqb (pp_commodity q) (pp_commodity p) && str_eqb (pp_other q) (pp_other p) || str_eqb (pp_commodity q) (pp_other p) && str_eqb (pp_other q) (pp_commodity p))) (pl_prices l)).
Lemma names_check_ok l n : names_check l n = true -> mentions_commodity l n.
Proof. intros H. apply existsb_exists in H as (q & I & H). left. exists q. split; auto. apply Bool.orb_true_iff in H as [H|H]; apply str_eqb_eq in H; auto. Qed.
Lemma news_check_ok w l extra : forallb (news_check w l) extra = true -> Forall (no_news w l) extra.
Proof.
  intros H. apply Forall_forall. intros p I. rewrite forallb_forall in H. specialize (H p I). unfold news_check in H. apply andb_prop in H as [H H3]. apply andb_prop in H as [H1 H2].
  split; [apply names_check_ok; auto|]. split; [apply names_check_ok; auto|]. apply Bool.orb_true_iff in H3 as [H3|H3]; [left; apply Z.ltb_lt; auto|right].
  apply existsb_exists in H3 as (q & Iq & H3). apply andb_prop in H3 as [H3 K]. apply andb_prop in H3 as [D1 D2]. exists q. split; auto. split; [apply Z.leb_le; auto|]. split; [apply Z.leb_le; auto|].
  apply Bool.orb_true_iff in K as [K|K]; apply andb_prop in K as [K1 K2]; apply str_eqb_eq in K1, K2; auto.
Qed.
Example C108_case : world_ok w108 /\ file_parses 2 w108 (L "book") (l108 "book") /\ file_parses 2 w108 (L "more") (l108 "more") /\ length extra108 = 3%nat /\ length (rules (l108 "book")) = 1%nat /\
  prices_added (l108 "book") (l108 "more") extra108 /\ Forall (no_news w108 (l108 "book")) extra108 /\
  run_cmd 2 w108 (CBalance true true) (in108 "EUR") (L "more") = Ok (map L ["          100.00 EUR  Assets:Bank"; "           -8.00 EUR  Assets:Card"; "           -8.00 EUR  Budget"; "            8.00 EUR  Food"; "         -100.00 EUR  Income"]%string).
Proof.
  split; [exact w108_ok|]. split; [apply file_parses_iff; vm_compute; reflexivity|]. split; [apply file_parses_iff; vm_compute; reflexivity|]. split; [vm_compute; reflexivity|]. split; [vm_compute; reflexivity|].
  split; [split; vm_compute; reflexivity|]. split; [apply news_check_ok; vm_compute; reflexivity|]. vm_compute. reflexivity.
Qed.
(** A newer price is seen, and the command prices shows all of them. *)
Example C108_news : run_cmd 2 w108 (CBalance true true) (in108 "EUR") (L "news") <> run_cmd 2 w108 (CBalance true true) (in108 "EUR") (L "book") /\
  run_cmd 2 w108 CPrices (in108 "EUR") (L "more") <> run_cmd 2 w108 CPrices (in108 "EUR") (L "book").
Proof. split; vm_compute; intros H; discriminate H. Qed.
(** ** A case of C108_text: the journal and the added line as they are written *)
Definition p108 : parsed_price := {| pp_date := 737821; pp_commodity := L "USD"; pp_other := L "EUR"; pp_quantity := (of_Z 80 / of_Z 100)%Qc |}.
Definition q108 : parsed_price := {| pp_date := 737483; pp_commodity := L "EUR"; pp_other := L "USD"; pp_quantity := (of_Z 300 / of_Z 100)%Qc |}.
Definition food108 : rposting :=
  {| rp_account := L "Food"; rp_money := Some (of_Z 10, L "USD"); rp_cost_type := None; rp_cost := None; rp_balance := None; rp_comments := [];
     rp_expr := None; rp_kind := Real; rp_payee := Some (L "Shop") |}.
Definition card108 : rposting :=
  {| rp_account := L "Card"; rp_money := None; rp_cost_type := None; rp_cost := None; rp_balance := None; rp_comments := [];
     rp_expr := None; rp_kind := Real; rp_payee := Some (L "Shop") |}.
Definition shop108 : txn rposting :=
  {| t_date := Some 737849%Z; t_edate := None; t_cleared := CUnknown; t_code := None; t_desc := L "Shop"; t_payee := Some (L "Shop");
     t_postings := [food108; card108]; t_comments := []; t_type := TReal; t_tags := [] |}.
Definition line108 : str := L "P 2021/02/01 USD 0.80 EUR" ++ [c_nl].
Definition line108' : str := L "P 2020/02/29 EUR 3.00 USD" ++ [c_nl].
Definition s108 : str := line108 ++ L "2021-03-01 Shop" ++ [c_nl] ++ L "  Food  10 USD" ++ [c_nl] ++ L "  Card" ++ [c_nl].
Definition w108' : world :=
  {| w_lower := ascii_lower; w_numeric := fun _ => false; w_rx := fun _ _ => true; w_rx_ok := fun _ => true; w_width := None;
     w_read := fun p => option_map snd (find (fun f => str_eqb (fst f) p) [(L "book", s108); (L "more", s108 ++ [c_nl] ++ concat [line108'])]);
     w_glob := fun _ => None; w_two_timer := fun _ => None; w_now := 738000%Z; w_ord := fun _ A l => rev l |}.
Definition small108 : pledger := add_txn shop108 (add_price p108 pl_new).
Lemma p108_written : price_written p108 line108.
Proof.
  refine (pw p108 (L " ") (L "2021/02/01") (L " ") (L "USD") (L " ") (L "0.80") (L " ") (L "EUR") [] [] _ _ _ _ _ _ _ _ _ _ _).
  - apply PropJournal.spaces_b. reflexivity.
  - apply (PropJournal.day_b 2021 2 1 (L "2021") (L "02") (L "01") 47%N); try reflexivity; try discriminate. cbn. auto.
  - split; [apply PropJournal.spaces_b; reflexivity|discriminate].
  - apply PropJournal.price_b; reflexivity.
  - split; [apply PropJournal.spaces_b; reflexivity|discriminate].
  - split; [apply (PropJournal.literal_b false (L "0") true (L "80")); try reflexivity; try discriminate; qc|].
    exists false, (L "0"), (L ".80"). split; [reflexivity|]. split; [apply LiteralFacts.only_digits_all; reflexivity|]. split; [discriminate|]. right.
    exists (L "80"). split; [reflexivity|]. split; [apply LiteralFacts.only_digits_all; reflexivity|discriminate].
  - split; [apply PropJournal.spaces_b; reflexivity|discriminate].
  - apply PropJournal.price_b; reflexivity.
  - apply PropJournal.spaces_b. reflexivity.
  - left. reflexivity.
  - apply PropJournal.one_line_b. reflexivity.
Qed.
Lemma q108_written : price_written q108 line108'.
Proof.
  refine (pw q108 (L " ") (L "2020/02/29") (L " ") (L "EUR") (L " ") (L "3.00") (L " ") (L "USD") [] [] _ _ _ _ _ _ _ _ _ _ _).
  - apply PropJournal.spaces_b. reflexivity.
  - apply (PropJournal.day_b 2020 2 29 (L "2020") (L "02") (L "29") 47%N); try reflexivity; try discriminate. cbn. auto.
  - split; [apply PropJournal.spaces_b; reflexivity|discriminate].
  - apply PropJournal.price_b; reflexivity.
  - split; [apply PropJournal.spaces_b; reflexivity|discriminate].
  - split; [apply (PropJournal.literal_b false (L "3") true (L "00")); try reflexivity; try discriminate; qc|].
    exists false, (L "3"), (L ".00"). split; [reflexivity|]. split; [apply LiteralFacts.only_digits_all; reflexivity|]. split; [discriminate|]. right.
    exists (L "00"). split; [reflexivity|]. split; [apply LiteralFacts.only_digits_all; reflexivity|discriminate].
  - split; [apply PropJournal.spaces_b; reflexivity|discriminate].
  - apply PropJournal.price_b; reflexivity.
  - apply PropJournal.spaces_b. reflexivity.
  - left. reflexivity.
  - apply PropJournal.one_line_b. reflexivity.
Qed.
Lemma s108_written : journal_written w108' pl_new small108 s108.
Proof.
  refine (jw_item w108' _ [] _ line108 _ _ _ (iw_price w108' _ p108 _ p108_written) _); [constructor|].
  refine (jw_item w108' _ [] _ (L "2021-03-01 Shop" ++ [c_nl] ++ L "  Food  10 USD" ++ [c_nl] ++ L "  Card" ++ [c_nl]) _ [] _ _ _); [constructor| |apply (jw_end w108' _ [] []); [constructor|apply blanks_nil]].
  refine (iw_transaction w108' _ shop108 _ _).
  refine (tw w108' 737849 None (L "Shop") None None [] [food108; card108] (L "2021-03-01 Shop") [] (L "  Food  10 USD" ++ [c_nl] ++ L "  Card" ++ [c_nl]) _ _ _); [|constructor|].
  - exists (L "2021-03-01"), [], (L " "), [], [], [], [], []. split; [reflexivity|].
    split; [apply (PropJournal.day_b 2021 3 1 (L "2021") (L "03") (L "01") 45%N); try reflexivity; try discriminate; cbn; auto|].
    split; [reflexivity|]. split; [split; [apply PropJournal.spaces_b; reflexivity|discriminate]|]. split; [left; reflexivity|]. split; [left; reflexivity|].
    split; [|split; [apply PropJournal.spaces_b; reflexivity|split; reflexivity]].
    split; [apply PropJournal.free_b; reflexivity|]. split; [intros (c & r & E & H); inv E; cbn in H; intuition discriminate|]. split; [intros r; split; discriminate|].
    intros ds r Hd E. destruct ds as [|x ds]; [discriminate|]. inv E. specialize (Hd 83%N (or_introl eq_refl)). lia.
  - refine (pl_line w108' _ [] (L "  ") food108 [] [] (L "Food  10 USD") [] _ _ _ _ _ _ _ _ _);
      [constructor|split; [apply PropJournal.blanks_b; reflexivity|discriminate]| |constructor|reflexivity|reflexivity|].
    + exists (L "Food"). split; [apply PropJournal.name_b; [discriminate|reflexivity]|].
      split; [refine (af_real _ _ _ eq_refl _ _ _); [reflexivity|discriminate|discriminate]|].
      split; [eexists _, _; split; [reflexivity|split; [discriminate|reflexivity]]|]. right.
      exists (L "  "), [], (L "10 USD"). split; [reflexivity|].
      split; [right; exists c_sp, c_sp; split; [reflexivity|]; split; [reflexivity|]; split; [reflexivity|]; split; discriminate|].
      split; [apply PropJournal.one_line_b; reflexivity|]. split; [apply blanks_nil|]. right.
      refine (de_parts w108' food108 [] [L "10 USD"] [] [] [] (L "10 USD") [] eq_refl _ _ _ _ _ _ _ _);
        [| | | |discriminate|constructor|apply blanks_nil|reflexivity].
      * exists (L "10 USD"). split; [|reflexivity]. refine (mw_after w108' _ _ (L "10") (L " ") (L "USD") _ _ _).
        -- apply (PropJournal.literal_b false (L "10") false []); try reflexivity; try discriminate; qc.
        -- apply PropJournal.blanks_b. reflexivity.
        -- apply PropJournal.word_b; reflexivity.
      * repeat split.
      * repeat split.
      * left. auto.
    + refine (pl_line w108' _ [] (L "  ") card108 [] [] (L "Card") [] _ _ _ _ _ _ _ _ _);
        [constructor|split; [apply PropJournal.blanks_b; reflexivity|discriminate]| |constructor|reflexivity|reflexivity|constructor].
      exists (L "Card"). split; [apply PropJournal.name_b; [discriminate|reflexivity]|]. split; [refine (af_real _ _ _ eq_refl _ _ _); [reflexivity|discriminate|discriminate]|].
      split; [eexists _, _; split; [reflexivity|split; [discriminate|reflexivity]]|]. left. split; [reflexivity|]. split; [|reflexivity]. repeat split.
Qed.
Example C108_text_case : world_ok w108' /\ blanks_not_numeric w108' /\ journal_written w108' pl_new small108 s108 /\ w_read w108' (L "book") = Some s108 /\
  Forall2 price_written [q108] [line108'] /\ w_read w108' (L "more") = Some (s108 ++ [c_nl] ++ concat [line108']) /\ Forall (no_news w108' small108) [q108] /\
  run_cmd 2 w108' (CBalance true true) (in108 "EUR") (L "more") = Ok (map L ["           -8.00 EUR  Card"; "            8.00 EUR  Food"]%string).
Proof.
  split; [split; [intros; symmetry; apply Permutation_rev|exact ascii_lower_idem]|]. split; [exact C67_ex_world|]. split; [exact s108_written|]. split; [reflexivity|].
  split; [constructor; [exact q108_written|constructor]|]. split; [reflexivity|]. split; [apply news_check_ok; vm_compute; reflexivity|]. vm_compute. reflexivity.
Qed.
