(** Property C87: the lists of accounts, commodities, payees and prices. *)
From Coq Require Import Lia.
From Verif Require Import Base BaseFacts Money Alist AlistFacts Comment Txn Dates Expr Filter Price Tokens Ledger Reports App Spec SpecList SpecTxn SpecDates SpecLedger SpecReports SpecLayout
  SpecJournal SpecBook SpecExchange SpecLists LedgerFacts LedgerFacts2 LedgerFacts3 DateFacts PropDates PropTxn PropLedger PropJournal ReportFacts PropReports PropApp PropLayout PropBook ExchangeFacts BookFacts PropExchange PropAsk.

(** ** Rules add no accounts and no payees *)
(** The names in the lines of the rules are known. *)
Definition knows (w : world) (s : astate) (ap : rposting) : Prop :=
  (exists a, l_get w (rp_account ap) (as_accs s) = Ok a) /\ forall x, rp_payee ap = Some x -> exists y, l_get w x (as_pays s) = Ok y.
Definition same_names (s s' : astate) : Prop := as_accs s' = as_accs s /\ as_pays s' = as_pays s.
Lemma knows_same w s s' ap : same_names s s' -> knows w s ap -> knows w s' ap.
Proof. intros [E1 E2]. unfold knows. rewrite E1, E2. auto. Qed.
Lemma same_trans s1 s2 s3 : same_names s1 s2 -> same_names s2 s3 -> same_names s1 s3.
Proof. intros [A B] [C D]. split; congruence. Qed.
Lemma auto_posting_same w t p s ap q s' : knows w s ap -> auto_posting w t p s ap = Ok (q, s') -> same_names s s'.
Proof.
  intros [(a & Ea) Hy] H. unfold auto_posting in H. unfold ensure_acc, ensure in H. rewrite Ea in H. cbn [bind] in H.
  bind_inv H. destruct a0 as [pay pl]. bind_inv H. bind_inv H. destruct a1 as [m cs]. inv H.
  split; cbn; auto. destruct (rp_payee ap) as [x|]; [|inv Hb; auto].
  destruct (Hy x eq_refl) as (y & Ey). unfold ensure_pay, ensure in Hb. rewrite Ey in Hb. cbn [bind] in Hb. bind_inv Hb. inv Hb. auto.
Qed.
Lemma auto_postings_same w t p aps : forall s qs s', Forall (knows w s) aps -> auto_postings w t p s aps = Ok (qs, s') -> same_names s s'.
Proof.
  induction aps as [|ap aps IH]; intros s qs s' F H; cbn [auto_postings] in H; [inv H; split; auto|].
  inversion F as [|? ? F1 F2]; subst. bind_inv H. destruct a as [x s1]. bind_inv H. destruct a as [xs s2]. inv H.
  pose proof (auto_posting_same _ _ _ _ _ _ _ F1 Hb) as S1. eapply same_trans; [exact S1|]. eapply IH; [|eauto].
  eapply Forall_impl; [|exact F2]. intros a. apply knows_same. auto.
Qed.
Lemma auto_scan_same w t node auto todo : forall s don extra r s', Forall (knows w s) (t_postings auto) ->
  auto_scan w t node auto s don todo extra = Ok (r, s') -> same_names s s'.
Proof.
  induction todo as [|p todo IH]; intros s don extra r s' F H; cbn [auto_scan] in H; [inv H; split; auto|].
  destruct (is_from_txn (p_origin p)); cbn [negb] in H; [|eapply IH; eauto].
  bind_inv H. destruct a as [b cs].
  assert (S1 : same_names s (with_curs s cs)) by (split; auto).
  assert (F1 : Forall (knows w (with_curs s cs)) (t_postings auto)) by (eapply Forall_impl; [|exact F]; intros a; apply knows_same; auto).
  destruct b.
  - bind_inv H. destruct a as [new s2]. pose proof (auto_postings_same _ _ _ _ _ _ _ F1 Hb0) as S2.
    pose proof (same_trans _ _ _ S1 S2) as S3. eapply same_trans; [exact S3|]. eapply IH; [|eauto].
    eapply Forall_impl; [|exact F]; intros a; apply knows_same; auto.
  - eapply same_trans; [exact S1|]. eapply IH; eauto.
Qed.
Lemma auto_fold_same w autos : forall t s t' s', (forall r, In r (map snd autos) -> Forall (knows w s) (t_postings r)) ->
  foldM (auto_one w) (t, s) autos = Ok (t', s') -> same_names s s'.
Proof.
  induction autos as [|[n r] autos IH]; intros t s t' s' F H; cbn [foldM] in H; [inv H; split; auto|].
  bind_inv H. destruct a as [t1 s1]. unfold auto_one in Hb. cbn [fst snd] in Hb. bind_inv Hb. destruct a as [[ps ex] s2]. inv Hb.
  pose proof (auto_scan_same _ _ _ _ _ _ _ _ _ _ (F r (or_introl eq_refl)) Hb0) as S1. eapply same_trans; [exact S1|].
  eapply IH; [|eauto]. intros r' I. eapply Forall_impl; [|apply F; right; exact I]. intros a. apply knows_same. auto.
Qed.
Lemma auto_all_same w autos ts : forall s ts' s', (forall r, In r (map snd autos) -> Forall (knows w s) (t_postings r)) ->
  auto_all w autos ts s = Ok (ts', s') -> same_names s s'.
Proof.
  induction ts as [|t ts IH]; intros s ts' s' F H; cbn [auto_all] in H; [inv H; split; auto|].
  bind_inv H. destruct a as [t1 s1]. bind_inv H. destruct a as [r2 s2]. inv H.
  pose proof (auto_fold_same _ _ _ _ _ _ F Hb) as S1. eapply same_trans; [exact S1|].
  eapply IH; [|eauto]. intros r' I. eapply Forall_impl; [|apply F; exact I]. intros a. apply knows_same. auto.
Qed.

(** The lists of the ledger are those the journal is read with. *)
Lemma ledger_lists w skip l lg : world_ok w -> parsed w l -> to_ledger w skip l = Ok lg ->
  exists cs, lists_built w lg /\ buildable w cu_name cu_aliases cs /\
    (forall n, mentions_account l n -> exists e, l_get w n (lg_accounts lg) = Ok e) /\
    (forall n, mentions_commodity l n -> exists e, l_get w n cs = Ok e) /\
    (forall n, mentions_payee l n -> exists e, l_get w n (lg_payees lg) = Ok e) /\
    extends w (pl_accounts l) (lg_accounts lg) /\ extends w (pl_commodities l) cs /\ extends w (pl_payees l) (lg_payees lg) /\
    named_after w account_from (mentions_account l) (pl_accounts l) (lg_accounts lg) /\
    named_after w currency_from (mentions_commodity l) (pl_commodities l) cs /\
    payees_after w (mentions_payee l) (pl_payees l) (lg_payees lg) /\
    extends w cs (lg_commodities lg) /\ (rules l = [] -> lg_commodities lg = cs).
Proof.
  intros Hw Hp H. pose proof (to_ledger_built w skip l lg Hw (parsed_ok _ _ Hp) H) as B.
  assert (LB : lists_built w lg) by (destruct B; auto).
  destruct (rules l) as [|r0 rs0] eqn:Hr.
  - destruct B as [ts dir costs sorted run imps _ _ JR _ _ _ _|? ? ? ? ? ? ? ? ? ? ? ? ? ? Hn]; [|congruence].
    exists (lg_commodities lg). destruct JR. split; [exact LB|]. split; [apply LB|]. repeat (split; [solve [auto]|]). split; [split; auto; apply incl_refl|auto].
  - rewrite to_ledger_phases in H.
    destruct (read_phase_spec w l Hw (parsed_ok _ _ Hp)) as [(cs & al & pays & prices1 & raw & E0 & [N P R])|(E0 & Z)]; rewrite E0 in H; [|discriminate].
    cbn [bind] in H. destruct (raw_parts _ _ _ _ _ _ R) as (T1 & T2 & T3 & T4 & T5 & T6). cbn in T1, T2, T3, T4, T5, T6.
    unfold balance_phase in H. rewrite T2 in H. fold (rules l) in H.
    destruct (found_names _ _ _ _ _ N) as (F1 & F2 & F3). destruct (new_names _ _ _ _ _ N) as (W1 & W2 & W3).
    bind_inv H. destruct a as [[ts1 b1] p1]. rewrite Hr in H. rewrite <- Hr in H. bind_inv H. bind_inv H. destruct a0 as [ts2 s]. bind_inv H. destruct a0 as [[ts3 b3] p3]. inv H. cbn.
    assert (K : forall r, In r (map snd (combine a (rules l))) -> Forall (knows w {| as_accs := al; as_curs := cs; as_pays := pays |}) (t_postings r)).
    { intros r I. apply in_map_iff in I. destruct I as ([n r'] & <- & I). apply in_combine_r in I. cbn [snd].
      unfold rules in I. apply filter_In in I. destruct I as [I _]. apply Forall_forall. intros ap Ia. split; cbn.
      - apply F1. exists r', ap. auto.
      - intros x Ex. apply F3. exists r', ap. auto. }
    destruct (auto_all_same _ _ _ _ _ _ K Hb1) as [S1 S2]. cbn in S1, S2. rewrite S1, S2.
    assert (SO : as_ok w {| as_accs := al; as_curs := cs; as_pays := pays |}) by (destruct N; split; [|split]; cbn; auto).
    destruct (auto_all_spec _ _ _ _ _ _ SO Hb1) as (SO' & LE & _ & _).
    exists cs. rewrite S1, S2 in LB. split; [exact LB|]. split; [apply N|]. repeat (split; [solve [auto|apply N]|]). split; [apply LE|discriminate].
Qed.

(** ** Lists *)
Lemma once {T} w (name : T -> str) aliases l : buildable w name aliases l -> forall a b, In a (l_values l) -> In b (l_values l) ->
  w_lower w (name a) = w_lower w (name b) -> a = b.
Proof.
  intros B a b Ha Hb E. destruct (buildable_lwf w name aliases l B) as [N _ K _ _]. unfold l_values in Ha, Hb. apply in_map_iff in Ha, Hb.
  destruct Ha as ([ka a'] & <- & Ha), Hb as ([kb b'] & <- & Hb). cbn [snd] in *. pose proof (K _ _ Ha) as Ka. pose proof (K _ _ Hb) as Kb.
  assert (Ek : ka = kb) by (rewrite Ka, Kb; exact E). clear Ka Kb K E. subst kb. unfold hkeys in N. induction (l_list l) as [|[k e] r IH]; [destruct Ha|].
  cbn [map fst] in N. inversion N as [|? ? N1 N2]; subst. destruct Ha as [Ha|Ha], Hb as [Hb|Hb].
  - congruence.
  - inv Ha. destruct N1. apply in_map_iff. exists (ka, b'). auto.
  - inv Hb. destruct N1. apply in_map_iff. exists (ka, a'). auto.
  - auto.
Qed.
Lemma listed_names {T} w site (name : T -> str) aliases mk dirs (used : str -> Prop) l : world_ok w -> (forall n, name (mk n) = n) -> buildable w name aliases l ->
  (forall n, used n -> exists e, l_get w n l = Ok e) -> extends w dirs l -> named_after w mk used dirs l ->
  names_listed w name dirs used (sorted_names (w_ord w site _ (map name (l_values l)))).
Proof.
  intros Hw Hm B F [_ X] [N1 N2]. destruct (sorted_names_ok w site (map name (l_values l)) Hw (names_distinct _ _ _ _ B)) as [A P].
  assert (I : forall n, In n (sorted_names (w_ord w site _ (map name (l_values l)))) <-> In n (map name (l_values l))).
  { intros n. split; apply Permutation_in; auto. symmetry; auto. }
  split; auto.
  - intros e He. apply I. apply in_map. auto.
  - intros n Hn U. destruct (F n Hn) as (e & E). destruct (N1 n e E) as [Y|(_ & m & M1 & M2 & ->)]; [destruct (U e Y)|].
    exists m. split; [|split; auto]. apply I. apply in_map_iff. exists (mk m). split; auto. eapply get_called; eauto.
  - intros n Hn. apply I in Hn. apply in_map_iff in Hn. destruct Hn as (e & <- & He). destruct (N2 e He) as [Y|(m & M1 & M2 & ->)]; [left; eauto|].
    right. rewrite Hm. auto.
  - intros n m Hn H E. apply I in Hn, H. apply in_map_iff in Hn, H. destruct Hn as (a & <- & Ha), H as (b & <- & Hb). f_equal. eapply once; eauto.
Qed.
Lemma listed_payees w site dirs (used : str -> Prop) l : world_ok w -> buildable w py_name py_aliases l ->
  (forall n, used n -> exists e, l_get w n l = Ok e) -> extends w dirs l -> payees_after w used dirs l ->
  payees_listed w dirs used (sorted_names (w_ord w site _ (map py_name (l_values l)))).
Proof.
  intros Hw B F [_ X] [N1 N2]. destruct (sorted_names_ok w site (map py_name (l_values l)) Hw (names_distinct _ _ _ _ B)) as [A P].
  assert (I : forall n, In n (sorted_names (w_ord w site _ (map py_name (l_values l)))) <-> In n (map py_name (l_values l))).
  { intros n. split; apply Permutation_in; auto. symmetry; auto. }
  split; auto.
  - intros e He. apply I. apply in_map. auto.
  - intros n Hn U. destruct (F n Hn) as (e & E). destruct (N1 n e E) as [Y|(_ & m & M1 & M2 & [[M3 M4]|[M3 ->]])]; [destruct (U e Y)| |].
    + exists m. split; auto. split; auto. right. exists e. auto.
    + exists m. split; auto. split; auto. left. apply I. apply in_map_iff. exists (payee_from m). split; auto. eapply get_called; eauto.
  - intros n Hn. apply I in Hn. apply in_map_iff in Hn. destruct Hn as (e & <- & He). destruct (N2 e He) as [Y|(m & M1 & M2 & M3 & ->)]; [left; eauto|].
    right. cbn. split; auto. split; auto. intros (y & Y1 & Y2). exact (M3 y Y1 Y2).
  - intros n m Hn H E. apply I in Hn, H. apply in_map_iff in Hn, H. destruct Hn as (a & <- & Ha), H as (b & <- & Hb). f_equal. eapply once; eauto.
Qed.

(** ** C87 *)
(** accounts and payees, for every journal. *)
Theorem C87_accounts : forall depth w o file l lines, world_ok w -> file_parses depth w file l -> run_cmd depth w CAccounts o file = Ok lines ->
  names_listed w ac_name (pl_accounts l) (mentions_account l) lines.
Proof.
  intros depth w o file l lines Hw HF H. assert (Hp : parsed w l) by (destruct HF as (c & _ & F); exists depth, (Some file), [file], c; auto).
  apply file_parses_iff in HF. unfold run_cmd in H. rewrite HF in H. cbn [bind] in H. unfold run_on in H. bind_inv H. inv H.
  destruct (ledger_lists w _ l a Hw Hp Hb) as (cs & (B1 & _) & _ & F1 & _ & _ & X1 & _ & _ & N1 & _). apply (listed_names w _ ac_name ac_aliases account_from); auto.
Qed.
Print Assumptions C87_accounts.
Theorem C87_payees : forall depth w o file l lines, world_ok w -> file_parses depth w file l -> run_cmd depth w CPayees o file = Ok lines ->
  payees_listed w (pl_payees l) (mentions_payee l) lines.
Proof.
  intros depth w o file l lines Hw HF H. assert (Hp : parsed w l) by (destruct HF as (c & _ & F); exists depth, (Some file), [file], c; auto).
  apply file_parses_iff in HF. unfold run_cmd in H. rewrite HF in H. cbn [bind] in H. unfold run_on in H. bind_inv H. inv H.
  destruct (ledger_lists w _ l a Hw Hp Hb) as (cs & (_ & _ & B3) & _ & _ & _ & F3 & _ & _ & X3 & _ & _ & N3 & _). eapply listed_payees; eauto.
Qed.
Print Assumptions C87_payees.
(** commodities, for journals without rules (the expressions of rules can name more commodities). *)
Theorem C87_commodities : forall depth w o file l lines, world_ok w -> file_parses depth w file l -> run_cmd depth w CCommodities o file = Ok lines ->
  rules l = [] -> names_listed w cu_name (pl_commodities l) (mentions_commodity l) lines.
Proof.
  intros depth w o file l lines Hw HF H HR. assert (Hp : parsed w l) by (destruct HF as (c & _ & F); exists depth, (Some file), [file], c; auto).
  apply file_parses_iff in HF. unfold run_cmd in H. rewrite HF in H. cbn [bind] in H. unfold run_on in H. bind_inv H. inv H.
  destruct (ledger_lists w _ l a Hw Hp Hb) as (cs & _ & B2 & _ & F2 & _ & _ & X2 & _ & _ & N2 & _ & _ & E). specialize (E HR). subst cs. apply (listed_names w _ cu_name cu_aliases currency_from); auto.
Qed.
Print Assumptions C87_commodities.
(** With rules there may be more commodities, but none is missing. *)
Theorem C87_no_commodity_missing : forall depth w o file l lines, world_ok w -> file_parses depth w file l -> run_cmd depth w CCommodities o file = Ok lines ->
  ascending lines /\ (forall c, In c (l_values (pl_commodities l)) -> In (cu_name c) lines) /\
  forall n, mentions_commodity l n -> undeclared w (pl_commodities l) n -> exists m, In m lines /\ mentions_commodity l m /\ w_lower w m = w_lower w n.
Proof.
  intros depth w o file l lines Hw HF H. assert (Hp : parsed w l) by (destruct HF as (c & _ & F); exists depth, (Some file), [file], c; auto).
  apply file_parses_iff in HF. unfold run_cmd in H. rewrite HF in H. cbn [bind] in H. unfold run_on in H. bind_inv H. inv H.
  destruct (ledger_lists w _ l a Hw Hp Hb) as (cs & LB & B2 & _ & F2 & _ & _ & X2 & _ & _ & N2 & _ & X & _).
  destruct (listed_names w 0 cu_name cu_aliases currency_from _ _ cs Hw (fun _ => eq_refl) B2 F2 X2 N2) as [_ D U _ _].
  destruct (C64_listings w (report_site a) a Hw) as (_ & _ & A & I); [exists (o_no_balance_check o), l; auto|].
  assert (G : forall n, In n (sorted_names (w_ord w 0 _ (map cu_name (l_values cs)))) -> In n (commodities_report w (report_site a) a)).
  { intros n Hn. apply I. destruct (sorted_names_ok w 0 (map cu_name (l_values cs)) Hw (names_distinct _ _ _ _ B2)) as [_ P].
    apply (Permutation_in _ P) in Hn. apply in_map_iff in Hn. destruct Hn as (e & <- & He). apply in_map. apply X. auto. }
  split; [exact A|]. split; [intros c Hc; apply G; auto|]. intros n Hn Un. destruct (U n Hn Un) as (m & M1 & M2 & M3). exists m. auto.
Qed.
Print Assumptions C87_no_commodity_missing.
(** prices: a line for each price the journal states, in the order of C81. *)
Lemma price_line_shown p : exists line, price_line p = Ok line /\ price_shown p line.
Proof.
  unfold price_line. destruct (show_text (M (pr_amount p) (pr_cur p))) as (text & -> & T). cbn [bind]. eexists. split; [reflexivity|].
  exists (date_text (pr_date p)), text. split; [reflexivity|]. split; [|exact T].
  pose proof (date_text_written (pr_date p)) as X. pose proof (to_ymd_spec (pr_date p)) as S. destruct (to_ymd (pr_date p)) as [[y m] d].
  exists y, m, d. split; auto. destruct S as [S1 S2]. apply day_count_spec; auto.
Qed.
Lemma price_lines_shown ps : exists lines, mapM price_line ps = Ok lines /\ Forall2 price_shown ps lines.
Proof.
  induction ps as [|p ps (lines & IH & F)]; cbn [mapM]; [eauto|]. destruct (price_line_shown p) as (x & -> & X). rewrite IH. cbn [bind]. eauto.
Qed.
Theorem C87_prices : forall depth w o file l, world_ok w -> file_parses depth w file l -> plain_journal w l -> Forall (in_order w l) (pl_txns l) ->
  exists ps lines, run_cmd depth w CPrices o file = Ok lines /\ journal_prices w l ps /\ Forall2 price_shown ps lines.
Proof.
  intros depth w o file l Hw HF P IO. assert (Hp : parsed w l) by (destruct HF as (c & _ & F); exists depth, (Some file), [file], c; auto).
  apply file_parses_iff in HF. destruct (plain_outcome w (o_no_balance_check o) l Hw Hp P) as [(_ & lg & E & B)|(N & _)]; [|contradiction].
  destruct (price_lines_shown (lg_prices lg)) as (lines & EL & F). exists (lg_prices lg), lines. split; [|split; [eapply ledger_prices; eauto|auto]].
  unfold run_cmd. rewrite HF. cbn [bind]. unfold run_on. rewrite E. cbn [bind]. exact EL.
Qed.
Print Assumptions C87_prices.
(** From the text: a journal in order has its four lists. *)
Theorem C87_from_the_text : forall d w o path s l, world_ok w -> blanks_not_numeric w -> w_read w path = Some s -> journal_written w pl_new l s ->
  plain_journal w l -> Forall (in_order w l) (pl_txns l) ->
  exists accounts payees commodities prices ps,
    run_cmd (S d) w CAccounts o path = Ok accounts /\ names_listed w ac_name (pl_accounts l) (mentions_account l) accounts /\
    run_cmd (S d) w CPayees o path = Ok payees /\ payees_listed w (pl_payees l) (mentions_payee l) payees /\
    run_cmd (S d) w CCommodities o path = Ok commodities /\ names_listed w cu_name (pl_commodities l) (mentions_commodity l) commodities /\
    run_cmd (S d) w CPrices o path = Ok prices /\ journal_prices w l ps /\ Forall2 price_shown ps prices.
Proof.
  intros d w o path s l Hw Hb Hr J P IO.
  assert (F : file_parses (S d) w path l) by (apply file_parses_iff; eapply C67_file_read_as_written; eauto).
  assert (Hp : parsed w l) by (destruct F as (c & _ & F); exists (S d), (Some path), [path], c; auto).
  assert (HR : rules l = []) by (destruct (journal_all w l P); auto).
  destruct (C87_prices (S d) w o path l Hw F P IO) as (ps & prices & E4 & JP & S4).
  assert (X : forall c, c = CAccounts \/ c = CPayees \/ c = CCommodities -> exists lines, run_cmd (S d) w c o path = Ok lines).
  { intros c Hc. pose proof F as HF. apply file_parses_iff in HF. destruct (plain_outcome w (o_no_balance_check o) l Hw Hp P) as [(_ & lg & E & B)|(N & _)]; [|contradiction].
    unfold run_cmd. rewrite HF. cbn [bind]. unfold run_on. destruct Hc as [->|[->| ->]]; rewrite E; cbn [bind]; eauto. }
  destruct (X CAccounts) as (la & E1); auto. destruct (X CPayees) as (ly & E2); auto. destruct (X CCommodities) as (lc & E3); auto.
  exists la, ly, lc, prices, ps. split; auto. split; [eapply C87_accounts; eauto|]. split; auto. split; [eapply C87_payees; eauto|].
  split; auto. split; [eapply C87_commodities; eauto|]. auto.
Qed.
Print Assumptions C87_from_the_text.

(** ** Cases *)
(** An account with an alias, a payee with a pattern, names in two spellings, prices of all three kinds. *)
Definition t87 : list String.string :=
  ["account Assets:Bank"; "  alias bank"; "account Unused"; "payee The shop"; "  alias Shop"; "commodity EUR"; "P 2021-01-05 XAU 50 EUR";
   "2021-01-01 Shop 24"; "  Food  10 USD @@ 9 eur"; "  BANK  -9 EUR"; "2021-01-03 job"; "  assets:bank  100 EUR"; "  Income";
   "2021-01-15 Dollars"; "  Cash  60 USD"; "  bank  -30 EUR"; "2021-01-20 Job"; "  Cash  3 USD"; "  Income"]%string.
Definition w87 : world :=
  {| w_lower := ascii_lower; w_numeric := fun _ => false; w_rx := fun rx s => PropAsk.occurs rx s; w_rx_ok := fun _ => true; w_width := None;
     w_read := fun p => if str_eqb p (L "book") then Some (text t87) else None;
     w_glob := fun _ => None; w_two_timer := fun _ => None; w_now := 800000%Z; w_ord := fun _ _ l => l |}.
Definition l87 : pledger := get pl_new (tokenize_file 2 w87 (L "book")).
Example C87_case : world_ok w87 /\ file_parses 2 w87 (L "book") l87 /\ plain_journal w87 l87 /\ Forall (in_order w87 l87) (pl_txns l87) /\
  run_cmd 2 w87 CAccounts plain_opts (L "book") = Ok (map L ["Assets:Bank"; "Cash"; "Food"; "Income"; "Unused"]%string) /\
  run_cmd 2 w87 CPayees plain_opts (L "book") = Ok (map L ["Dollars"; "The shop"; "job"]%string) /\
  run_cmd 2 w87 CCommodities plain_opts (L "book") = Ok (map L ["EUR"; "USD"; "XAU"]%string) /\
  run_cmd 2 w87 CPrices plain_opts (L "book") = Ok (map L ["2021-01-05 XAU 50.00 EUR"; "2021-01-01 USD 0.90 EUR"; "2021-01-15 USD 0.50 EUR"]%string).
Proof.
  split; [split; [intros; apply Permutation_refl|exact ascii_lower_idem]|]. split; [apply file_parses_iff; vm_compute; reflexivity|].
  split; [apply plain_check_ok; vm_compute; reflexivity|]. split; [apply trade_check_ok; vm_compute; reflexivity|]. 
  split; [vm_compute; reflexivity|]. split; [vm_compute; reflexivity|]. split; vm_compute; reflexivity.
Qed.
(** The accounts of a rule are listed too; so is the commodity of a line that takes a share, which has no name. *)
Definition w87r : world :=
  {| w_lower := ascii_lower; w_numeric := fun _ => false; w_rx := fun rx s => PropAsk.occurs rx s; w_rx_ok := fun _ => true; w_width := None;
     w_read := fun p => if str_eqb p (L "book") then Some (text ["= /Food/"; "  (Budget)  -1"; "2021-01-01 Shop"; "  Food  10 USD"; "  Cash"]%string) else None;
     w_glob := fun _ => None; w_two_timer := fun _ => None; w_now := 800000%Z; w_ord := fun _ _ l => l |}.
Example C87_case_rule : run_cmd 2 w87r CAccounts plain_opts (L "book") = Ok (map L ["Budget"; "Cash"; "Food"]%string) /\
  run_cmd 2 w87r CCommodities plain_opts (L "book") = Ok (map L [""; "USD"]%string).
Proof. split; vm_compute; reflexivity. Qed.
