(** C105: what --no-balance-check changes. *)
From Coq Require Import Lia Sorting.Sorted.
From Verif Require Import Base BaseFacts Numerals Money Alist Comment Txn Expr Filter Price Tokens Ledger Reports App Spec MoneyFacts SpecList SpecTxn TxnFacts SpecLedger
  TokenFacts JournalFacts LedgerFacts LedgerFacts2 LedgerFacts3 PropAlist PropTxn PropLedger SpecQuery SpecExpr ExprFacts PropExpr PropQuery SpecReports ReportFacts ReportFacts2 ReportFacts3 PropReports PropApp
  SpecText SpecDates SpecTokens SpecJournal JournalRead PropJournal SpecLayout PropLayout SpecPrice PropPrice SpecBook BookFacts PropBook PropBook2 SpecAsk PropAsk
  SpecWords PropRuleQuery SpecAssert AssertFacts PropAssert SpecRules ShownFacts RuleFacts RuleFacts2 PropRules SpecExchange2 PropExchange2 PropAssert2 SpecAgree SpecJoin SpecRename PropRename SpecCarry PropCarry SpecChecks PropChecks SpecUnchecked.
From Verif Require PropJoin PropAgree PropScale PropTokens.
Open Scope Qc_scope.
Open Scope Qc_scope.

(** ** Any journal *)
Ltac bnd H x E := apply bind_ok in H; destruct H as (x & E & H).
Section Good.
  Context (G : posting -> Prop)
    (GP : forall p m, G p -> p_kind p = Real -> G (pushed p m))
    (GF : forall p, p_amount p <> None -> p_balance p = None -> G p)
    (GV : forall p, p_kind p <> Real -> G p)
    (GT : forall ts p, G p -> G (add_tags ts p)).
  Lemma step_good skip s p s' : bal_step skip s p = Ok s' -> G p -> Forall G (bs_out s) -> Forall G (bs_out s').
  Proof using GP.
    unfold bal_step. intros H Hp Hs. destruct (kind_eqb (p_kind p) Real) eqn:K; cbn [negb] in H; [|inv H; auto].
    assert (KR : p_kind p = Real) by (destruct (p_kind p); try discriminate; auto).
    destruct (p_amount p).
    - bind_inv H. destruct (negb skip && _); [discriminate|]. bind_inv H. inv H. cbn. apply Forall_app. auto.
    - destruct (p_balance p); [|inv H; auto]. destruct skip; [inv H; auto|]. bind_inv H. bind_inv H. inv H. cbn. apply Forall_app. auto.
  Qed.
  Lemma steps_good skip ps : forall s s', foldM (bal_step skip) s ps = Ok s' -> Forall G ps -> Forall G (bs_out s) -> Forall G (bs_out s').
  Proof using GP.
    induction ps as [|p ps IH]; intros s s' H F Hs; cbn in H; [inv H; auto|]. bind_inv H. inversion F; subst. eapply IH; eauto. eapply step_good; eauto.
  Qed.
  Lemma fills_good t acc pay es : forall st st', fill_loop t acc pay es st = Ok st' -> Forall G (snd st) -> Forall G (snd st').
  Proof using GF.
    unfold fill_loop. induction es as [|e es IH]; intros [b out] st' H Hs; cbn [foldM] in H; [inv H; auto|]. bnd H x E. bnd E old E1. injection E as <-. apply (IH _ _ H). cbn. apply Forall_app. split; auto. constructor; auto. apply GF; cbn; auto. discriminate.
  Qed.
  Lemma rest_good ps : Forall G (non_real ps).
  Proof using GV. apply Forall_forall. intros p I. apply filter_In in I. destruct I as [_ K]. apply GV. intros E. rewrite E in K. discriminate. Qed.
  Lemma txn_good ord skip t bals b t' bals' : txn_balance ord skip t bals = Ok (b, t', bals') -> Forall G (t_postings t) -> Forall G (t_postings t').
  Proof using GP GF GV.
    unfold txn_balance. intros H F. bnd H vb E. destruct (negb _); [discriminate|]. bnd H s E0. pose proof (steps_good _ _ _ _ E0 F (Forall_nil _)) as O.
    destruct (_ - _)%nat as [|[|]]; [| |discriminate].
    - destruct (can_be_zero _); [|discriminate]. inv H. cbn. apply Forall_app. split; auto using rest_good.
    - bnd H x1 E1. destruct x1 as [b2 out]. inv H. cbn. apply Forall_app. split; [|apply rest_good]. apply (fills_good _ _ _ _ _ _ E1). auto.
  Qed.
  Notation goods := (Forall (fun t => Forall G (t_postings t))).
  Lemma all_good w skip ts : forall site bals prices ts' bals' prices', balance_all w site skip ts bals prices = Ok (ts', bals', prices') -> goods ts -> goods ts'.
  Proof using GP GF GV.
    induction ts as [|t ts IH]; intros site bals prices ts' bals' prices' H F; cbn in H; [inv H; auto|]. bnd H d E. bnd H x0 E0. destruct x0 as [[b t1] b1]. bnd H prs E1. bnd H x1 E2. destruct x1 as [[r' b2] p2]. inv H.
    inversion F; subst. constructor; [eapply txn_good; eauto|eapply IH; eauto].
  Qed.
  Lemma added_good w t p aps : forall s xs s', auto_postings w t p s aps = Ok (xs, s') -> Forall G xs.
  Proof using GF.
    induction aps as [|a aps IH]; intros s xs s' H; cbn in H; [inv H; auto|]. bnd H x E. destruct x as [x s1]. bnd H x0 E0. destruct x0 as [ys s2]. inv H. constructor; [|eapply IH; eauto].
    unfold auto_posting in E. bnd E al E1. bnd E x1 E2. destruct x1. bnd E acc E3. bnd E x2 E4. destruct x2. inv E. apply GF; cbn; auto. discriminate.
  Qed.
  Lemma scan_good w t n a todo : forall s done extra ps ex s', auto_scan w t n a s done todo extra = Ok (ps, ex, s') -> Forall G done -> Forall G todo -> Forall G extra -> Forall G ps /\ Forall G ex.
  Proof using GF GT.
    induction todo as [|p todo IH]; intros s done extra ps ex s' H D T X; cbn in H; [inv H; auto|]. inversion T; subst. destruct (negb _).
    - eapply IH; eauto. apply Forall_app. auto.
    - bnd H x E. destruct x as [b cs]. destruct b.
      + bnd H x E2. destruct x as [new s2]. eapply IH; eauto; apply Forall_app; split; auto. eapply added_good; eauto.
      + eapply IH; eauto. apply Forall_app. auto.
  Qed.
  Lemma rules_good w autos : forall t s t' s', foldM (auto_one w) (t, s) autos = Ok (t', s') -> Forall G (t_postings t) -> Forall G (t_postings t').
  Proof using GF GT.
    induction autos as [|a autos IH]; intros t s t' s' H F; cbn in H; [inv H; auto|]. bnd H x E. destruct x as [t1 s1]. bnd E x E0. destruct x as [[ps ex] s2]. inv E. eapply IH; eauto. cbn.
    destruct (scan_good _ _ _ _ _ _ _ _ _ _ _ E0 (Forall_nil _) F (Forall_nil _)). apply Forall_app. auto.
  Qed.
  Lemma autos_good w autos ts : forall s ts' s', auto_all w autos ts s = Ok (ts', s') -> goods ts -> goods ts'.
  Proof using GF GT.
    induction ts as [|t ts IH]; intros s ts' s' H F; cbn in H; [inv H; auto|]. bnd H x E. destruct x as [t1 s1]. bnd H x E0. destruct x as [r s2]. inv H. inversion F; subst.
    constructor; [eapply rules_good; eauto|eapply IH; eauto].
  Qed.
End Good.

(** Only postings with an amount state a balance; no posting states one. *)
Definition beside (p : posting) : Prop := p_kind p = Real -> p_amount p = None -> p_balance p = None.
Definition silent (p : posting) : Prop := p_kind p = Real -> p_balance p = None.
Lemma beside_pushed p m : beside p -> p_kind p = Real -> beside (pushed p m).
Proof. unfold beside. cbn. discriminate. Qed.
Lemma beside_filled p : p_amount p <> None -> p_balance p = None -> beside p.
Proof. unfold beside. auto. Qed.
Lemma beside_virtual p : p_kind p <> Real -> beside p.
Proof. unfold beside. congruence. Qed.
Lemma beside_tags ts p : beside p -> beside (add_tags ts p).
Proof. unfold beside. auto. Qed.
Lemma silent_pushed p m : silent p -> p_kind p = Real -> silent (pushed p m).
Proof. unfold silent. cbn. auto. Qed.
Lemma silent_filled p : p_amount p <> None -> p_balance p = None -> silent p.
Proof. unfold silent. auto. Qed.
Lemma silent_virtual p : p_kind p <> Real -> silent p.
Proof. unfold silent. congruence. Qed.
Lemma silent_tags ts p : silent p -> silent (add_tags ts p).
Proof. unfold silent. auto. Qed.

Lemma real_of p : kind_eqb (p_kind p) Real = true -> p_kind p = Real.
Proof. destruct (p_kind p); try discriminate; auto. Qed.
Lemma step_unchecked s p s' : beside p -> bal_step false s p = Ok s' -> bal_step true s p = Ok s'.
Proof.
  unfold bal_step. intros B H. destruct (kind_eqb (p_kind p) Real) eqn:K; cbn [negb] in *; auto. apply real_of in K. specialize (B K). destruct (p_amount p) as [m|].
  - destruct (unwrap _); [|discriminate|discriminate]. cbn [bind andb] in *. destruct (match p_balance p with Some _ => _ | None => _ end); [discriminate|auto].
  - rewrite B in * by auto. auto.
Qed.
Lemma step_silent s p : silent p -> bal_step true s p = bal_step false s p.
Proof.
  unfold bal_step. intros B. destruct (kind_eqb (p_kind p) Real) eqn:K; cbn [negb]; auto. apply real_of in K. rewrite (B K). destruct (p_amount p); auto.
Qed.
Lemma steps_unchecked ps : forall s s', Forall beside ps -> foldM (bal_step false) s ps = Ok s' -> foldM (bal_step true) s ps = Ok s'.
Proof.
  induction ps as [|p ps IH]; intros s s' F H; auto. cbn [foldM] in *. bnd H x E. inversion F; subst. rewrite (step_unchecked _ _ _ H2 E). cbn [bind]. auto.
Qed.
Lemma steps_silent ps : forall s, Forall silent ps -> foldM (bal_step true) s ps = foldM (bal_step false) s ps.
Proof.
  induction ps as [|p ps IH]; intros s F; auto. cbn [foldM]. inversion F; subst. rewrite step_silent by auto. destruct (bal_step false s p); cbn [bind]; auto.
Qed.
Lemma txn_unchecked ord t bals x : Forall beside (t_postings t) -> txn_balance ord false t bals = Ok x -> txn_balance ord true t bals = Ok x.
Proof.
  unfold txn_balance. intros F H. bnd H vb E. rewrite E. cbn [bind]. destruct (negb _); [discriminate|]. bnd H s E0. rewrite (steps_unchecked _ _ _ F E0). exact H.
Qed.
Lemma txn_silent ord t bals : Forall silent (t_postings t) -> txn_balance ord true t bals = txn_balance ord false t bals.
Proof. unfold txn_balance. intros F. rewrite steps_silent by auto. auto. Qed.
Lemma all_unchecked w ts : forall site bals prices x, Forall (fun t => Forall beside (t_postings t)) ts -> balance_all w site false ts bals prices = Ok x -> balance_all w site true ts bals prices = Ok x.
Proof.
  induction ts as [|t ts IH]; intros site bals prices x F H; auto. cbn [balance_all] in *. inversion F; subst. bnd H d E. rewrite E. cbn [bind]. bnd H y E0. rewrite (txn_unchecked _ _ _ _ H2 E0). cbn [bind]. destruct y as [[b t1] b1].
  bnd H prs E1. rewrite E1. cbn [bind]. bnd H z E2. rewrite (IH _ _ _ _ H3 E2). exact H.
Qed.
Lemma all_silent w ts : forall site bals prices, Forall (fun t => Forall silent (t_postings t)) ts -> balance_all w site true ts bals prices = balance_all w site false ts bals prices.
Proof.
  induction ts as [|t ts IH]; intros site bals prices F; auto. cbn [balance_all]. inversion F; subst. rewrite txn_silent by auto. destruct (unwrap (t_date t)); auto. cbn [bind].
  destruct (txn_balance _ false t bals) as [[[b t1] b1]| |]; auto. cbn [bind]. destruct (implicit_price _ _); auto. cbn [bind]. rewrite IH; auto.
Qed.
(** What a posting states in the file, it states when it is read. *)
Lemma raw_states w accs al pays cs d desc tags p q prs : posting_of_raw w accs al pays cs d desc tags p = Ok (q, prs) ->
  p_kind q = rp_kind p /\ (p_amount q = None -> rp_money p = None) /\ (rp_balance p = None -> p_balance q = None).
Proof.
  unfold posting_of_raw. intros H. bnd H pay E1. bnd H acc E2. bnd H amt E3. bnd H x E4. destruct x as [cst ps]. bnd H bal E5. inv H. cbn. split; auto. split.
  - intros ->. destruct (rp_money p); auto. bnd E3 y E6. discriminate.
  - intros N. rewrite N in E5. inv E5. auto.
Qed.
Lemma read_good (G : posting -> Prop) w accs al pays cs txns raw :
  (forall t p q, In t txns -> t_type t = TReal -> In p (t_postings t) -> p_kind q = rp_kind p -> (p_amount q = None -> rp_money p = None) -> (rp_balance p = None -> p_balance q = None) -> G q) ->
  mapM (txn_of_raw w accs al pays cs) txns = Ok raw -> Forall (fun t => Forall G (t_postings t)) (flat_map (fun x => fst (fst x)) raw).
Proof.
  intros HG H. apply mapM_ok_Forall2 in H. induction H as [|t x ts xs E F IH]; [constructor|]. cbn [flat_map]. apply Forall_app. split; [|apply IH; intros; eapply HG; eauto; right; auto].
  unfold txn_of_raw in E. destruct (t_type t) eqn:T; [|inv E; constructor|inv E; constructor]. bnd E d E1. bnd E ps E2. bnd E u E3. inv E. cbn. constructor; auto. cbn.
  apply mapM_ok_Forall2 in E2. apply Forall_forall. intros q I. apply in_map_iff in I. destruct I as ((q' & prs) & <- & I). cbn.
  assert (X : exists p, In p (t_postings t) /\ posting_of_raw w accs al pays cs d (t_desc t) (flat_map get_tags (t_comments t)) p = Ok (q', prs)).
  { clear -E2 I. induction E2 as [|p y ps ys E F IH]; [destruct I|]. destruct I as [->|I]; [exists p; split; [left|]; auto|]. destruct (IH I) as (p' & A & B). exists p'. split; [right|]; auto. }
  destruct X as (p & Ip & Ep). apply raw_states in Ep. destruct Ep as (A & B & C). apply (HG t p q'); auto. left; auto.
Qed.
Lemma sorted_good (G : posting -> Prop) ts : Forall (fun t => Forall G (t_postings t)) ts -> Forall (fun t => Forall G (t_postings t)) (sort_txns ts).
Proof.
  intros F. apply Forall_forall. intros t I. rewrite Forall_forall in F. apply F. eapply Permutation_in; [apply stable_sort_perm|exact I].
Qed.
Lemma ledger_unchecked w l lg : balances_beside_amounts l -> to_ledger w false l = Ok lg -> to_ledger w true l = Ok lg.
Proof.
  intros B H. unfold to_ledger in *. bnd H cs E1. rewrite E1. cbn [bind]. bnd H al E2. rewrite E2. cbn [bind]. bnd H pays E3. rewrite E3. cbn [bind]. bnd H prices E4. rewrite E4. cbn [bind]. bnd H raw E5. rewrite E5. cbn [bind] in *.
  assert (F : Forall (fun t => Forall beside (t_postings t)) (sort_txns (flat_map (fun x => fst (fst x)) raw))).
  { apply sorted_good. eapply read_good; [|exact E5]. intros t p q It T Ip K A C KR AN. specialize (B t p It T Ip). unfold only_balance in B. rewrite <- K, KR, (A AN) in B. cbn in B. apply C. destruct (rp_balance p); auto; discriminate. }
  bnd H x E6. rewrite (all_unchecked _ _ _ _ _ _ F E6). cbn [bind] in *. destruct x as [[ts1 b1] p3]. destruct (flat_map (fun x => snd (fst x)) raw) as [|a autos]; auto.
  bnd H nodes E7. rewrite E7. cbn [bind] in *. bnd H y E8. rewrite E8. cbn [bind] in *. destruct y as [ts2 s].
  assert (F1 : Forall (fun t => Forall beside (t_postings t)) ts1) by (eapply (all_good beside beside_pushed beside_filled beside_virtual); eauto).
  assert (F2 : Forall (fun t => Forall beside (t_postings t)) ts2) by (eapply (autos_good beside beside_filled beside_tags); eauto).
  bnd H z E9. rewrite (all_unchecked _ _ _ _ _ _ F2 E9). exact H.
Qed.
Lemma ledger_silent w l : no_balances l -> to_ledger w true l = to_ledger w false l.
Proof.
  intros B. unfold to_ledger. destruct (foldM (ensure_cur w) _ _) as [cs| |]; auto. cbn [bind]. destruct (foldM (ensure_acc w) _ _) as [al| |]; auto. cbn [bind]. destruct (foldM (payee_step w _) _ _) as [pays| |]; auto. cbn [bind].
  destruct (mapM (price_of w cs) _) as [prices| |]; auto. cbn [bind]. destruct (mapM (txn_of_raw w _ al pays cs) _) as [raw| |] eqn:E5; auto. cbn [bind].
  assert (F : Forall (fun t => Forall silent (t_postings t)) (sort_txns (flat_map (fun x => fst (fst x)) raw))).
  { apply sorted_good. eapply read_good; [|exact E5]. intros t p q It T Ip K A C KR. apply C. apply (B t p It T Ip). congruence. }
  rewrite all_silent by auto. destruct (balance_all w 8 false _ _ _) as [[[ts1 b1] p3]| |] eqn:E6; auto. cbn [bind]. destruct (flat_map (fun x => snd (fst x)) raw) as [|a autos]; auto.
  destruct (mapM _ (a :: autos)) as [nodes| |]; auto. cbn [bind]. destruct (auto_all w _ ts1 _) as [[ts2 s]| |] eqn:E8; auto. cbn [bind].
  rewrite all_silent; auto. eapply (autos_good silent silent_filled silent_tags); [exact E8|]. eapply (all_good silent silent_pushed silent_filled silent_virtual); eauto.
Qed.
(** Given the ledger, the reports do not look at the option. *)
Lemma select_set w o s n t ps : forall cs, select_postings w (check_set s o) n t ps cs = select_postings w o n t ps cs.
Proof.
  induction ps as [|p ps IH]; intros cs; auto. cbn [select_postings]. change (filter_posting w (check_set s o) n t p cs) with (filter_posting w o n t p cs). destruct (filter_posting w o n t p cs) as [[b cs1]| |]; auto. cbn [bind]. rewrite IH. auto.
Qed.
Lemma select_txns_set w o s n ts : forall cs, select_txns w (check_set s o) n ts cs = select_txns w o n ts cs.
Proof.
  induction ts as [|t ts IH]; intros cs; auto. cbn [select_txns]. rewrite select_set. destruct (select_postings w o n t (t_postings t) cs) as [[b cs1]| |]; auto. cbn [bind]. rewrite IH. auto.
Qed.
Lemma balance_set w site o s flat tot lg : balance_report w site (check_set s o) flat tot lg = balance_report w site o flat tot lg.
Proof. unfold balance_report. change (query_node w (check_set s o)) with (query_node w o). destruct (query_node w o) as [n| |]; auto. cbn [bind]. rewrite select_txns_set. reflexivity. Qed.
Lemma register_set w site o s lg : register_report w site (check_set s o) lg = register_report w site o lg.
Proof. unfold register_report. change (query_node w (check_set s o)) with (query_node w o). destruct (query_node w o) as [n| |]; auto. cbn [bind]. rewrite select_txns_set. reflexivity. Qed.
Lemma run_set w c o s file l : run_on w c (check_set s o) file l =
  match c with CCheck => run_on w c o file l | _ => lg <- to_ledger w s l ;; match c with
    | CBalance flat no_total => r <- balance_report w (report_site lg) o flat (negb no_total) lg ;; report_lines r
    | CRegister => r <- register_report w (report_site lg) o lg ;; register_lines w r
    | CAccounts => Ok (accounts_report w (report_site lg) lg) | CPayees => Ok (payees_report w (report_site lg) lg)
    | CCommodities => Ok (commodities_report w (report_site lg) lg) | _ => prices_report lg end end.
Proof.
  unfold run_on. cbn [check_set o_no_balance_check]. destruct c; auto; destruct (to_ledger w s l); auto; cbn [bind]; [rewrite balance_set|rewrite register_set]; auto.
Qed.
(** If no posting states a balance, the option changes nothing at all: any command, any file (with automated transactions
    or not), accepted or refused. *)
Theorem C105_no_balances : forall depth w c o file l, file_parses depth w file l -> no_balances l ->
  run_cmd depth w c (check_set true o) file = run_cmd depth w c (check_set false o) file.
Proof.
  intros depth w c o file l HF N. apply file_parses_iff in HF. unfold run_cmd. rewrite HF. cbn [bind]. rewrite !run_set, (ledger_silent w l N). reflexivity.
Qed.
Print Assumptions C105_no_balances.
(** If balances are stated beside amounts only, then what is shown with the check is shown without it. *)
Theorem C105_accepted : forall depth w c o file l out, file_parses depth w file l -> balances_beside_amounts l ->
  run_cmd depth w c (check_set false o) file = Ok out -> run_cmd depth w c (check_set true o) file = Ok out.
Proof.
  intros depth w c o file l out HF N. apply file_parses_iff in HF. unfold run_cmd. rewrite HF. cbn [bind]. rewrite !run_set. intros H.
  destruct c; try exact H; bnd H lg E; rewrite (ledger_unchecked w l lg N E); exact H.
Qed.
Print Assumptions C105_accepted.

(** ** Postings that state a balance only *)
Section Settled.
  Context (w : world) (l : pledger).
  Lemma only_real_posting p : real_posting p = kind_eqb (rp_kind p) Real.
  Proof using Type. unfold real_posting. destruct (rp_kind p); auto. Qed.
  Lemma not_only_moved now now' p c : only_balance p = false -> real_posting p = true -> moved w l true now' p c = moved w l false now p c.
  Proof using Type. unfold only_balance, moved. rewrite <- only_real_posting. intros H R. rewrite R in H. destruct (rp_money p); auto. destruct (rp_balance p); auto. discriminate. Qed.
  Lemma not_only_counts now now' p c : only_balance p = false -> real_posting p = true -> counts w l true now' p c = counts w l false now p c.
  Proof using Type. intros H R. unfold counts. destruct (rp_money p); auto. apply not_only_moved; auto. Qed.
  Lemma not_only_blank p : only_balance p = false -> blank true p = blank false p.
  Proof using Type. unfold only_balance, blank. rewrite <- only_real_posting. destruct (real_posting p); auto. destruct (rp_money p); auto. destruct (rp_balance p); auto. Qed.
  Lemma open_blank p : blank false p = open_posting p.
  Proof using Type. unfold blank, open_posting. rewrite <- only_real_posting. destruct (rp_money p), (rp_balance p); auto. Qed.
  (** The amount of a virtual posting does not depend on the option if it has one. *)
  Lemma virtual_moved now now' p c : rp_money p <> None -> moved w l true now' p c = moved w l false now p c.
  Proof using Type. unfold moved. destruct (rp_money p); auto. congruence. Qed.
  Lemma plain_moved now now' p c : stated_posting p -> only_balance p = false -> moved w l true now' p c = moved w l false now p c.
  Proof using Type.
    intros (_ & V & _) N. destruct (real_posting p) eqn:R; [apply not_only_moved; auto|]. apply virtual_moved. apply V. rewrite only_real_posting in R. intros E. rewrite E in R. discriminate.
  Qed.
  Lemma plain_sum ps : (forall p, In p ps -> only_balance p = false) -> forall now now' c, value_sum w l true now' ps c = value_sum w l false now ps c.
  Proof using Type.
    induction ps as [|p ps IH]; intros N now now' c; auto. cbn [value_sum]. rewrite (IH (fun q I => N q (or_intror I)) (after_posting w l false now p)). destruct (real_posting p) eqn:R; auto.
    rewrite (not_only_counts now now'); auto. apply N. left; auto.
  Qed.
  Lemma plain_adds rest rest' K (P : str -> bool) ps : (forall p, In p ps -> only_balance p = false) -> Forall stated_posting ps -> (filter (blank false) ps <> [] -> forall c, rest' c = rest c) ->
    forall now now' c, adds_to w l true rest' K P now' ps c = adds_to w l false rest K P now ps c.
  Proof using Type.
    induction ps as [|p ps IH]; intros N S RE now now' c; auto. inversion S; subst. assert (Np : only_balance p = false) by (apply N; left; auto).
    cbn [adds_to]. rewrite (IH (fun q I => N q (or_intror I)) H2 ltac:(intros X; apply RE; cbn; destruct (blank false p); [discriminate|auto]) (after_posting w l false now p)).
    rewrite (not_only_blank p Np), (plain_moved now now' p c H1 Np). destruct (blank false p) eqn:B; auto. rewrite RE; auto. cbn. rewrite B. discriminate.
  Qed.
  Lemma plain_blanks ps : (forall p, In p ps -> only_balance p = false) -> filter (blank true) ps = filter (blank false) ps.
  Proof using Type. induction ps as [|p ps IH]; intros N; auto. cbn [filter]. rewrite (not_only_blank p) by (apply N; left; auto). rewrite IH; auto. intros q I. apply N. right; auto. Qed.
  Lemma nothing_true ps : forall now, all_true w l true now ps.
  Proof using Type. induction ps as [|p ps IH]; intros now; cbn [all_true]; auto. split; auto. intros _ X. discriminate. Qed.
  (** With one posting that states a balance only: what it moves is what it counts, and the rest is as before. *)
  Lemma none_of ps : filter only_balance ps = [] -> forall p, In p ps -> only_balance p = false.
  Proof using Type. intros E p I. destruct (only_balance p) eqn:O; auto. assert (X : In p (filter only_balance ps)) by (apply filter_In; auto). rewrite E in X. destruct X. Qed.
  Lemma only_split p : only_balance p = true -> real_posting p = true /\ rp_money p = None /\ blank true p = true /\ blank false p = false.
  Proof using Type.
    unfold only_balance, blank. rewrite <- only_real_posting. destruct (real_posting p); [|discriminate]. destruct (rp_money p); [discriminate|]. destruct (rp_balance p); [|discriminate]. auto.
  Qed.
  Lemma one_only ps q : filter only_balance ps = [q] -> filter open_posting ps = [] -> Forall stated_posting ps -> forall now now', exists mv,
    (forall c, value_sum w l false now ps c = value_sum w l true now' ps c + mv c) /\
    forall K (P : str -> bool) rest rest' c, (forall d, rest' d = mv d) -> adds_to w l true rest' K P now' ps c = adds_to w l false rest K P now ps c.
  Proof using Type.
    induction ps as [|p ps IH]; intros F O S now now'; [discriminate|]. inversion S; subst. cbn [filter] in F, O. destruct (only_balance p) eqn:OB.
    - injection F as -> F. pose proof (none_of _ F) as N. destruct (only_split q OB) as (R & M & B & B'). exists (fun c => moved w l false now q c).
      assert (Z : forall c, moved w l true now' q c = 0) by (intros c; unfold moved; rewrite M; destruct (rp_balance q); auto).
      destruct (open_posting q); [discriminate|].
      split.
      + intros c. cbn [value_sum]. rewrite R, (plain_sum ps N (after_posting w l false now q)). unfold counts. rewrite M, Z. ring.
      + intros K P rest rest' c RE. cbn [adds_to]. rewrite B, B', RE. rewrite (plain_adds rest rest' K P ps N H2) with (now := after_posting w l false now q); auto.
        intros X. exfalso. apply X. rewrite (filter_ext _ open_posting) by (intros; apply open_blank). auto.
    - destruct (open_posting p) eqn:OP; [discriminate|]. destruct (IH F O H2 (after_posting w l false now p) (after_posting w l true now' p)) as (mv & V & A). exists mv. split.
      + intros c. cbn [value_sum]. rewrite V. destruct (real_posting p) eqn:R; [rewrite (not_only_counts now now' p c OB R)|]; ring.
      + intros K P rest rest' c RE. cbn [adds_to]. rewrite (A K P rest rest' c RE), (not_only_blank p OB), (plain_moved now now' p c H1 OB), open_blank, OP. auto.
  Qed.
  Lemma one_blank ps q : filter only_balance ps = [q] -> filter open_posting ps = [] -> filter (blank true) ps = [q].
  Proof using Type.
    intros F O. rewrite <- F. clear F. induction ps as [|p ps IH]; auto. cbn [filter] in *. destruct (open_posting p) eqn:OP; [discriminate|]. rewrite IH by auto.
    destruct (only_balance p) eqn:OB; [destruct (only_split p OB) as (_ & _ & -> & _); auto|]. rewrite (not_only_blank p OB), open_blank, OP. auto.
  Qed.
  Definition settled_txn (now : holdings) (t : txn rposting) : Prop :=
    (forall p, In p (t_postings t) -> only_balance p = false) \/
    (exists p, filter only_balance (t_postings t) = [p]) /\ filter open_posting (t_postings t) = [] /\ forall c, value_sum w l false now (t_postings t) c = 0.
  Lemma settled_adds t now now' K P c : settled_txn now t -> Forall stated_posting (t_postings t) -> txn_adds_to w l true K P now' t c = txn_adds_to w l false K P now t c.
  Proof using Type.
    intros [N|((q & F) & O & Z)] S; unfold txn_adds_to.
    - apply plain_adds; auto. intros _ d. unfold rest_of. rewrite (plain_sum _ N now now'). auto.
    - destruct (one_only _ q F O S now now') as (mv & V & A). apply A. intros d. unfold rest_of. specialize (V d). rewrite Z in V.
      assert (E : value_sum w l true now' (t_postings t) d = - mv d) by (replace (value_sum w l true now' (t_postings t) d) with (value_sum w l true now' (t_postings t) d + mv d - mv d) by ring; rewrite <- V; ring). rewrite E. ring.
  Qed.
  Lemma settled_after t now now' : settled_txn now t -> Forall stated_posting (t_postings t) -> agree now now' -> agree (after_txn w l false now t) (after_txn w l true now' t).
  Proof using Type. intros ST S AG a c. unfold after_txn. rewrite (settled_adds t now now'), AG by auto. auto. Qed.
  Lemma settled_order t now now' : settled_txn now t -> in_order_now w l false now t -> in_order_now w l true now' t.
  Proof using Type.
    intros ST (V & _ & M). split; auto. split; [apply nothing_true|]. destruct ST as [N|((q & F) & O & _)].
    - rewrite plain_blanks by auto. destruct (filter (blank false) (t_postings t)) as [|a [|]]; auto. eapply PropRename.fine_same; [|exact M]. intros c. apply plain_sum; auto.
    - rewrite (one_blank _ q F O). exact I.
  Qed.
  Lemma kinds_same rest K K' (P : str -> bool) ps : (forall k, K k = K' k) -> forall now c, adds_to w l false rest K P now ps c = adds_to w l false rest K' P now ps c.
  Proof using Type. intros E. induction ps as [|p ps IH]; intros now c; auto. cbn [adds_to]. rewrite E, IH. auto. Qed.
  Lemma settled_all us : Forall (fun t => Forall stated_posting (t_postings t)) us -> forall now now', agree now now' -> settled w l now us -> all_in_order w l false now us ->
    all_in_order w l true now' us /\ forall o o' P c, (forall t, in_window o' t = in_window o t) -> (forall k, asked_for o' k = asked_for o k) -> total_added w l true o' P now' us c = total_added w l false o P now us c.
  Proof using Type.
    induction us as [|t us IH]; intros S now now' AG ST IO; [cbn; auto|]. inversion S; subst. destruct ST as [ST1 ST2]. destruct IO as [IO1 IO2].
    destruct (IH H2 _ _ (settled_after t now now' ST1 H1 AG) ST2 IO2) as [I1 I2]. split; [split; auto; apply (settled_order t now now'); auto|].
    intros o o' P c W K. cbn [total_added]. rewrite (I2 o o' P c W K), W. destruct (in_window o t); auto. rewrite (settled_adds t now now') by auto.
    unfold txn_adds_to. rewrite (kinds_same _ (asked_for o') (asked_for o)) by auto. auto.
  Qed.
End Settled.

Lemma sorted_stated w l us : stated_journal w l -> date_sorted (pl_txns l) us -> Forall (fun t => Forall stated_posting (t_postings t)) us.
Proof. intros SJ D. apply Forall_forall. intros t It. apply Forall_forall. intros p Ip. eapply (sj_postings _ _ SJ t p); auto. apply (sorted_incl _ _ D). exact It. Qed.
(** With postings that state a balance only: the journal is accepted without the check too, and the flat report is the same. *)
Theorem C105_balance : forall depth w o file l us no_total A, world_ok w -> file_parses depth w file l -> stated_journal w l ->
  date_sorted (pl_txns l) us -> settled w l nothing us -> exit_status (run_cmd depth w (CBalance true no_total) (check_set false o) file) = 0%Z ->
  asked_accounts w (o_query o) A -> o_exchange o = None -> can_be_cut w o l ->
  exists r r' lines lines', run_cmd depth w (CBalance true no_total) (check_set false o) file = Ok lines /\ balance_printed r lines /\
    run_cmd depth w (CBalance true no_total) (check_set true o) file = Ok lines' /\ balance_printed r' lines' /\ same_report r' r.
Proof.
  intros depth w o file l us nt A Hw HF SJ D ST RUN HA OX HC. pose proof (order_of_run _ _ _ _ _ _ _ Hw HF SJ D RUN) as IO. cbn in IO.
  destruct (settled_all w l us (sorted_stated w l us SJ D) nothing nothing agree_nothing ST IO) as [IO' T].
  destruct (stated_flat_cut depth w (check_set false o) file l us nt A Hw HF SJ D IO HA OX HC) as (r & lines & R1 & R2 & R3 & R4 & _).
  destruct (stated_flat_cut depth w (check_set true o) file l us nt A Hw HF SJ D IO' HA OX HC) as (r' & lines' & S1 & S2 & S3 & S4 & _).
  exists r, r', lines, lines'. do 4 (split; auto).
  apply (same_flat (check_set false o) (check_set true o) _ _ (negb nt) r r' eq_refl R3 R4 S3 S4); [intros a c|intros c]; cbn [check_set o_no_balance_check]; rewrite (T (check_set false o) (check_set true o)); auto.
Qed.
Print Assumptions C105_balance.
(** The tree of the run without the check, in terms of the flat report of the run with it. *)
Theorem C105_tree : forall depth w o o' file l us no_total A, world_ok w -> file_parses depth w file l -> stated_journal w l ->
  date_sorted (pl_txns l) us -> settled w l nothing us -> exit_status (run_cmd depth w (CBalance true no_total) (check_set false o') file) = 0%Z ->
  asked_accounts w (o_query o) A -> o_exchange o = None -> same_but_depth o o' -> o_depth o' = None ->
  exists r r' lines lines', run_cmd depth w (CBalance true no_total) (check_set false o') file = Ok lines /\ balance_printed r lines /\
    run_cmd depth w (CBalance false no_total) (check_set true o) file = Ok lines' /\ balance_printed r' lines' /\
    (exists accs, ascending accs /\
       Forall2 (fun a row => br_indent row = levels a /\ (exists part more, own_part a part /\ br_label row = part ++ more) /\
         (forall d, o_depth o = Some d -> (levels a <= d)%nat) /\ shown_amounts (br_moneys row) /\ br_moneys row <> [] /\
         (~ begins_with_colon a -> forall c, moneys_amt (br_moneys row) c = shown_for r (inside a) c)) accs (bp_rows r')) /\
    forall ms c, bp_total r' = Some ms -> moneys_amt ms c = shown_for r (fun _ => true) c.
Proof.
  intros depth w o o' file l us nt A Hw HF SJ D ST RUN HA OX (O1 & O2 & O3 & O4 & O5 & O6) ND. pose proof (order_of_run _ _ _ _ _ _ _ Hw HF SJ D RUN) as IO. cbn in IO.
  destruct (settled_all w l us (sorted_stated w l us SJ D) nothing nothing agree_nothing ST IO) as [IO' T].
  assert (HA' : asked_accounts w (o_query o') A) by (rewrite <- O4; auto). assert (OX' : o_exchange o' = None) by congruence.
  destruct (stated_flat depth w (check_set false o') file l us nt A Hw HF SJ D IO HA' OX' ND) as (r & lines & R1 & R2 & R3 & R4 & R5).
  destruct (C83_asked_balance depth w (check_set true o) file l us false nt A Hw HF SJ D IO' HA OX) as (r' & lines' & S1 & S2 & S3 & S4); [discriminate|].
  exists r, r', lines, lines'. do 4 (split; auto). cbn beta iota zeta in S3, S4.
  assert (TT : forall P c, total_added w l true (check_set true o) (fun n => A n && P n) nothing us c = shown_for r P c).
  { intros P c. rewrite R5. apply (T (check_set false o') (check_set true o)).
    - intros t. unfold in_window. cbn. rewrite O2, O3. auto.
    - intros k. unfold asked_for. cbn. rewrite O1. auto. }
  split.
  - destruct S3 as (accs & AS & FR). exists accs. split; auto. eapply forall2_weaken; [|exact FR]. intros a row (H1 & H2 & H3 & H4 & H5 & H6). do 5 (split; auto).
    intros N c. rewrite (H6 N). apply TT.
  - intros ms c E. destruct S4 as [_ S4]. destruct (S4 ms E) as [_ ->]. apply TT.
Qed.
Print Assumptions C105_tree.
(** So do the lines of the register add up to the same amounts, and end with the same running total. *)
Theorem C105_register : forall depth w o file l us A, world_ok w -> file_parses depth w file l -> stated_journal w l ->
  date_sorted (pl_txns l) us -> settled w l nothing us -> exit_status (run_cmd depth w CRegister (check_set false o) file) = 0%Z ->
  asked_accounts w (o_query o) A ->
  exists rows rows' accs accs' lines lines', run_cmd depth w CRegister (check_set false o) file = Ok lines /\ register_printed w rows lines /\ Forall2 account_of_line rows accs /\
    run_cmd depth w CRegister (check_set true o) file = Ok lines' /\ register_printed w rows' lines' /\ Forall2 account_of_line rows' accs' /\
    (forall P c, lines_amount rows' accs' P c = lines_amount rows accs P c) /\ forall c, final_total rows' c = final_total rows c.
Proof.
  intros depth w o file l us A Hw HF SJ D ST RUN HA. pose proof (order_of_run _ _ _ _ _ _ _ Hw HF SJ D RUN) as IO. cbn in IO.
  destruct (settled_all w l us (sorted_stated w l us SJ D) nothing nothing agree_nothing ST IO) as [IO' T].
  destruct (stated_sums depth w (check_set false o) file l us A Hw HF SJ D IO HA) as (rows & accs & lines & R1 & R2 & R3 & R4 & R5).
  destruct (stated_sums depth w (check_set true o) file l us A Hw HF SJ D IO' HA) as (rows' & accs' & lines' & S1 & S2 & S3 & S4 & S5).
  exists rows, rows', accs, accs', lines, lines'. do 6 (split; auto).
  split; [intros P c; rewrite S4, R4|intros c; rewrite S5, R5]; cbn [check_set o_no_balance_check]; rewrite (T (check_set false o) (check_set true o)); auto.
Qed.
Print Assumptions C105_register.

(** ** A case *)
(** A balance beside an amount, a balance only (what was found in the purse), and a rule. *)
Definition kept105 : list String.string := ["2021-01-01 Job"; "  Assets:Bank  100 EUR = 100 EUR"; "  Income"; "2021-01-02 Cash"; "  Assets:Cash  50 EUR"; "  Assets:Bank"]%string.
Definition count105 : list String.string := ["2021-01-03 Counted"; "  Assets:Cash  = 42 EUR"; "  Lost  8 EUR"]%string.
Definition both105 : list String.string := ["2021-01-03 Counted"; "  Assets:Cash  = 42 EUR"; "  Lost"]%string.
Definition false105 : list String.string := ["2021-01-03 Job"; "  Assets:Bank  1 EUR = 1 EUR"; "  Income"]%string.
Definition rule105 : list String.string := ["= income"; "  (Taxes)  0.1"]%string.
Definition plain105 : list String.string := ["2021-01-01 Job"; "  Assets:Bank  100 EUR"; "  Income"]%string.
Definition w105 : world :=
  {| w_lower := ascii_lower; w_numeric := fun _ => false;
     w_rx := fun rx s => if starts_with (L "(?i)") rx then occurs (ascii_lower (skipn 4 rx)) (ascii_lower s) else occurs rx s;
     w_rx_ok := fun _ => true; w_width := None;
     w_read := fun p => option_map snd (find (fun f => str_eqb (fst f) p)
       [(L "./count", text (kept105 ++ count105)); (L "./both", text (kept105 ++ both105)); (L "./false", text (kept105 ++ false105)); (L "./rule", text (rule105 ++ kept105)); (L "./plain", text (rule105 ++ plain105))]);
     w_glob := fun _ => None; w_two_timer := fun _ => None; w_now := 0%Z; w_ord := fun _ _ l => l |}.
Definition l105 (f : String.string) : pledger := get pl_new (tokenize_file 2 w105 (L (String.append "./" f))).
Lemma w105_ok : world_ok w105.
Proof. split; [intros; apply Permutation_refl|exact ascii_lower_idem]. Qed.
Lemma parses105 f : match tokenize_file 2 w105 (L (String.append "./" f)) with Ok l => l105 f = l | _ => False end -> file_parses 2 w105 (L (String.append "./" f)) (l105 f).
Proof. intros H. apply file_parses_iff. destruct (tokenize_file 2 w105 (L (String.append "./" f))); subst; auto; destruct H. Qed.
Definition shows105 (skip : bool) (f : String.string) : res (list str) := run_cmd 2 w105 (CBalance true false) (check_set skip plain_opts) (L (String.append "./" f)).
(** Journals in one commodity. *)
Section One.
  Context (w : world) (l : pledger) (eur : str).
  Definition in_eur (p : rposting) : bool :=
    match rp_money p with Some m => str_eqb (commodity_meant w l (snd m)) eur | None => true end &&
    match rp_balance p with Some m => str_eqb (commodity_meant w l (snd m)) eur | None => true end && match rp_cost p with None => true | Some _ => false end.
  Lemma eur_written m c : str_eqb (commodity_meant w l (snd m)) eur = true -> c <> eur -> written_in w l m c = 0.
  Proof using Type. unfold written_in. intros E N. apply str_eqb_eq in E. rewrite E. destruct (str_eqb_spec eur c); [congruence|auto]. Qed.
  Lemma eur_moved now p c : in_eur p = true -> c <> eur -> (forall a, now a c = 0) -> moved w l false now p c = 0.
  Proof using Type.
    unfold in_eur, moved. intros H N Z. apply andb_prop in H as [H _]. apply andb_prop in H as [H1 H2]. destruct (rp_money p); [apply eur_written; auto|]. destruct (rp_balance p); auto. rewrite eur_written, Z by auto. ring.
  Qed.
  Lemma eur_counts now p c : in_eur p = true -> c <> eur -> (forall a, now a c = 0) -> counts w l false now p c = 0.
  Proof using Type.
    intros H N Z. unfold counts. destruct (rp_money p) eqn:M; [|apply eur_moved; auto]. unfold written_value. unfold in_eur in H. rewrite M in *. destruct (rp_cost p); [rewrite andb_false_r in H; discriminate|].
    apply andb_prop in H as [H _]. apply andb_prop in H as [H _]. destruct p0. apply eur_written; auto.
  Qed.
  Lemma eur_after now p c : in_eur p = true -> c <> eur -> (forall a, now a c = 0) -> forall a, after_posting w l false now p a c = 0.
  Proof using Type. intros H N Z a. unfold after_posting. rewrite Z, (eur_moved now p c H N Z). destruct (_ && _); ring. Qed.
  Lemma eur_sum ps c : forallb in_eur ps = true -> c <> eur -> forall now, (forall a, now a c = 0) -> value_sum w l false now ps c = 0.
  Proof using Type.
    induction ps as [|p ps IH]; intros H N now Z; auto. cbn in H. apply andb_prop in H as [H1 H2]. cbn [value_sum]. rewrite (eur_counts now p c H1 N Z), (IH H2 N) by (apply eur_after; auto). destruct (real_posting p); ring.
  Qed.
  Lemma eur_adds rest K (P : str -> bool) ps c : forallb in_eur ps = true -> c <> eur -> rest c = 0 -> forall now, (forall a, now a c = 0) -> adds_to w l false rest K P now ps c = 0.
  Proof using Type.
    intros H N R. induction ps as [|p ps IH]; intros now Z; auto. cbn in H. apply andb_prop in H as [H1 H2]. cbn [adds_to]. rewrite (eur_moved now p c H1 N Z), R, (IH H2) by (apply eur_after; auto). destruct (_ && _); [destruct (blank false p)|]; ring.
  Qed.
  Lemma eur_txns us c : forallb (fun t => forallb in_eur (t_postings t)) us = true -> c <> eur -> forall now, (forall a, now a c = 0) -> forall a, after_txns w l false now us a c = 0.
  Proof using Type.
    induction us as [|t us IH]; intros H N now Z a; cbn [after_txns]; auto. cbn in H. apply andb_prop in H as [H1 H2]. apply IH; auto. intros b. unfold after_txn, txn_adds_to.
    assert (R : rest_of w l false now t c = 0) by (unfold rest_of; rewrite (eur_sum _ c H1 N now Z); ring). rewrite Z, (eur_adds _ _ _ _ c H1 N R now Z). ring.
  Qed.
End One.
Lemma settled_app w l us : forall now vs, (forall t p, In t us -> In p (t_postings t) -> only_balance p = false) -> settled w l (after_txns w l false now us) vs -> settled w l now (us ++ vs).
Proof. induction us as [|t us IH]; intros now vs H S; auto. cbn [app settled]. split; [left; intros p; apply H; left; auto|]. apply IH; auto. intros t' p I. apply H. right; auto. Qed.
Lemma settled_last w l eur now t : forallb (in_eur w l eur) (t_postings t) = true -> (forall c a, c <> eur -> now a c = 0) -> length (filter only_balance (t_postings t)) = 1%nat -> filter open_posting (t_postings t) = [] ->
  value_sum w l false now (t_postings t) eur = 0 -> settled w l now [t].
Proof.
  intros E Z O1 O2 V. split; [right|exact I]. split; [destruct (filter only_balance (t_postings t)) as [|p [|]]; try discriminate; exists p; auto|]. split; auto. intros c. destruct (str_eqb_spec c eur) as [->|N]; auto.
  apply (eur_sum w l eur); auto.
Qed.
Lemma no_only us : forallb (fun t => forallb (fun p => negb (only_balance p)) (t_postings t)) us = true -> forall t p, In t us -> In p (t_postings t) -> only_balance p = false.
Proof. intros H t p It Ip. rewrite forallb_forall in H. specialize (H t It). rewrite forallb_forall in H. specialize (H p Ip). destruct (only_balance p); auto; discriminate. Qed.
Definition us105 : list (txn rposting) := by_date (pl_txns (l105 "count")).
Example C105_case : world_ok w105 /\ file_parses 2 w105 (L "./count") (l105 "count") /\ stated_journal w105 (l105 "count") /\ date_sorted (pl_txns (l105 "count")) us105 /\ settled w105 (l105 "count") nothing us105 /\
  exit_status (shows105 false "count") = 0%Z /\ shows105 true "count" = shows105 false "count" /\
  shows105 false "count" = Ok (map L ["           50.00 EUR  Assets:Bank"; "           42.00 EUR  Assets:Cash"; "         -100.00 EUR  Income"; "            8.00 EUR  Lost"; "--------------------"; "                   0"]%string).
Proof.
  assert (F : file_parses 2 w105 (L "./count") (l105 "count")) by (apply parses105; vm_compute; reflexivity). assert (S : stated_journal w105 (l105 "count")) by (apply stated_check_ok; vm_compute; reflexivity).
  split; [exact w105_ok|]. split; [exact F|]. split; [exact S|]. split; [exact (sorted_of 2 w105 (L "./count") (l105 "count") F S)|]. split; [|split; [|split]; vm_compute; reflexivity].
  assert (E : us105 = firstn 2 us105 ++ skipn 2 us105) by (symmetry; apply firstn_skipn). rewrite E. apply settled_app; [apply no_only; vm_compute; reflexivity|].
  destruct (skipn 2 us105) as [|t [|]] eqn:X; [vm_compute in X; discriminate X| |vm_compute in X; discriminate X].
  assert (T : t = nth 2 us105 t) by (change (t = nth 0 (skipn 2 us105) t); rewrite X; reflexivity).
  assert (G : (fun t => forallb (in_eur w105 (l105 "count") (L "EUR")) (t_postings t) && Nat.eqb (length (filter only_balance (t_postings t))) 1 && match filter open_posting (t_postings t) with [] => true | _ => false end &&
     qc_eqb (value_sum w105 (l105 "count") false (after_txns w105 (l105 "count") false nothing (firstn 2 us105)) (t_postings t) (L "EUR")) 0) t = true).
  { assert (Y : forallb (fun t => forallb (in_eur w105 (l105 "count") (L "EUR")) (t_postings t) && Nat.eqb (length (filter only_balance (t_postings t))) 1 && match filter open_posting (t_postings t) with [] => true | _ => false end &&
      qc_eqb (value_sum w105 (l105 "count") false (after_txns w105 (l105 "count") false nothing (firstn 2 us105)) (t_postings t) (L "EUR")) 0) (skipn 2 us105) = true) by (vm_compute; reflexivity).
    rewrite X in Y. cbn [forallb] in Y. rewrite andb_true_r in Y. exact Y. }
  cbv beta in G. apply andb_prop in G as [G G4]. apply andb_prop in G as [G G3]. apply andb_prop in G as [G1 G2]. apply (settled_last w105 (l105 "count") (L "EUR") _ t G1).
  - intros c a N. apply (eur_txns w105 (l105 "count") (L "EUR")); [vm_compute; reflexivity|exact N|]. intros b. reflexivity.
  - apply Nat.eqb_eq. exact G2.
  - destruct (filter open_posting (t_postings t)); [reflexivity|discriminate G3].
  - destruct (qc_eqb_spec (value_sum w105 (l105 "count") false (after_txns w105 (l105 "count") false nothing (firstn 2 us105)) (t_postings t) (L "EUR")) 0) as [V|]; [exact V|discriminate G4].
Qed.
(** Journals with a rule: one with a balance beside an amount, one without balances. *)
Lemma beside_check l : forallb (fun t => forallb (fun p => negb (only_balance p)) (t_postings t)) (pl_txns l) = true -> balances_beside_amounts l.
Proof. intros H t p It _ Ip. eapply no_only; eauto. Qed.
Lemma none_check l : forallb (fun t => forallb (fun p => match rp_balance p with None => true | Some _ => false end) (t_postings t)) (pl_txns l) = true -> no_balances l.
Proof. intros H t p It _ Ip _. rewrite forallb_forall in H. specialize (H t It). rewrite forallb_forall in H. specialize (H p Ip). destruct (rp_balance p); auto; discriminate. Qed.
Example C105_rules : file_parses 2 w105 (L "./rule") (l105 "rule") /\ balances_beside_amounts (l105 "rule") /\ file_parses 2 w105 (L "./plain") (l105 "plain") /\ no_balances (l105 "plain") /\
  shows105 true "rule" = shows105 false "rule" /\
  shows105 false "rule" = Ok (map L ["           50.00 EUR  Assets:Bank"; "           50.00 EUR  Assets:Cash"; "         -100.00 EUR  Income"; "          -10.00 EUR  Taxes"; "--------------------"; "          -10.00 EUR"]%string) /\
  shows105 true "plain" = shows105 false "plain" /\ exit_status (shows105 false "plain") = 0%Z.
Proof.
  split; [apply parses105; vm_compute; reflexivity|]. split; [apply beside_check; vm_compute; reflexivity|]. split; [apply parses105; vm_compute; reflexivity|]. split; [apply none_check; vm_compute; reflexivity|].
  split; [|split; [|split]]; vm_compute; reflexivity.
Qed.
(** The option is meant to accept more; but a journal with a balance only, beside an amount left open, is accepted with the
    check and refused without it.  A false balance is refused with it and accepted without. *)
Theorem C105_only_accepts_more_refuted : exists depth w c o file, world_ok w /\ exit_status (run_cmd depth w c (check_set false o) file) = 0%Z /\ exit_status (run_cmd depth w c (check_set true o) file) = 1%Z.
Proof. exists 2%nat, w105, (CBalance true false), plain_opts, (L "./both"). split; [exact w105_ok|]. split; vm_compute; reflexivity. Qed.
Print Assumptions C105_only_accepts_more_refuted.
Example C105_false_balance : exit_status (shows105 false "false") = 1%Z /\ exit_status (shows105 true "false") = 0%Z.
Proof. split; vm_compute; reflexivity. Qed.
