(** Facts for C84: the reports of any ledger, in terms of the lines of its transactions. *)
From Coq Require Import Lia.
From Verif Require Import Base BaseFacts Numerals Money Alist Comment Txn Expr Filter Price Tokens Ledger Reports App Spec MoneyFacts SpecList SpecTxn TxnFacts SpecLedger
  TokenFacts JournalFacts LedgerFacts LedgerFacts2 LedgerFacts3 PropTxn PropLedger SpecQuery SpecReports ReportFacts ReportFacts2 ReportFacts3 PropReports PropApp
  SpecBook BookFacts PropBook PropBook2 SpecExpr SpecAsk PropAsk SpecWords SpecAssert SpecRules.
Open Scope Qc_scope.

(** The lines of the transactions of a ledger. *)
Definition ledger_lines (ts : list (txn posting)) : list (list entry) := map (fun t => map entry_of (t_postings t)) ts.
(** The transactions of the journal and those of the ledger have the same dates and descriptions. *)
Definition same_heads (us : list (txn rposting)) (ts : list (txn posting)) : Prop := Forall2 (fun u t => t_date t = t_date u /\ t_desc t = t_desc u) us ts.
(** Dates and amounts are there. *)
Definition whole_txns (ts : list (txn posting)) : Prop :=
  forall t, In t ts -> (exists d, t_date t = Some d) /\ forall p, In p (t_postings t) -> p_amount p <> None.

Lemma counted_entries o us ts A c : same_heads us ts ->
  qsum (map (txn_counted (asked_for o) A c) (filter (window_of o) ts)) = entries_total o us (ledger_lines ts) A c.
Proof.
  unfold entries_total, ledger_lines. induction 1 as [|u t us ts (D & _) F IH]; [reflexivity|]. cbn [map combine filter fst snd].
  assert (W : window_of o t = in_window o u) by (unfold window_of, in_window; rewrite D; auto). rewrite W, qsum_cons, <- IH.
  destruct (in_window o u); cbn [map]; [|ring]. rewrite qsum_cons. f_equal. unfold txn_counted. rewrite map_map. f_equal. apply map_ext.
  intros p. unfold counted, amount_in. cbn. destruct (_ && _); auto. destruct (p_amount p); auto.
Qed.
Lemma shown_report w site o flat tot lg A : world_ok w -> whole_txns (lg_txns lg) -> asked_accounts w (o_query o) A -> o_exchange o = None ->
  (flat = true -> forall d, o_depth o = Some d -> (1 <= d)%nat /\
     forall t p, In t (lg_txns lg) -> In p (t_postings t) -> p_account p <> [] /\ ~ begins_with_colon (p_account p)) ->
  exists r, balance_report w site o flat tot lg = Ok r.
Proof.
  intros Hw H HA X HC. destruct (asked_node w o A HA) as (q & Q & AN). unfold balance_report. rewrite Q, X. cbn [bind].
  destruct (select_asked w o q A (lg_txns lg) (lg_commodities lg) AN) as (sel & -> & I); [intros t Ht; apply (H t Ht)|]. cbn [bind].
  assert (IN : forall p, In p (flat_map snd sel) -> exists t, In t (lg_txns lg) /\ In p (t_postings t)).
  { intros p Hi. apply in_flat_map in Hi. destruct Hi as ([t ps] & H1 & H2). destruct (I t ps H1) as [T1 T2]. exists t. split; auto. }
  destruct (account_balances sel) as [bals| |] eqn:Eb.
  - cbn [bind]. destruct flat.
    + assert (Y : exists vb, flat_balances w site (o_depth o) bals = Ok vb).
      { destruct (o_depth o) as [d|] eqn:Ed; [|cbn; eauto]. destruct (HC eq_refl d eq_refl) as [D1 D2]. eapply C56_depth_succeeds_partial; eauto.
        intros p Hi. destruct (IN p Hi) as (t & T1 & T2). eauto. }
      destruct Y as (vb & ->). cbn [bind]. destruct (_ && _); eauto.
    + cbn [bind]. destruct (_ && _); eauto.
  - exfalso. unfold account_balances in Eb. destruct (balances_whole (flat_map snd sel)) with (bals := @nil (str * balance)) as (bals & Eb').
    { intros p Hi. destruct (IN p Hi) as (t & T1 & T2). apply (H t T1). auto. } congruence.
  - exfalso. unfold account_balances in Eb. destruct (balances_whole (flat_map snd sel)) with (bals := @nil (str * balance)) as (bals & Eb').
    { intros z Hi. destruct (IN z Hi) as (t & T1 & T2). apply (H t T1). auto. } congruence.
Qed.
(** The balance report, [total P] being what goes to the accounts that satisfy [P]. *)
Lemma shown_balance w site o flat tot lg A r (total : (str -> bool) -> str -> Qc) : world_ok w -> made_from w lg -> asked_accounts w (o_query o) A -> o_exchange o = None ->
  (forall P c, qsum (map (txn_counted (asked_for o) P c) (filter (window_of o) (lg_txns lg))) = total P c) ->
  balance_report w site o flat tot lg = Ok r ->
  (if flat then flat_cut_shows o (fun P => total (fun n => A n && P n)) r else tree_cut_shows o (fun P => total (fun n => A n && P n)) r) /\
  total_shows (fun P => total (fun n => A n && P n)) tot r.
Proof.
  intros Hw M HA OX TT Er. destruct (asked_node w o A HA) as (q0 & Q0 & AN). split.
  - destruct flat.
    + destruct (C56_flat_rows_partial w _ o _ lg r Hw M OX Er) as (q & tps & Q & R & AS & F1 & F2). assert (q = q0) by congruence. subst q.
      split; auto. intros cut C. split.
      * intros row Hi. destruct (F1 row _ Hi C) as (X1 & X2 & X3). do 2 (split; auto). intros c. rewrite X3, <- TT. eapply reported_asked_totals; eauto.
      * intros a c Hn. apply (F2 cut a c C). rewrite (reported_asked_totals w o q0 lg tps A), TT by auto. auto.
    + destruct (C55_tree_rows_partial w _ o _ lg r Hw M OX Er) as (q & tps & accs & Q & R & AS & F). assert (q = q0) by congruence. subst q.
      exists accs. split; auto. eapply forall2_weaken; [|exact F]. intros a row (H1 & H2 & H3 & H4 & H5 & H6). do 5 (split; auto). intros Hc c. rewrite H6, <- TT by auto. eapply reported_asked_totals; eauto.
  - destruct (C57_total w _ o flat _ lg r Hw M OX Er) as (q & tps & Q & R & T1 & T2). assert (q = q0) by congruence. subst q.
    split; auto. intros ms Em. destruct (T2 ms Em) as [X Y]. split; auto. intros c. rewrite Y, <- TT. eapply reported_asked_totals; eauto.
Qed.
(** The register. *)
Lemma shown_rows w site o lg A : world_ok w -> made_from w lg -> whole_txns (lg_txns lg) -> asked_accounts w (o_query o) A ->
  exists rows, register_report w site o lg = Ok rows.
Proof.
  intros Hw M LW HA. destruct (asked_node w o A HA) as (q & Q & AN). unfold register_report. rewrite Q. cbn [bind].
  destruct (select_asked w o q A (lg_txns lg) (lg_commodities lg) AN) as (sel & Es & SI); [intros t Ht; apply (LW t Ht)|]. rewrite Es. cbn [bind].
  apply register_whole.
  - intros t ps Hi. destruct (SI t ps Hi) as [I1 I2]. destruct (LW t I1) as [D Y]. split; auto.
  - destruct (made_dated w lg Hw M) as [(_ & _ & B3) _]. auto.
Qed.
Lemma shown_register w site o l al cs ts dir costs lg A us rows : world_ok w -> made_from w lg -> whole_txns (lg_txns lg) -> asked_accounts w (o_query o) A ->
  journal_read w l al cs (lg_payees lg) ts dir costs -> same_heads us (lg_txns lg) ->
  register_report w site o lg = Ok rows -> register_asked_shows w o l A us (ledger_lines (lg_txns lg)) rows.
Proof.
  intros Hw M LW HA JR FH H. destruct (asked_node w o A HA) as (q0 & Q0 & AN).
  destruct (C59_register w site o lg rows Hw M H) as (q & sel & Q & S & C). assert (q = q0) by congruence. subst q. cbn zeta in C. destruct C as [C1 C2].
  unfold register_asked_shows. cbn zeta. unfold ledger_lines.
  pose proof (lines_asked w o q0 A (lg_commodities lg) us (lg_txns lg) AN FH sel S) as SL. pose proof (forall2_length _ _ _ SL) as LE.
  assert (AM : forall x, In x (flat_map with_heading sel) -> p_amount (snd x) <> None).
  { intros x Hx. apply in_flat_map in Hx. destruct Hx as ([t ps] & Hs & Hx).
    assert (X : In t (lg_txns lg) /\ incl ps (t_postings t)).
    { clear -S Hs. induction S as [|u s ts sel (E & SE) S IH]; [destruct Hs|]. destruct Hs as [->|Hs].
      - cbn in E, SE. subst u. split; [left; auto|]. clear -SE. induction SE; intros z Hx; [destruct Hx|destruct Hx as [<-|Hx]; [left; auto|right; auto]|right; auto].
      - destruct (IH Hs). split; [right|]; auto. }
    destruct X as [X1 X2]. destruct (LW t X1) as [_ Y]. unfold with_heading in Hx. cbn [fst snd] in Hx. destruct ps as [|p r]; [destruct Hx|].
    destruct Hx as [<-|Hx]; [cbn; apply Y, X2; left; auto|]. apply in_map_iff in Hx. destruct Hx as (z & <- & Hz). cbn. apply Y, X2. right. auto. }
  split; [congruence|]. intros i row h e E1 E2. destruct (C2 i row E1) as (h' & p & J1 & J2 & J3 & J4 & J5 & J6).
  destruct (forall2_nth _ _ _ SL i _ _ E2 J1) as (L1 & L2 & L3 & L4). cbn [fst snd] in *. split; [congruence|]. split; [symmetry; auto|]. split; [|split; auto].
  - unfold heading in J4. unfold head_written. destruct h as [t|], h' as [u|], (rr_head row) as [[d n]|]; try contradiction; auto.
    destruct J4 as [J4 J7]. destruct L4 as [L4 L5]. split; [congruence|]. rewrite <- L5. eapply payee_written; eauto.
  - intros c. rewrite J6. f_equal. pose proof (forall2_firstn _ _ _ (Datatypes.S i) SL) as FL.
    assert (AM' : forall x, In x (firstn (Datatypes.S i) (flat_map with_heading sel)) -> p_amount (snd x) <> None).
    { intros x Hx. apply AM. rewrite <- (firstn_skipn (Datatypes.S i)). apply in_app_iff. left. auto. }
    clear -FL AM'. induction FL as [|x y a b (_ & _ & L3 & _) FL IH]; [reflexivity|]. cbn [map]. f_equal; [|apply IH; intros; apply AM'; right; auto].
    symmetry. apply L3. apply AM'. left. auto.
Qed.
