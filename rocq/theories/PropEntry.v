(** C19 for whole journals: double entry from the text to the report. *)
From Coq Require Import Lia.
From Verif Require Import Base BaseFacts Numerals Money Alist Comment Txn Expr Filter Price Tokens Ledger Reports App Spec MoneyFacts SpecList SpecTxn TxnFacts SpecLedger
  TokenFacts JournalFacts LedgerFacts LedgerFacts2 LedgerFacts3 PropTxn PropLedger SpecQuery SpecReports ReportFacts ReportFacts2 ReportFacts3 PropReports PropApp
  SpecText SpecDates SpecTokens SpecJournal JournalRead PropJournal SpecLayout PropLayout SpecBook BookFacts PropBook.
Open Scope Qc_scope.

(** The amounts of the real postings of [t] are in one commodity. *)
Definition one_commodity (t : txn posting) : Prop :=
  exists c0, forall p m, In p (t_postings t) -> p_kind p = Real -> p_amount p = Some m -> m = MZero \/ m_commodity m = Some c0.
(** The same for a transaction as written: every real posting has an amount, all in the commodity [x] of the ledger;
    or the amount of some real posting is left out. *)
Definition simple_txn (w : world) (skip : bool) (cs : alist currency) (t : txn rposting) : Prop :=
  (exists p, In p (t_postings t) /\ states skip p = false) \/
  (exists x, forall p, In p (t_postings t) -> rp_kind p = Real -> exists a c, rp_money p = Some (a, c) /\ l_get w c cs = Ok x).
(** What all accounts [accs] together have of [c], the real postings of the ledger being summed up. *)
Definition all_accounts (lg : ledger) (accs : list str) (c : str) : Qc :=
  qsum (map (fun acc => account_sum (flat_map t_postings (lg_txns lg)) acc c) accs).
Definition all_of (lg : ledger) (accs : list str) : Prop :=
  NoDup accs /\ forall t p, In t (lg_txns lg) -> In p (t_postings t) -> In (p_account p) accs.
Definition costless (lg : ledger) : Prop := forall t p, In t (lg_txns lg) -> In p (t_postings t) -> p_cost p = None.

Lemma one_balanced t : (forall p, In p (t_postings t) -> p_cost p = None) -> one_commodity t -> fine (group_value Real (t_postings t)) ->
  balanced (group_value Real (t_postings t)).
Proof.
  intros C (c0 & O) F.
  assert (Z : forall c, c <> c0 -> group_value Real (t_postings t) c = 0).
  { intros c Ne. unfold group_value. apply qsum_zero. intros x Hx. apply in_map_iff in Hx. destruct Hx as (p & <- & Hp). unfold posting_value.
    destruct (p_amount p) as [m|] eqn:Em; auto. destruct (kind_eqb_spec (p_kind p) Real) as [E|]; auto. rewrite (C p Hp). cbn.
    destruct (O p m Hp E Em) as [->|X]; [reflexivity|]. destruct m as [|a k]; [reflexivity|]. cbn in X. injection X as ->. cbn. destruct (str_eqb_spec c0 c); congruence. }
  destruct F as [B|((c1 & P1) & (c2 & P2))]; auto. exfalso.
  destruct (str_eq_dec c1 c0) as [->|N1]; [|rewrite (Z c1 N1) in P1; exact (Qclt_not_le _ _ P1 (Qcle_refl _))].
  destruct (str_eq_dec c2 c0) as [->|N2]; [|rewrite (Z c2 N2) in P2; exact (Qclt_not_le _ _ P2 (Qcle_refl _))].
  apply (Qclt_not_le _ _ P1). apply Qclt_le_weak. auto.
Qed.
Lemma filled_balanced skip run t t' prs : ledger_txn skip run t t' prs -> filter (elided skip) (t_postings t) <> [] -> balanced (group_value Real (t_postings t')).
Proof.
  intros (_ & _ & (kept & fills & E & _ & HF & HE) & _) Ne c. destruct (HE Ne) as [N I]. rewrite E.
  assert (G : forall a b, group_value Real (a ++ b) c = group_value Real a c + group_value Real b c) by (intros; unfold group_value; rewrite map_app, qsum_app; auto).
  assert (X : group_value Real fills c = - group_value Real kept c).
  { rewrite <- (fills_sum (fun k => - group_value Real kept k) c (map p_amount fills) N); auto.
    - unfold group_value. rewrite map_map. f_equal. apply map_ext_in. intros q Hq. destruct (HF q Hq) as (Q1 & Q2 & _ & Q3 & _).
      unfold posting_value. rewrite Q1, Q2. destruct (p_amount q); reflexivity.
    - intros x Hx. apply in_map_iff in Hx. destruct Hx as (q & <- & Hq). apply (HF q Hq). }
  assert (Y : group_value Real (filter (fun p => negb (kind_eqb (p_kind p) Real)) (t_postings t)) c = 0).
  { unfold group_value. apply qsum_zero. intros x Hx. apply in_map_iff in Hx. destruct Hx as (p & <- & Hp). apply filter_In in Hp. destruct Hp as [_ Hp].
    unfold posting_value. destruct (kind_eqb (p_kind p) Real); [discriminate|]. destruct (p_amount p); reflexivity. }
  rewrite !G, X, Y. ring.
Qed.
Lemma balanced_all lg : (forall t, In t (lg_txns lg) -> balanced (group_value Real (t_postings t))) -> forall c, group_value Real (flat_map t_postings (lg_txns lg)) c = 0.
Proof.
  intros H c. induction (lg_txns lg) as [|t ts IH]; [reflexivity|]. cbn [flat_map]. unfold group_value in *. rewrite map_app, qsum_app.
  rewrite IH by (intros; apply H; right; auto). rewrite (H t (or_introl eq_refl) c). ring.
Qed.
Lemma accounts_cancel lg accs c : (forall t, In t (lg_txns lg) -> balanced (group_value Real (t_postings t))) -> costless lg -> all_of lg accs -> all_accounts lg accs c = 0.
Proof.
  intros B C [N A]. unfold all_accounts. rewrite sum_over_accounts; auto.
  - apply balanced_all; auto.
  - intros p Hp. apply in_flat_map in Hp. destruct Hp as (t & Ht & Hp). eauto.
  - intros p Hp. apply in_flat_map in Hp. destruct Hp as (t & Ht & Hp). eauto.
Qed.

(** Any journal, with rules, assertions, expressions: if the ledger has no costs and each of its transactions is in one
    commodity, its accounts cancel. *)
Theorem C19_ledger : forall w skip l lg accs, world_ok w -> parsed w l -> to_ledger w skip l = Ok lg ->
  costless lg -> (forall t, In t (lg_txns lg) -> one_commodity t) -> all_of lg accs -> forall c, all_accounts lg accs c = 0.
Proof.
  intros w skip l lg accs Hw HP H C O A c. apply accounts_cancel; auto. intros t Ht. apply one_balanced; eauto. eapply C10_ledger; eauto.
Qed.
Print Assumptions C19_ledger.

Lemma forall2_in_l {A B} (R : A -> B -> Prop) l l' x : Forall2 R l l' -> In x l -> exists y, In y l' /\ R x y.
Proof. induction 1; intros [ ]; subst; [eexists; split; [left|]; eauto|]. destruct IHForall2 as (y0 & ? & ?); auto. exists y0. split; [right|]; auto. Qed.
Lemma written_balanced w skip l lg : world_ok w -> parsed w l -> to_ledger w skip l = Ok lg -> rules l = [] ->
  (forall t p, In t (journal_txns l) -> In p (t_postings t) -> rp_cost p = None) ->
  (forall t, In t (journal_txns l) -> simple_txn w skip (lg_commodities lg) t) ->
  costless lg /\ forall t, In t (lg_txns lg) -> balanced (group_value Real (t_postings t)).
Proof.
  intros Hw HP H R C S. pose proof (C10_ledger _ _ _ _ Hw HP H) as Fine. apply to_ledger_built in H; auto using parsed_ok.
  destruct H as [ts dir costs sorted run imps _ _ JR (DP & _) _ LR _|? ? ? ? ? ? ? ? ? ? ? ? ? ? X]; [|congruence].
  assert (K : forall t', In t' (lg_txns lg) -> (forall p, In p (t_postings t') -> p_cost p = None) /\ balanced (group_value Real (t_postings t'))).
  { intros t' Ht'. destruct (forall2_in_r _ _ _ _ (run_txns _ _ _ _ _ LR) Ht') as (t & Ht & run1 & prs & LT).
    assert (Ht0 : In t ts) by (eapply Permutation_in; [apply Permutation_sym, DP|auto]).
    destruct (forall2_in_r _ _ _ _ (jr_txns _ _ _ _ _ _ _ _ JR) Ht0) as (r & Hr & _ & RP & _).
    assert (C1 : forall p, In p (t_postings t) -> p_cost p = None).
    { intros p Hp. destruct (forall2_in_r _ _ _ _ RP Hp) as (rp & Hrp & _ & _ & K & _). unfold reads_cost in K. rewrite (C r rp Hr Hrp) in K. auto. }
    assert (C2 : forall p, In p (t_postings t') -> p_cost p = None).
    { destruct LT as (_ & _ & (kept & fills & E & F2 & HF & _) & _). intros p Hp. rewrite E, !in_app_iff in Hp. destruct Hp as [Hp|[Hp|Hp]].
      - destruct (forall2_in_r _ _ _ _ F2 Hp) as (q & Hq & Kq). apply filter_In in Hq. destruct Kq as (_ & _ & -> & _). apply C1, Hq.
      - apply (HF p Hp).
      - apply filter_In in Hp. apply C1, Hp. }
    split; auto. destruct (S r Hr) as [(p & Hp & E)|(x & Sx)].
    - apply (filled_balanced _ _ _ _ _ LT). intros N. destruct (forall2_in_l _ _ _ _ RP Hp) as (p' & Hp' & RPp).
      assert (El : elided skip p' = true).
      { destruct RPp as (A1 & A2 & _ & A3 & _). unfold elided. rewrite A3. unfold states in E. unfold reads_money in A1, A2.
        destruct (rp_kind p); try discriminate. destruct (rp_money p); [discriminate|]. destruct (p_amount p') as [[|]|]; try destruct A1. destruct (rp_balance p).
        - destruct skip; [|discriminate]. destruct (p_balance p'); reflexivity.
        - destruct (p_balance p') as [[|]|]; [destruct A2|destruct A2|reflexivity]. }
      assert (X : In p' (filter (elided skip) (t_postings t))) by (apply filter_In; auto). rewrite N in X. destruct X.
    - apply one_balanced; auto. exists (cu_name x). intros p m Hp Kp Ap.
      destruct LT as (_ & _ & (kept & fills & E & F2 & HF & _) & _).
      assert (A0 : forall q, In q (t_postings t) -> p_kind q = Real -> exists a, p_amount q = Some (M a (cu_name x))).
      { intros q Hq Kq. destruct (forall2_in_r _ _ _ _ RP Hq) as (rp & Hrp & RM & _ & _ & RK & _). rewrite RK in Kq. destruct (Sx rp Hrp Kq) as (a & c & Em & Ec).
        rewrite Em in RM. unfold reads_money in RM. destruct (p_amount q) as [[|a' c']|]; try destruct RM. destruct H0 as (y & Ey & ->). assert (y = x) as -> by congruence. eauto. }
      rewrite E, !in_app_iff in Hp. destruct Hp as [Hp|[Hp|Hp]].
      + destruct (forall2_in_r _ _ _ _ F2 Hp) as (q & Hq & Kq). apply filter_In in Hq. destruct Kq as (_ & _ & _ & K1 & _ & _ & _ & _ & K2).
        destruct (A0 q) as (a & Ea); [apply Hq|congruence|]. rewrite K2, Ea in Ap by congruence. injection Ap as <-. right. reflexivity.
      + destruct (HF p Hp) as (_ & _ & _ & _ & _ & q & Eq & _). exfalso. assert (X : In q (filter (elided skip) (t_postings t))) by (rewrite Eq; left; auto).
        apply filter_In in X. destruct X as [X1 X2]. unfold elided in X2. destruct (p_kind q) eqn:Kq; try discriminate. destruct (A0 q X1 Kq) as (a & Ea). rewrite Ea in X2. discriminate.
      + apply filter_In in Hp. destruct Hp as [_ Hp]. rewrite Kp in Hp. discriminate. }
  split; [intros t p Ht; apply K; auto|intros t Ht; apply K; auto].
Qed.
(** A journal without rules and costs in which each transaction is in one commodity or leaves one amount out: the
    accounts cancel, and so do the amounts of the balance report of the real postings, for any period. *)
Theorem C19_written : forall w skip l lg accs, world_ok w -> parsed w l -> to_ledger w skip l = Ok lg -> rules l = [] ->
  (forall t p, In t (journal_txns l) -> In p (t_postings t) -> rp_cost p = None) ->
  (forall t, In t (journal_txns l) -> simple_txn w skip (lg_commodities lg) t) ->
  all_of lg accs -> forall c, all_accounts lg accs c = 0.
Proof. intros. eapply accounts_cancel; auto; eapply written_balanced; eauto. Qed.
Print Assumptions C19_written.

Lemma real_counted o c t : o_real o = true -> (forall p, In p (t_postings t) -> p_cost p = None) ->
  txn_counted (asked_for o) (fun _ => true) c t = group_value Real (t_postings t) c.
Proof.
  intros R C. unfold txn_counted, group_value. f_equal. apply map_ext_in. intros p Hp. unfold counted, asked_for, amount_in, posting_value. rewrite R, (C p Hp). cbn.
  rewrite andb_true_r. destruct (p_amount p), (kind_eqb (p_kind p) Real); reflexivity.
Qed.
(** And so do the amounts of the balance report of the real postings, for any period and depth: the rows of the flat form
    cancel, and the total, if there is one, is nothing. *)
Theorem C19_report : forall w skip l lg site o tot flat r, world_ok w -> parsed w l -> to_ledger w skip l = Ok lg -> rules l = [] ->
  (forall t p, In t (journal_txns l) -> In p (t_postings t) -> rp_cost p = None) ->
  (forall t, In t (journal_txns l) -> simple_txn w skip (lg_commodities lg) t) ->
  o_real o = true -> o_query o = [] -> o_exchange o = None -> balance_report w site o flat tot lg = Ok r ->
  (flat = true -> forall c, qsum (map (fun row => moneys_amt (br_moneys row) c) (bp_rows r)) = 0) /\
  (forall ms, bp_total r = Some ms -> ms = [MZero]).
Proof.
  intros w skip l lg site o tot flat r Hw HP H R C S Rl Q E B. destruct (written_balanced _ _ _ _ Hw HP H R C S) as [C' Bal].
  assert (MF : made_from w lg) by (exists skip, l; auto).
  assert (Z : forall q tps c, query_node w o = Ok q -> reported_postings w o q lg tps -> subtotal (map snd tps) (fun _ => true) c = 0).
  { intros q tps c Eq RP. assert (q = None) as -> by (unfold query_node in Eq; rewrite Q in Eq; cbn in Eq; congruence).
    rewrite (reported_totals _ _ _ _ _ _ RP). apply qsum_zero. intros x Hx. apply in_map_iff in Hx. destruct Hx as (t & <- & Ht). apply filter_In in Ht. destruct Ht as [Ht _].
    rewrite (real_counted o c t Rl (fun p => C' t p Ht)). apply Bal. auto. }
  split.
  - intros -> c. destruct (C57_sum_of_flat_rows _ _ _ _ _ _ Hw MF E B) as (q & tps & Eq & RP & X). rewrite X. eauto.
  - intros ms Em. destruct (C57_total _ _ _ _ _ _ _ Hw MF E B) as (q & tps & Eq & RP & _ & X). destruct (X ms Em) as [[Y|[[Y1 Y2] Y3]] X2]; auto.
    exfalso. destruct ms as [|m ms]; [congruence|]. inversion Y2 as [|? ? Z1 Z2]; subst. destruct m as [|a c]; [discriminate|].
    specialize (X2 c). rewrite (Z q tps c Eq RP) in X2. unfold moneys_amt in X2. cbn [map] in X2. rewrite qsum_cons in X2.
    rewrite qsum_zero in X2.
    + cbn in X2. destruct (str_eqb_spec c c); [|congruence]. cbn in Z1. destruct (qc_eqb_spec a 0); [discriminate|]. apply n. rewrite <- X2. ring.
    + intros x Hx. apply in_map_iff in Hx. destruct Hx as (m & <- & Hm). cbn [map] in Y1. inversion Y1 as [|? ? N1 N2]; subst. destruct m as [|b k]; [reflexivity|]. cbn.
      destruct (str_eqb_spec k c) as [->|]; auto. exfalso. apply N1. apply in_map_iff. exists (M b c). auto.
Qed.
Print Assumptions C19_report.
Definition t19 : list String.string :=
  ["2021-01-02 Shop"; "  Expenses:Food  10 EUR"; "  Assets:Cash"; "  (Budget)  7 EUR";
   "2021-01-01 Salary"; "  Assets:Cash  100 EUR"; "  Income  -100 EUR"; "2021-01-03 Trip"; "  Expenses:Trip  3 USD"; "  Expenses:Food  1 EUR"; "  Assets:Cash"]%string.
Definition lg19 : ledger := ledger_of t19.
Lemma costless_b ts : forallb (fun t : txn rposting => forallb (fun p => match rp_cost p with None => true | _ => false end) (t_postings t)) ts = true ->
  forall t p, In t ts -> In p (t_postings t) -> rp_cost p = None.
Proof. intros X t p Ht Hp. rewrite forallb_forall in X. specialize (X t Ht). rewrite forallb_forall in X. specialize (X p Hp). destruct (rp_cost p); [discriminate|reflexivity]. Qed.
Lemma covered_b accs ts : forallb (fun t : txn posting => forallb (fun p => existsb (str_eqb (p_account p)) accs) (t_postings t)) ts = true ->
  forall t p, In t ts -> In p (t_postings t) -> In (p_account p) accs.
Proof.
  intros X t p Ht Hp. rewrite forallb_forall in X. specialize (X t Ht). rewrite forallb_forall in X. specialize (X p Hp). apply existsb_exists in X.
  destruct X as (y & Hy & Ey). apply str_eqb_eq in Ey. rewrite Ey. exact Hy.
Qed.
Lemma simple_b w skip cs x ts : forallb (fun t : txn rposting => existsb (fun p => negb (states skip p)) (t_postings t) ||
    forallb (fun p => negb (kind_eqb (rp_kind p) Real) || match rp_money p with Some (_, c) => str_eqb c x | None => false end) (t_postings t)) ts = true ->
  (exists y, l_get w x cs = Ok y) -> forall t, In t ts -> simple_txn w skip cs t.
Proof.
  intros X (y & Ey) t Ht. rewrite forallb_forall in X. specialize (X t Ht). apply orb_true_iff in X. destruct X as [X|X]; [left|right].
  - apply existsb_exists in X. destruct X as (p & Hp & E). exists p. split; [exact Hp|]. destruct (states skip p); [discriminate|reflexivity].
  - exists y. intros p Hp Kp. rewrite forallb_forall in X. specialize (X p Hp). rewrite Kp in X. cbn in X. destruct (rp_money p) as [[a c]|]; [|discriminate].
    apply str_eqb_eq in X. subst c. exists a, x. split; [reflexivity|exact Ey].
Qed.
Example C19_met : world_ok w1 /\ parsed w1 (journal_of t19) /\ to_ledger w1 false (journal_of t19) = Ok lg19 /\ rules (journal_of t19) = [] /\
  (forall t p, In t (journal_txns (journal_of t19)) -> In p (t_postings t) -> rp_cost p = None) /\
  (forall t, In t (journal_txns (journal_of t19)) -> simple_txn w1 false (lg_commodities lg19) t) /\ length (journal_txns (journal_of t19)) = 3%nat /\
  all_of lg19 [L "Expenses:Food"; L "Assets:Cash"; L "Income"; L "Expenses:Trip"; L "Budget"].
Proof.
  split; [apply w1_ok|]. split; [exists 1%nat, None, [], (text t19); vm_compute; reflexivity|]. split; [vm_compute; reflexivity|]. split; [vm_compute; reflexivity|].
  split; [apply costless_b; vm_compute; reflexivity|]. split; [apply (simple_b _ _ _ (L "EUR")); [vm_compute; reflexivity|eexists; vm_compute; reflexivity]|].
  split; [vm_compute; reflexivity|]. split; [|apply covered_b; vm_compute; reflexivity].
  vm_compute. repeat (constructor; [cbn; intros X; repeat destruct X as [X|X]; try discriminate; auto|]). constructor.
Qed.
Definition real_opts : opts :=
  {| o_real := true; o_begin := None; o_end := None; o_query := []; o_depth := None; o_exchange := None; o_no_balance_check := false |}.
Example C19_report_met : o_real real_opts = true /\ o_query real_opts = [] /\ o_exchange real_opts = None /\
  match balance_report w1 9 real_opts true true lg19 with Ok r => (length (bp_rows r), match bp_total r with Some [MZero] => true | _ => false end) | _ => (0%nat, false) end = (4%nat, true).
Proof. vm_compute. repeat split. Qed.
