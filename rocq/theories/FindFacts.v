(** Facts for C85: queries by account, payee and tag, and the reports they select. *)
From Coq Require Import Lia.
From Verif Require Import Base BaseFacts Numerals Money Alist Comment Txn Expr Filter Price Tokens Ledger Reports App Spec MoneyFacts SpecList SpecTxn TxnFacts SpecLedger
  TokenFacts JournalFacts LedgerFacts LedgerFacts2 LedgerFacts3 PropTxn PropLedger SpecQuery SpecExpr ExprFacts PropExpr PropQuery SpecReports ReportFacts ReportFacts2 ReportFacts3 PropReports PropApp
  SpecBook BookFacts PropBook PropBook2 SpecAsk PropAsk SpecWords SpecAssert AssertFacts PropAssert SpecRules ShownFacts SpecFind.
Open Scope Qc_scope.

(** ** The query decides by account, payee and tags *)
Definition posting_wish (F : wish) (p : posting) : bool := match p_payee p with Some n => F (p_account p) n (p_tags p) | None => false end.
Definition grants (w : world) (q : option node) (F : wish) : Prop :=
  forall t p cs, p_payee p <> None -> match q with None => posting_wish F p = true | Some n => eval w n p t cs = Ok (VBool (posting_wish F p), cs) end.
Lemma wish_clause w x F before : found_word w x F -> Forall connective before -> ~ Exists (is_word (L "expr")) before ->
  let c := clause_of before x in clause_ok c /\ ~ taken_verbatim c /\ term_ok w c /\
  forall t p cs, p_payee p <> None -> eval w (denotes (term_cexp c)) p t cs = Ok (VBool (posting_wish F p), cs).
Proof.
  intros H FB NB. cbn zeta. set (c := clause_of before x). destruct H as [A H|y E P|y E P].
  - destruct (word_clause w x A before H FB NB) as (C & V & T & Ev). do 3 (split; auto). intros t p cs Hp. fold c in Ev. rewrite Ev. unfold posting_wish. destruct (p_payee p); congruence.
  - assert (C : clause_ok c) by (split; auto; unfold connective, SpecQuery.blank, is_word; cbn [cl_term c clause_of]; rewrite E; intuition discriminate).
    do 2 (split; auto). split; [eapply to_payee; eauto|]. intros t p cs Hp. rewrite (tc_payee c y E). unfold posting_wish. destruct (p_payee p) as [n|] eqn:En; [|congruence].
    cbn. rewrite En. reflexivity.
  - assert (C : clause_ok c) by (split; auto; unfold connective, SpecQuery.blank, is_word; cbn [cl_term c clause_of]; rewrite E; intuition discriminate).
    do 2 (split; auto). split; [eapply to_tag; eauto|]. intros t p cs Hp. rewrite (tc_tag c y E). unfold posting_wish. destruct (p_payee p) as [n|] eqn:En; [|congruence].
    cbn. unfold has_tag. reflexivity.
Qed.
Lemma found_nodes w o F : found_words w (o_query o) F -> exists q, query_node w o = Ok q /\ grants w q F.
Proof.
  assert (N1 : ~ Exists (is_word (L "expr")) []) by (intros X; inversion X).
  assert (N2 : forall k, k <> L "expr" -> trim k = k -> ~ Exists (is_word (L "expr")) [k]).
  { intros k H Tk X. inversion X as [? ? Y|? ? Y]; [|inversion Y]. unfold is_word in Y. congruence. }
  assert (W : forall p (F G : wish), p_payee p <> None -> posting_wish (fun a n ts => F a n ts || G a n ts) p = posting_wish F p || posting_wish G p) by (intros p F0 G _; unfold posting_wish; destruct (p_payee p); auto).
  assert (W2 : forall p (F G : wish), p_payee p <> None -> posting_wish (fun a n ts => F a n ts && G a n ts) p = posting_wish F p && posting_wish G p) by (intros p F0 G _; unfold posting_wish; destruct (p_payee p); auto).
  intros H. remember (o_query o) as q eqn:Eq. symmetry in Eq. destruct H as [|x A HA|x y A B HA HB|x y A B HA HB|x y A B HA HB].
  - exists None. split; [|intros t p cs Hp; unfold posting_wish; destruct (p_payee p); congruence]. unfold query_node. rewrite Eq. reflexivity.
  - destruct (wish_clause w x A [] HA (Forall_nil _) N1) as (C & V & T & Ev). eexists. split; [eapply one_node; eauto|]. intros t p cs. apply Ev.
  - destruct (wish_clause w x A [] HA (Forall_nil _) N1) as (C & V & T & Ev). destruct (wish_clause w y B [] HB (Forall_nil _) N1) as (C2 & V2 & T2 & Ev2).
    eexists. split; [apply (two_node w o false _ _ C V T C2 V2 T2); [|exact Eq]|].
    + intros (a & k & b & E & _). destruct a; discriminate.
    + intros t p cs Hp. cbn [eval]. rewrite Ev by auto. cbn [bind]. rewrite Ev2, W by auto. cbn. destruct (posting_wish A p), (posting_wish B p); reflexivity.
  - destruct (wish_clause w x A [] HA (Forall_nil _) N1) as (C & V & T & Ev).
    destruct (wish_clause w y B [L "or"] HB) as (C2 & V2 & T2 & Ev2); [repeat constructor; right; right; left; reflexivity|apply N2; [discriminate|reflexivity]|].
    eexists. split; [apply (two_node w o false _ _ C V T C2 V2 T2); [|exact Eq]|].
    + intros (a & k & b & E & X & _). cbn in E. destruct a as [|? []]; inv E. discriminate.
    + intros t p cs Hp. cbn [eval]. rewrite Ev by auto. cbn [bind]. rewrite Ev2, W by auto. cbn. destruct (posting_wish A p), (posting_wish B p); reflexivity.
  - destruct (wish_clause w x A [] HA (Forall_nil _) N1) as (C & V & T & Ev).
    destruct (wish_clause w y B [L "and"] HB) as (C2 & V2 & T2 & Ev2); [repeat constructor; right; left; reflexivity|apply N2; [discriminate|reflexivity]|].
    eexists. split; [apply (two_node w o true _ _ C V T C2 V2 T2); [|exact Eq]|].
    + exists [], (L "and"), []. split; [reflexivity|]. split; [reflexivity|constructor].
    + intros t p cs Hp. cbn [eval]. rewrite Ev by auto. cbn [bind]. rewrite Ev2, W2 by auto. cbn. destruct (posting_wish A p), (posting_wish B p); reflexivity.
Qed.

(** ** What is reported *)
Lemma reported_found w o q F cs t p : grants w q F -> p_payee p <> None ->
  (reported w o q cs t p <-> window_of o t && (asked_for o (p_kind p) && posting_wish F p) = true).
Proof.
  intros H Hp. pose proof (reported_plain w o cs t p) as R. rewrite andb_assoc. rewrite andb_true_iff, <- R. unfold reported.
  assert (X : query_holds w q t p cs <-> posting_wish F p = true).
  { specialize (H t p cs Hp). unfold query_holds. destruct q as [n|]; [|tauto]. rewrite H. split; [intros (cs' & E); congruence|intros ->; eauto]. }
  rewrite <- X. cbn [query_holds].
  split; [intros (d & ? & ? & ? & ?)|intros ((d & ? & ? & ? & _) & ?)]; [split; auto; exists d; auto|exists d; auto].
Qed.
(** Dates, amounts and payees are there. *)
Definition full_txns (ts : list (txn posting)) : Prop :=
  forall t, In t ts -> (exists d, t_date t = Some d) /\ forall p, In p (t_postings t) -> p_amount p <> None /\ p_payee p <> None.
Lemma filter_granted w o q F t p cs : grants w q F -> p_payee p <> None -> (exists d, t_date t = Some d) -> exists b, filter_posting w o q t p cs = Ok (b, cs).
Proof.
  intros H Hp (d & D). specialize (H t p cs Hp).
  assert (X : exists b, match q with Some n => filter_expression w n p t cs | None => Ok (true, cs) end = Ok (b, cs)).
  { destruct q as [n|]; [|eauto]. unfold filter_expression. rewrite H. cbn. eauto. }
  unfold filter_posting. rewrite D. destruct (o_real o && _); [eauto|].
  destruct (o_end o) as [e|]; cbn [unwrap bind]; [destruct (e <=? d)%Z; [eauto|]|]; (destruct (o_begin o) as [b|]; cbn [unwrap bind]; [destruct (d <? b)%Z; eauto|eauto]).
Qed.
Lemma select_granted w o q F ts cs : grants w q F -> full_txns ts ->
  exists sel, select_txns w o q ts cs = Ok (sel, cs) /\ forall t ps, In (t, ps) sel -> In t ts /\ incl ps (t_postings t).
Proof.
  intros HA. induction ts as [|t ts IH]; intros H; cbn [select_txns]; [exists []; split; auto; intros u ps []|].
  assert (E : exists ps, select_postings w o q t (t_postings t) cs = Ok (ps, cs) /\ incl ps (t_postings t)).
  { destruct (H t) as [D Y]; [left; auto|]. induction (t_postings t) as [|p ps IHp]; cbn [select_postings]; [exists []; split; auto; intros x []|].
    destruct IHp as (l0 & El & Il); [intros; apply Y; right; auto|].
    destruct (filter_granted w o q F t p cs HA) as (b & ->); auto; [apply Y; left; auto|]. cbn [bind]. rewrite El. cbn [bind]. eexists. split; [reflexivity|]. destruct b.
    - intros x [<-|Hx]; [left; auto|right; auto].
    - intros x Hx. right. auto. }
  destruct E as (ps & -> & I). cbn [bind]. destruct IH as (sel & -> & J); [intros x Hx; apply H; right; auto|]. cbn [bind].
  eexists. split; [reflexivity|]. intros u us [E|Hi]; [inv E; split; [left|]; auto|]. destruct (J u us Hi). split; [right|]; auto.
Qed.
(** What a transaction of the ledger counts. *)
Definition granted_sum (o : opts) (F : wish) (P : str -> bool) (c : str) (t : txn posting) : Qc :=
  if window_of o t then qsum (map (fun p => if asked_for o (p_kind p) && posting_wish F p && P (p_account p) then amount_in c p else 0) (t_postings t)) else 0.
Lemma granted_totals w o q lg tps F P c : grants w q F -> full_txns (lg_txns lg) -> reported_postings w o q lg tps ->
  subtotal (map snd tps) P c = qsum (map (granted_sum o F P c) (lg_txns lg)).
Proof.
  intros HA FT H. unfold reported_postings in H. apply (selection_filter _ (fun x => window_of o (fst x) && (asked_for o (p_kind (snd x)) && posting_wish F (snd x)))) in H.
  2:{ intros [t p] Hx. apply reported_found; auto. unfold ledger_postings in Hx. apply in_flat_map in Hx. destruct Hx as (t' & Ht & Hx). apply in_map_iff in Hx. destruct Hx as (p' & E & Hp). inv E. apply (FT t Ht); auto. }
  subst tps. unfold ledger_postings. clear FT. induction (lg_txns lg) as [|t ts IH]; [reflexivity|]. cbn [flat_map]. rewrite filter_app, map_app.
  unfold subtotal in *. rewrite filter_app, map_app, qsum_app, IH. cbn [map]. rewrite qsum_cons. f_equal. unfold granted_sum.
  induction (t_postings t) as [|p ps IHp]; [destruct (window_of o t); reflexivity|]. cbn [map filter fst snd].
  destruct (window_of o t); cbn [andb] in *; [|auto]. destruct (asked_for o (p_kind p) && posting_wish F p); cbn [andb]; cbn [map filter snd].
  - destruct (P (p_account p)); cbn [map]; rewrite !qsum_cons, IHp; auto; ring.
  - rewrite qsum_cons, IHp. ring.
Qed.

(** ** The reports of a ledger *)
Lemma found_report w site o flat tot lg F : world_ok w -> full_txns (lg_txns lg) -> found_words w (o_query o) F -> o_exchange o = None ->
  (flat = true -> forall d, o_depth o = Some d -> (1 <= d)%nat /\
     forall t p, In t (lg_txns lg) -> In p (t_postings t) -> p_account p <> [] /\ ~ begins_with_colon (p_account p)) ->
  exists r, balance_report w site o flat tot lg = Ok r.
Proof.
  intros Hw H HA X HC. destruct (found_nodes w o F HA) as (q & Q & AN). unfold balance_report. rewrite Q, X. cbn [bind].
  destruct (select_granted w o q F (lg_txns lg) (lg_commodities lg) AN H) as (sel & -> & I). cbn [bind].
  assert (IN : forall p, In p (flat_map snd sel) -> exists t, In t (lg_txns lg) /\ In p (t_postings t)).
  { intros p Hi. apply in_flat_map in Hi. destruct Hi as ([t ps] & H1 & H2). destruct (I t ps H1) as [T1 T2]. exists t. split; auto. }
  destruct (account_balances sel) as [bals| |] eqn:Eb.
  - cbn [bind]. destruct flat.
    + assert (Y : exists vb, flat_balances w site (o_depth o) bals = Ok vb).
      { destruct (o_depth o) as [d|] eqn:Ed; [|cbn; eauto]. destruct (HC eq_refl d eq_refl) as [D1 D2]. eapply C56_depth_succeeds_partial; eauto.
        intros p Hi. destruct (IN p Hi) as (t & T1 & T2). eauto. }
      destruct Y as (vb & ->). cbn [bind]. destruct (_ && _); eauto.
    + cbn [bind]. destruct (_ && _); eauto.
  - exfalso. unfold account_balances in Eb. destruct (balances_whole (flat_map snd sel)) with (bals := @nil (str * balance)) as (bals & Eb').
    { intros p Hi. destruct (IN p Hi) as (t & T1 & T2). apply (H t T1). auto. } congruence.
  - exfalso. unfold account_balances in Eb. destruct (balances_whole (flat_map snd sel)) with (bals := @nil (str * balance)) as (bals & Eb').
    { intros z Hi. destruct (IN z Hi) as (t & T1 & T2). apply (H t T1). auto. } congruence.
Qed.
Lemma found_balance w site o flat tot lg F r (total : (str -> bool) -> str -> Qc) : world_ok w -> made_from w lg -> full_txns (lg_txns lg) -> found_words w (o_query o) F -> o_exchange o = None ->
  (forall P c, qsum (map (granted_sum o F P c) (lg_txns lg)) = total P c) ->
  balance_report w site o flat tot lg = Ok r ->
  (if flat then flat_cut_shows o total r else tree_cut_shows o total r) /\ total_shows total tot r.
Proof.
  intros Hw M FT HA OX TT Er. destruct (found_nodes w o F HA) as (q0 & Q0 & AN). split.
  - destruct flat.
    + destruct (C56_flat_rows_partial w _ o _ lg r Hw M OX Er) as (q & tps & Q & R & AS & F1 & F2). assert (q = q0) by congruence. subst q.
      split; auto. intros cut C. split.
      * intros row Hi. destruct (F1 row _ Hi C) as (X1 & X2 & X3). do 2 (split; auto). intros c. rewrite X3, <- TT. eapply granted_totals; eauto.
      * intros a c Hn. apply (F2 cut a c C). rewrite (granted_totals w o q0 lg tps F), TT by auto. auto.
    + destruct (C55_tree_rows_partial w _ o _ lg r Hw M OX Er) as (q & tps & accs & Q & R & AS & F1). assert (q = q0) by congruence. subst q.
      exists accs. split; auto. eapply forall2_weaken; [|exact F1]. intros a row (H1 & H2 & H3 & H4 & H5 & H6). do 5 (split; auto). intros Hc c. rewrite H6, <- TT by auto. eapply granted_totals; eauto.
  - destruct (C57_total w _ o flat _ lg r Hw M OX Er) as (q & tps & Q & R & T1 & T2). assert (q = q0) by congruence. subst q.
    split; auto. intros ms Em. destruct (T2 ms Em) as [X Y]. split; auto. intros c. rewrite Y, <- TT. eapply granted_totals; eauto.
Qed.
Lemma found_rows w site o lg F : world_ok w -> made_from w lg -> full_txns (lg_txns lg) -> found_words w (o_query o) F ->
  exists rows, register_report w site o lg = Ok rows.
Proof.
  intros Hw M LW HA. destruct (found_nodes w o F HA) as (q & Q & AN). unfold register_report. rewrite Q. cbn [bind].
  destruct (select_granted w o q F (lg_txns lg) (lg_commodities lg) AN LW) as (sel & Es & SI). rewrite Es. cbn [bind].
  apply register_whole.
  - intros t ps Hi. destruct (SI t ps Hi) as [I1 I2]. destruct (LW t I1) as [D Y]. split; auto. intros p Hp. apply Y; auto.
  - destruct (made_dated w lg Hw M) as [(_ & _ & B3) _]. auto.
Qed.
(** The lines with their sources. *)
Definition line_of (F : wish) (Q : rposting -> bool) (p : posting) (x : sourced) : Prop :=
  fst x = entry_of p /\ posting_wish F p = Q (snd x).
Definition lines_of (F : wish) (Q : txn rposting -> rposting -> bool) (us : list (txn rposting)) (ts : list (txn posting)) (ess : list (list sourced)) : Prop :=
  Forall2 (fun ut es => t_date (snd ut) = t_date (fst ut) /\ t_desc (snd ut) = t_desc (fst ut) /\ Forall2 (line_of F (Q (fst ut))) (t_postings (snd ut)) es) (combine us ts) ess /\
  length us = length ts.
Lemma found_totals F Q o us ts ess P c : lines_of F Q us ts ess -> qsum (map (granted_sum o F P c) ts) = found_total o Q us ess P c.
Proof.
  intros [H Len]. unfold found_total. revert ts ess Len H. induction us as [|u us IH]; intros [|t ts] ess Len H; try discriminate; [inversion H; reflexivity|].
  cbn [combine] in H. inversion H as [|? es ? ess' (D & _ & F2) H']; subst. cbn [map combine fst snd] in *. rewrite !qsum_cons. f_equal; [|apply IH; auto].
  unfold granted_sum. assert (W : window_of o t = in_window o u) by (unfold window_of, in_window; rewrite D; auto). rewrite W. destruct (in_window o u); auto. f_equal.
  clear -F2. induction F2 as [|p x ps xs (E1 & E2) F2 IH]; [reflexivity|]. cbn [map]. rewrite IH. f_equal. rewrite E1, E2. cbn. unfold amount_in. destruct (_ && _); auto. destruct (p_amount p); auto.
Qed.
Lemma lines_found w o q F Q cs us ts ess : grants w q F -> (forall t p, In t ts -> In p (t_postings t) -> p_payee p <> None) -> lines_of F Q us ts ess -> forall sel,
  Forall2 (fun t s => fst s = t /\ selection (reported w o q cs t) (t_postings t) (snd s)) ts sel ->
  Forall2 same_line (flat_map (found_entries o Q) (combine us ess)) (flat_map with_heading sel).
Proof.
  intros AN PY [H Len]. revert ts ess Len H PY. induction us as [|u us IH]; intros [|t ts] ess Len H PY sel HS; try discriminate; [inversion HS; constructor|].
  cbn [combine] in H. inversion H as [|? es ? ess' (D & N & F2) H']; subst. inversion HS as [|? s ? sel' (E & S) HS']; subst. cbn [combine flat_map fst snd] in *.
  apply forall2_app; [|eapply IH; eauto; intros; eapply PY; eauto; right; auto].
  apply (selection_filter _ (fun p => window_of o (fst s) && (asked_for o (p_kind p) && posting_wish F p))) in S; [|intros p Hp; apply reported_found; auto; eapply PY; [left; reflexivity|exact Hp]].
  unfold with_heading. rewrite S. unfold found_entries. cbn [fst snd].
  assert (W : window_of o (fst s) = in_window o u) by (unfold window_of, in_window; rewrite D; auto). rewrite W. destruct (in_window o u); cbn [andb].
  - assert (X : map fst (filter (fun x : entry * rposting => asked_for o (entry_kind (fst x)) && Q u (snd x)) es) =
                map entry_of (filter (fun p => asked_for o (p_kind p) && posting_wish F p) (t_postings (fst s)))).
    { clear -F2. induction F2 as [|p x ps xs (E1 & E2) F2 IH]; [reflexivity|]. cbn [filter]. rewrite E1, E2. change (entry_kind (entry_of p)) with (p_kind p).
      destruct (asked_for o (p_kind p) && Q u (snd x)); cbn [map]; rewrite IH; [rewrite E1|]; reflexivity. }
    destruct (filter (fun p => asked_for o (p_kind p) && posting_wish F p) (t_postings (fst s))) as [|p r], (filter (fun x : entry * rposting => asked_for o (entry_kind (fst x)) && Q u (snd x)) es) as [|x xs]; try discriminate X; [constructor|].
    cbn [map] in X. injection X as X1 X2. constructor; [rewrite X1; apply same_entry; auto|].
    assert (Z : map (fun y : entry * rposting => (@None (txn rposting), fst y)) xs = map (fun y => (None, y)) (map fst xs)) by (rewrite map_map; reflexivity). rewrite Z, X2, map_map. clear. induction r; cbn; constructor; auto. apply same_entry. exact I.
  - assert (X : filter (fun _ : posting => false) (t_postings (fst s)) = []) by (clear; induction (t_postings (fst s)); auto). rewrite X. constructor.
Qed.
Lemma found_register w site o l al cs ts dir costs lg F Q us ess rows : world_ok w -> made_from w lg -> full_txns (lg_txns lg) -> found_words w (o_query o) F ->
  journal_read w l al cs (lg_payees lg) ts dir costs -> lines_of F Q us (lg_txns lg) ess ->
  register_report w site o lg = Ok rows -> register_found_shows w o l Q us ess rows.
Proof.
  intros Hw M LW HA JR FH H. destruct (found_nodes w o F HA) as (q0 & Q0 & AN).
  destruct (C59_register w site o lg rows Hw M H) as (q & sel & QN & S & C). assert (q = q0) by congruence. subst q. cbn zeta in C. destruct C as [C1 C2].
  unfold register_found_shows. cbn zeta.
  assert (PY : forall t p, In t (lg_txns lg) -> In p (t_postings t) -> p_payee p <> None) by (intros t p Ht Hp; apply (LW t Ht); auto).
  pose proof (lines_found w o q0 F Q (lg_commodities lg) us (lg_txns lg) ess AN PY FH sel S) as SL. pose proof (forall2_length _ _ _ SL) as LE.
  assert (AM : forall x, In x (flat_map with_heading sel) -> p_amount (snd x) <> None).
  { intros x Hx. apply in_flat_map in Hx. destruct Hx as ([t ps] & Hs & Hx).
    assert (X : In t (lg_txns lg) /\ incl ps (t_postings t)).
    { clear -S Hs. induction S as [|u s ts sel (E & SE) S IH]; [destruct Hs|]. destruct Hs as [->|Hs].
      - cbn in E, SE. subst u. split; [left; auto|]. clear -SE. induction SE; intros z Hx; [destruct Hx|destruct Hx as [<-|Hx]; [left; auto|right; auto]|right; auto].
      - destruct (IH Hs). split; [right|]; auto. }
    destruct X as [X1 X2]. destruct (LW t X1) as [_ Y]. unfold with_heading in Hx. cbn [fst snd] in Hx. destruct ps as [|p r]; [destruct Hx|].
    destruct Hx as [<-|Hx]; [cbn; apply Y, X2; left; auto|]. apply in_map_iff in Hx. destruct Hx as (z & <- & Hz). cbn. apply Y, X2. right. auto. }
  split; [congruence|]. intros i row h e E1 E2. destruct (C2 i row E1) as (h' & p & J1 & J2 & J3 & J4 & J5 & J6).
  destruct (forall2_nth _ _ _ SL i _ _ E2 J1) as (L1 & L2 & L3 & L4). cbn [fst snd] in *. split; [congruence|]. split; [symmetry; auto|]. split; [|split; auto].
  - unfold heading in J4. unfold head_written. destruct h as [t|], h' as [u|], (rr_head row) as [[d n]|]; try contradiction; auto.
    destruct J4 as [J4 J7]. destruct L4 as [L4 L5]. split; [congruence|]. rewrite <- L5. eapply payee_written; eauto.
  - intros c. rewrite J6. f_equal. pose proof (forall2_firstn _ _ _ (Datatypes.S i) SL) as FL.
    assert (AM' : forall x, In x (firstn (Datatypes.S i) (flat_map with_heading sel)) -> p_amount (snd x) <> None).
    { intros x Hx. apply AM. rewrite <- (firstn_skipn (Datatypes.S i)). apply in_app_iff. left. auto. }
    clear -FL AM'. induction FL as [|x y a b (_ & _ & L3 & _) FL IH]; [reflexivity|]. cbn [map]. f_equal; [|apply IH; intros; apply AM'; right; auto].
    symmetry. apply L3. apply AM'. left. auto.
Qed.
