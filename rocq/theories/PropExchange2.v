(** C81 for journals that state balances, and for journals with rules. *)
From Coq Require Import Lia Sorting.Sorted.
From Verif Require Import Base BaseFacts Numerals Money Alist Comment Txn Expr Filter Price Tokens Ledger Reports App Spec MoneyFacts SpecList SpecTxn TxnFacts SpecLedger
  TokenFacts JournalFacts LedgerFacts LedgerFacts2 LedgerFacts3 PropAlist PropTxn PropLedger SpecQuery SpecExpr ExprFacts PropExpr PropQuery SpecReports ReportFacts ReportFacts2 ReportFacts3 PropReports PropApp
  SpecText SpecDates SpecTokens SpecJournal JournalRead PropJournal SpecLayout PropLayout SpecPrice PropPrice SpecBook BookFacts PropBook PropBook2 SpecAsk PropAsk SpecExchange ExchangeFacts PropExchange
  SpecWords PropRuleQuery SpecAssert AssertFacts PropAssert SpecRules ShownFacts RuleFacts RuleFacts2 PropRules SpecExchange2.
From Verif Require PropEntry.
Open Scope Qc_scope.

(** ** The report of a ledger *)
Section Shown.
  Context (w : world) (o : opts) (l : pledger) (lg : ledger) (al : alist account) (pays : alist payee) (ts : list (txn posting)) (dir costs : list price).
  Context (Hw : world_ok w) (MF : made_from w lg) (JR : journal_read w l al (lg_commodities lg) pays ts dir costs).
  Lemma shown_names x :
    (exists c, l_get w x (lg_commodities lg) = Ok c /\ names_commodity w l x (cu_name c)) \/
    ((forall c, l_get w x (lg_commodities lg) <> Ok c) /\ (exists e, l_get w x (lg_commodities lg) = Err e) /\ forall c, ~ names_commodity w l x c).
  Proof using Hw MF JR.
    destruct (made_dated w lg Hw MF) as [(_ & LB & _) _]. pose proof (jr_new_commodities _ _ _ _ _ _ _ _ JR) as [N _].
    destruct (C22_lookup_total w _ _ _ x Hw LB) as [(c & _ & E)|E].
    - left. exists c. split; auto. destruct (N x c E) as [D|(D & m & Hm & Lm & ->)]; [left; eauto|]. right. cbn. auto.
    - right. split; [congruence|]. split; [eauto|]. intros c [(c0 & E0 & _)|(_ & Mc & Lc)].
      + apply (jr_commodities _ _ _ _ _ _ _ _ JR) in E0. congruence.
      + destruct (jr_found_commodities _ _ _ _ _ _ _ _ JR c Mc) as (e & Ee). apply (lower_get w c x) in Ee; [congruence|auto].
  Qed.
  Lemma shown_rates (prices : list price -> Prop) q tps rate cur A : prices (lg_prices lg) -> answers w q A -> report_data w o lg q tps rate cur ->
    exists cur' rates, rates_from w o l prices cur' rates /\ forall ms c, converted rate cur ms c = changed rates cur' (moneys_amt ms) c.
  Proof using Hw MF JR.
    intros HP HA [_ _ (cs & _ & EC & RR)]. specialize (EC (answers_add_none _ _ _ HA)). subst cs. unfold rates_from.
    assert (Z : forall cur0 cur1 ms c, converted (fun _ => None) cur0 ms c = changed [] cur1 (moneys_amt ms) c).
    { intros. rewrite converted_id. unfold changed. cbn [map existsb]. destruct (str_eqb_spec c cur1) as [->|]; auto. change (qsum []) with 0. ring. }
    destruct RR as [cur E|x cur E N|x c site mults E EL EC].
    - exists cur, []. rewrite E. split; auto.
    - exists cur, []. rewrite E. split; auto. left. split; auto. destruct (shown_names x) as [(c & X & _)|(_ & _ & X)]; auto. destruct (N c). auto.
    - exists (cu_name c), mults. rewrite E. pose proof (rates_found w site (cu_name c) (lg_prices lg) mults Hw EC) as RI. split.
      + right. destruct (shown_names x) as [(c0 & X & Y)|(X & _)]; [|destruct (X c); auto]. assert (c0 = c) by congruence. subst c0. split; auto. exists (lg_prices lg). auto.
      + intros ms k. apply converted_changed; [apply RI|eapply rates_not_cur; eauto].
  Qed.
  Lemma shown_exchanged site flat tot A : whole_txns (lg_txns lg) -> asked_accounts w (o_query o) A ->
    (flat = true -> forall d, o_depth o = Some d -> (1 <= d)%nat /\
       forall t p, In t (lg_txns lg) -> In p (t_postings t) -> p_account p <> [] /\ ~ begins_with_colon (p_account p)) ->
    (exists r, balance_report w site o flat tot lg = Ok r) \/
    (balance_report w site o flat tot lg = Panic PDivZero /\ exists x cur p, o_exchange o = Some x /\ names_commodity w l x cur /\ SpecPrice.usable (w_now w) (lg_prices lg) p /\ pr_amount p = 0).
  Proof using Hw MF JR.
    intros H HA HC. destruct (o_exchange o) as [x|] eqn:X; [|left; eapply shown_report; eauto].
    destruct (asked_node w o A HA) as (q & Q & AN). unfold balance_report. rewrite Q, X. cbn [bind].
    destruct (select_asked w o q A (lg_txns lg) (lg_commodities lg) AN) as (sel & -> & I); [intros t Ht; apply (H t Ht)|]. cbn [bind].
    assert (IN : forall p, In p (flat_map snd sel) -> exists t, In t (lg_txns lg) /\ In p (t_postings t)).
    { intros p Hi. apply in_flat_map in Hi. destruct Hi as ([t ps] & H1 & H2). destruct (I t ps H1) as [T1 T2]. exists t. split; auto. }
    destruct (balances_whole (flat_map snd sel)) with (bals := @nil (str * balance)) as (bals & Eb).
    { intros p Hi. destruct (IN p Hi) as (t & T1 & T2). apply (H t T1). auto. }
    unfold account_balances. rewrite Eb. cbn [bind].
    destruct (account_balances_ok _ _ _ Eb empty_good) as (G1 & _).
    assert (Y : exists vb, (if flat then flat_balances w site (o_depth o) bals else Ok (tree_balances w site bals)) = Ok vb /\ good_map vb).
    { destruct flat.
      - assert (Y : exists vb, flat_balances w site (o_depth o) bals = Ok vb).
        { destruct (o_depth o) as [d|] eqn:Ed; [|cbn; eauto]. destruct (HC eq_refl d eq_refl) as [D1 D2]. eapply C56_depth_succeeds_partial; eauto.
          intros p Hi. destruct (IN p Hi) as (t & T1 & T2). eauto. }
        destruct Y as (vb & Y). exists vb. split; auto. eapply (flat_balances_ok w Hw); eauto.
      - eexists. split; [reflexivity|]. apply (tree_balances_ok w Hw); auto. }
    destruct Y as (vb & -> & GV). cbn [bind].
    destruct (shown_names x) as [(c & E & NC)|(_ & (e & E) & _)]; rewrite E.
    2:{ left. cbn [bind]. destruct (_ && _); eauto. }
    destruct (C37_outcomes w (100 + site) (cu_name c) (w_now w) (lg_prices lg) Hw) as [(mults & EC)|(EC & p & U & Z)]; rewrite EC; cbn [bind].
    2:{ right. split; auto. exists x, (cu_name c), p. auto. }
    left. change (mapM _ vb) with (conv_entries w (103 + site) mults (cu_name c) vb). destruct (conv_all w (103 + site) mults (cu_name c) vb Hw) as (vb1 & ->); [apply GV|]. cbn [bind].
    destruct (_ && _); [|eauto]. destruct mults as [|mu mults']; [cbn [bind]; eauto|]. cbn [unwrap bind]. unfold get_unwrap. rewrite E. cbn [bind].
    assert (Gt : good_bal (sum_balances (map snd (w_ord w (104 + site) _ bals)))).
    { destruct (sum_entries_ok (fun _ => true) (w_ord w (104 + site) _ bals)) as [S1 _].
      - intros a b Hi. eapply G1. eapply Permutation_in; [apply Hw|exact Hi].
      - assert (F : forall m : balances, filter (fun _ => true) m = m) by (induction m; cbn; congruence). rewrite F in S1. exact S1. }
    match goal with |- context [convert_balance ?b ?m ?k] => destruct (convert_balance_ok m k b) as (b' & -> & _) end.
    - eapply good_perm; [exact Gt|symmetry; apply Hw].
    - cbn [bind]. eauto.
  Qed.
  Lemma shown_worth site flat tot A r (prices : list price -> Prop) (total : (str -> bool) -> str -> Qc) : prices (lg_prices lg) -> asked_accounts w (o_query o) A ->
    (forall P c, qsum (map (txn_counted (asked_for o) P c) (filter (window_of o) (lg_txns lg))) = total P c) ->
    balance_report w site o flat tot lg = Ok r ->
    exists cur rates, rates_from w o l prices cur rates /\
      (if flat then flat_cut_shows o (fun P => changed rates cur (total (fun n => A n && P n))) r else tree_cut_shows o (fun P => changed rates cur (total (fun n => A n && P n))) r) /\
      total_shows (fun P => changed rates cur (total (fun n => A n && P n))) tot r.
  Proof using Hw MF JR.
    intros HP HA TT Er. destruct (asked_node w o A HA) as (q0 & Q0 & AN).
    assert (ST : forall q tps rate cur, report_data w o lg q tps rate cur -> q = q0 /\ forall Q c, moneys_amt (amounts_of (map snd tps) Q) c = total (fun n => A n && Q n) c).
    { intros q tps rate cur [D1 D2 _]. assert (q = q0) by congruence. subst q. split; auto. intros Q c. rewrite amounts_subtotal, <- TT. eapply reported_asked_totals; eauto. }
    assert (SH : (bp_total r <> None <-> tot = true /\ (2 <= length (bp_rows r))%nat) /\ forall ms, bp_total r = Some ms -> ms = [MZero] \/ shown_amounts ms /\ ms <> []).
    { destruct (report_parts _ _ _ _ _ _ _ Hw MF Er) as (q & tps & rate & cur & bals & vb & vb1 & _ & _ & _ & _ & _ & T1 & T2). split; auto. intros ms Em. apply (T2 ms Em). }
    destruct flat.
    - destruct (flat_rows _ _ _ _ _ _ Hw MF Er) as (q & tps & rate & cur0 & RD & AS & F1 & F2 & _ & FT). destruct (ST _ _ _ _ RD) as [-> S].
      destruct (shown_rates prices q0 tps rate cur0 A HP AN RD) as (cur & rates & RA & RC). exists cur, rates. split; auto.
      assert (S' : forall Q c, converted rate cur0 (amounts_of (map snd tps) Q) c = changed rates cur (total (fun n => A n && Q n)) c) by (intros; rewrite RC; apply changed_ext; intros; apply S).
      split; [split; auto; intros cut C; split|split; [apply SH|]].
      + intros row Hi. destruct (F1 row cut Hi C) as (_ & X1 & X2 & X3). do 2 (split; auto). intros c. rewrite X3. apply S'.
      + intros a c N. apply (F2 cut a c C). rewrite S'. auto.
      + intros ms Em. split; [apply SH; auto|]. intros c. rewrite (FT ms Em). apply S'.
    - destruct (tree_rows _ _ _ _ _ _ Hw MF Er) as (q & tps & rate & cur0 & accs & RD & AS & F & FT). destruct (ST _ _ _ _ RD) as [-> S].
      destruct (shown_rates prices q0 tps rate cur0 A HP AN RD) as (cur & rates & RA & RC). exists cur, rates. split; auto.
      assert (S' : forall Q c, converted rate cur0 (amounts_of (map snd tps) Q) c = changed rates cur (total (fun n => A n && Q n)) c) by (intros; rewrite RC; apply changed_ext; intros; apply S).
      split; [|split; [apply SH|]].
      + exists accs. split; auto. eapply forall2_weaken; [|exact F]. intros a row (H1 & H2 & H3 & H4 & H5 & H6). do 5 (split; auto). intros Hc c. rewrite H6 by auto. apply S'.
      + intros ms Em. split; [apply SH; auto|]. intros c. rewrite (FT ms Em). apply S'.
  Qed.
End Shown.

(** ** Prices *)
Lemma stated_directives w l al cs pays ts dir costs : clear_names w l -> journal_read w l al cs pays ts dir costs -> dir = map (stated_price w l) (pl_prices l).
Proof.
  intros P J. pose proof (jr_prices _ _ _ _ _ _ _ _ J) as F.
  assert (H : forall p pr, In p (pl_prices l) -> directive_price w cs p pr -> pr = stated_price w l p).
  { intros p [d a q b] Hp (x & y & X & Y & E1 & E2 & E3 & E4). cbn in *. subst. unfold stated_price. f_equal; eapply stated_commodity; eauto; left; exists p; auto. }
  clear J. induction F as [|p pr l0 l1 R F IH]; cbn; auto. rewrite (H p pr) by (auto; left; auto). f_equal. apply IH. intros. apply H; auto. right. auto.
Qed.
Lemma stated_costs w l al cs pays ts dir costs : clear_names w l -> journal_read w l al cs pays ts dir costs ->
  costs = flat_map (fun t => flat_map (paid_price w l t) (t_postings t)) (journal_txns l).
Proof.
  intros P J. pose proof (jr_costs _ _ _ _ _ _ _ _ J) as F. unfold costed in F.
  assert (H : forall t p pr d, In t (pl_txns l) -> In p (t_postings t) -> t_date t = Some d -> implied_price w cs d p pr -> paid_price w l t p = [pr]).
  { intros t p [d a q b] d0 Ht Hp D (q0 & c & k & kc & x & y & M1 & M2 & X & Y & E1 & E2 & E3 & E4). cbn in *. subst. unfold paid_price. rewrite D, M1, M2. f_equal.
    assert (A1 : mentions_commodity l c) by (right; exists t, p, q0; auto). assert (A2 : mentions_commodity l kc) by (right; exists t, p, k; auto).
    f_equal; try (symmetry; eapply stated_commodity; eauto). destruct (rp_cost_type p) as [[]|]; [|auto|contradiction]. symmetry. apply total_price; tauto. }
  assert (H0 : forall t p pr d, In t (journal_txns l) -> In p (t_postings t) -> t_date t = Some d -> implied_price w cs d p pr -> paid_price w l t p = [pr]).
  { intros t p pr d Ht. apply H. unfold journal_txns in Ht. apply filter_In in Ht. apply Ht. }
  clear J P H. rename H0 into H. revert costs F. induction (journal_txns l) as [|t ts' IH]; intros costs F; cbn [flat_map] in *; [inversion F; auto|].
  apply Forall2_app_inv_l in F. destruct F as (c1 & c2 & F1 & F2 & ->). rewrite <- (IH) with (costs := c2); auto; [|intros; eapply H; eauto; right; auto]. f_equal.
  assert (H' : forall p pr d, In p (t_postings t) -> t_date t = Some d -> implied_price w cs d p pr -> paid_price w l t p = [pr]) by (intros; eapply H; eauto; left; auto).
  clear H IH F2. revert c1 F1. induction (t_postings t) as [|p ps IH]; intros c1 F1; cbn [filter map flat_map] in *; [inversion F1; auto|].
  destruct (has_cost p) eqn:Hc; cbn [map] in F1.
  - inversion F1 as [|? pr ? c3 (d & D & I) F3]; subst. cbn in *. rewrite (H' p pr d) by (auto; left; auto). cbn. f_equal. apply IH; auto. intros. eapply H'; eauto; right; auto.
  - assert (E : paid_price w l t p = []) by (unfold paid_price; unfold has_cost in Hc; destruct (rp_cost p); [discriminate|]; destruct (t_date t), (rp_money p) as [[]|]; auto).
    rewrite E. cbn. apply IH; auto. intros. eapply H'; eauto; right; auto.
Qed.
Lemma written_nonzero w l ts p : incl ts (pl_txns l) -> (forall t x, In t ts -> In x (t_postings t) -> ~ zero_total_cost x) -> no_zero_price l -> In p (written_prices w l ts) -> pr_amount p <> 0.
Proof.
  intros IN NC [Z1 Z2] Hi. unfold written_prices in Hi. rewrite in_app_iff in Hi. destruct Hi as [Hi|Hi].
  - apply in_map_iff in Hi. destruct Hi as (x & <- & Hx). cbn. auto.
  - apply in_flat_map in Hi. destruct Hi as (t & Ht & Hi). apply in_flat_map in Hi. destruct Hi as (x & Hx & Hi). unfold paid_price in Hi.
    destruct (t_date t); [|destruct Hi]. destruct (rp_money x) as [[q c]|] eqn:Em; [|destruct Hi]. destruct (rp_cost x) as [[k y]|] eqn:Ek; [|destruct Hi].
    destruct Hi as [<-|[]]. cbn. pose proof (Z2 t x k y (IN _ Ht) Hx Ek) as Zk. destruct (rp_cost_type x) as [[]|] eqn:Et; auto.
    assert (Zq : q <> 0) by (intros ->; apply (NC t x Ht Hx); exists c, (k, y); auto).
    intros E. apply Zk. rewrite <- (Qcmult_div_r k q Zq) at 1. unfold Qcdiv in *. rewrite E. ring.
Qed.
Lemma exchange_nonzero d v prs p : exchange_price d v prs -> In p prs -> pr_amount p <> 0.
Proof. intros [(-> & _)|(pr & -> & _ & _ & Pos & _)] H; [destruct H|]. destruct H as [->|[]]. intros E. rewrite E in Pos. exact (Qclt_not_eq _ _ Pos eq_refl). Qed.
(** *** Stated balances *)
Lemma stated_left w l skip t t1 t2 run prs now c : stated_txn w l t t1 -> (forall a k, run a k = now a k) -> ledger_txn skip run t1 t2 prs ->
  group_value Real (t_postings t2) c = left_now w l skip now t c.
Proof.
  intros PT N LT. destruct (ledger_walked w l skip t t1 t2 run prs now PT N LT) as (kept & fills & E & W & HF & HE).
  pose proof LT as (_ & _ & (kept' & fills' & E' & F2 & HF' & HE') & _).
  destruct PT as (_ & F & P & CO).
  assert (EL : Forall2 (stated_read w l) (filter (blank skip) (t_postings t)) (filter (elided skip) (t_postings t1))).
  { clear -F. induction F as [|p p' ps ps' R F IH]; cbn; auto. rewrite (proj1 (given_blank w l skip p p' R)). destruct (blank skip p); auto. }
  unfold left_now. destruct (filter (blank skip) (t_postings t)) as [|b bs] eqn:Eb.
  - assert (fills = []) as ->. { destruct fills as [|q fs]; auto. destruct (HF q) as (_ & _ & p & X & _); [left; auto|discriminate]. }
    rewrite E. cbn [app]. unfold group_value in *. rewrite map_app, qsum_app. fold (group_value Real kept c). rewrite (proj2 (walked_sums w l skip _ _ _ (fun _ => true) (fun _ => true) c W)).
    assert (GN : qsum (map (posting_value Real c) (filter (fun p => negb (kind_eqb (p_kind p) Real)) (t_postings t1))) = 0).
    { apply qsum_zero. intros x Hx. apply in_map_iff in Hx. destruct Hx as (p & <- & Hx). apply filter_In in Hx. destruct Hx as [_ Hx]. unfold posting_value.
      destruct (kind_eqb (p_kind p) Real); [discriminate|]. destruct (p_amount p); auto. }
    rewrite GN. ring.
  - apply (PropEntry.filled_balanced skip run t1 t2 prs LT). intros X. rewrite X in EL. inversion EL.
Qed.
Lemma run_exchanges w l skip us sorted run ts' imps now : Forall2 (stated_txn w l) us sorted -> (forall a c, run a c = now a c) -> ledger_run skip run sorted ts' imps ->
  exists prss, exchanges w l skip now us prss /\ imps = concat prss.
Proof.
  intros F N R. revert us now F N. induction R as [run|run run' t1 t2 prs ts ts' prices LT NR R IH]; intros us now F N; inversion F as [|t ? us' ? PT F']; subst; [exists []; split; cbn; auto|].
  assert (N' : forall a c, run' a c = after_txn w l skip now t a c).
  { intros a c. rewrite NR, N, account_counted. unfold after_txn. f_equal. eapply stated_moves; eauto. }
  destruct (IH us' _ F' N') as (prss & I1 & ->). exists (prs :: prss). split; auto. split; auto.
  pose proof (fun c => stated_left w l skip t t1 t2 run prs now c PT N LT) as X. destruct LT as (_ & _ & _ & _ & _ & EX & _). destruct PT as (D & _). rewrite <- D. eapply exchange_ext; [exact X|exact EX].
Qed.
Lemma exchanges_nonzero w l skip us : forall now prss p, exchanges w l skip now us prss -> In p (concat prss) -> pr_amount p <> 0.
Proof.
  induction us as [|t us IH]; intros now [|prs prss] p H Hi; cbn in *; try contradiction. destruct H as [H1 H2]. apply in_app_or in Hi. destruct Hi; [eapply exchange_nonzero; eauto|eapply IH; eauto].
Qed.
Lemma stated_named w l skip lg : parsed w l -> stated_journal w l -> ledger_built w skip l lg ->
  forall t p, In t (lg_txns lg) -> In p (t_postings t) -> exists n, mentions_account l n /\ p_account p = account_meant w l n.
Proof.
  intros Hp P B t p Ht Hi. destruct (stated_all w l P) as [_ R0]. destruct B as [ts dir costs sorted run imps _ _ JR DS _ LR _|]; [|congruence].
  pose proof (read_stated_all _ _ _ _ _ _ _ _ (jo_txns w l (parsed_ok _ _ Hp)) P JR) as F. destruct DS as [PM _]. destruct (perm_forall2 _ _ _ _ F PM) as (us & PU & FU).
  assert (IU : forall u, In u us -> In u (pl_txns l)) by (intros u Hu; eapply Permutation_in; [symmetry; exact PU|auto] || (eapply Permutation_in; [exact PU|auto])).
  apply run_txns in LR. clear - FU LR Ht Hi IU. revert us FU IU. induction LR as [|t1 t2 sorted ts2 (run0 & prs & LT) LR IH]; intros us FU IU; [destruct Ht|].
  inversion FU as [|u ? us' ? PT FU']; subst. destruct Ht as [<-|Ht]; [|eapply (IH Ht us'); eauto; intros; apply IU; right; auto].
  assert (MA : forall x, In x (t_postings t1) -> exists n, mentions_account l n /\ p_account x = account_meant w l n).
  { destruct PT as (_ & R & _). assert (IP : forall r, In r (t_postings u) -> mentions_account l (rp_account r)) by (intros r Hr; exists u, r; split; auto; apply IU; left; auto).
    clear -R IP. induction R as [|x y ps ps' Q F IH]; intros z Hz; [destruct Hz|]. destruct Hz as [<-|Hz]; [|apply IH; auto; intros; apply IP; right; auto].
    exists (rp_account x). split; [apply IP; left; auto|]. apply Q. }
  destruct LT as (_ & _ & (kept & fills & E & F2 & HF & _) & _).
  rewrite E in Hi. rewrite !in_app_iff in Hi. destruct Hi as [Hi|[Hi|Hi]].
  - assert (X : exists y, In y (t_postings t1) /\ p_account p = p_account y).
    { assert (Y : exists y, In y (filter (given skip) (t_postings t1)) /\ p_account p = p_account y).
      { clear -F2 Hi. induction F2 as [|x y ps ps' K F IH]; [destruct Hi|]. destruct Hi as [<-|Hi]; [exists x; split; [left; auto|apply K]|]. destruct (IH Hi) as (z & Z1 & Z2). exists z. split; auto. right. auto. }
      destruct Y as (y & Y1 & Y2). apply filter_In in Y1. exists y. tauto. }
    destruct X as (y & Y1 & ->). auto.
  - destruct (HF p Hi) as (_ & _ & _ & _ & _ & y & Y & -> & _). apply MA. assert (In y (filter (elided skip) (t_postings t1))) as I by (rewrite Y; left; auto). apply filter_In in I. apply I.
  - apply filter_In in Hi. apply MA, Hi.
Qed.
(** *** Rules *)
Lemma settled_group w l xs qs c : Forall2 (settled w l) xs qs -> group_value Real qs c = kind_sum w l Real xs c.
Proof.
  unfold group_value, kind_sum. induction 1 as [|x q xs qs S F IH]; [reflexivity|]. cbn [map]. rewrite !qsum_cons, IH. f_equal. rewrite (settled_value w l x q c S). reflexivity.
Qed.
Lemma kind_sum_perm w l k xs ys c : Permutation xs ys -> kind_sum w l k xs c = kind_sum w l k ys c.
Proof. intros P. unfold kind_sum. induction P; cbn [map]; rewrite ?qsum_cons; try congruence; ring. Qed.
Lemma split_lines (ys : list line) : Permutation (filter real_line ys ++ filter (fun x => negb (real_line x)) ys) ys.
Proof.
  induction ys as [|y ys IH]; cbn [filter]; auto. destruct (real_line y); cbn [negb app]; [constructor; auto|]. etransitivity; [symmetry; apply Permutation_middle|]. constructor. auto.
Qed.
Lemma first_exchanges w l skip us xss xss' sorted run ts1 imps : Forall2 (ruled_txn w l) us sorted -> ledger_run skip run sorted ts1 imps ->
  Forall2 (fun xs t => Forall2 (settled w l) xs (t_postings t)) xss' ts1 -> Forall2 same_lines xss xss' ->
  exists prss, line_exchanges w l us xss prss /\ imps = concat prss.
Proof.
  intros F R S SL. revert us xss xss' F S SL. induction R as [run|run run' t1 t2 prs ts ts' prices LT NR R IH]; intros us xss xss' F S SL; inversion F as [|t ? us' ? (PT & _) F']; subst.
  - exists []. split; auto. constructor.
  - inversion S as [|xs' ? xss1 ? S1 S2]; subst. inversion SL as [|xs ? xss2 ? L1 L2]; subst. destruct (IH us' xss2 xss1 F' S2 L2) as (prss & I1 & ->). exists (prs :: prss). split; auto.
    unfold line_exchanges. cbn [combine]. constructor; [|exact I1]. cbn [fst snd].
    destruct LT as (_ & _ & _ & _ & _ & EX & _). destruct PT as (D & _). rewrite <- D. eapply exchange_ext; [|exact EX].
    intros c. rewrite (settled_group _ _ _ _ c S1). apply kind_sum_perm. symmetry. apply perm_same. auto.
Qed.
Lemma second_exchanges w l skip us yss yss' run ts2 ts' imps : same_heads us ts2 -> ledger_run skip run ts2 ts' imps ->
  Forall2 (fun ys t => Forall2 (settled w l) ys (t_postings t)) yss' ts2 -> Forall2 same_lines yss yss' ->
  exists prss, line_exchanges w l us yss prss /\ imps = concat prss.
Proof.
  intros F R S SL. revert us yss yss' F S SL. induction R as [run|run run' t1 t2 prs ts ts' prices LT NR R IH]; intros us yss yss' F S SL; inversion F as [|t ? us' ? PT F']; subst.
  - exists []. split; auto. constructor.
  - inversion S as [|ys' ? yss1 ? S1 S2]; subst. inversion SL as [|ys ? yss2 ? L1 L2]; subst. destruct (IH us' yss2 yss1 F' S2 L2) as (prss & I1 & ->). exists (prs :: prss). split; auto.
    unfold line_exchanges. cbn [combine]. constructor; [|exact I1]. cbn [fst snd].
    pose proof (shown_second w l skip _ _ _ _ _ S1 LT) as S3. destruct LT as (_ & _ & _ & _ & _ & EX & _). destruct PT as (D & _). rewrite <- D. eapply exchange_ext; [|exact EX].
    intros c. rewrite (settled_group _ _ _ _ c S3). apply kind_sum_perm. etransitivity; [apply split_lines|]. symmetry. apply perm_same. auto.
Qed.
Lemma line_exchanges_nonzero w l us xss prss p : line_exchanges w l us xss prss -> In p (concat prss) -> pr_amount p <> 0.
Proof.
  unfold line_exchanges. induction 1 as [|x prs xs prss E F IH]; intros H; [destruct H|]. cbn in H. apply in_app_or in H. destruct H; [eapply exchange_nonzero; eauto|auto].
Qed.

(** ** C81: journals that state balances *)
Theorem C81_stated_balances : forall depth w o file l us flat no_total A, world_ok w -> file_parses depth w file l -> stated_journal w l ->
  date_sorted (pl_txns l) us ->
  let skip := o_no_balance_check o in
  all_in_order w l skip nothing us -> asked_accounts w (o_query o) A -> (flat = true -> can_be_cut w o l) -> no_zero_price l ->
  exists r lines cur rates, run_cmd depth w (CBalance flat no_total) o file = Ok lines /\ balance_printed r lines /\
    rates_from w o l (stated_prices w l skip us) cur rates /\
    let total := fun P => changed rates cur (total_added w l skip o (fun n => A n && P n) nothing us) in
    (if flat then flat_cut_shows o total r else tree_cut_shows o total r) /\ total_shows total (negb no_total) r.
Proof.
  intros depth w o file l us flat nt A Hw HF P DU skip IO HA HC NZ. pose proof (file_parsed _ _ _ _ HF) as Hp. apply file_parses_iff in HF.
  destruct (stated_outcome w skip l us Hw Hp P DU) as [(_ & lg & E & B)|(N & _)]; [|contradiction]. pose proof (made_plain _ _ _ _ Hp E) as M.
  destruct (stated_all w l P) as [EJ R0].
  assert (J : exists al ts dir costs prss, journal_read w l al (lg_commodities lg) (lg_payees lg) ts dir costs /\ lg_prices lg = dir ++ costs ++ concat prss /\ exchanges w l skip nothing us prss).
  { inversion B as [ts dir costs sorted run imps _ _ JR DS RZ LR EP|]; [|congruence]. subst.
    destruct (run_exchanges w l skip us sorted run _ imps nothing (stated_sorted _ _ _ _ _ _ _ _ _ _ Hp P JR DU DS) RZ LR) as (prss & X & ->). exists (lg_accounts lg), ts, dir, costs, prss. auto. }
  destruct J as (al & ts & dir & costs & prss & JR & EP & EX).
  assert (SP : stated_prices w l skip us (lg_prices lg)).
  { exists prss. split; auto. rewrite EP. unfold written_prices. rewrite (stated_directives _ _ _ _ _ _ _ _ (sj_names _ _ P) JR), (stated_costs _ _ _ _ _ _ _ _ (sj_names _ _ P) JR), EJ. rewrite app_assoc. auto. }
  destruct (shown_exchanged w o l lg al _ ts dir costs Hw M JR (report_site lg) flat (negb nt) A (stated_whole _ _ _ _ Hw Hp P E B) HA) as [(r & Er)|(_ & x & cur & p & _ & _ & U & Z)].
  - intros Ef d Ed. destruct (HC Ef d Ed) as [C1 C2]. split; auto. intros t p Ht Hi. destruct (stated_named w l skip lg Hp P B t p Ht Hi) as (n & N1 & ->). auto.
  - destruct (C69_printed depth w o file l lg Hw HF E) as [HP _]. destruct (HP flat nt r Er) as (lines & L1 & L2).
    destruct (shown_worth w o l lg al _ ts dir costs Hw M JR (report_site lg) flat (negb nt) A r (stated_prices w l skip us) (fun P => total_added w l skip o P nothing us) SP HA) as (cur & rates & W1 & W2 & W3); auto.
    + intros Q c. apply (stated_totals w l skip lg us); auto.
    + exists r, lines, cur, rates. cbn zeta. auto.
  - exfalso. destruct SP as (prss' & EX' & EP'). assert (I : In p (lg_prices lg)) by (destruct U as (pre & post & -> & _); apply in_app_iff; right; left; auto). rewrite EP' in I. apply in_app_or in I. destruct I as [I|I].
    + revert Z. eapply written_nonzero; [apply incl_refl| |exact NZ|exact I]. intros t y Ht Hy. apply (sj_postings _ _ P t y Ht Hy).
    + revert Z. eapply exchanges_nonzero; eauto.
Qed.
Print Assumptions C81_stated_balances.

(** ** C81: journals with rules *)
Theorem C81_rules : forall depth w o file l us rs xss A flat no_total, world_ok w -> file_parses depth w file l -> ruled_journal w l ->
  date_sorted (journal_txns l) us -> Forall2 (rule_says w) (rules l) rs -> Forall2 (txn_lines w l) us xss ->
  let skip := o_no_balance_check o in
  all_in_order w l skip nothing us -> all_lines_in_order w l skip nothing (map (with_rules w l rs) xss) ->
  asked_accounts w (o_query o) A -> (flat = true -> can_be_cut w o l) -> no_zero_price l ->
  exists r lines cur rates, run_cmd depth w (CBalance flat no_total) o file = Ok lines /\ balance_printed r lines /\
    rates_from w o l (ruled_prices w l rs us xss) cur rates /\
    let total := fun P => changed rates cur (entries_total o us (map (fun xs => shown_lines (with_rules w l rs xs)) xss) (fun n => A n && P n)) in
    (if flat then flat_cut_shows o total r else tree_cut_shows o total r) /\ total_shows total (negb no_total) r.
Proof.
  intros depth w o file l us rs xss A flat nt Hw HF P DU RS FX skip IO LO HA HC NZ. pose proof (file_parsed _ _ _ _ HF) as Hp. apply file_parses_iff in HF.
  destruct (ruled_outcome_full w skip l us rs Hw Hp P DU RS) as [(N & _)|(_ & xss' & FX' & [(N & _)|(_ & lg & al & ts & dir & costs & E & JR & SH & LL & WT & sorted & run & ts1 & imps & ts2 & run' & imps' & Q1 & Q2 & Q3 & Q4 & Q5 & Q6 & EP)])]; [contradiction| |].
  { exfalso. apply N. exact (all_in_order_same w l skip _ _ (ruled_same w l rs us xss xss' FX FX') nothing nothing (fun _ _ => eq_refl) LO). }
  pose proof (made_plain _ _ _ _ Hp E) as M.
  assert (SL : Forall2 same_lines xss xss').
  { clear -FX FX'. revert xss' FX'. induction FX as [|t xs us xss T F IH]; intros xss' FX'; inversion FX' as [|? xs' ? xss1 T' F']; subst; constructor; auto. eapply txn_lines_same; eauto. }
  assert (SP : ruled_prices w l rs us xss (lg_prices lg)).
  { destruct (first_exchanges w l skip us xss xss' sorted run ts1 imps Q1 Q2 Q3 SL) as (before & B1 & ->).
    destruct (second_exchanges w l skip us (map (with_rules w l rs) xss) (map (with_rules w l rs) xss') run' ts2 _ imps' Q4 Q6 Q5 (ruled_same w l rs us xss xss' FX FX')) as (after & B2 & ->).
    exists before, after. do 2 (split; auto). rewrite EP. unfold written_prices. rewrite (stated_directives _ _ _ _ _ _ _ _ (ru_names _ _ P) JR), (stated_costs _ _ _ _ _ _ _ _ (ru_names _ _ P) JR). rewrite app_assoc. auto. }
  destruct (shown_exchanged w o l lg al _ ts dir costs Hw M JR (report_site lg) flat (negb nt) A WT HA) as [(r & Er)|(_ & x & cur & p & _ & _ & U & Z)].
  - intros Ef d Ed. eapply (ledger_named w o l rs us xss' lg); eauto.
  - destruct (C69_printed depth w o file l lg Hw HF E) as [HP _]. destruct (HP flat nt r Er) as (lines & L1 & L2).
    destruct (shown_worth w o l lg al _ ts dir costs Hw M JR (report_site lg) flat (negb nt) A r (ruled_prices w l rs us xss) (entries_total o us (map (fun xs => shown_lines (with_rules w l rs xs)) xss)) SP HA) as (cur & rates & W1 & W2 & W3); auto.
    + intros Q c. rewrite (counted_entries o us); auto. rewrite LL. eapply entries_total_same; eauto.
    + exists r, lines, cur, rates. cbn zeta. auto.
  - exfalso. destruct SP as (before & after & B1 & B2 & EP'). assert (I : In p (lg_prices lg)) by (destruct U as (pre & post & -> & _); apply in_app_iff; right; left; auto). rewrite EP' in I. rewrite !in_app_iff in I. destruct I as [I|[I|I]].
    + revert Z. eapply written_nonzero; [| |exact NZ|exact I]. { intros t Ht. unfold journal_txns in Ht. apply filter_In in Ht. apply Ht. }
      intros t y Ht Hy. unfold journal_txns in Ht. apply filter_In in Ht. apply (ru_costs _ _ P t y); [apply Ht|exact Hy].
    + revert Z. eapply line_exchanges_nonzero; [exact B1|exact I].
    + revert Z. eapply line_exchanges_nonzero; [exact B2|exact I].
Qed.
Print Assumptions C81_rules.

(** ** Cases *)
Definition w81t (t : list String.string) : world :=
  {| w_lower := ascii_lower; w_numeric := fun _ => false;
     w_rx := fun rx s => if starts_with (L "(?i)") rx then occurs (ascii_lower (skipn 4 rx)) (ascii_lower s) else occurs rx s;
     w_rx_ok := fun _ => true; w_width := None; w_read := fun p => if str_eqb p (L "book") then Some (text t) else None;
     w_glob := fun _ => None; w_two_timer := fun _ => None; w_now := 800000%Z; w_ord := fun _ _ l => l |}.
Lemma w81t_ok t : world_ok (w81t t).
Proof. split; [intros; apply Permutation_refl|exact ascii_lower_idem]. Qed.
Definition shown_prices (w : world) (l : pledger) : list (Z * str * Q * str) :=
  map shown_price (lg_prices (get {| lg_accounts := l_new; lg_commodities := l_new; lg_payees := l_new; lg_txns := []; lg_prices := [] |} (to_ledger w false l))).
(** The dollars found in the drawer are what is missing to the balance; the exchange gives their price, as what is
    missing to the balance of the bank is known by then. *)
Definition t81s : list String.string :=
  ["P 2021-01-05 XAU 50 EUR"; "2021-01-03 Counted"; "  Assets:Cash  = 60 USD"; "  Assets:Bank  = 970 EUR"; "2021-01-01 Job"; "  Assets:Bank  1000 EUR = 1000 EUR"; "  Income";
   "2021-01-10 Gold"; "  Assets:Gold  3 XAU @@ 150 EUR = 3 XAU"; "  Assets:Cash"]%string.
Definition l81s : pledger := get pl_new (tokenize_file 2 (w81t t81s) (L "book")).
Definition us81s : list (txn rposting) := by_date (pl_txns l81s).
Example C81_case_stated : world_ok (w81t t81s) /\ file_parses 2 (w81t t81s) (L "book") l81s /\ stated_journal (w81t t81s) l81s /\ date_sorted (pl_txns l81s) us81s /\
  all_in_order (w81t t81s) l81s (o_no_balance_check (ask_in "eur" [])) nothing us81s /\ asked_accounts (w81t t81s) (o_query (ask_in "eur" [])) (fun _ => true) /\
  can_be_cut (w81t t81s) (ask_in "eur" []) l81s /\ no_zero_price l81s /\
  shown_prices (w81t t81s) l81s = [(737794%Z, L "XAU", 50 # 1, L "EUR"); (737799%Z, L "XAU", 50 # 1, L "EUR"); (737792%Z, L "USD", 1 # 2, L "EUR")]%Q /\
  run_cmd 2 (w81t t81s) (CBalance true false) (ask_in "eur" []) (L "book") = Ok (map L
    ["          970.00 EUR  Assets:Bank"; "         -120.00 EUR  Assets:Cash"; "          150.00 EUR  Assets:Gold"; "        -1000.00 EUR  Income";
     "--------------------"; "                   0"]%string).
Proof.
  assert (HF : file_parses 2 (w81t t81s) (L "book") l81s) by (apply file_parses_iff; vm_compute; reflexivity).
  assert (P : stated_journal (w81t t81s) l81s) by (apply stated_check_ok; vm_compute; reflexivity).
  assert (D : date_sorted (pl_txns l81s) us81s) by (apply by_date_sorted; exact (stated_dated _ _ (file_parsed _ _ _ _ HF) P)).
  split; [exact (w81t_ok _)|]. split; [exact HF|]. split; [exact P|]. split; [exact D|].
  split; [refine (order_of_run 2 (w81t t81s) CCheck plain_opts (L "book") l81s us81s (w81t_ok _) HF P D _); vm_compute; reflexivity|].
  split; [apply aa_all|]. split; [intros d E; discriminate E|]. split; [apply zero_check_ok; vm_compute; reflexivity|].
  split; vm_compute; reflexivity.
Qed.
(** The gold costs 50 euros an ounce without the rule and 49 with the fee that the rule adds: both are prices of the journal. *)
Definition t81r : list String.string :=
  ["= gold"; "  Expenses:Fees  3 EUR"; "  (Taxes)  0.5"; "2021-01-10 Gold"; "  Assets:Gold  3 XAU"; "  Assets:Bank  -150 EUR"; "2021-01-01 Job"; "  Assets:Bank  1000 EUR"; "  Income"]%string.
Definition l81r : pledger := get pl_new (tokenize_file 2 (w81t t81r) (L "book")).
Definition us81r : list (txn rposting) := by_date (journal_txns l81r).
Definition rs81r : list ruling := [(w_rx (w81t t81r) (L "(?i)gold"), t_postings (rule84 l81r 0))].
Lemma one_of {A} (l : list A) d : length l = 1%nat -> l = [nth 0 l d].
Proof. destruct l as [|a [|b l]]; intros H; try discriminate. reflexivity. Qed.
Example C81_case_rules : world_ok (w81t t81r) /\ file_parses 2 (w81t t81r) (L "book") l81r /\ ruled_journal (w81t t81r) l81r /\ date_sorted (journal_txns l81r) us81r /\
  Forall2 (rule_says (w81t t81r)) (rules l81r) rs81r /\
  (exists xss, Forall2 (txn_lines (w81t t81r) l81r) us81r xss /\ all_in_order (w81t t81r) l81r (o_no_balance_check (ask_in "eur" [])) nothing us81r /\
     all_lines_in_order (w81t t81r) l81r (o_no_balance_check (ask_in "eur" [])) nothing (map (with_rules (w81t t81r) l81r rs81r) xss)) /\
  asked_accounts (w81t t81r) (o_query (ask_in "eur" [])) (fun _ => true) /\ can_be_cut (w81t t81r) (ask_in "eur" []) l81r /\ no_zero_price l81r /\
  shown_prices (w81t t81r) l81r = [(737799%Z, L "XAU", 50 # 1, L "EUR"); (737799%Z, L "XAU", 49 # 1, L "EUR")]%Q /\
  run_cmd 2 (w81t t81r) (CBalance true false) (ask_in "eur" []) (L "book") = Ok (map L
    ["          850.00 EUR  Assets:Bank"; "          150.00 EUR  Assets:Gold"; "            3.00 EUR  Expenses:Fees"; "        -1000.00 EUR  Income";
     "           75.00 EUR  Taxes"; "--------------------"; "           78.00 EUR"]%string).
Proof.
  assert (HF : file_parses 2 (w81t t81r) (L "book") l81r) by (apply file_parses_iff; vm_compute; reflexivity).
  assert (P : ruled_journal (w81t t81r) l81r) by (apply ruled_check_ok; vm_compute; reflexivity).
  assert (D : date_sorted (journal_txns l81r) us81r) by (apply by_date_sorted; exact (ruled_dated _ _ (file_parsed _ _ _ _ HF))).
  assert (R : Forall2 (rule_says (w81t t81r)) (rules l81r) rs81r).
  { rewrite (one_of (rules l81r) void83) by (vm_compute; reflexivity). fold (rule84 l81r 0). constructor; [|constructor].
    split; [reflexivity|]. exists [L "gold"]. split; [discriminate|]. split.
    - assert (E : t_desc (rule84 l81r 0) = L " " ++ L "gold" ++ []) by (vm_compute; reflexivity). rewrite E. constructor.
      + intros c [<-|[]]. reflexivity.
      + apply word_of. reflexivity.
      + constructor. intros c [].
      + congruence.
    - apply aa_one. apply PropAsk.plain_word; reflexivity. }
  split; [exact (w81t_ok _)|]. split; [exact HF|]. split; [exact P|]. split; [exact D|]. split; [exact R|]. split.
  { destruct (C84_lines_exist (w81t t81r) l81r us81r) as (xss & FX). exists xss. split; [exact FX|].
    apply (C84_check 2 (w81t t81r) plain_opts (L "book") l81r us81r rs81r xss (w81t_ok _) HF P D R FX). vm_compute. reflexivity. }
  split; [apply aa_all|]. split; [intros d E; discriminate E|]. split; [apply zero_check_ok; vm_compute; reflexivity|].
  split; vm_compute; reflexivity.
Qed.
