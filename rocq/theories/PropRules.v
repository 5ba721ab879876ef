(** C84: journals with automated transactions, from the journal to the reports. *)
From Coq Require Import Lia Sorting.Sorted.
From Verif Require Import Base BaseFacts Numerals Money Alist Comment Txn Expr Filter Price Tokens Ledger Reports App Spec MoneyFacts SpecList SpecTxn TxnFacts SpecLedger
  TokenFacts JournalFacts LedgerFacts LedgerFacts2 LedgerFacts3 PropTxn PropLedger SpecQuery SpecReports ReportFacts ReportFacts2 ReportFacts3 PropReports PropApp
  SpecText SpecDates SpecTokens SpecJournal JournalRead PropJournal SpecLayout PropLayout SpecBook BookFacts PropBook PropBook2 SpecExpr SpecAsk PropAsk SpecWords PropRuleQuery
  SpecAssert AssertFacts PropAssert SpecRules ShownFacts RuleFacts RuleFacts2.
Open Scope Qc_scope.

(** ** The order of the lines of an open amount does not matter *)
Definition same_lines (ys ys' : list line) : Prop :=
  exists first rest rest', ys = first ++ rest /\ ys' = first ++ rest' /\ Permutation rest rest' /\ forall x, In x rest -> real_line x = true -> snd x = None.
Lemma txn_lines_same w l t xs xs' : txn_lines w l t xs -> txn_lines w l t xs' -> same_lines xs xs'.
Proof.
  intros [f1 A1 N1 I1] [f2 A2 N2 I2].
  assert (X : forall x f f', (forall x, In x f -> snd x = None /\ exists p, filter open_posting (t_postings t) = [p] /\ fst (fst x) = (Real, account_meant w l (rp_account p))) ->
     (forall x, In x f' -> snd x = None /\ exists p, filter open_posting (t_postings t) = [p] /\ fst (fst x) = (Real, account_meant w l (rp_account p))) ->
     (forall p, filter open_posting (t_postings t) = [p] -> forall m, In m (map line_money f) <-> exists c, kind_value w l Real t c <> 0 /\ m = M (- kind_value w l Real t c) c) ->
     (forall p, filter open_posting (t_postings t) = [p] -> forall m, In m (map line_money f') <-> exists c, kind_value w l Real t c <> 0 /\ m = M (- kind_value w l Real t c) c) ->
     In x f -> In x f').
  { intros x f f' A A' I I' Hx. destruct (A x Hx) as (E0 & p & Ep & E1). assert (Hm : In (line_money x) (map line_money f')) by (apply (I' p Ep), (I p Ep), in_map; auto).
    apply in_map_iff in Hm. destruct Hm as (y & Ey & Hy). destruct (A' y Hy) as (F0 & p' & Ep' & F1). assert (p' = p) by congruence. subst p'.
    assert (y = x) as <-; auto. destruct x as [[xa xm] xb], y as [[ya ym] yb]. unfold line_money in Ey. cbn in E0, E1, F0, F1, Ey. subst. auto. }
  exists (flat_map (written_line w l) (filter real_posting (t_postings t))).
  exists (f1 ++ flat_map (written_line w l) (filter (fun p => negb (real_posting p)) (t_postings t))), (f2 ++ flat_map (written_line w l) (filter (fun p => negb (real_posting p)) (t_postings t))).
  split; auto. split; auto. split.
  - apply Permutation_app_tail. apply NoDup_Permutation; auto. intros x. split; eapply X; eauto.
  - intros x Hx R. apply in_app_iff in Hx. destruct Hx as [Hx|Hx]; [apply (A1 x Hx)|]. exfalso.
    apply in_flat_map in Hx. destruct Hx as (p & Hp & Hx). apply filter_In in Hp. destruct Hp as [_ Hp]. unfold written_line, written_entry in Hx. destruct (rp_money p) as [[q k]|]; [|destruct Hx].
    destruct Hx as [<-|[]]. unfold real_line, line_kind, entry_kind in R. cbn in R. unfold real_posting in Hp. rewrite R in Hp. discriminate.
Qed.
Lemma flat_map_perm {A B} (f : A -> list B) xs ys : Permutation xs ys -> Permutation (flat_map f xs) (flat_map f ys).
Proof.
  induction 1; cbn; auto.
  - apply Permutation_app_head. auto.
  - rewrite !app_assoc. apply Permutation_app_tail, Permutation_app_comm.
  - eapply perm_trans; eauto.
Qed.
Lemma with_rules_same w l rs xs xs' : same_lines xs xs' -> same_lines (with_rules w l rs xs) (with_rules w l rs xs').
Proof.
  intros (f & r & r' & -> & -> & P & H). unfold with_rules. rewrite <- !app_assoc. do 3 eexists. split; [reflexivity|]. split; [reflexivity|]. split.
  - apply Permutation_app; auto. induction rs as [|x rs IH]; cbn; auto. apply Permutation_app; auto. unfold rule_adds. apply flat_map_perm. apply Permutation_app_head. auto.
  - intros x Hx R. apply in_app_iff in Hx. destruct Hx as [Hx|Hx]; auto. apply in_flat_map in Hx. destruct Hx as (y & _ & Hx). unfold rule_adds in Hx. apply in_flat_map in Hx. destruct Hx as (z & _ & Hx).
    destruct (fst y (line_account z)); [|destruct Hx]. apply in_map_iff in Hx. destruct Hx as (ap & <- & _). reflexivity.
Qed.
Lemma qsum_perm xs ys : Permutation xs ys -> qsum xs = qsum ys.
Proof. induction 1; rewrite ?qsum_cons in *; [reflexivity|congruence|ring|congruence]. Qed.
Lemma perm_same ys ys' : same_lines ys ys' -> Permutation ys ys'.
Proof. intros (f & r & r' & -> & -> & P & _). apply Permutation_app_head. auto. Qed.
Lemma lines_true_app w l skip xs ys : forall now, lines_true w l skip now (xs ++ ys) <-> lines_true w l skip now xs /\ lines_true w l skip (after_lines now xs) ys.
Proof. induction xs as [|x xs IH]; intros now; cbn; [tauto|]. rewrite IH. tauto. Qed.
Lemma lines_true_plain w l skip xs : (forall x, In x xs -> real_line x = true -> snd x = None) -> forall now, lines_true w l skip now xs.
Proof.
  induction xs as [|x xs IH]; intros H now; cbn; auto. split; [|apply IH; intros; apply H; auto; right; auto]. intros R _ p q k E. rewrite (H x) in E by (auto; left; auto). discriminate.
Qed.
Lemma lines_true_ext w l skip xs : forall now now', (forall a c, now a c = now' a c) -> lines_true w l skip now xs -> lines_true w l skip now' xs.
Proof.
  induction xs as [|x xs IH]; intros now now' N H; cbn in *; auto. assert (N' : forall a c, after_line now x a c = after_line now' x a c) by (intros a c; unfold after_line; rewrite N; auto).
  destruct H as [H1 H2]. split; [|eapply IH; eauto]. intros R Sk p q k E B. rewrite <- N'. eapply H1; eauto.
Qed.
Lemma in_order_same w l skip ys ys' now now' : same_lines ys ys' -> (forall a c, now a c = now' a c) ->
  (lines_in_order w l skip now ys -> lines_in_order w l skip now' ys') /\ forall a c, after_lines now ys a c = after_lines now' ys' a c.
Proof.
  intros S N. pose proof (perm_same _ _ S) as P.
  assert (KS : forall k c, kind_sum w l k ys c = kind_sum w l k ys' c) by (intros k c; unfold kind_sum; apply qsum_perm, Permutation_map; auto). split.
  - intros (H1 & H2 & H3). split; [eapply fine_ext; eauto|]. split; [|eapply fine_ext; eauto].
    destruct S as (f & r & r' & -> & -> & PR & HR). apply lines_true_app in H2. apply lines_true_app. split; [eapply lines_true_ext; [exact N|apply H2]|].
    apply lines_true_plain. intros x Hx. apply HR. eapply Permutation_in; [symmetry; exact PR|auto].
  - intros a c. rewrite !after_lines_move, N. f_equal. unfold lines_move. apply qsum_perm, Permutation_map. auto.
Qed.
Lemma all_in_order_same w l skip yss yss' : Forall2 same_lines yss yss' -> forall now now', (forall a c, now a c = now' a c) ->
  all_lines_in_order w l skip now yss -> all_lines_in_order w l skip now' yss'.
Proof.
  induction 1 as [|ys ys' yss yss' S F IH]; intros now now' N H; cbn in *; auto. destruct H as [H1 H2]. destruct (in_order_same w l skip ys ys' now now' S N) as [A B].
  split; auto. eapply IH; eauto.
Qed.
Lemma ruled_same w l rs us xss xss' : Forall2 (txn_lines w l) us xss -> Forall2 (txn_lines w l) us xss' -> Forall2 same_lines (map (with_rules w l rs) xss) (map (with_rules w l rs) xss').
Proof.
  intros F. revert xss'. induction F as [|t xs us xss T F IH]; intros xss' F'; inversion F'; subst; cbn; constructor; auto. apply with_rules_same. eapply txn_lines_same; eauto.
Qed.

(** ** The ledger is made exactly if the transactions are in order without the rules and with them *)
Lemma ruled_dated w l : parsed w l -> Forall (fun u => exists d, t_date u = Some d) (journal_txns l).
Proof.
  intros Hp. pose proof (jo_txns w l (parsed_ok _ _ Hp)) as D. rewrite Forall_forall in *. intros t Ht. unfold journal_txns in Ht. apply filter_In in Ht. destruct Ht as [Ht TY].
  apply D in Ht. unfold rtxn_ok in Ht. unfold is_real_txn in TY. destruct (t_type t); try discriminate. apply Ht.
Qed.
Definition ruled_txn (w : world) (l : pledger) (t : txn rposting) (t' : txn posting) : Prop :=
  stated_txn w l t t' /\ t_desc t' = t_desc t /\ Forall (fun p => rp_money p = None -> rp_balance p = None) (t_postings t).
Lemma ruled_read w l al cs pays ts dir costs : parsed w l -> ruled_journal w l -> journal_read w l al cs pays ts dir costs -> Forall2 (ruled_txn w l) (journal_txns l) ts.
Proof.
  intros Hp P JR. pose proof (read_stated_txns w l al cs pays ts dir costs (jo_txns w l (parsed_ok _ _ Hp)) (ru_names _ _ P) (fun t p Ht Hi => proj1 (ru_postings _ _ P t p Ht Hi)) JR) as F1.
  pose proof (jr_txns _ _ _ _ _ _ _ _ JR) as F. pose proof (ru_postings _ _ P) as RP. clear -F F1 RP.
  induction F1 as [|t t' ts ts' S F1 IH]; inversion F as [|? ? ? ? (R1 & _) F']; subst; constructor; auto.
  - split; auto. split; [unfold header in R1; congruence|]. apply Forall_forall. intros p Hp. apply (RP t p); auto. left. auto.
  - apply IH; auto. intros. eapply RP; eauto. right. auto.
Qed.
Lemma ruled_sorted w l al cs pays ts dir costs us sorted : parsed w l -> ruled_journal w l -> journal_read w l al cs pays ts dir costs ->
  date_sorted (journal_txns l) us -> date_sorted ts sorted -> Forall2 (ruled_txn w l) us sorted.
Proof.
  intros Hp P JR DU DS. apply (sort_related (ruled_txn w l) (journal_txns l) us ts sorted); auto; [intros u t ((X & _) & _); auto|eapply ruled_read; eauto|eapply ruled_dated; eauto].
Qed.
Lemma first_lines w l skip us sorted run ts1 imps : Forall2 (ruled_txn w l) us sorted -> ledger_run skip run sorted ts1 imps ->
  exists xss, Forall2 (txn_lines w l) us xss /\ Forall2 (fun xs t => Forall2 (settled w l) xs (t_postings t)) xss ts1 /\ same_heads us ts1.
Proof.
  intros F R. revert us F. induction R as [run|run run' t1 t2 prs s ts prices LT NR R IH]; intros us F; inversion F as [|t ? us' ? (PT & PN & PB) F']; subst.
  - exists []. repeat split; constructor.
  - destruct (IH us' F') as (xss & I1 & I2 & I3). destruct (lines_first w l skip t t1 t2 run prs PT PB LT) as (xs & X1 & X2). exists (xs :: xss). split; [constructor; auto|]. split; [constructor; auto|].
    constructor; auto. destruct LT as (_ & (H1 & _ & _ & _ & H2 & _) & _). destruct PT as (H3 & _). split; congruence.
Qed.
Lemma forall2_stated w l us sorted : Forall2 (ruled_txn w l) us sorted -> Forall2 (stated_txn w l) us sorted.
Proof. induction 1 as [|? ? ? ? (X & _) F IH]; constructor; auto. Qed.
Lemma ruled_outcome_full w skip l us rs : world_ok w -> parsed w l -> ruled_journal w l -> date_sorted (journal_txns l) us -> Forall2 (rule_says w) (rules l) rs ->
  (~ all_in_order w l skip nothing us /\ exists e, to_ledger w skip l = Err e) \/
  (all_in_order w l skip nothing us /\ exists xss, Forall2 (txn_lines w l) us xss /\
     ((~ all_lines_in_order w l skip nothing (map (with_rules w l rs) xss) /\ exists e, to_ledger w skip l = Err e) \/
      (all_lines_in_order w l skip nothing (map (with_rules w l rs) xss) /\ exists lg al ts dir costs, to_ledger w skip l = Ok lg /\
         journal_read w l al (lg_commodities lg) (lg_payees lg) ts dir costs /\ same_heads us (lg_txns lg) /\
         ledger_lines (lg_txns lg) = map (fun xs => shown_lines (with_rules w l rs xs)) xss /\ whole_txns (lg_txns lg) /\
         exists sorted run ts1 imps ts2 run' imps', Forall2 (ruled_txn w l) us sorted /\ ledger_run skip run sorted ts1 imps /\
           Forall2 (fun xs t => Forall2 (settled w l) xs (t_postings t)) xss ts1 /\ same_heads us ts2 /\
           Forall2 (fun ys t => Forall2 (settled w l) ys (t_postings t)) (map (with_rules w l rs) xss) ts2 /\ ledger_run skip run' ts2 (lg_txns lg) imps' /\
           lg_prices lg = dir ++ costs ++ imps ++ imps'))).
Proof.
  intros Hw Hp P DU RS.
  assert (NN : exists nodes, Forall2 (fun r n => build_root w (get_filter_query r) = Ok n /\ exists A, answers w (Some n) A) (rules l) nodes).
  { clear -RS. induction RS as [|r x rl rs R F (nodes & IH)]; [exists []; auto|]. destruct (rule_node w r x R) as (n & B & A). exists (n :: nodes). constructor; eauto. }
  destruct NN as (nodes & NN).
  destruct (to_ledger_ruled w skip l nodes Hw (parsed_ok _ _ Hp) (ru_some _ _ P) (ru_costs _ _ P) (ru_rules _ _ P) NN) as (al & cs & pays & ts & dir & costs & sorted & run & JR & DS & RZ & H).
  { intros al cs pays ts dir costs sorted run ts1 imps JR DS RZ LR t p Ht Hi.
    destruct (first_lines w l skip us sorted run ts1 imps (ruled_sorted _ _ _ _ _ _ _ _ _ _ Hp P JR DU DS) LR) as (xss & _ & S & _). clear -S Ht Hi.
    induction S as [|xs t0 xss ts S F IH]; [destruct Ht|]. destruct Ht as [->|Ht]; auto. clear -S Hi. induction S as [|x q xs qs S F IH]; destruct Hi; subst; auto. destruct S as (_ & _ & E & (a & c & Em) & _). rewrite E, Em. eauto. }
  pose proof (ruled_sorted _ _ _ _ _ _ _ _ _ _ Hp P JR DU DS) as FS. destruct H as [(e & v & E & SR)|(ts1 & imps & ts2 & run' & LR & OR & RP & RZ' & H)].
  - left. split; eauto. eapply stopped_stated; [eapply forall2_stated; exact FS|exact RZ|exact SR].
  - right. split; [eapply run_stated; [eapply forall2_stated; exact FS|exact RZ|exact LR]|].
    destruct (first_lines w l skip us sorted run ts1 imps FS LR) as (xss & X1 & X2 & X3). exists xss. split; auto.
    assert (Y : Forall2 (fun ys t => Forall2 (settled w l) ys (t_postings t)) (map (with_rules w l rs) xss) ts2 /\ same_heads us ts2).
    { clear -RP X2 X3 OR RS NN P JR. cbn zeta in RP. revert us xss X2 X3 OR. induction RP as [|t1 t2 ts1 ts2 R RP IH]; intros us xss X2 X3 OR; inversion X2 as [|xs ? xss' ? S X2']; subst; inversion X3 as [|u ? us' ? H3 X3']; subst; inversion OR as [|? ? O OR']; subst.
      - split; constructor.
      - destruct (IH _ _ X2' X3' OR') as [I1 I2].
        destruct (rules_pass_lines w l al cs pays ts dir costs (ru_names _ _ P) JR rs (rules l) nodes (incl_refl _) (ru_rules _ _ P) RS) with (t := t1) (t' := t2) (xs := xs) (zs := @nil line) (base := t_postings t1) (more := @nil posting) as [SH SS]; auto.
        + clear -NN. induction NN as [|? ? ? ? (B & _) NN IH]; constructor; auto.
        + symmetry. apply app_nil_r.
        + split; [cbn [map]; constructor; auto|]. constructor; auto. destruct SH as (D & _ & _ & _ & De & _). destruct H3. split; congruence. }
    destruct Y as [Y1 Y2]. destruct H as [(e & v & E & SR)|(lg & imps' & E & EP & LR' & EC & EX)].
    + left. split; eauto. eapply stopped_lines; eauto.
    + right. destruct (run_lines w l skip _ ts2 run' (lg_txns lg) imps' nothing Y1 RZ' LR') as (Z1 & Z2 & Z3). split; auto.
      exists lg, al, ts, dir, costs. split; auto. split; [rewrite EP, EC; auto|]. split; [|split; [|split]].
      * clear -Y2 LR'. apply run_headers in LR'. revert us Y2. induction LR' as [|t t' ts ts' H F IH]; intros us Y2; inversion Y2 as [|? ? ? ? (D1 & D2) Y2']; subst; constructor; auto.
        2:{ apply IH. exact Y2'. } destruct H as (D & _ & _ & _ & De & _). split; congruence.
      * rewrite Z2, map_map. reflexivity.
      * intros t Ht. split; [apply (made_dated w lg Hw (made_plain _ _ _ _ Hp E)); auto|]. intros p Hi. eapply Z3; eauto.
      * exists sorted, run, ts1, imps, ts2, run', imps'. do 6 (split; auto).
Qed.

Lemma ruled_outcome w skip l us rs : world_ok w -> parsed w l -> ruled_journal w l -> date_sorted (journal_txns l) us -> Forall2 (rule_says w) (rules l) rs ->
  (~ all_in_order w l skip nothing us /\ exists e, to_ledger w skip l = Err e) \/
  (all_in_order w l skip nothing us /\ exists xss, Forall2 (txn_lines w l) us xss /\
     ((~ all_lines_in_order w l skip nothing (map (with_rules w l rs) xss) /\ exists e, to_ledger w skip l = Err e) \/
      (all_lines_in_order w l skip nothing (map (with_rules w l rs) xss) /\ exists lg al cs ts dir costs, to_ledger w skip l = Ok lg /\
         journal_read w l al cs (lg_payees lg) ts dir costs /\ same_heads us (lg_txns lg) /\
         ledger_lines (lg_txns lg) = map (fun xs => shown_lines (with_rules w l rs xs)) xss /\ whole_txns (lg_txns lg)))).
Proof.
  intros Hw Hp P DU RS. destruct (ruled_outcome_full w skip l us rs Hw Hp P DU RS) as [X|(A & xss & F & [X|(B & lg & al & ts & dir & costs & E & J & H1 & H2 & H3 & _)])]; auto.
  - right. split; auto. exists xss. auto.
  - right. split; auto. exists xss. split; auto. right. split; auto. exists lg, al, (lg_commodities lg), ts, dir, costs. auto.
Qed.

(** The lines name accounts of the journal. *)
Lemma lines_named w l rs t xs : In t (pl_txns l) -> Forall2 (rule_says w) (rules l) rs -> txn_lines w l t xs ->
  forall x, In x (with_rules w l rs xs) -> exists n, mentions_account l n /\ line_account x = account_meant w l n.
Proof.
  intros Ht RS [fills A _ _] x Hx.
  assert (WL : forall p, In p (t_postings t) -> In x (written_line w l p) -> exists n, mentions_account l n /\ line_account x = account_meant w l n).
  { intros p Hp H. unfold written_line, written_entry in H. destruct (rp_money p) as [[q k]|]; [|destruct H]. destruct H as [<-|[]]. exists (rp_account p). split; [exists t, p; auto|reflexivity]. }
  unfold with_rules in Hx. apply in_app_iff in Hx. destruct Hx as [Hx|Hx].
  - rewrite !in_app_iff in Hx. destruct Hx as [Hx|[Hx|Hx]].
    + apply in_flat_map in Hx. destruct Hx as (p & Hp & Hx). apply filter_In in Hp. eapply WL; eauto. apply Hp.
    + destruct (A x Hx) as (_ & p & Ep & E). exists (rp_account p). split; [exists t, p; split; auto|exact (f_equal snd E)].
      assert (In p (filter open_posting (t_postings t))) as I by (rewrite Ep; left; auto). apply filter_In in I. split; [apply I|auto].
    + apply in_flat_map in Hx. destruct Hx as (p & Hp & Hx). apply filter_In in Hp. eapply WL; eauto. apply Hp.
  - apply in_flat_map in Hx. destruct Hx as (r & Hr & Hx). unfold rule_adds in Hx. apply in_flat_map in Hx. destruct Hx as (y & _ & Hx).
    destruct (fst r (line_account y)); [|destruct Hx]. apply in_map_iff in Hx. destruct Hx as (ap & <- & Ha). exists (rp_account ap). split; [|reflexivity].
    assert (X : exists u, In u (rules l) /\ t_postings u = snd r).
    { clear -RS Hr. induction RS as [|u r0 ul rl (E & _) F IH]; destruct Hr; [subst r0; exists u; split; auto; left; auto|]. destruct IH as (v & V1 & V2); auto. exists v. split; auto. right. auto. }
    destruct X as (u & U1 & U2). unfold rules in U1. apply filter_In in U1. exists u, ap. split; [apply U1|]. rewrite U2. auto.
Qed.
Lemma ledger_named w o l rs us xss lg : date_sorted (journal_txns l) us -> Forall2 (rule_says w) (rules l) rs -> Forall2 (txn_lines w l) us xss ->
  ledger_lines (lg_txns lg) = map (fun xs => shown_lines (with_rules w l rs xs)) xss -> can_be_cut w o l ->
  forall d, o_depth o = Some d -> (1 <= d)%nat /\ forall t p, In t (lg_txns lg) -> In p (t_postings t) -> p_account p <> [] /\ ~ begins_with_colon (p_account p).
Proof.
  intros [PM _] RS F E C d Ed. destruct (C d Ed) as [C1 C2]. split; auto. intros t p Ht Hp.
  assert (I : In (map entry_of (t_postings t)) (ledger_lines (lg_txns lg))) by (unfold ledger_lines; apply (in_map (fun t => map entry_of (t_postings t))); auto).
  rewrite E in I. apply in_map_iff in I. destruct I as (xs & Ex & Hx).
  assert (U : exists u, In u (pl_txns l) /\ txn_lines w l u xs).
  { assert (X : exists u, In u us /\ txn_lines w l u xs).
    { clear -F Hx. induction F as [|u x us xss T F IH]; destruct Hx; [subst; exists u; split; auto; left; auto|]. destruct IH as (v & V1 & V2); auto. exists v. split; auto. right. auto. }
    destruct X as (u & U1 & U2). exists u. split; auto. assert (In u (journal_txns l)) as X by (eapply Permutation_in; [symmetry; exact PM|auto]). unfold journal_txns in X. apply filter_In in X. apply X. }
  destruct U as (u & U1 & U2). assert (IE : In (entry_of p) (shown_lines (with_rules w l rs xs))) by (rewrite Ex; apply in_map; auto).
  unfold shown_lines in IE. apply in_map_iff in IE. destruct IE as (x & X1 & X2).
  assert (X3 : In x (with_rules w l rs xs)) by (apply in_app_iff in X2; destruct X2 as [X2|X2]; apply filter_In in X2; apply X2).
  destruct (lines_named w l rs u xs U1 RS U2 x X3) as (n & N1 & N2). unfold line_account in N2. rewrite X1 in N2. cbn in N2. rewrite N2. auto.
Qed.
Lemma entries_total_same w l o rs us xss xss' P c : Forall2 (txn_lines w l) us xss -> Forall2 (txn_lines w l) us xss' ->
  entries_total o us (map (fun xs => shown_lines (with_rules w l rs xs)) xss) P c = entries_total o us (map (fun xs => shown_lines (with_rules w l rs xs)) xss') P c.
Proof.
  unfold entries_total. intros F. revert xss'. induction F as [|t xs us xss T F IH]; intros xss' F'; inversion F' as [|? xs' ? xss2 T' F2]; subst; [reflexivity|].
  cbn [map combine fst snd]. rewrite !qsum_cons, (IH xss2 F2). f_equal. destruct (in_window o t); auto. apply qsum_perm, Permutation_map. unfold shown_lines. apply Permutation_map.
  assert (PS : Permutation (with_rules w l rs xs) (with_rules w l rs xs')) by (apply perm_same, with_rules_same; eapply txn_lines_same; eauto). clear -PS.
  assert (FP : forall f : line -> bool, Permutation (filter f (with_rules w l rs xs)) (filter f (with_rules w l rs xs'))).
  { intros f. induction PS; cbn; auto; [destruct (f x); auto|destruct (f x), (f y); auto; constructor|eapply perm_trans; eauto]. }
  apply Permutation_app; auto.
Qed.

(** ** C84 *)
(** If the transactions are in order one after the other, without the rules and with the lines of the rules, the balance
    report shows what the lines add up to. *)
Theorem C84_balance : forall depth w o file l us rs xss A flat no_total, world_ok w -> file_parses depth w file l -> ruled_journal w l ->
  date_sorted (journal_txns l) us -> Forall2 (rule_says w) (rules l) rs -> Forall2 (txn_lines w l) us xss ->
  let skip := o_no_balance_check o in
  all_in_order w l skip nothing us -> all_lines_in_order w l skip nothing (map (with_rules w l rs) xss) ->
  asked_accounts w (o_query o) A -> o_exchange o = None -> (flat = true -> can_be_cut w o l) ->
  let total := fun P => entries_total o us (map (fun xs => shown_lines (with_rules w l rs xs)) xss) (fun n => A n && P n) in
  exists r lines, run_cmd depth w (CBalance flat no_total) o file = Ok lines /\ balance_printed r lines /\
    (if flat then flat_cut_shows o total r else tree_cut_shows o total r) /\ total_shows total (negb no_total) r.
Proof.
  intros depth w o file l us rs xss A flat nt Hw HF P DU RS FX skip IO LO HA OX HC total. pose proof (file_parsed _ _ _ _ HF) as Hp. apply file_parses_iff in HF.
  destruct (ruled_outcome w skip l us rs Hw Hp P DU RS) as [(N & _)|(_ & xss' & FX' & [(N & _)|(_ & lg & al & cs & ts & dir & costs & E & JR & SH & LL & WT)])]; [contradiction| |].
  { exfalso. apply N. exact (all_in_order_same w l skip _ _ (ruled_same w l rs us xss xss' FX FX') nothing nothing (fun _ _ => eq_refl) LO). }
  pose proof (made_plain _ _ _ _ Hp E) as M.
  destruct (shown_report w (report_site lg) o flat (negb nt) lg A Hw WT HA OX) as (r & Er).
  { intros Ef d Ed. eapply (ledger_named w o l rs us xss' lg); eauto. }
  destruct (C69_printed depth w o file l lg Hw HF E) as [HP _]. destruct (HP flat nt r Er) as (lines & L1 & L2). exists r, lines. do 2 (split; auto).
  apply (shown_balance w (report_site lg) o flat (negb nt) lg A r (entries_total o us (map (fun xs => shown_lines (with_rules w l rs xs)) xss))); auto.
  intros Q c. rewrite (counted_entries o us); auto. rewrite LL. eapply entries_total_same; eauto.
Qed.
Print Assumptions C84_balance.
(** The register shows the lines of the accounts asked for, in each transaction the real ones first, with what has been added up so far. *)
Theorem C84_register : forall depth w o file l us rs xss A, world_ok w -> file_parses depth w file l -> ruled_journal w l ->
  date_sorted (journal_txns l) us -> Forall2 (rule_says w) (rules l) rs -> Forall2 (txn_lines w l) us xss ->
  let skip := o_no_balance_check o in
  all_in_order w l skip nothing us -> all_lines_in_order w l skip nothing (map (with_rules w l rs) xss) ->
  asked_accounts w (o_query o) A ->
  exists rows groups xss', run_cmd depth w CRegister o file = Ok (concat groups) /\ Forall2 (entry_printed (w_width w)) rows groups /\
    Forall2 (txn_lines w l) us xss' /\ register_asked_shows w o l A us (map (fun xs => shown_lines (with_rules w l rs xs)) xss') rows.
Proof.
  intros depth w o file l us rs xss A Hw HF P DU RS FX skip IO LO HA. pose proof (file_parsed _ _ _ _ HF) as Hp. apply file_parses_iff in HF.
  destruct (ruled_outcome w skip l us rs Hw Hp P DU RS) as [(N & _)|(_ & xss' & FX' & [(N & _)|(_ & lg & al & cs & ts & dir & costs & E & JR & SH & LL & WT)])]; [contradiction| |].
  { exfalso. apply N. exact (all_in_order_same w l skip _ _ (ruled_same w l rs us xss xss' FX FX') nothing nothing (fun _ _ => eq_refl) LO). }
  pose proof (made_plain _ _ _ _ Hp E) as M. destruct (shown_rows w (report_site lg) o lg A Hw M WT HA) as (rows & R).
  destruct (C69_printed depth w o file l lg Hw HF E) as [_ HR]. destruct (HR rows R) as (groups & G1 & G2).
  exists rows, groups, xss'. do 3 (split; auto). rewrite <- LL. eapply shown_register; eauto.
Qed.
Print Assumptions C84_register.
(** Otherwise every command fails with status 1, wherever the order is broken; check looks at the balances in any case. *)
Theorem C84_refused : forall depth w c o file l us rs xss, world_ok w -> file_parses depth w file l -> ruled_journal w l ->
  date_sorted (journal_txns l) us -> Forall2 (rule_says w) (rules l) rs -> Forall2 (txn_lines w l) us xss ->
  let skip := match c with CCheck => false | _ => o_no_balance_check o end in
  (~ all_in_order w l skip nothing us \/ ~ all_lines_in_order w l skip nothing (map (with_rules w l rs) xss)) ->
  exit_status (run_cmd depth w c o file) = 1%Z.
Proof.
  intros depth w c o file l us rs xss Hw HF P DU RS FX skip N. pose proof (file_parsed _ _ _ _ HF) as Hp. apply file_parses_iff in HF.
  assert (E : exists e, to_ledger w skip l = Err e).
  { destruct (ruled_outcome w skip l us rs Hw Hp P DU RS) as [(_ & E)|(IO & xss' & FX' & [(_ & E)|(LO & _)])]; auto. destruct N as [N|N]; [contradiction|].
    exfalso. apply N. exact (all_in_order_same w l skip _ _ (ruled_same w l rs us xss' xss FX' FX) nothing nothing (fun _ _ => eq_refl) LO). }
  destruct E as (e & E). unfold run_cmd. rewrite HF. cbn [bind]. unfold run_on. destruct c; unfold skip in E; rewrite E; reflexivity.
Qed.
Print Assumptions C84_refused.
(** check accepts exactly the journals in order without the rules and with them. *)
Theorem C84_check : forall depth w o file l us rs xss, world_ok w -> file_parses depth w file l -> ruled_journal w l ->
  date_sorted (journal_txns l) us -> Forall2 (rule_says w) (rules l) rs -> Forall2 (txn_lines w l) us xss ->
  (exit_status (run_cmd depth w CCheck o file) = 0%Z <->
   all_in_order w l false nothing us /\ all_lines_in_order w l false nothing (map (with_rules w l rs) xss)).
Proof.
  intros depth w o file l us rs xss Hw HF P DU RS FX. pose proof (file_parsed _ _ _ _ HF) as Hp.
  pose proof (C84_refused depth w CCheck o file l us rs xss Hw HF P DU RS FX) as RF. cbn zeta in RF. apply file_parses_iff in HF. split.
  - intros H. destruct (ruled_outcome w false l us rs Hw Hp P DU RS) as [(N & _)|(IO & xss' & FX' & [(N & e & E)|(LO & _)])].
    + rewrite RF in H by auto. discriminate.
    + unfold run_cmd in H. rewrite HF in H. cbn [bind] in H. unfold run_on in H. rewrite E in H. discriminate.
    + split; auto. exact (all_in_order_same w l false _ _ (ruled_same w l rs us xss' xss FX' FX) nothing nothing (fun _ _ => eq_refl) LO).
  - intros [IO LO]. destruct (ruled_outcome w false l us rs Hw Hp P DU RS) as [(N & _)|(_ & xss' & FX' & [(N & _)|(_ & lg & al & cs & ts & dir & costs & E & _)])]; [contradiction| |].
    + exfalso. apply N. exact (all_in_order_same w l false _ _ (ruled_same w l rs us xss xss' FX FX') nothing nothing (fun _ _ => eq_refl) LO).
    + unfold run_cmd. rewrite HF. cbn [bind]. unfold run_on. rewrite E. reflexivity.
Qed.
Print Assumptions C84_check.
(** Every transaction has lines; so [xss] in the statements above always exists. *)
Definition its_commodities (w : world) (l : pledger) (t : txn rposting) : list str :=
  flat_map (fun p => map (fun m => commodity_meant w l (snd m)) (match rp_money p with Some m => [m] | None => [] end ++ match rp_cost p with Some m => [m] | None => [] end)) (t_postings t).
Lemma value_support w l k t c : kind_value w l k t c <> 0 -> In c (its_commodities w l t).
Proof.
  unfold kind_value, its_commodities. induction (t_postings t) as [|p ps IH]; cbn [map flat_map]; [intros H; exfalso; apply H; reflexivity|]. rewrite qsum_cons. intros H. apply in_app_iff.
  destruct (in_dec (list_eq_dec N.eq_dec) c (map (fun m => commodity_meant w l (snd m)) (match rp_money p with Some m => [m] | None => [] end ++ match rp_cost p with Some m => [m] | None => [] end))) as [I|I]; [left; exact I|right].
  apply IH. intros Z. apply H. rewrite Z. assert (X : written_value w l p c = 0); [|rewrite X; destruct (kind_eqb (rp_kind p) k); ring].
  unfold written_value. destruct (rp_money p) as [[q m]|]; [|reflexivity]. rewrite map_app, in_app_iff in I. cbn [map snd] in I.
  assert (W : forall y, ~ In c (map (fun m => commodity_meant w l (snd m)) [y]) -> written_in w l y c = 0).
  { intros y Hy. unfold written_in. destruct (str_eqb_spec (commodity_meant w l (snd y)) c) as [E|]; [|reflexivity]. exfalso. apply Hy. left. auto. }
  destruct (rp_cost p) as [y|].
  - rewrite (W y) by (intros X; apply I; right; exact X). destruct (rp_cost_type p) as [[]|]; destruct (qc_neg q); ring.
  - apply W. intros X. apply I. left. exact X.
Qed.
Theorem C84_lines_exist : forall w l us, exists xss, Forall2 (txn_lines w l) us xss.
Proof.
  intros w l us. induction us as [|t us (xss & IH)]; [exists []; constructor|].
  assert (X : exists xs, txn_lines w l t xs); [|destruct X as (xs & X); exists (xs :: xss); constructor; auto].
  destruct (filter open_posting (t_postings t)) as [|p [|p2 ps]] eqn:E.
  - eexists. apply (tl w l t []); [intros x []|constructor|]. intros q Eq. congruence.
  - set (cs := nodup (list_eq_dec N.eq_dec) (filter (fun c => negb (qc_eqb (kind_value w l Real t c) 0)) (its_commodities w l t))).
    assert (CS : forall c, In c cs <-> kind_value w l Real t c <> 0).
    { intros c. unfold cs. rewrite nodup_In, filter_In, negb_true_iff. split.
      - intros [_ Z] X. destruct (qc_eqb_spec (kind_value w l Real t c) 0); [discriminate|contradiction].
      - intros Z. split; [apply (value_support w l Real); auto|]. destruct (qc_eqb_spec (kind_value w l Real t c) 0); auto. contradiction. }
    eexists. apply (tl w l t (map (fun c => ((Real, account_meant w l (rp_account p), M (- kind_value w l Real t c) c), None)) cs)).
    + intros x Hx. apply in_map_iff in Hx. destruct Hx as (c & <- & _). split; auto. exists p. auto.
    + apply FinFun.Injective_map_NoDup; [|apply NoDup_nodup]. intros c d Ec. injection Ec as _ Ec. auto.
    + intros p' _ m. rewrite map_map, in_map_iff. split.
      * intros (c & <- & Hc). exists c. split; [apply CS; auto|reflexivity].
      * intros (c & Z & ->). exists c. split; [reflexivity|apply CS; auto].
  - eexists. apply (tl w l t []); [intros x []|constructor|]. intros q Eq. congruence.
Qed.
Print Assumptions C84_lines_exist.

(** ** Rules with postings in parentheses never break the order *)
Section Budget.
Context (w : world) (l : pledger) (skip : bool).
Lemma kind_sum_app k xs ys c : kind_sum w l k (xs ++ ys) c = kind_sum w l k xs c + kind_sum w l k ys c.
Proof. unfold kind_sum. rewrite map_app, qsum_app. auto. Qed.
Lemma kind_sum_zero k xs c : (forall x, In x xs -> kind_eqb (line_kind x) k = false) -> kind_sum w l k xs c = 0.
Proof.
  unfold kind_sum. induction xs as [|x xs IH]; intros H; [reflexivity|]. cbn [map]. rewrite qsum_cons, (H x) by (left; auto). rewrite IH by (intros; apply H; right; auto). ring.
Qed.
Lemma move_app xs ys a c : lines_move (xs ++ ys) a c = lines_move xs a c + lines_move ys a c.
Proof. unfold lines_move. rewrite map_app, qsum_app. auto. Qed.
Lemma move_zero xs a c : (forall x, In x xs -> real_line x = false) -> lines_move xs a c = 0.
Proof.
  unfold lines_move. induction xs as [|x xs IH]; intros H; [reflexivity|]. cbn [map]. rewrite qsum_cons, (H x) by (left; auto). rewrite IH by (intros; apply H; right; auto). cbn. ring.
Qed.
Lemma written_kind ps f x : In x (flat_map (written_line w l) (filter f ps)) -> exists p, In p ps /\ f p = true /\ line_kind x = rp_kind p.
Proof.
  intros H. apply in_flat_map in H. destruct H as (p & Hp & Hx). apply filter_In in Hp. exists p. split; [apply Hp|]. split; [apply Hp|].
  unfold written_line, written_entry in Hx. destruct (rp_money p) as [[q k]|]; [|destruct Hx]. destruct Hx as [<-|[]]. reflexivity.
Qed.
Lemma written_sum k f ps c : (forall p, kind_eqb (rp_kind p) k = true -> f p = true) ->
  kind_sum w l k (flat_map (written_line w l) (filter f ps)) c = qsum (map (fun p => if kind_eqb (rp_kind p) k then written_value w l p c else 0) ps).
Proof.
  intros H. induction ps as [|p ps IH]; [reflexivity|]. cbn [filter map]. rewrite qsum_cons, <- IH. destruct (f p) eqn:E.
  - cbn [flat_map]. rewrite kind_sum_app. f_equal. unfold written_line, written_entry. unfold written_value at 1. destruct (rp_money p) as [[q m]|] eqn:Em; cbn [map].
    + unfold kind_sum. cbn [map]. rewrite qsum_cons. change (qsum []) with 0. unfold line_kind, entry_kind, line_value. cbn [fst snd]. unfold written_value. rewrite Em. destruct (kind_eqb (rp_kind p) k); ring.
    + unfold kind_sum. cbn. destruct (kind_eqb (rp_kind p) k); reflexivity.
  - destruct (kind_eqb (rp_kind p) k) eqn:K; [|ring]. rewrite (H p K) in E. discriminate.
Qed.
Lemma fill_amounts t (fills : list line) : 
  (forall x, In x fills -> snd x = None /\ exists p, filter open_posting (t_postings t) = [p] /\ fst (fst x) = (Real, account_meant w l (rp_account p))) ->
  NoDup fills ->
  (forall p, filter open_posting (t_postings t) = [p] -> forall m, In m (map line_money fills) <-> exists c, kind_value w l Real t c <> 0 /\ m = M (- kind_value w l Real t c) c) ->
  forall p, filter open_posting (t_postings t) = [p] -> forall c, qsum (map (fun x => money_amt (line_money x) c) fills) = - kind_value w l Real t c.
Proof.
  intros A N I p Ep c. rewrite <- (fills_sum (fun k => - kind_value w l Real t k) c (map (fun x => Some (line_money x)) fills)).
  - rewrite map_map. reflexivity.
  - clear I. induction N as [|x fills NI N IH]; cbn; constructor; [|apply IH; intros; apply A; right; auto]. intros X. apply NI. apply in_map_iff in X. destruct X as (y & Ey & Hy).
    destruct (A x) as (E0 & p1 & P1 & E1); [left; auto|]. destruct (A y) as (F0 & p2 & P2 & F1); [right; auto|]. assert (p1 = p) by congruence. assert (p2 = p) by congruence. subst p1 p2.
    assert (y = x) as <-; auto. destruct x as [[xa xm] xb], y as [[ya ym] yb]. unfold line_money in Ey. cbn in E0, E1, F0, F1, Ey. injection Ey as ->. subst. auto.
  - intros x Hx. apply in_map_iff in Hx. destruct Hx as (y & <- & _). discriminate.
  - intros m. assert (X : In (Some m) (map (fun x => Some (line_money x)) fills) <-> In m (map line_money fills)).
    { rewrite !in_map_iff. split; intros (x & E & Hx); exists x; split; congruence. }
    rewrite X, (I p Ep). split.
    + intros (k & Z & ->). exists (- kind_value w l Real t k), k. split; auto. split; auto. intros Y. apply Z. apply (f_equal Qcopp) in Y. rewrite Qcopp_involutive in Y. rewrite Y. ring.
    + intros (a & k & -> & -> & Z). exists k. split; auto. intros Y. apply Z. rewrite Y. ring.
Qed.
Lemma still_blank now p : (rp_money p = None -> rp_balance p = None) -> rp_money p = None -> forall a c, after_posting w l skip now p a c = now a c.
Proof. intros NB E a c. unfold after_posting, moved. rewrite E, (NB E). destruct (_ && _); ring. Qed.
Lemma still_virtual now p : real_posting p = false -> forall a c, after_posting w l skip now p a c = now a c.
Proof. intros R a c. unfold after_posting. rewrite R. cbn. ring. Qed.
Lemma true_written ps : Forall (fun p => rp_money p = None -> rp_balance p = None) ps -> forall now now', (forall a c, now a c = now' a c) ->
  all_true w l skip now ps -> lines_true w l skip now' (flat_map (written_line w l) (filter real_posting ps)).
Proof.
  induction 1 as [|p ps NB F IH]; intros now now' N H; [exact I|]. destruct H as [H1 H2]. cbn [filter]. destruct (real_posting p) eqn:R.
  - cbn [flat_map]. unfold written_line at 1, written_entry. destruct (rp_money p) as [[q k]|] eqn:Em; cbn [map app].
    + set (x := ((rp_kind p, account_meant w l (rp_account p), M q (commodity_meant w l k)), Some p) : line).
      assert (AX : forall a c, after_line now' x a c = after_posting w l skip now p a c).
      { intros a c. unfold after_line, after_posting, real_line, line_kind, line_account, line_money, entry_kind, moved, its_account. cbn [fst snd x]. fold (real_posting p). rewrite R, Em, N. unfold written_in. cbn [fst snd money_amt]. reflexivity. }
      cbn [lines_true]. split; [|eapply IH; [|exact H2]; intros; symmetry; apply AX].
      intros _ Sk p' q' k' E B. injection E as <-. rewrite AX. specialize (H1 R Sk q' k' B). rewrite Em in H1. exact H1.
    + eapply IH; [|exact H2]. intros a c. rewrite <- N. apply still_blank; auto.
  - eapply IH; [|exact H2]. intros a c. rewrite <- N. apply still_virtual; auto.
Qed.
Lemma value_written ps : Forall (fun p => rp_money p = None -> rp_balance p = None) ps -> forall now c,
  value_sum w l skip now ps c = qsum (map (fun p => if kind_eqb (rp_kind p) Real then written_value w l p c else 0) ps).
Proof.
  induction 1 as [|p ps NB F IH]; intros now c; [reflexivity|]. cbn [value_sum map]. rewrite qsum_cons, IH. f_equal. fold (real_posting p). destruct (real_posting p); auto.
  unfold counts, written_value. destruct (rp_money p) eqn:E; auto. unfold moved. rewrite E, NB by auto. auto.
Qed.
Lemma given_written a ps : Forall (fun p => rp_money p = None -> rp_balance p = None) ps -> forall now c,
  given_adds w l skip (fun k => kind_eqb k Real) (str_eqb a) now ps c = lines_move (flat_map (written_line w l) (filter real_posting ps)) a c.
Proof.
  induction 1 as [|p ps NB F IH]; intros now c; [reflexivity|]. cbn [given_adds filter]. rewrite IH. rewrite (blank_open skip p NB). unfold open_posting. fold (real_posting p).
  destruct (real_posting p) eqn:R; cbn [andb]; [|ring]. cbn [flat_map]. rewrite move_app. f_equal. unfold written_line, written_entry. destruct (rp_money p) as [[q k]|] eqn:Em; cbn [map negb].
  - rewrite !andb_true_r. unfold lines_move. cbn [map]. rewrite qsum_cons. change (qsum []) with 0. unfold real_line, line_kind, line_account, line_money, entry_kind. cbn [fst snd]. fold (real_posting p). rewrite R. cbn [andb].
    fold (its_account w l p). unfold moved. rewrite Em. unfold written_in. cbn. destruct (str_eqb a (its_account w l p)); ring.
  - rewrite andb_false_r. reflexivity.
Qed.
Lemma budget_txn t rs xs now now' : Forall stated_posting (t_postings t) -> Forall (fun p => rp_money p = None -> rp_balance p = None) (t_postings t) ->
  (forall r ap, In r rs -> In ap (snd r) -> rp_kind ap = Virtual) -> txn_lines w l t xs -> (forall a c, now a c = now' a c) -> in_order_now w l skip now t ->
  lines_in_order w l skip now' (with_rules w l rs xs) /\ forall a c, after_lines now' (with_rules w l rs xs) a c = after_txn w l skip now t a c.
Proof.
  intros SP NB RV [fills A ND I] N (O1 & O2 & O3). unfold with_rules. set (W := flat_map (written_line w l) (filter real_posting (t_postings t))).
  set (V := flat_map (written_line w l) (filter (fun p => negb (real_posting p)) (t_postings t))). set (Y := flat_map (fun r => rule_adds w l r (W ++ fills ++ V)) rs).
  assert (KY : forall x, In x Y -> line_kind x = Virtual /\ snd x = None).
  { intros x Hx. apply in_flat_map in Hx. destruct Hx as (r & Hr & Hx). apply in_flat_map in Hx. destruct Hx as (z & _ & Hx). destruct (fst r (line_account z)); [|destruct Hx].
    apply in_map_iff in Hx. destruct Hx as (ap & <- & Ha). split; [apply (RV r ap); auto|reflexivity]. }
  assert (KV : forall x, In x V -> real_line x = false).
  { intros x Hx. apply written_kind in Hx. destruct Hx as (p & _ & R & K). unfold real_line. rewrite K. unfold real_posting in R. destruct (kind_eqb (rp_kind p) Real); auto; discriminate. }
  assert (KW : forall x, In x W -> line_kind x = Real).
  { intros x Hx. apply written_kind in Hx. destruct Hx as (p & _ & R & K). rewrite K. unfold real_posting in R. destruct (rp_kind p); auto; discriminate. }
  assert (KF : forall x, In x fills -> line_kind x = Real). { intros x Hx. destruct (A x Hx) as (_ & p & _ & E). exact (f_equal fst E). }
  assert (FB : filter (blank skip) (t_postings t) = filter open_posting (t_postings t)).
  { clear -NB. induction NB as [|p ps H F IH]; cbn; auto. rewrite (blank_open skip p H), IH. auto. }
  assert (SF : forall c, qsum (map (fun x => money_amt (line_money x) c) fills) = match filter open_posting (t_postings t) with [p] => - kind_value w l Real t c | _ => 0 end).
  { intros c. destruct (filter open_posting (t_postings t)) as [|p [|p2 ps]] eqn:E.
    - destruct fills as [|x f]; [reflexivity|]. destruct (A x) as (_ & p & X & _); [left; auto|]. discriminate.
    - apply (fill_amounts t fills) with (p := p); try rewrite E; auto.
    - destruct fills as [|x f]; [reflexivity|]. destruct (A x) as (_ & p0 & X & _); [left; auto|]. discriminate. }
  assert (SK : forall c, kind_sum w l Real fills c = qsum (map (fun x => money_amt (line_money x) c) fills)).
  { intros c. unfold kind_sum. f_equal. apply map_ext_in. intros x Hx. rewrite (KF x Hx). cbn. unfold line_value. replace (snd x) with (@None rposting) by (symmetry; apply (A x Hx)). auto. }
  split; [split; [|split]|].
  - eapply fine_ext; [|exact O1]. intros c. rewrite !kind_sum_app, (kind_sum_zero _ W), (kind_sum_zero _ fills), (kind_sum_zero _ Y).
    + unfold V. rewrite written_sum; [unfold kind_value; ring|]. intros p K. unfold real_posting. destruct (rp_kind p); auto; discriminate.
    + intros x Hx. rewrite (proj1 (KY x Hx)). auto.
    + intros x Hx. rewrite (KF x Hx). auto.
    + intros x Hx. rewrite (KW x Hx). auto.
  - rewrite <- !app_assoc. apply lines_true_app. split; [eapply true_written; eauto|]. apply lines_true_plain. intros x Hx R. rewrite !in_app_iff in Hx. destruct Hx as [Hx|[Hx|Hx]].
    + apply (A x Hx).
    + rewrite (KV x Hx) in R. discriminate.
    + apply (KY x Hx).
  - assert (E : forall c, kind_sum w l Real ((W ++ fills ++ V) ++ Y) c = kind_value w l Real t c + match filter open_posting (t_postings t) with [p] => - kind_value w l Real t c | _ => 0 end).
    { intros c. rewrite !kind_sum_app, (kind_sum_zero _ V), (kind_sum_zero _ Y), SK, SF.
      - unfold W. rewrite written_sum; [unfold kind_value; ring|]. intros p K. exact K.
      - intros x Hx. rewrite (proj1 (KY x Hx)). auto.
      - exact KV. }
    rewrite FB in O3. destruct (filter open_posting (t_postings t)) as [|p [|p2 ps]] eqn:EO; [| |contradiction].
    + eapply fine_ext; [|exact O3]. intros c. rewrite E, value_written by auto. unfold kind_value. ring.
    + left. intros c. rewrite E. ring.
  - intros a c. rewrite after_lines_move, <- N. unfold after_txn. f_equal. rewrite !move_app, (move_zero V), (move_zero Y).
    + unfold txn_adds_to. rewrite adds_split by auto. unfold W. rewrite (given_written a _ NB now).
      assert (VA : virtual_adds w l skip (fun k => kind_eqb k Real) (str_eqb a) (t_postings t) c = 0).
      { unfold virtual_adds. clear. induction (t_postings t) as [|p ps IH]; [reflexivity|]. cbn [filter]. unfold real_posting at 1. destruct (kind_eqb (rp_kind p) Real) eqn:K; cbn [negb]; auto.
        cbn [map]. rewrite qsum_cons, IH, K. cbn. ring. }
      rewrite VA. unfold blank_adds. rewrite FB in *. unfold rest_of. rewrite value_written by auto. fold (kind_value w l Real t c).
      assert (LF : lines_move fills a c = match filter open_posting (t_postings t) with [p] => if str_eqb a (its_account w l p) then - kind_value w l Real t c else 0 | _ => 0 end).
      { destruct (filter open_posting (t_postings t)) as [|p [|p2 ps]] eqn:EO; [| |contradiction].
        - destruct fills as [|x f]; [reflexivity|]. destruct (A x) as (_ & p & X & _); [left; auto|]. discriminate.
        - rewrite <- SF. assert (X : forall x, In x fills -> line_account x = its_account w l p). { intros x Hx. destruct (A x Hx) as (_ & p' & Ep & E). injection Ep as <-. exact (f_equal snd E). }
          unfold lines_move. clear -X KF. induction fills as [|x f IH]; [destruct (str_eqb a (its_account w l p)); reflexivity|]. cbn [map]. rewrite !qsum_cons, IH by (intros; (apply X || apply KF); right; auto).
          unfold real_line. rewrite (KF x), (X x) by (left; auto). cbn. destruct (str_eqb a (its_account w l p)); ring. }
      rewrite LF. destruct (filter open_posting (t_postings t)) as [|p [|p2 ps]] eqn:EO; [| |contradiction].
      * cbn. change (qsum []) with 0. ring.
      * cbn [map]. rewrite qsum_cons. change (qsum []) with 0. assert (RK : kind_eqb (rp_kind p) Real = true).
        { assert (In p (filter open_posting (t_postings t))) as X by (rewrite EO; left; auto). apply filter_In in X. destruct X as [_ X]. unfold open_posting in X. destruct (kind_eqb (rp_kind p) Real); auto. }
        rewrite RK. cbn [andb]. destruct (str_eqb a (its_account w l p)); ring.
    + intros x Hx. unfold real_line. rewrite (proj1 (KY x Hx)). auto.
    + exact KV.
Qed.
Lemma budget_all rs us : (forall r ap, In r rs -> In ap (snd r) -> rp_kind ap = Virtual) ->
  (forall t p, In t us -> In p (t_postings t) -> stated_posting p /\ (rp_money p = None -> rp_balance p = None)) -> forall xss, Forall2 (txn_lines w l) us xss ->
  forall now now', (forall a c, now a c = now' a c) -> all_in_order w l skip now us -> all_lines_in_order w l skip now' (map (with_rules w l rs) xss).
Proof.
  intros RV HP xss F. induction F as [|t xs us xss T F IH]; intros now now' N H; [exact I|]. destruct H as [H1 H2]. cbn [map all_lines_in_order].
  destruct (budget_txn t rs xs now now') as [B1 B2]; auto.
  - apply Forall_forall. intros p Hp. apply (HP t p); auto. left. auto.
  - apply Forall_forall. intros p Hp. apply (HP t p); auto. left. auto.
  - split; auto. apply (IH (fun t p Ht Hp => HP t p (or_intror Ht) Hp) _ _ (fun a c => eq_sym (B2 a c)) H2).
Qed.
End Budget.
(** If the postings of the rules are in parentheses, a journal with rules is accepted exactly if it is in order without them. *)
Theorem C84_budget : forall depth w o file l us rs, world_ok w -> file_parses depth w file l -> ruled_journal w l ->
  date_sorted (journal_txns l) us -> Forall2 (rule_says w) (rules l) rs ->
  (forall r p, In r (rules l) -> In p (t_postings r) -> rp_kind p = Virtual) ->
  (exit_status (run_cmd depth w CCheck o file) = 0%Z <-> all_in_order w l false nothing us) /\
  forall skip xss, Forall2 (txn_lines w l) us xss -> all_in_order w l skip nothing us -> all_lines_in_order w l skip nothing (map (with_rules w l rs) xss).
Proof.
  intros depth w o file l us rs Hw HF P DU RS RV.
  assert (B : forall skip xss, Forall2 (txn_lines w l) us xss -> all_in_order w l skip nothing us -> all_lines_in_order w l skip nothing (map (with_rules w l rs) xss)).
  { intros skip xss FX IO. apply (budget_all w l skip rs us) with (now := nothing); auto.
    - intros r ap Hr Ha. assert (X : exists u, In u (rules l) /\ t_postings u = snd r).
      { clear -RS Hr. induction RS as [|u r0 ul rl (E & _) F IH]; destruct Hr; [subst r0; exists u; split; auto; left; auto|]. destruct IH as (v & V1 & V2); auto. exists v. split; auto. right. auto. }
      destruct X as (u & U1 & U2). apply (RV u); auto. rewrite U2. auto.
    - intros t p Ht Hp. destruct DU as [PM _]. apply (ru_postings _ _ P t p); auto. eapply Permutation_in; [symmetry; exact PM|auto]. }
  split; auto. destruct (C84_lines_exist w l us) as (xss & FX). rewrite (C84_check depth w o file l us rs xss Hw HF P DU RS FX). split; [tauto|]. intros IO. split; auto.
Qed.
Print Assumptions C84_budget.

(** ** From the text *)
Theorem C84_from_the_text : forall d w o path s l us rs xss A, world_ok w -> blanks_not_numeric w ->
  w_read w path = Some s -> journal_written w pl_new l s -> ruled_journal w l ->
  date_sorted (journal_txns l) us -> Forall2 (rule_says w) (rules l) rs -> Forall2 (txn_lines w l) us xss -> asked_accounts w (o_query o) A ->
  let skip := o_no_balance_check o in
  let shown := map (fun xs => shown_lines (with_rules w l rs xs)) in
  let total := fun P => entries_total o us (shown xss) (fun n => A n && P n) in
  (all_in_order w l skip nothing us /\ all_lines_in_order w l skip nothing (map (with_rules w l rs) xss) ->
   (forall flat no_total, o_exchange o = None -> (flat = true -> can_be_cut w o l) ->
      exists r lines, run_cmd (S d) w (CBalance flat no_total) o path = Ok lines /\ balance_printed r lines /\
        (if flat then flat_cut_shows o total r else tree_cut_shows o total r) /\ total_shows total (negb no_total) r) /\
   exists rows groups xss', run_cmd (S d) w CRegister o path = Ok (concat groups) /\ Forall2 (entry_printed (w_width w)) rows groups /\
     Forall2 (txn_lines w l) us xss' /\ register_asked_shows w o l A us (shown xss') rows) /\
  (~ (all_in_order w l skip nothing us /\ all_lines_in_order w l skip nothing (map (with_rules w l rs) xss)) ->
   forall c, c <> CCheck -> exit_status (run_cmd (S d) w c o path) = 1%Z) /\
  (exit_status (run_cmd (S d) w CCheck o path) = 0%Z <->
   all_in_order w l false nothing us /\ all_lines_in_order w l false nothing (map (with_rules w l rs) xss)).
Proof.
  intros d w o path s l us rs xss A Hw Hb Hr J P DU RS FX HA skip shown total.
  assert (F : file_parses (S d) w path l) by (apply file_parses_iff; eapply C67_file_read_as_written; eauto).
  split; [|split].
  - intros [IO LO]. split; [intros flat nt OX HC; eapply C84_balance; eauto|eapply C84_register; eauto].
  - intros N c Hc. eapply C84_refused; eauto. assert (ES : (match c with CCheck => false | _ => o_no_balance_check o end) = skip) by (destruct c; auto; congruence). rewrite ES.
    destruct (ruled_outcome w skip l us rs Hw (file_parsed _ _ _ _ F) P DU RS) as [(X & _)|(IO & _)]; [left; exact X|right]. intros LO. apply N. auto.
  - eapply C84_check; eauto.
Qed.
Print Assumptions C84_from_the_text.

(** ** Journals that meet the hypotheses *)
Definition ruled_check (w : world) (l : pledger) : bool :=
  match rules l with [] => false | _ => true end &&
  forallb (fun t => forallb (fun p => is_none (rp_expr p) && (kind_eqb (rp_kind p) Real || negb (is_none (rp_money p))) && (negb (is_none (rp_money p)) || is_none (rp_balance p))) (t_postings t)) (journal_txns l) &&
  forallb (fun t => forallb (fun p => negb (is_none (rp_money p))) (t_postings t)) (rules l) &&
  forallb (fun t => forallb (fun p => match rp_money p, rp_cost p, rp_cost_type p with Some (q, _), Some _, Some PTotal => negb (qc_eqb q 0) | _, _, _ => true end) (t_postings t)) (pl_txns l) &&
  same_meaning w (account_meant w l) (used_accounts l) && same_meaning w (commodity_meant w l) (used_commodities l) &&
  forallb (fun a => match ac_payees a with [] => true | _ => false end) (l_values (pl_accounts l)).
Lemma ruled_check_ok w l : ruled_check w l = true -> ruled_journal w l.
Proof.
  intros H. unfold ruled_check in H. rewrite !andb_true_iff in H. destruct H as ((((((H0 & H1) & H2) & H3) & H4) & H5) & H6). rewrite forallb_forall in H1, H2, H3.
  assert (C : forall t p, In t (pl_txns l) -> In p (t_postings t) -> ~ zero_total_cost p).
  { intros t p Ht Hp. apply H3 in Ht. rewrite forallb_forall in Ht. apply Ht in Hp. intros (c & k & E1 & E2 & E3). rewrite E1, E2, E3 in Hp. discriminate. }
  constructor; auto.
  - destruct (rules l); discriminate.
  - intros t p Ht Hp. assert (Ht' : In t (pl_txns l)) by (unfold journal_txns in Ht; apply filter_In in Ht; apply Ht). pose proof (C t p Ht' Hp) as Z. apply H1 in Ht. rewrite forallb_forall in Ht. apply Ht in Hp. rewrite !andb_true_iff in Hp.
    destruct Hp as ((P1 & P2) & P3). split; [split; [destruct (rp_expr p); auto; discriminate|split; auto]|].
    + intros K E. rewrite E in P2. destruct (rp_kind p); try discriminate. congruence.
    + intros E. rewrite E in P3. destruct (rp_balance p); auto; discriminate.
  - intros t p Ht Hp. apply H2 in Ht. rewrite forallb_forall in Ht. apply Ht in Hp. destruct (rp_money p); discriminate.
  - constructor.
    + intros n m Hn Hm. apply (same_meaning_ok w _ (used_accounts l)); auto using used_account.
    + intros n m Hn Hm. apply (same_meaning_ok w _ (used_commodities l)); auto using used_commodity.
    + intros a Ha. rewrite forallb_forall in H6. apply H6 in Ha. destruct (ac_payees a); auto. discriminate.
Qed.
Definition w84 (t : list String.string) : world :=
  {| w_lower := ascii_lower; w_numeric := fun _ => false;
     w_rx := fun rx s => if starts_with (L "(?i)") rx then occurs (ascii_lower (skipn 4 rx)) (ascii_lower s) else occurs rx s;
     w_rx_ok := fun _ => true; w_width := None; w_read := fun p => if str_eqb p (L "book") then Some (text t) else None;
     w_glob := fun _ => None; w_two_timer := fun _ => None; w_now := 0%Z; w_ord := fun _ _ l => l |}.
Lemma w84_ok t : world_ok (w84 t).
Proof. split; [intros; apply Permutation_refl|exact ascii_lower_idem]. Qed.
Lemma word_of (s : str) : forallb (fun c => negb (c =? c_sp)%N && negb (c =? c_dq)%N && negb (c =? c_slash)%N) s = true -> word_written s s.
Proof.
  induction s as [|c s IH]; cbn [forallb]; intros H; [constructor|]. rewrite !andb_true_iff, !negb_true_iff, !N.eqb_neq in H. destruct H as (((H1 & H2) & H3) & H4). constructor; auto.
Qed.
(** A budget: what is spent on food is taken from the envelope, and each purchase of food costs an envelope; tips for drinks are real. *)
Definition t84 : list String.string :=
  ["= food"; "  (Budget:Food)  -1"; "  (Envelopes)  1 EUR"; "= expenses and /Drinks/"; "  Expenses:Tips  0.1"; "  Assets:Bank  -0.1";
   "2021-01-02 Shop"; "  Expenses:Food  10 EUR"; "  Expenses:Drinks  5 EUR"; "  Assets:Bank"; "2021-01-01 Opening"; "  Assets:Bank  50 EUR = 50 EUR"; "  Equity"]%string.
Definition l84 : pledger := get pl_new (tokenize_file 2 (w84 t84) (L "book")).
Definition us84 : list (txn rposting) := by_date (journal_txns l84).
Definition rule84 (l : pledger) (i : nat) : txn rposting := nth i (rules l) void83.
Definition rs84 : list ruling :=
  [(w_rx (w84 t84) (L "(?i)food"), t_postings (rule84 l84 0));
   ((fun n => w_rx (w84 t84) (L "(?i)expenses") n && w_rx (w84 t84) (L "Drinks") n), t_postings (rule84 l84 1))].
Lemma f84 : file_parses 2 (w84 t84) (L "book") l84.
Proof. apply file_parses_iff. vm_compute. reflexivity. Qed.
Lemma p84 : ruled_journal (w84 t84) l84.
Proof. apply ruled_check_ok. vm_compute. reflexivity. Qed.
Lemma d84 : date_sorted (journal_txns l84) us84.
Proof. apply by_date_sorted. exact (ruled_dated _ _ (file_parsed _ _ _ _ f84)). Qed.
Lemma two_of {A} (l : list A) d : length l = 2%nat -> l = [nth 0 l d; nth 1 l d].
Proof. destruct l as [|a [|b [|c l]]]; intros H; try discriminate. reflexivity. Qed.
Lemma r84 : Forall2 (rule_says (w84 t84)) (rules l84) rs84.
Proof.
  rewrite (two_of (rules l84) void83) by (vm_compute; reflexivity). fold (rule84 l84 0) (rule84 l84 1). constructor; [|constructor; [|constructor]].
  - split; [reflexivity|]. exists [L "food"]. split; [discriminate|]. split.
    + assert (E : t_desc (rule84 l84 0) = L " " ++ L "food" ++ []) by (vm_compute; reflexivity). rewrite E. constructor.
      * intros c [<-|[]]. reflexivity.
      * apply word_of. reflexivity.
      * constructor. intros c [].
      * congruence.
    + apply aa_one. apply PropAsk.plain_word; reflexivity.
  - split; [reflexivity|]. exists [L "expenses"; L "and"; L "/Drinks/"]. split; [discriminate|]. split.
    + assert (E : t_desc (rule84 l84 1) = L " " ++ L "expenses" ++ (L " " ++ L "and" ++ (L " " ++ L "/Drinks/" ++ []))) by (vm_compute; reflexivity). rewrite E.
      assert (SP : only_spaces (L " ")) by (intros c [<-|[]]; reflexivity).
      constructor; [exact SP|apply word_of; reflexivity| |intros _; eexists; reflexivity].
      constructor; [exact SP|apply word_of; reflexivity| |intros _; eexists; reflexivity].
      constructor; [exact SP| | |congruence].
      * apply (ww_regex (L "Drinks") [] []); [cbn; intuition discriminate|cbn; intuition discriminate|constructor].
      * constructor. intros c [].
    + apply aa_and; [apply PropAsk.plain_word; reflexivity|]. apply aw_regex; [reflexivity|]. split; [cbn; intuition discriminate|reflexivity].
Qed.
Lemma o84 xss : Forall2 (txn_lines (w84 t84) l84) us84 xss -> all_in_order (w84 t84) l84 false nothing us84 /\ all_lines_in_order (w84 t84) l84 false nothing (map (with_rules (w84 t84) l84 rs84) xss).
Proof. intros FX. apply (C84_check 2 (w84 t84) plain_opts (L "book") l84 us84 rs84 xss (w84_ok _) f84 p84 d84 r84 FX). vm_compute. reflexivity. Qed.
Example C84_case : world_ok (w84 t84) /\ file_parses 2 (w84 t84) (L "book") l84 /\ ruled_journal (w84 t84) l84 /\ date_sorted (journal_txns l84) us84 /\
  Forall2 (rule_says (w84 t84)) (rules l84) rs84 /\
  (exists xss, Forall2 (txn_lines (w84 t84) l84) us84 xss /\ all_in_order (w84 t84) l84 (o_no_balance_check plain_opts) nothing us84 /\
     all_lines_in_order (w84 t84) l84 (o_no_balance_check plain_opts) nothing (map (with_rules (w84 t84) l84 rs84) xss)) /\
  asked_accounts (w84 t84) (o_query plain_opts) (fun _ => true) /\ can_be_cut (w84 t84) plain_opts l84 /\
  run_cmd 2 (w84 t84) (CBalance true false) plain_opts (L "book") = Ok (map L
    ["           34.50 EUR  Assets:Bank"; "          -10.00 EUR  Budget:Food"; "            1.00 EUR  Envelopes"; "          -50.00 EUR  Equity";
     "            5.00 EUR  Expenses:Drinks"; "           10.00 EUR  Expenses:Food"; "            0.50 EUR  Expenses:Tips"; "--------------------"; "           -9.00 EUR"]%string) /\
  run_cmd 2 (w84 t84) CRegister (ask ["food"; "or"; "envelopes"]%string None) (L "book") = Ok (map L
    ["2021-01-02 Shop                                      Expenses:Food                             10.00 EUR        10.00 EUR";
     "                                                     (Budget:Food)                            -10.00 EUR                0";
     "                                                     (Envelopes)                                1.00 EUR         1.00 EUR"]%string).
Proof.
  split; [exact (w84_ok _)|]. split; [exact f84|]. split; [exact p84|]. split; [exact d84|]. split; [exact r84|]. split.
  { destruct (C84_lines_exist (w84 t84) l84 us84) as (xss & FX). exists xss. split; [exact FX|]. exact (o84 xss FX). }
  split; [apply aa_all|]. split; [intros d E; discriminate E|]. split; vm_compute; reflexivity.
Qed.
(** A rule with real postings makes a balance untrue: the journal is accepted without the rule and refused with it. *)
Definition t84b : list String.string :=
  ["= food"; "  Expenses:Fees  1 EUR"; "  Assets:Bank  -1 EUR";
   "2021-01-01 Opening"; "  Assets:Bank  50 EUR"; "  Equity"; "2021-01-02 Shop"; "  Expenses:Food  10 EUR"; "  Assets:Bank"; "2021-01-03 Shop"; "  Expenses:Food  10 EUR"; "  Assets:Bank  -10 EUR = 30 EUR"]%string.
Definition l84b : pledger := get pl_new (tokenize_file 2 (w84 t84b) (L "book")).
Definition us84b : list (txn rposting) := by_date (journal_txns l84b).
Definition rs84b : list ruling := [(w_rx (w84 t84b) (L "(?i)food"), t_postings (rule84 l84b 0))].
Lemma f84b : file_parses 2 (w84 t84b) (L "book") l84b.
Proof. apply file_parses_iff. vm_compute. reflexivity. Qed.
Lemma r84b : Forall2 (rule_says (w84 t84b)) (rules l84b) rs84b.
Proof.
  assert (E : rules l84b = [rule84 l84b 0]).
  { unfold rule84. assert (X : length (rules l84b) = 1%nat) by (vm_compute; reflexivity). destruct (rules l84b) as [|a [|b r]]; [discriminate X|reflexivity|discriminate X]. }
  rewrite E. constructor; [|constructor]. split; [reflexivity|]. exists [L "food"]. split; [discriminate|]. split.
  - assert (E' : t_desc (rule84 l84b 0) = L " " ++ L "food" ++ []) by (vm_compute; reflexivity). rewrite E'. constructor.
    + intros c [<-|[]]. reflexivity.
    + apply word_of. reflexivity.
    + constructor. intros c [].
    + congruence.
  - apply aa_one. apply PropAsk.plain_word; reflexivity.
Qed.
Example C84_refused_case : file_parses 2 (w84 t84b) (L "book") l84b /\ ruled_journal (w84 t84b) l84b /\ date_sorted (journal_txns l84b) us84b /\
  Forall2 (rule_says (w84 t84b)) (rules l84b) rs84b /\
  (forall xss, Forall2 (txn_lines (w84 t84b) l84b) us84b xss ->
     ~ all_in_order (w84 t84b) l84b false nothing us84b \/ ~ all_lines_in_order (w84 t84b) l84b false nothing (map (with_rules (w84 t84b) l84b rs84b) xss)) /\
  run_cmd 2 (w84 t84b) CCheck plain_opts (L "book") = Err (ELedger TransactionIsNotBalanced) /\
  run_cmd 2 (w84 (skipn 3 t84b)) CCheck plain_opts (L "book") = Ok (map L ["Input file book is OK"]%string).
Proof.
  assert (P : ruled_journal (w84 t84b) l84b) by (apply ruled_check_ok; vm_compute; reflexivity).
  assert (D : date_sorted (journal_txns l84b) us84b) by (apply by_date_sorted; exact (ruled_dated _ _ (file_parsed _ _ _ _ f84b))).
  assert (X : run_cmd 2 (w84 t84b) CCheck plain_opts (L "book") = Err (ELedger TransactionIsNotBalanced)) by (vm_compute; reflexivity).
  split; [exact f84b|]. split; [exact P|]. split; [exact D|]. split; [exact r84b|]. split; [|split; [exact X|vm_compute; reflexivity]].
  intros xss FX. pose proof (C84_check 2 (w84 t84b) plain_opts (L "book") l84b us84b rs84b xss (w84_ok _) f84b P D r84b FX) as C. rewrite X in C.
  destruct (ruled_outcome (w84 t84b) false l84b us84b rs84b (w84_ok _) (file_parsed _ _ _ _ f84b) P D r84b) as [(N & _)|(IO & _)]; [left; exact N|right].
  intros LO. destruct C as [_ C]. discriminate (C (conj IO LO)).
Qed.
(** A budget with postings in parentheses only. *)
Definition t84d : list String.string := ["= food"; "  (Budget)  -1"; "2021-01-02 Shop"; "  Expenses:Food  10 EUR"; "  Assets:Bank"]%string.
Definition l84d : pledger := get pl_new (tokenize_file 2 (w84 t84d) (L "book")).
Example C84_budget_case : file_parses 2 (w84 t84d) (L "book") l84d /\ ruled_journal (w84 t84d) l84d /\
  (forall r p, In r (rules l84d) -> In p (t_postings r) -> rp_kind p = Virtual) /\
  run_cmd 2 (w84 t84d) (CBalance true true) plain_opts (L "book") = Ok (map L ["          -10.00 EUR  Assets:Bank"; "          -10.00 EUR  Budget"; "           10.00 EUR  Expenses:Food"]%string).
Proof.
  split; [apply file_parses_iff; vm_compute; reflexivity|]. split; [apply ruled_check_ok; vm_compute; reflexivity|]. split; [|vm_compute; reflexivity].
  assert (X : forallb (fun r => forallb (fun p => kind_eqb (rp_kind p) Virtual) (t_postings r)) (rules l84d) = true) by (vm_compute; reflexivity).
  intros r p Hr Hp. rewrite forallb_forall in X. apply X in Hr. rewrite forallb_forall in Hr. apply Hr in Hp. destruct (rp_kind p); [discriminate Hp|reflexivity|discriminate Hp].
Qed.
(** Why balances instead of amounts are left out: with nothing missing to the balance, a rule with a number crashes the program. *)
Definition t84c : list String.string := ["= cash"; "  (Seen)  2"; "2021-01-01 Counted"; "  Assets:Cash  = 0 EUR"; "  Expenses:Lost"]%string.
Example C84_zero_crashes : run_cmd 2 (w84 t84c) CCheck plain_opts (L "book") = Panic PUnwrap.
Proof. vm_compute. reflexivity. Qed.
