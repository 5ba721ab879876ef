(** C97: the same bookings to other accounts. *)
From Coq Require Import Lia Sorting.Sorted.
From Verif Require Import Base BaseFacts Numerals Money Alist Comment Txn Expr Filter Price Tokens Ledger Reports App Spec MoneyFacts SpecList SpecTxn TxnFacts SpecLedger
  TokenFacts JournalFacts LedgerFacts LedgerFacts2 LedgerFacts3 PropAlist PropTxn PropLedger SpecQuery SpecExpr ExprFacts PropExpr PropQuery SpecReports ReportFacts ReportFacts2 ReportFacts3 PropReports PropApp
  SpecText SpecDates SpecTokens SpecJournal JournalRead PropJournal SpecLayout PropLayout SpecPrice PropPrice SpecBook BookFacts PropBook PropBook2 SpecAsk PropAsk
  SpecWords PropRuleQuery SpecAssert AssertFacts PropAssert SpecRules ShownFacts RuleFacts RuleFacts2 PropRules SpecExchange2 PropExchange2 PropAssert2 SpecAgree SpecRename.
From Verif Require PropJoin PropAgree PropScale.
Open Scope Qc_scope.

Section Moved.
  Context (f : str -> str) (w : world) (l l' : pledger) (AC : pl_commodities l' = pl_commodities l).
  Lemma mv_commodity : commodity_meant w l' = commodity_meant w l.
  Proof using AC. unfold commodity_meant. rewrite AC. auto. Qed.
  Lemma mv_written m c : written_in w l' m c = written_in w l m c.
  Proof using AC. unfold written_in. rewrite mv_commodity. auto. Qed.
  Lemma mv_value p p' c : posting_moved f w l l' p p' -> written_value w l' p' c = written_value w l p c.
  Proof using AC.
    intros [_ K M0 T C _]. unfold written_value. rewrite K, M0, T, C. destruct (rp_money p) as [[q n]|]; auto. destruct (rp_cost p), (rp_cost_type p) as [[]|]; rewrite ?mv_written; auto.
  Qed.
  Lemma mv_real p p' : posting_moved f w l l' p p' -> real_posting p' = real_posting p.
  Proof using Type. intros H. unfold real_posting. rewrite (pm_kind _ _ _ _ _ _ H). auto. Qed.
  Lemma mv_blank skip p p' : posting_moved f w l l' p p' -> blank skip p' = blank skip p.
  Proof using Type. intros H. unfold blank. rewrite (mv_real _ _ H), (pm_money _ _ _ _ _ _ H), (pm_balance _ _ _ _ _ _ H). auto. Qed.
  Lemma mv_blanks skip ps ps' : Forall2 (posting_moved f w l l') ps ps' -> Forall2 (posting_moved f w l l') (filter (blank skip) ps) (filter (blank skip) ps').
  Proof using Type. induction 1 as [|p p' ps ps' H F IH]; cbn [filter]; auto. rewrite (mv_blank skip _ _ H). destruct (blank skip p); auto. Qed.
  Lemma mv_kind k t t' c : txn_moved f w l l' t t' -> kind_value w l' k t' c = kind_value w l k t c.
  Proof using AC.
    intros (_ & F). unfold kind_value. induction F as [|p p' ps ps' H F IH]; auto. cbn [map]. rewrite !qsum_cons, IH, (pm_kind _ _ _ _ _ _ H), (mv_value _ _ _ H). auto.
  Qed.
  (** What the accounts hold, before and after; it matters only if accounts are kept apart. *)
  Definition linked (now now' : holdings) : Prop :=
    kept_apart f w l -> forall n c, mentions_account l n -> now' (f (account_meant w l n)) c = now (account_meant w l n) c.
  Definition good (p : rposting) : Prop := mentions_account l (rp_account p) /\ (kept_apart f w l \/ rp_balance p = None).
  Context (skip : bool).
  Lemma mv_moved now now' p p' c : linked now now' -> good p -> posting_moved f w l l' p p' -> moved w l' skip now' p' c = moved w l skip now p c.
  Proof using AC.
    intros LN (MA & OK) H. unfold moved. rewrite (pm_money _ _ _ _ _ _ H), (pm_balance _ _ _ _ _ _ H). destruct (rp_money p); [apply mv_written|].
    destruct (rp_balance p) as [b|]; auto. destruct skip; auto. rewrite mv_written. f_equal. unfold its_account. rewrite (pm_account _ _ _ _ _ _ H). destruct OK as [OK|OK]; [|discriminate]. apply LN; auto.
  Qed.
  Lemma mv_eqb n m : kept_apart f w l -> mentions_account l n -> mentions_account l m ->
    str_eqb (f (account_meant w l n)) (f (account_meant w l m)) = str_eqb (account_meant w l n) (account_meant w l m).
  Proof using Type.
    intros KA Hn Hm. destruct (str_eqb_spec (account_meant w l n) (account_meant w l m)) as [E|N]; [rewrite E; apply str_eqb_refl|].
    destruct (str_eqb_spec (f (account_meant w l n)) (f (account_meant w l m))) as [E|]; auto. exfalso. apply N. apply KA; auto.
  Qed.
  Lemma mv_after now now' p p' : linked now now' -> good p -> posting_moved f w l l' p p' -> linked (after_posting w l skip now p) (after_posting w l' skip now' p').
  Proof using AC.
    intros LN G H KA n c Hn. unfold after_posting. rewrite (mv_moved now now' p p' c), (mv_real _ _ H), (LN KA n c Hn) by auto. f_equal.
    assert (E : str_eqb (f (account_meant w l n)) (its_account w l' p') = str_eqb (account_meant w l n) (its_account w l p)).
    { unfold its_account. rewrite (pm_account _ _ _ _ _ _ H). apply mv_eqb; auto. apply G. }
    rewrite E. auto.
  Qed.
  Lemma mv_true now now' p p' : linked now now' -> good p -> posting_moved f w l l' p p' -> true_of w l' skip now' p' <-> true_of w l skip now p.
  Proof using AC.
    intros LN G H. unfold true_of. rewrite (mv_real _ _ H), (pm_balance _ _ _ _ _ _ H), (pm_money _ _ _ _ _ _ H).
    destruct (rp_balance p) as [b|] eqn:EB; [|split; intros _ _ _ q k E; discriminate]. destruct G as (MA & [KA|X]); [|congruence].
    assert (G : good p) by (split; auto). destruct (rp_money p) as [m|].
    - assert (E : forall k, after_posting w l' skip now' p' (its_account w l' p') (commodity_meant w l' k) = after_posting w l skip now p (its_account w l p) (commodity_meant w l k)).
      { intros k. rewrite mv_commodity. unfold its_account at 1. rewrite (pm_account _ _ _ _ _ _ H). apply (mv_after now now' p p' LN G H); auto. }
      split; intros X a b0 q k Eb; specialize (X a b0 q k Eb); [rewrite <- E|rewrite E]; auto.
    - assert (E : forall c, moved w l' skip now' p' c = moved w l skip now p c) by (intros c; apply mv_moved; auto).
      split; intros X a b0 q k Eb c d; specialize (X a b0 q k Eb c d); rewrite !E in *; auto.
  Qed.
  Lemma mv_all_true ps ps' : Forall2 (posting_moved f w l l') ps ps' -> Forall good ps -> forall now now', linked now now' ->
    all_true w l' skip now' ps' <-> all_true w l skip now ps.
  Proof using AC.
    induction 1 as [|p p' ps ps' H F IH]; intros G now now' LN; cbn; [tauto|]. inversion G as [|? ? G1 G2]; subst.
    rewrite (mv_true now now' p p' LN G1 H). rewrite (IH G2 (after_posting w l skip now p) (after_posting w l' skip now' p')); [tauto|]. apply mv_after; auto.
  Qed.
  Lemma mv_value_sum ps ps' : Forall2 (posting_moved f w l l') ps ps' -> Forall good ps -> forall now now', linked now now' -> forall c,
    value_sum w l' skip now' ps' c = value_sum w l skip now ps c.
  Proof using AC.
    induction 1 as [|p p' ps ps' H F IH]; intros G now now' LN c; cbn [value_sum]; auto. inversion G as [|? ? G1 G2]; subst.
    rewrite (IH G2 (after_posting w l skip now p) (after_posting w l' skip now' p')) by (apply mv_after; auto). f_equal. rewrite (mv_real _ _ H). destruct (real_posting p); auto.
    unfold counts. rewrite (pm_money _ _ _ _ _ _ H). destruct (rp_money p); [apply mv_value; auto|apply mv_moved; auto].
  Qed.
  Lemma mv_adds_to rest rest' K (P P' : str -> bool) ps ps' : (forall c, rest' c = rest c) -> (forall n, mentions_account l n -> P' (f (account_meant w l n)) = P (account_meant w l n)) ->
    Forall2 (posting_moved f w l l') ps ps' -> Forall good ps -> forall now now', linked now now' -> forall c,
    adds_to w l' skip rest' K P' now' ps' c = adds_to w l skip rest K P now ps c.
  Proof using AC.
    intros RE PE. induction 1 as [|p p' ps ps' H F IH]; intros G now now' LN c; cbn [adds_to]; auto. inversion G as [|? ? G1 G2]; subst.
    rewrite (IH G2 (after_posting w l skip now p) (after_posting w l' skip now' p')) by (apply mv_after; auto). f_equal.
    rewrite (pm_kind _ _ _ _ _ _ H), (mv_blank skip _ _ H), RE, (mv_moved now now' p p' c) by auto. unfold its_account. rewrite (pm_account _ _ _ _ _ _ H), PE; auto. apply G1.
  Qed.
  Lemma mv_txn_adds K (P P' : str -> bool) t t' now now' c : (forall n, mentions_account l n -> P' (f (account_meant w l n)) = P (account_meant w l n)) ->
    txn_moved f w l l' t t' -> Forall good (t_postings t) -> linked now now' ->
    txn_adds_to w l' skip K P' now' t' c = txn_adds_to w l skip K P now t c.
  Proof using AC.
    intros PE (_ & F) G LN. unfold txn_adds_to. apply mv_adds_to; auto. intros k. unfold rest_of. f_equal. apply mv_value_sum; auto.
  Qed.
  Lemma mv_after_txn t t' now now' : txn_moved f w l l' t t' -> Forall good (t_postings t) -> linked now now' -> linked (after_txn w l skip now t) (after_txn w l' skip now' t').
  Proof using AC.
    intros T G LN KA n c Hn. unfold after_txn. rewrite (LN KA n c Hn). f_equal. apply mv_txn_adds; auto. intros m Hm.
    apply mv_eqb; auto.
  Qed.
  Lemma fine_same (u v : str -> Qc) : (forall c, u c = v c) -> SpecTxn.fine u <-> SpecTxn.fine v.
  Proof using Type.
    intros E. unfold SpecTxn.fine, balanced, exchange. split; (intros [H|[(c & H1) (d & H2)]]; [left; intros c|right; split; [exists c|exists d]]); try (rewrite E || rewrite <- E); auto; rewrite <- E || rewrite E; auto.
  Qed.
  Lemma mv_in_order t t' now now' : txn_moved f w l l' t t' -> Forall good (t_postings t) -> linked now now' -> in_order_now w l' skip now' t' <-> in_order_now w l skip now t.
  Proof using AC.
    intros T G LN. unfold in_order_now. rewrite (fine_same _ _ (fun c => mv_kind VirtualMustBalance t t' c T)). rewrite (mv_all_true _ _ (proj2 T) G now now' LN).
    pose proof (mv_blanks skip _ _ (proj2 T)) as B. inversion B as [|a b x y H1 H2 E1 E2].
    - rewrite (fine_same _ _ (mv_value_sum _ _ (proj2 T) G now now' LN)). tauto.
    - inversion H2; tauto.
  Qed.
  Definition all_good (us : list (txn rposting)) : Prop := Forall (fun t => Forall good (t_postings t)) us.
  Lemma mv_all_in_order us us' : Forall2 (txn_moved f w l l') us us' -> all_good us -> forall now now', linked now now' ->
    all_in_order w l' skip now' us' <-> all_in_order w l skip now us.
  Proof using AC.
    induction 1 as [|t t' us us' H F IH]; intros G now now' LN; cbn; [tauto|]. inversion G as [|? ? G1 G2]; subst.
    rewrite (mv_in_order t t' now now' H G1 LN), (IH G2 (after_txn w l skip now t) (after_txn w l' skip now' t')); [tauto|]. apply mv_after_txn; auto.
  Qed.
  Lemma mv_total o o' (A A' P P' : str -> bool) us us' : same_question f w l A A' o o' -> (forall n, mentions_account l n -> P' (f (account_meant w l n)) = P (account_meant w l n)) ->
    Forall2 (txn_moved f w l l') us us' -> all_good us -> forall now now', linked now now' -> forall c,
    total_added w l' skip o' (fun n => A' n && P' n) now' us' c = total_added w l skip o (fun n => A n && P n) now us c.
  Proof using AC.
    intros SQ PE. induction 1 as [|t t' us us' H F IH]; intros G now now' LN c; cbn [total_added]; auto. inversion G as [|? ? G1 G2]; subst.
    rewrite (IH G2 (after_txn w l skip now t) (after_txn w l' skip now' t')) by (apply mv_after_txn; auto). f_equal.
    assert (E : in_window o' t' = in_window o t) by (unfold in_window; rewrite (proj1 H), (sq_begin _ _ _ _ _ _ _ SQ), (sq_end _ _ _ _ _ _ _ SQ); auto). rewrite E. destruct (in_window o t); auto.
    assert (EK : asked_for o' = asked_for o) by (unfold asked_for; rewrite (sq_real _ _ _ _ _ _ _ SQ); auto). rewrite EK. apply mv_txn_adds; auto.
    intros n Hn. rewrite (sq_accounts _ _ _ _ _ _ _ SQ n Hn), PE; auto.
  Qed.
End Moved.

(** ** The reports *)
Lemma total_none w l skip o us (P : str -> bool) : (forall n, P n = false) -> forall now c, total_added w l skip o P now us c = 0.
Proof.
  intros Z. assert (Y : forall rest K ps now c, adds_to w l skip rest K P now ps c = 0).
  { intros rest K ps. induction ps as [|p ps IH]; intros now c; cbn [adds_to]; auto. rewrite IH, Z, Bool.andb_false_r. ring. }
  induction us as [|t us IH]; intros now c; cbn [total_added]; auto. rewrite IH. unfold txn_adds_to. rewrite Y. destruct (in_window o t); ring.
Qed.
(** Only the accounts of the journal matter. *)
Lemma total_same w l skip o A us (P Q : str -> bool) c : incl us (pl_txns l) -> (forall n, mentions_account l n -> P (account_meant w l n) = Q (account_meant w l n)) ->
  total_added w l skip o (fun n => A n && P n) nothing us c = total_added w l skip o (fun n => A n && Q n) nothing us c.
Proof.
  intros I E. apply (mv_total (fun a => a) w l l eq_refl skip o o A A Q P us us); auto.
  - constructor; auto.
  - clear. induction us as [|t us IH]; constructor; auto. split; auto. induction (t_postings t) as [|p ps IHp]; constructor; auto. constructor; auto.
  - apply Forall_forall. intros t Ht. apply Forall_forall. intros p Hp. split; [exists t, p; auto|]. left. intros n m _ _ H. exact H.
  - intros _ n d _. reflexivity.
Qed.
(** An account with an amount is one of the journal. *)
Lemma total_account w l skip o A us a c : incl us (pl_txns l) -> total_added w l skip o (fun n => A n && str_eqb n a) nothing us c <> 0 -> exists n, mentions_account l n /\ a = account_meant w l n.
Proof.
  intros I H. set (names := flat_map (fun t => map (fun p => rp_account p) (t_postings t)) (pl_txns l)).
  destruct (in_dec PropAgree.str_dec a (map (account_meant w l) names)) as [Hi|Hn].
  - apply in_map_iff in Hi as (n & <- & Hi). exists n. split; auto. unfold names in Hi. apply in_flat_map in Hi as (t & Ht & Hp). apply in_map_iff in Hp as (p & <- & Hp). exists t, p. auto.
  - exfalso. apply H. rewrite (total_same w l skip o A us _ (fun _ => false) c I).
    + apply total_none. intros n. apply Bool.andb_false_r.
    + intros n (t & p & Ht & Hp & <-). destruct (str_eqb_spec (account_meant w l (rp_account p)) a) as [<-|]; auto. exfalso. apply Hn. apply in_map. apply in_flat_map. exists t. split; auto. apply in_map with (f := fun q => rp_account q). auto.
Qed.
(** The flat report of a journal with stated balances, with what it shows for any set of accounts. *)
Lemma stated_flat depth w o file l us nt A : world_ok w -> file_parses depth w file l -> stated_journal w l -> date_sorted (pl_txns l) us ->
  all_in_order w l (o_no_balance_check o) nothing us -> asked_accounts w (o_query o) A -> o_exchange o = None -> o_depth o = None ->
  let total := fun P => total_added w l (o_no_balance_check o) o (fun n => A n && P n) nothing us in
  exists r lines, run_cmd depth w (CBalance true nt) o file = Ok lines /\ balance_printed r lines /\
    flat_cut_shows o total r /\ total_shows total (negb nt) r /\ forall P c, shown_for r P c = total P c.
Proof.
  intros Hw HF P DU IO HA OX ND total. pose proof (file_parsed _ _ _ _ HF) as Hp. apply file_parses_iff in HF.
  destruct (stated_outcome w (o_no_balance_check o) l us Hw Hp P DU) as [(_ & lg & E & B)|(N & _)]; [|contradiction]. pose proof (made_plain _ _ _ _ Hp E) as M.
  destruct (shown_report w (report_site lg) o true (negb nt) lg A Hw (stated_whole _ _ _ _ Hw Hp P E B) HA OX) as (r & Er); [intros _ d Ed; congruence|].
  destruct (C69_printed depth w o file l lg Hw HF E) as [HP _]. destruct (HP true nt r Er) as (lines & L1 & L2). exists r, lines. do 2 (split; auto).
  assert (TT : forall Q c, qsum (map (txn_counted (asked_for o) Q c) (filter (window_of o) (lg_txns lg))) = total_added w l (o_no_balance_check o) o Q nothing us c)
    by (intros Q c; apply (stated_totals w l (o_no_balance_check o) lg us); auto).
  destruct (shown_balance w (report_site lg) o true (negb nt) lg A r (fun P => total_added w l (o_no_balance_check o) o P nothing us) Hw M HA OX TT Er) as [F T].
  do 2 (split; auto). intros Q c. destruct (asked_node w o A HA) as (q0 & Q0 & AN). destruct (PropAgree.flat_shown _ _ _ _ _ _ Hw M OX Er) as (q & tps & Q1 & R & FS).
  assert (q = q0) by congruence. subst q. rewrite (FS (fun n => n) Q c) by (intros n; rewrite ND; auto). unfold total. rewrite <- TT. eapply reported_asked_totals; eauto.
Qed.
Lemma cut_none o : o_depth o = None -> cut_to_depth o (fun n => n).
Proof. intros E n. rewrite E. auto. Qed.

Section Reports.
  Context (f : str -> str) (depth : nat) (w : world) (file file' : str) (l l' : pledger).
  Context (Hw : world_ok w) (HF : file_parses depth w file l) (HF' : file_parses depth w file' l') (SJ : stated_journal w l) (SJ' : stated_journal w l').
  Context (AM : accounts_moved f w l l') (OK : kept_apart f w l \/ states_no_balance l).
  Lemma both_sorted us us' : date_sorted (pl_txns l) us -> date_sorted (pl_txns l') us' -> Forall2 (txn_moved f w l l') us us'.
  Proof using HF SJ AM.
    intros D D'. apply (sort_related (txn_moved f w l l') (pl_txns l) us (pl_txns l') us'); auto; [intros u t (H & _); auto|apply AM|]. exact (stated_dated _ _ (file_parsed _ _ _ _ HF) SJ).
  Qed.
  Lemma sorted_good us : date_sorted (pl_txns l) us -> all_good f w l us.
  Proof using OK.
    intros (P & _). apply Forall_forall. intros t Ht. apply Forall_forall. intros p Hp. apply (Permutation_in _ (Permutation_sym P)) in Ht. split; [exists t, p; auto|].
    destruct OK as [K|K]; auto. right. apply (K t p); auto.
  Qed.
  Lemma start_linked : linked f w l nothing nothing.
  Proof using Type. intros _ n c _. reflexivity. Qed.
  Lemma sorted_of : date_sorted (pl_txns l) (by_date (pl_txns l)).
  Proof using HF SJ. apply by_date_sorted. exact (stated_dated _ _ (file_parsed _ _ _ _ HF) SJ). Qed.
  Lemma sorted_of' : date_sorted (pl_txns l') (by_date (pl_txns l')).
  Proof using HF' SJ'. apply by_date_sorted. exact (stated_dated _ _ (file_parsed _ _ _ _ HF') SJ'). Qed.
  Lemma both_in_order skip us us' : date_sorted (pl_txns l) us -> date_sorted (pl_txns l') us' -> all_in_order w l' skip nothing us' <-> all_in_order w l skip nothing us.
  Proof using HF SJ AM OK. intros D D'. apply (mv_all_in_order f w l l' (am_commodities _ _ _ _ AM) skip us us' (both_sorted us us' D D') (sorted_good us D)). apply start_linked. Qed.
  Lemma both_total skip o o' A A' (P P' : str -> bool) us us' c : same_question f w l A A' o o' -> (forall n, P' (f n) = P n) ->
    date_sorted (pl_txns l) us -> date_sorted (pl_txns l') us' ->
    total_added w l' skip o' (fun n => A' n && P' n) nothing us' c = total_added w l skip o (fun n => A n && P n) nothing us c.
  Proof using HF SJ AM OK.
    intros SQ PE D D'. apply (mv_total f w l l' (am_commodities _ _ _ _ AM) skip o o' A A' P P' us us' SQ); auto; [apply both_sorted; auto|apply sorted_good; auto|apply start_linked].
  Qed.
End Reports.

Theorem C97_check : forall f depth w o file file' l l', world_ok w -> file_parses depth w file l -> file_parses depth w file' l' ->
  stated_journal w l -> stated_journal w l' -> accounts_moved f w l l' -> kept_apart f w l \/ states_no_balance l ->
  (exit_status (run_cmd depth w CCheck o file') = 0%Z <-> exit_status (run_cmd depth w CCheck o file) = 0%Z).
Proof.
  intros f depth w o file file' l l' Hw HF HF' SJ SJ' AM OK. pose proof (sorted_of depth w file l HF SJ) as D. pose proof (sorted_of depth w file' l' HF' SJ') as D'.
  rewrite (C83_check depth w o file' l' _ Hw HF' SJ' D'), (C83_check depth w o file l _ Hw HF SJ D). eapply both_in_order; eauto.
Qed.
Print Assumptions C97_check.

(** Flat balance: the row of an account shows what the rows of all accounts that became it showed. *)
Theorem C97_balance : forall f depth w o o' file file' l l' no_total A A', world_ok w -> file_parses depth w file l -> file_parses depth w file' l' ->
  stated_journal w l -> stated_journal w l' -> accounts_moved f w l l' -> kept_apart f w l \/ states_no_balance l ->
  exit_status (run_cmd depth w (CBalance true no_total) o file) = 0%Z ->
  asked_accounts w (o_query o) A -> asked_accounts w (o_query o') A' -> same_question f w l A A' o o' ->
  o_exchange o = None -> o_exchange o' = None -> o_depth o = None -> o_depth o' = None ->
  exists r r' lines lines', run_cmd depth w (CBalance true no_total) o file = Ok lines /\ balance_printed r lines /\
    run_cmd depth w (CBalance true no_total) o' file' = Ok lines' /\ balance_printed r' lines' /\
    ascending (map br_label (bp_rows r')) /\
    (forall row, In row (bp_rows r') -> shown_amounts (br_moneys row) /\ br_moneys row <> [] /\
       forall c, moneys_amt (br_moneys row) c = shown_for r (fun a => str_eqb (f a) (br_label row)) c) /\
    (forall b c, shown_for r (fun a => str_eqb (f a) b) c <> 0 -> In b (map br_label (bp_rows r'))) /\
    (bp_total r' <> None <-> no_total = false /\ (2 <= length (bp_rows r'))%nat) /\
    (forall ms c, bp_total r' = Some ms -> moneys_amt ms c = shown_for r (fun _ => true) c) /\
    (kept_apart f w l ->
       Permutation (map br_label (bp_rows r')) (map (fun row => f (br_label row)) (bp_rows r)) /\
       forall row row', In row (bp_rows r) -> In row' (bp_rows r') -> br_label row' = f (br_label row) -> forall c, moneys_amt (br_moneys row') c = moneys_amt (br_moneys row) c).
Proof.
  intros f depth w o o' file file' l l' nt A A' Hw HF HF' SJ SJ' AM OK RUN HA HA' SQ OX OX' ND ND'.
  pose proof (sorted_of depth w file l HF SJ) as D. pose proof (sorted_of depth w file' l' HF' SJ') as D'.
  pose proof (order_of_run _ _ _ _ _ _ _ Hw HF SJ D RUN) as IO. cbn beta iota in IO.
  assert (IO' : all_in_order w l' (o_no_balance_check o') nothing (by_date (pl_txns l'))).
  { rewrite (sq_check _ _ _ _ _ _ _ SQ). apply (both_in_order f depth w file l l' HF SJ AM OK _ _ _ D D'). exact IO. }
  destruct (stated_flat depth w o file l _ nt A Hw HF SJ D IO HA OX ND) as (r & lines & R1 & R2 & R3 & R4 & R5).
  destruct (stated_flat depth w o' file' l' _ nt A' Hw HF' SJ' D' IO' HA' OX' ND') as (r' & lines' & S1 & S2 & S3 & S4 & S5).
  exists r, r', lines, lines'. do 4 (split; auto).
  assert (T : forall (P P' : str -> bool) c, (forall n, P' (f n) = P n) ->
    total_added w l' (o_no_balance_check o') o' (fun n => A' n && P' n) nothing (by_date (pl_txns l')) c = shown_for r P c).
  { intros P P' c PE. rewrite R5, (sq_check _ _ _ _ _ _ _ SQ). eapply both_total; eauto. }
  destruct S3 as [S3 S6]. destruct (S6 _ (cut_none o' ND')) as [S7 S8]. clear S6. split; auto. split; [|split; [|split; [|split]]].
  - intros row Hi. destruct (S7 row Hi) as (X1 & X2 & X3). do 2 (split; auto). intros c. rewrite X3. apply T. auto.
  - intros b c H. apply (S8 b c). rewrite (T (fun a => str_eqb (f a) b)); auto.
  - destruct S4 as [S4 _]. rewrite S4. destruct nt; cbn; intuition congruence.
  - intros ms c E. destruct S4 as [_ S4]. destruct (S4 ms E) as [_ ->]. apply T. auto.
  - intros KA. destruct R3 as [R3 R6]. destruct (R6 _ (cut_none o ND)) as [R7 R8]. clear R6.
    assert (IU : incl (by_date (pl_txns l)) (pl_txns l)) by (intros t Ht; destruct D as (PM & _); apply (Permutation_in _ (Permutation_sym PM)); exact Ht).
    assert (LB : forall row, In row (bp_rows r) -> exists n, mentions_account l n /\ br_label row = account_meant w l n).
    { intros row Hi. destruct (R7 row Hi) as (X1 & X2 & X3). destruct (PropJoin.shown_something _ X1 X2) as (c & Hc). rewrite X3 in Hc. eapply total_account; [exact IU|exact Hc]. }
    assert (V : forall n c, mentions_account l n -> total_added w l' (o_no_balance_check o') o' (fun m => A' m && str_eqb m (f (account_meant w l n))) nothing (by_date (pl_txns l')) c =
      total_added w l (o_no_balance_check o) o (fun m => A m && str_eqb m (account_meant w l n)) nothing (by_date (pl_txns l)) c).
    { intros n c Hn. rewrite (sq_check _ _ _ _ _ _ _ SQ).
      apply (mv_total f w l l' (am_commodities _ _ _ _ AM) (o_no_balance_check o) o o' A A' (fun m => str_eqb m (account_meant w l n)) (fun m => str_eqb m (f (account_meant w l n)))); auto.
      - intros m Hm. apply (mv_eqb f w l m n); auto.
      - eapply both_sorted; eauto.
      - eapply sorted_good; eauto.
      - apply start_linked. }
    split.
    + apply NoDup_Permutation.
      * apply ascending_NoDup. auto.
      * assert (ND1 : NoDup (map br_label (bp_rows r))) by (apply ascending_NoDup; auto). clear -KA LB ND1.
        induction (bp_rows r) as [|row rows IH]; cbn [map]; constructor; [|apply IH; [intros x Hx; apply LB; right; auto|inversion ND1; auto]].
        intros H. apply in_map_iff in H as (x & E & Hx). cbn [map] in ND1. inversion ND1 as [|? ? N1 _]; subst. apply N1. apply in_map_iff. exists x. split; auto.
        destruct (LB row (or_introl eq_refl)) as (n & Hn & En), (LB x (or_intror Hx)) as (m & Hm & Em). rewrite En, Em in *. apply KA; auto.
      * intros b. split.
        -- intros H. destruct (PropJoin.label_row _ _ H) as (row' & Hi & <-). destruct (S7 row' Hi) as (X1 & X2 & X3). destruct (PropJoin.shown_something _ X1 X2) as (c & Hc). rewrite X3 in Hc.
           assert (IU' : incl (by_date (pl_txns l')) (pl_txns l')) by (intros t Ht; destruct D' as (PM & _); apply (Permutation_in _ (Permutation_sym PM)); exact Ht).
           destruct (total_account w l' _ _ _ _ _ c IU' Hc) as (n' & (t' & p' & Ht & Hp & <-) & En).
           assert (EN : exists n, mentions_account l n /\ account_meant w l' (rp_account p') = f (account_meant w l n)).
           { pose proof (am_txns _ _ _ _ AM) as FT. destruct (PropScale.in_pairs _ _ _ _ FT Ht) as (t & Ht0 & (_ & FP)). destruct (PropScale.in_pairs _ _ _ _ FP Hp) as (p & Hp0 & PM). exists (rp_account p). split; [exists t, p; auto|apply PM]. }
           destruct EN as (n & Hn & EN). rewrite En, EN in *. rewrite V in Hc by auto. apply R8 in Hc. destruct (PropJoin.label_row _ _ Hc) as (row & Hr & Er). apply in_map_iff. exists row. rewrite Er. auto.
        -- intros H. apply in_map_iff in H as (row & <- & Hi). destruct (LB row Hi) as (n & Hn & En). destruct (R7 row Hi) as (X1 & X2 & X3). destruct (PropJoin.shown_something _ X1 X2) as (c & Hc).
           apply (S8 _ c). rewrite En, V by auto. rewrite <- En, <- X3. auto.
    + intros row row' Hi Hi' E c. destruct (LB row Hi) as (n & Hn & En). destruct (R7 row Hi) as (_ & _ & ->). destruct (S7 row' Hi') as (_ & _ & ->). rewrite E, En. apply V. auto.
Qed.
Print Assumptions C97_balance.

(** The tree: a row shows what the rows of the accounts moved below it showed in the flat report. *)
Theorem C97_tree : forall f depth w o o' file file' l l' no_total A A', world_ok w -> file_parses depth w file l -> file_parses depth w file' l' ->
  stated_journal w l -> stated_journal w l' -> accounts_moved f w l l' -> kept_apart f w l \/ states_no_balance l ->
  exit_status (run_cmd depth w (CBalance true no_total) o file) = 0%Z ->
  asked_accounts w (o_query o) A -> asked_accounts w (o_query o') A' -> same_question f w l A A' o o' ->
  o_exchange o = None -> o_exchange o' = None -> o_depth o = None ->
  exists r r' lines lines', run_cmd depth w (CBalance true no_total) o file = Ok lines /\ balance_printed r lines /\
    run_cmd depth w (CBalance false no_total) o' file' = Ok lines' /\ balance_printed r' lines' /\
    (exists accs, ascending accs /\
       Forall2 (fun a row => br_indent row = levels a /\ (exists part more, own_part a part /\ br_label row = part ++ more) /\
         (forall d, o_depth o' = Some d -> (levels a <= d)%nat) /\ shown_amounts (br_moneys row) /\ br_moneys row <> [] /\
         (~ begins_with_colon a -> forall c, moneys_amt (br_moneys row) c = shown_for r (fun n => inside a (f n)) c)) accs (bp_rows r')) /\
    forall ms c, bp_total r' = Some ms -> moneys_amt ms c = shown_for r (fun _ => true) c.
Proof.
  intros f depth w o o' file file' l l' nt A A' Hw HF HF' SJ SJ' AM OK RUN HA HA' SQ OX OX' ND.
  pose proof (sorted_of depth w file l HF SJ) as D. pose proof (sorted_of depth w file' l' HF' SJ') as D'.
  pose proof (order_of_run _ _ _ _ _ _ _ Hw HF SJ D RUN) as IO. cbn beta iota in IO.
  assert (IO' : all_in_order w l' (o_no_balance_check o') nothing (by_date (pl_txns l'))).
  { rewrite (sq_check _ _ _ _ _ _ _ SQ). apply (both_in_order f depth w file l l' HF SJ AM OK _ _ _ D D'). exact IO. }
  destruct (stated_flat depth w o file l _ nt A Hw HF SJ D IO HA OX ND) as (r & lines & R1 & R2 & R3 & R4 & R5).
  destruct (C83_asked_balance depth w o' file' l' _ false nt A' Hw HF' SJ' D' IO' HA' OX') as (r' & lines' & S1 & S2 & S3 & S4); [discriminate|].
  exists r, r', lines, lines'. do 4 (split; auto). cbn beta iota zeta in S3, S4.
  assert (T : forall (P P' : str -> bool) c, (forall n, P' (f n) = P n) ->
    total_added w l' (o_no_balance_check o') o' (fun n => A' n && P' n) nothing (by_date (pl_txns l')) c = shown_for r P c).
  { intros P P' c PE. rewrite R5, (sq_check _ _ _ _ _ _ _ SQ). eapply both_total; eauto. }
  split.
  - destruct S3 as (accs & AS & FR). exists accs. split; auto. eapply forall2_weaken; [|exact FR]. intros a row (H1 & H2 & H3 & H4 & H5 & H6). do 5 (split; auto).
    intros N c. rewrite (H6 N). apply T. auto.
  - intros ms c E. destruct S4 as [_ S4]. destruct (S4 ms E) as [_ ->]. apply T. auto.
Qed.
Print Assumptions C97_tree.

(** ** The register *)
Section MovedEntries.
  Context (f : str -> str) (w : world) (l l' : pledger) (AC : pl_commodities l' = pl_commodities l) (skip : bool).
  Lemma mv_reals ps ps' : Forall2 (posting_moved f w l l') ps ps' -> Forall (good f w l) ps -> forall now now', linked f w l now now' -> forall es',
    real_entries w l' skip now' ps' es' -> exists es, real_entries w l skip now ps es /\ es' = map (entry_moved f) es.
  Proof using AC.
    induction 1 as [|p p' ps ps' H F IH]; intros G now now' LN es' RE; [inversion RE; subst; exists []; split; [constructor|auto]|].
    inversion G as [|? ? G1 G2]; subst. pose proof (mv_after f w l l' AC skip now now' p p' LN G1 H) as LN2.
    assert (EQ : real_posting p' && negb (blank skip p') = real_posting p && negb (blank skip p)) by (rewrite (mv_real _ _ _ _ _ _ H), (mv_blank _ _ _ _ _ _ _ H); auto).
    inversion RE as [|? ? ? ? B RE2|? ? ? m es2 B AO RE2]; subst.
    - destruct (IH G2 _ _ LN2 _ RE2) as (es & E1 & E2). exists es. split; auto. apply re_skip; auto. congruence.
    - destruct (IH G2 _ _ LN2 _ RE2) as (es & E1 & E2). exists ((Real, its_account w l p, m) :: es). split.
      + apply re_line; [congruence| |auto]. destruct AO as [A1 A2]. split.
        * intros c. rewrite A1. apply (mv_moved f w l l' AC); auto.
        * intros q k E. rewrite (A2 q k); [rewrite (mv_commodity w l l' AC); auto|]. rewrite (pm_money _ _ _ _ _ _ H). auto.
      + rewrite E2. cbn [map]. unfold entry_moved at 2. cbn [fst snd]. unfold its_account. rewrite (pm_account _ _ _ _ _ _ H). auto.
  Qed.
  Lemma mv_virtual ps ps' : Forall2 (posting_moved f w l l') ps ps' ->
    flat_map (written_entry w l') (filter (fun p => negb (real_posting p)) ps') = map (entry_moved f) (flat_map (written_entry w l) (filter (fun p => negb (real_posting p)) ps)).
  Proof using AC.
    induction 1 as [|p p' ps ps' H F IH]; auto. cbn [filter]. rewrite (mv_real _ _ _ _ _ _ H). destruct (real_posting p); cbn [negb]; auto. cbn [flat_map]. rewrite map_app, IH. f_equal.
    unfold written_entry. rewrite (pm_money _ _ _ _ _ _ H), (pm_kind _ _ _ _ _ _ H), (pm_account _ _ _ _ _ _ H), (mv_commodity w l l' AC). destruct (rp_money p) as [[q n]|]; reflexivity.
  Qed.
  Lemma mv_entries t t' now now' es' : txn_moved f w l l' t t' -> Forall (good f w l) (t_postings t) -> linked f w l now now' ->
    entries_now w l' skip now' t' es' -> exists es, entries_now w l skip now t es /\ es' = map (entry_moved f) es.
  Proof using AC.
    intros T G LN EN. inversion EN as [reals fills RE FA FN FM E]; subst. destruct (mv_reals _ _ (proj2 T) G now now' LN _ RE) as (reals0 & R1 & R2).
    pose proof (mv_blanks f w l l' skip _ _ (proj2 T)) as B.
    assert (RS : forall c, rest_of w l' skip now' t' c = rest_of w l skip now t c).
    { intros c. unfold rest_of. f_equal. apply (mv_value_sum f w l l' AC skip _ _ (proj2 T) G now now' LN). }
    assert (FL : exists fills0, fills = map (entry_moved f) fills0 /\ (forall e, In e fills0 -> exists p, filter (blank skip) (t_postings t) = [p] /\ fst e = (Real, its_account w l p)) /\ map snd fills0 = map snd fills).
    { destruct fills as [|e0 fills].
      - exists []. split; auto. split; auto. intros e [].
      - destruct (FA e0 (or_introl eq_refl)) as (p' & Ep & _). rewrite Ep in B. inversion B as [|p x ps xs H1 H2 E1 E2]; subst. inversion H2; subst. symmetry in E1.
        exists (map (fun e : entry => ((Real, its_account w l p), snd e) : entry) (e0 :: fills)). split; [|split].
        + rewrite map_map. transitivity (map (fun e : entry => e) (e0 :: fills)); [symmetry; apply map_id|]. apply map_ext_in. intros e He. destruct (FA e He) as (p2 & Ep2 & Ef). assert (p2 = p') by congruence. subst p2.
          unfold entry_moved. cbn [fst snd]. destruct e as [[ke ne] me]. cbn [fst snd] in *. unfold its_account in *. rewrite (pm_account _ _ _ _ _ _ H1) in Ef. congruence.
        + intros e He. apply in_map_iff in He as (x & <- & Hx). exists p. split; auto.
        + rewrite map_map. reflexivity. }
    destruct FL as (fills0 & F1 & F2 & F3).
    exists (reals0 ++ fills0 ++ flat_map (written_entry w l) (filter (fun p => negb (real_posting p)) (t_postings t))). split.
    - constructor; auto.
      + rewrite F1 in FN. eapply NoDup_map_inv. exact FN.
      + intros p Ep m. rewrite F3. rewrite Ep in B. inversion B as [|x p' ps xs H1 H2 E1 E2]; subst. inversion H2; subst. symmetry in E2. rewrite (FM p' E2 m). split; intros (c & H & ->); exists c; rewrite RS in *; auto.
    - rewrite !map_app, <- R2, <- F1, <- (mv_virtual _ _ (proj2 T)). auto.
  Qed.
  Lemma mv_all_entries us us' : Forall2 (txn_moved f w l l') us us' -> all_good f w l us -> forall now now', linked f w l now now' -> forall ess',
    all_entries w l' skip now' us' ess' -> exists ess, all_entries w l skip now us ess /\ ess' = map (map (entry_moved f)) ess.
  Proof using AC.
    induction 1 as [|t t' us us' H F IH]; intros G now now' LN ess' AE; inversion AE as [|? ? ? es' ess2 E1 E2]; subst; [exists []; split; [constructor|auto]|].
    inversion G as [|? ? G1 G2]; subst. destruct (mv_entries t t' now now' es' H G1 LN E1) as (es & X1 & X2).
    destruct (IH G2 _ _ (mv_after_txn f w l l' AC skip t t' now now' H G1 LN) _ E2) as (ess & Y1 & Y2). exists (es :: ess). split; [constructor; auto|]. cbn [map]. congruence.
  Qed.
End MovedEntries.
(** The register: the lines of the journal, with the accounts moved. *)
Theorem C97_register : forall f depth w o o' file file' l l' us us' A', world_ok w -> file_parses depth w file l -> file_parses depth w file' l' ->
  stated_journal w l -> stated_journal w l' -> accounts_moved f w l l' -> kept_apart f w l \/ states_no_balance l ->
  exit_status (run_cmd depth w CRegister o file) = 0%Z -> o_no_balance_check o' = o_no_balance_check o -> asked_accounts w (o_query o') A' ->
  date_sorted (pl_txns l) us -> date_sorted (pl_txns l') us' ->
  exists rows groups ess, run_cmd depth w CRegister o' file' = Ok (concat groups) /\ Forall2 (entry_printed (w_width w)) rows groups /\
    all_entries w l (o_no_balance_check o) nothing us ess /\ register_asked_shows w o' l' A' us' (map (map (entry_moved f)) ess) rows.
Proof.
  intros f depth w o o' file file' l l' us us' A' Hw HF HF' SJ SJ' AM OK RUN EC HA' D D'.
  pose proof (order_of_run _ _ _ _ _ _ _ Hw HF SJ D RUN) as IO. cbn beta iota in IO.
  assert (IO' : all_in_order w l' (o_no_balance_check o') nothing us') by (rewrite EC; apply (both_in_order f depth w file l l' HF SJ AM OK _ _ _ D D'); exact IO).
  destruct (C83_asked_register depth w o' file' l' us' A' Hw HF' SJ' D' IO' HA') as (rows & groups & ess' & S1 & S2 & S3 & S4).
  rewrite EC in S3.
  assert (BS : Forall2 (txn_moved f w l l') us us') by (eapply both_sorted; eauto).
  destruct (mv_all_entries f w l l' (am_commodities _ _ _ _ AM) (o_no_balance_check o) us us' BS (sorted_good f w l OK us D) nothing nothing (start_linked f w l) ess' S3) as (ess & X1 & X2).
  exists rows, groups, ess. subst ess'. auto.
Qed.
Print Assumptions C97_register.

(** ** Two cases *)
Definition moved_check (f : str -> str) (w : world) (l l' : pledger) (p p' : rposting) : bool :=
  str_eqb (account_meant w l' (rp_account p')) (f (account_meant w l (rp_account p))) && kind_eqb (rp_kind p') (rp_kind p) && PropScale.amount_eqb (rp_money p') (rp_money p) &&
  match rp_cost_type p', rp_cost_type p with None, None | Some PTotal, Some PTotal | Some PPerUnit, Some PPerUnit => true | _, _ => false end &&
  PropScale.amount_eqb (rp_cost p') (rp_cost p) && PropScale.amount_eqb (rp_balance p') (rp_balance p).
Lemma moved_check_ok f w l l' p p' : moved_check f w l l' p p' = true -> posting_moved f w l l' p p'.
Proof.
  unfold moved_check. intros H. do 5 (let H' := fresh "X" in apply andb_prop in H; destruct H as [H H']).
  constructor; try (apply PropScale.amount_eqb_ok; assumption).
  - apply str_eqb_eq. auto.
  - destruct (rp_kind p'), (rp_kind p); try discriminate; auto.
  - destruct (rp_cost_type p') as [[]|], (rp_cost_type p) as [[]|]; try discriminate; auto.
Qed.
Definition txn_moved_check (f : str -> str) (w : world) (l l' : pledger) (t t' : txn rposting) : bool :=
  PropScale.date_eqb (t_date t') (t_date t) && PropScale.pairs_check (moved_check f w l l') (t_postings t) (t_postings t').
Lemma txn_moved_check_ok f w l l' t t' : txn_moved_check f w l l' t t' = true -> txn_moved f w l l' t t'.
Proof.
  unfold txn_moved_check. intros H. apply andb_prop in H. destruct H as [H1 H2]. split.
  - destruct (t_date t'), (t_date t); try discriminate; auto. apply Z.eqb_eq in H1. congruence.
  - eapply PropScale.pairs_check_ok; [|exact H2]. apply moved_check_ok.
Qed.
Definition apart_check (f : str -> str) (w : world) (l : pledger) : bool :=
  let names := map (account_meant w l) (used_accounts l) in
  forallb (fun a => forallb (fun b => negb (str_eqb (f a) (f b)) || str_eqb a b) names) names.
Lemma apart_check_ok f w l : apart_check f w l = true -> kept_apart f w l.
Proof.
  intros H n m Hn Hm E. unfold apart_check in H. rewrite forallb_forall in H. specialize (H _ (in_map (account_meant w l) _ _ (used_account l n Hn))). rewrite forallb_forall in H.
  specialize (H _ (in_map (account_meant w l) _ _ (used_account l m Hm))). rewrite E, str_eqb_refl in H. apply str_eqb_eq. exact H.
Qed.
Lemma question_check f w l A A' o o' : o_real o' = o_real o -> o_begin o' = o_begin o -> o_end o' = o_end o -> o_no_balance_check o' = o_no_balance_check o ->
  forallb (fun n => Bool.eqb (A' (f (account_meant w l n))) (A (account_meant w l n))) (used_accounts l) = true -> same_question f w l A A' o o'.
Proof. intros H1 H2 H3 H4 H. constructor; auto. intros n Hn. rewrite forallb_forall in H. apply Bool.eqb_prop. apply H. apply used_account. auto. Qed.
(** The wallet gets another place and another short name; the fees become a part of the costs. *)
Definition moved97 (a : str) : str := if str_eqb a (L "Assets:Cash") then L "Wallet" else if str_eqb a (L "Fees") then L "Costs:Fees" else a.
(** The two become one. *)
Definition merged97 (a : str) : str := if str_eqb a (L "Assets:Cash") then L "Assets:Bank" else a.
Definition before97 : list String.string := ["account Assets:Cash"; "  alias purse"; "commodity EUR"; "  alias E"; "2020-01-03 Shop"; "  Fees  2.50 EUR"; "  [Goal:Car]  3 EUR"; "  [Goal:House]  -3 EUR"; "  purse  = 40 E";
  "  Income"; "2020-01-01 Job"; "  Assets:Bank  100 EUR = 100 EUR"; "  Income  -100 E"; "2020-01-02 Cash"; "  Assets:Cash  50 EUR = 50 EUR"; "  Assets:Bank"]%string.
Definition after97 : list String.string := ["account Wallet"; "  alias w"; "commodity EUR"; "  alias E"; "2020-01-03 Shop"; "  Costs:Fees  2.50 EUR"; "  [Goal:Car]  3 EUR"; "  [Goal:House]  -3 EUR"; "  w  = 40 E";
  "  Income"; "2020-01-01 Job"; "  Assets:Bank  100 EUR = 100 EUR"; "  Income  -100 E"; "2020-01-02 Cash"; "  Wallet  50 EUR = 50 EUR"; "  Assets:Bank"]%string.
Definition two97 : list String.string := ["2020-01-01 Job"; "  Assets:Bank  100 EUR"; "  Income"; "2020-01-03 Shop"; "  Food  30 EUR"; "  (Assets:Cash)  1 EUR"; "  Assets:Cash"; "2020-01-02 Cash"; "  Assets:Cash  50 EUR"; "  Assets:Bank"]%string.
Definition one97 : list String.string := ["2020-01-01 Job"; "  Assets:Bank  100 EUR"; "  Income"; "2020-01-03 Shop"; "  Food  30 EUR"; "  (Assets:Bank)  1 EUR"; "  Assets:Bank"; "2020-01-02 Cash"; "  Assets:Bank  50 EUR"; "  Assets:Bank"]%string.
Definition w97 : world :=
  {| w_lower := ascii_lower; w_numeric := fun _ => false;
     w_rx := fun rx s => if starts_with (L "(?i)") rx then occurs (ascii_lower (skipn 4 rx)) (ascii_lower s) else occurs rx s;
     w_rx_ok := fun _ => true; w_width := None;
     w_read := fun p => if str_eqb p (L "before") then Some (text before97) else if str_eqb p (L "after") then Some (text after97) else
       if str_eqb p (L "two") then Some (text two97) else if str_eqb p (L "one") then Some (text one97) else None;
     w_glob := fun _ => None; w_two_timer := fun _ => None; w_now := 0%Z; w_ord := fun _ _ l => l |}.
Lemma w97_ok : world_ok w97.
Proof. split; [intros; apply Permutation_refl|exact ascii_lower_idem]. Qed.
Definition l97 (n : String.string) : pledger := get pl_new (tokenize_file 2 w97 (L n)).
Definition about (q : list String.string) : opts :=
  {| o_real := false; o_begin := None; o_end := None; o_query := map L q; o_depth := None; o_exchange := None; o_no_balance_check := false |}.
Definition old_words : opts := about ["cash"; "or"; "fees"]%string.
Definition new_words : opts := about ["wallet"; "or"; "costs"]%string.
Example C97_case : world_ok w97 /\ file_parses 2 w97 (L "before") (l97 "before") /\ file_parses 2 w97 (L "after") (l97 "after") /\ stated_journal w97 (l97 "before") /\ stated_journal w97 (l97 "after") /\
  accounts_moved moved97 w97 (l97 "before") (l97 "after") /\ kept_apart moved97 w97 (l97 "before") /\ exit_status (run_cmd 2 w97 (CBalance true false) old_words (L "before")) = 0%Z /\
  exit_status (run_cmd 2 w97 CRegister old_words (L "before")) = 0%Z /\
  (exists A A', asked_accounts w97 (o_query old_words) A /\ asked_accounts w97 (o_query new_words) A' /\ same_question moved97 w97 (l97 "before") A A' old_words new_words) /\
  run_cmd 2 w97 (CBalance true false) old_words (L "before") = Ok (map L ["           40.00 EUR  Assets:Cash"; "            2.50 EUR  Fees"; "--------------------"; "           42.50 EUR"]%string) /\
  run_cmd 2 w97 (CBalance true false) new_words (L "after") = Ok (map L ["            2.50 EUR  Costs:Fees"; "           40.00 EUR  Wallet"; "--------------------"; "           42.50 EUR"]%string).
Proof.
  split; [exact w97_ok|]. split; [apply file_parses_iff; vm_compute; reflexivity|]. split; [apply file_parses_iff; vm_compute; reflexivity|].
  split; [apply stated_check_ok; vm_compute; reflexivity|]. split; [apply stated_check_ok; vm_compute; reflexivity|].
  split; [constructor; [vm_compute; reflexivity|eapply PropScale.pairs_check_ok; [apply txn_moved_check_ok|]; vm_compute; reflexivity]|].
  split; [apply apart_check_ok; vm_compute; reflexivity|]. split; [vm_compute; reflexivity|]. split; [vm_compute; reflexivity|].
  split.
  - exists (fun n => w_rx w97 (L "(?i)cash") n || w_rx w97 (L "(?i)fees") n), (fun n => w_rx w97 (L "(?i)wallet") n || w_rx w97 (L "(?i)costs") n).
    split; [apply aa_or; apply PropAsk.plain_word; reflexivity|]. split; [apply aa_or; apply PropAsk.plain_word; reflexivity|].
    apply question_check; reflexivity.
  - split; vm_compute; reflexivity.
Qed.
Example C97_case_merged : file_parses 2 w97 (L "two") (l97 "two") /\ file_parses 2 w97 (L "one") (l97 "one") /\ stated_journal w97 (l97 "two") /\ stated_journal w97 (l97 "one") /\
  accounts_moved merged97 w97 (l97 "two") (l97 "one") /\ states_no_balance (l97 "two") /\ exit_status (run_cmd 2 w97 (CBalance true false) plain_opts (L "two")) = 0%Z /\
  asked_accounts w97 (o_query plain_opts) (fun _ => true) /\ same_question merged97 w97 (l97 "two") (fun _ => true) (fun _ => true) plain_opts plain_opts /\
  run_cmd 2 w97 (CBalance true false) plain_opts (L "two") = Ok (map L ["           50.00 EUR  Assets:Bank"; "           21.00 EUR  Assets:Cash"; "           30.00 EUR  Food"; "         -100.00 EUR  Income"; "--------------------"; "            1.00 EUR"]%string) /\
  run_cmd 2 w97 (CBalance true false) plain_opts (L "one") = Ok (map L ["           71.00 EUR  Assets:Bank"; "           30.00 EUR  Food"; "         -100.00 EUR  Income"; "--------------------"; "            1.00 EUR"]%string).
Proof.
  split; [apply file_parses_iff; vm_compute; reflexivity|]. split; [apply file_parses_iff; vm_compute; reflexivity|].
  split; [apply stated_check_ok; vm_compute; reflexivity|]. split; [apply stated_check_ok; vm_compute; reflexivity|].
  split; [constructor; [vm_compute; reflexivity|eapply PropScale.pairs_check_ok; [apply txn_moved_check_ok|]; vm_compute; reflexivity]|].
  split.
  { intros t p Ht Hp. assert (X : forallb (fun t => forallb (fun p => is_none (rp_balance p)) (t_postings t)) (pl_txns (l97 "two")) = true) by (vm_compute; reflexivity).
    rewrite forallb_forall in X. apply X in Ht. rewrite forallb_forall in Ht. apply Ht in Hp. clear -Hp. destruct (rp_balance p); [discriminate|auto]. }
  split; [vm_compute; reflexivity|]. split; [constructor|]. split; [apply question_check; try reflexivity; vm_compute; reflexivity|]. split; vm_compute; reflexivity.
Qed.
