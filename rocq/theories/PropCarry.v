(** C98: a journal cut at a day, balances carried forward, and balances stated as the report shows them. *)
From Coq Require Import Lia Sorting.Sorted.
From Verif Require Import Base BaseFacts Numerals Money Alist Comment Txn Expr Filter Price Tokens Ledger Reports App Spec MoneyFacts SpecList SpecTxn TxnFacts SpecLedger
  TokenFacts JournalFacts LedgerFacts LedgerFacts2 LedgerFacts3 PropAlist PropTxn PropLedger SpecQuery SpecExpr ExprFacts PropExpr PropQuery SpecReports ReportFacts ReportFacts2 ReportFacts3 PropReports PropApp
  SpecText SpecDates SpecTokens SpecJournal JournalRead PropJournal SpecLayout PropLayout SpecPrice PropPrice SpecBook BookFacts PropBook PropBook2 SpecAsk PropAsk
  SpecWords PropRuleQuery SpecAssert AssertFacts PropAssert SpecRules ShownFacts RuleFacts RuleFacts2 PropRules SpecExchange2 PropExchange2 PropAssert2 SpecAgree SpecJoin SpecRename PropRename SpecCarry.
From Verif Require PropJoin PropAgree.
Open Scope Qc_scope.

(** ** Lists by date *)
Lemma sorted_split day (us : list (txn rposting)) : StronglySorted not_after us -> us = filter (dated_before day) us ++ filter (fun t => negb (dated_before day t)) us.
Proof.
  induction 1 as [|t us S IH F]; auto. cbn [filter]. destruct (dated_before day t) eqn:E; cbn [negb app]; [rewrite <- IH; auto|].
  assert (N : forall u, In u us -> dated_before day u = false).
  { intros u Hu. rewrite Forall_forall in F. specialize (F u Hu). unfold not_after, dated_before in *. destruct (t_date t) as [a|]; [|destruct F]. destruct (t_date u) as [b|]; [|destruct F].
    apply Z.ltb_ge in E. apply Z.ltb_ge. lia. }
  assert (X : filter (dated_before day) us = []) by (clear -N; induction us as [|u us IH]; auto; cbn; rewrite N by (left; auto); apply IH; intros; apply N; right; auto).
  rewrite X in *. cbn [app] in *. rewrite <- IH. auto.
Qed.
Lemma filter_swap {A} (f g : A -> bool) xs : filter f (filter g xs) = filter g (filter f xs).
Proof. induction xs as [|x xs IH]; auto. cbn. destruct (g x) eqn:G, (f x) eqn:F; cbn; rewrite ?G, ?F, ?IH; auto. Qed.
Lemma sorted_filter {A} (R : A -> A -> Prop) (f : A -> bool) xs : StronglySorted R xs -> StronglySorted R (filter f xs).
Proof.
  induction 1 as [|x xs S IH F]; cbn; [constructor|]. destruct (f x); auto. constructor; auto. rewrite Forall_forall in *. intros y Hy. apply filter_In in Hy. apply F. apply Hy.
Qed.
Lemma filter_date_sorted (f : txn rposting -> bool) ts us : date_sorted ts us -> date_sorted (filter f ts) (filter f us).
Proof.
  intros (P & S & E). split; [apply LedgerFacts3.filter_perm; auto|]. split; [apply sorted_filter; auto|]. intros d. rewrite filter_swap, E. apply filter_swap.
Qed.

(** ** The reading of a journal, one part after the other *)
Lemma order_app w l skip us vs : forall now, all_in_order w l skip now (us ++ vs) <-> all_in_order w l skip now us /\ all_in_order w l skip (after_txns w l skip now us) vs.
Proof. induction us as [|t us IH]; intros now; cbn [app all_in_order after_txns]; [tauto|]. rewrite IH. tauto. Qed.
Lemma total_app w l skip o P us vs c : forall now, total_added w l skip o P now (us ++ vs) c = total_added w l skip o P now us c + total_added w l skip o P (after_txns w l skip now us) vs c.
Proof. induction us as [|t us IH]; intros now; cbn [app total_added after_txns]; [ring|]. rewrite IH. ring. Qed.
Lemma total_outside w l skip o P us c : (forall t, In t us -> in_window o t = false) -> forall now, total_added w l skip o P now us c = 0.
Proof. induction us as [|t us IH]; intros H now; cbn [total_added]; auto. rewrite (H t) by (left; auto). rewrite IH; [ring|]. intros; apply H; right; auto. Qed.
Lemma total_window w l skip o o' P us c : o_real o' = o_real o -> (forall t, In t us -> in_window o' t = in_window o t) -> forall now, total_added w l skip o' P now us c = total_added w l skip o P now us c.
Proof.
  intros R. induction us as [|t us IH]; intros H now; cbn [total_added]; auto. rewrite (H t) by (left; auto). rewrite IH by (intros; apply H; right; auto). unfold asked_for. rewrite R. auto.
Qed.
(** What the accounts hold is what the real postings have added. *)
Lemma held w l skip o us a c : o_real o = true -> (forall t, In t us -> in_window o t = true) -> forall now, total_added w l skip o (str_eqb a) now us c = after_txns w l skip now us a c - now a c.
Proof.
  intros R. induction us as [|t us IH]; intros H now; cbn [total_added after_txns]; [ring|]. rewrite (H t) by (left; auto). rewrite IH by (intros; apply H; right; auto). unfold after_txn at 2. unfold asked_for. rewrite R. cbn [negb orb]. ring.
Qed.
(** The same names, the same transactions: the same reading. *)
Section SameNames.
  Context (w : world) (l l' : pledger) (SN : same_names l' l) (skip : bool).
  Lemma same_meant n : account_meant w l' n = account_meant w l n.
  Proof using SN. unfold account_meant. rewrite (proj1 SN). auto. Qed.
  Lemma same_txns us : Forall2 (txn_moved (fun a => a) w l l') us us.
  Proof using SN. induction us as [|t us IH]; constructor; auto. split; auto. induction (t_postings t) as [|p ps IHp]; constructor; auto. constructor; auto. apply same_meant. Qed.
  Lemma same_good us : incl us (pl_txns l) -> all_good (fun a => a) w l us.
  Proof using Type. intros I. apply Forall_forall. intros t Ht. apply Forall_forall. intros p Hp. split; [exists t, p; auto|]. left. intros n m _ _ H. exact H. Qed.
  Definition as_much (now now' : holdings) : Prop := forall a c, now' a c = now a c.
  Lemma same_linked now now' : as_much now now' -> linked (fun a => a) w l now now'.
  Proof using Type. intros H _ n c _. apply H. Qed.
  Lemma same_order us now now' : incl us (pl_txns l) -> as_much now now' -> all_in_order w l' skip now' us <-> all_in_order w l skip now us.
  Proof using SN. intros I H. apply (mv_all_in_order (fun a => a) w l l' (proj2 SN) skip us us (same_txns us) (same_good us I)). apply same_linked. auto. Qed.
  Lemma same_total o P us now now' c : incl us (pl_txns l) -> as_much now now' -> total_added w l' skip o P now' us c = total_added w l skip o P now us c.
  Proof using SN.
    intros I H. assert (X : total_added w l' skip o (fun n => true && P n) now' us c = total_added w l skip o (fun n => true && P n) now us c).
    { apply (mv_total (fun a => a) w l l' (proj2 SN) skip o o (fun _ => true) (fun _ => true) P P us us); auto; [constructor; auto|apply same_txns|apply same_good; auto|apply same_linked; auto]. }
    exact X.
  Qed.
End SameNames.
Lemma sorted_incl (ts us : list (txn rposting)) : date_sorted ts us -> incl us ts.
Proof. intros (P & _) t Ht. apply (Permutation_in _ (Permutation_sym P)). auto. Qed.

(** ** Two flat reports that show the same amounts *)
Lemma stated_flat_cut depth w o file l us nt A : world_ok w -> file_parses depth w file l -> stated_journal w l -> date_sorted (pl_txns l) us ->
  all_in_order w l (o_no_balance_check o) nothing us -> asked_accounts w (o_query o) A -> o_exchange o = None -> can_be_cut w o l ->
  let total := fun P => total_added w l (o_no_balance_check o) o (fun n => A n && P n) nothing us in
  exists r lines, run_cmd depth w (CBalance true nt) o file = Ok lines /\ balance_printed r lines /\
    flat_cut_shows o total r /\ total_shows total (negb nt) r /\ forall P c, shown_for r P c = total (fun n => P (PropAgree.cut_by o n)) c.
Proof.
  intros Hw HF P DU IO HA OX HC total. pose proof (file_parsed _ _ _ _ HF) as Hp. apply file_parses_iff in HF.
  destruct (stated_outcome w (o_no_balance_check o) l us Hw Hp P DU) as [(_ & lg & E & B)|(N & _)]; [|contradiction]. pose proof (made_plain _ _ _ _ Hp E) as M.
  destruct (shown_report w (report_site lg) o true (negb nt) lg A Hw (stated_whole _ _ _ _ Hw Hp P E B) HA OX) as (r & Er).
  { intros _ d Ed. destruct (HC d Ed) as [C1 C2]. split; auto. intros t p Ht Hi. destruct (stated_named w l (o_no_balance_check o) lg Hp P B t p Ht Hi) as (n & N1 & ->). auto. }
  destruct (C69_printed depth w o file l lg Hw HF E) as [HP _]. destruct (HP true nt r Er) as (lines & L1 & L2). exists r, lines. do 2 (split; auto).
  assert (TT : forall Q c, qsum (map (txn_counted (asked_for o) Q c) (filter (window_of o) (lg_txns lg))) = total_added w l (o_no_balance_check o) o Q nothing us c)
    by (intros Q c; apply (stated_totals w l (o_no_balance_check o) lg us); auto).
  destruct (shown_balance w (report_site lg) o true (negb nt) lg A r (fun P => total_added w l (o_no_balance_check o) o P nothing us) Hw M HA OX TT Er) as [F T].
  do 2 (split; auto). intros Q c. destruct (asked_node w o A HA) as (q0 & Q0 & AN). destruct (PropAgree.flat_shown _ _ _ _ _ _ Hw M OX Er) as (q & tps & Q1 & R & FS).
  assert (q = q0) by congruence. subst q. rewrite (FS (PropAgree.cut_by o) Q c) by apply PropAgree.cut_by_cuts. unfold total. rewrite <- TT. eapply reported_asked_totals; eauto.
Qed.
Lemma flat_rows_of o (total : (str -> bool) -> str -> Qc) r a : flat_cut_shows o total r -> In a (map br_label (bp_rows r)) <-> exists c, total (fun n => str_eqb (PropAgree.cut_by o n) a) c <> 0.
Proof.
  intros [AS AF]. destruct (AF (PropAgree.cut_by o) (PropAgree.cut_by_cuts o)) as [F1 F2]. split.
  - intros H. destruct (PropJoin.label_row _ _ H) as (row & Hi & <-). destruct (F1 row Hi) as (X1 & X2 & X3). destruct (PropJoin.shown_something _ X1 X2) as (c & Hc). exists c. rewrite <- X3. auto.
  - intros (c & Hc). eauto.
Qed.
Lemma same_flat o o' (T T' : (str -> bool) -> str -> Qc) tot r r' : o_depth o' = o_depth o ->
  flat_cut_shows o T r -> total_shows T tot r -> flat_cut_shows o' T' r' -> total_shows T' tot r' ->
  (forall a c, T' (fun n => str_eqb (PropAgree.cut_by o' n) a) c = T (fun n => str_eqb (PropAgree.cut_by o n) a) c) -> (forall c, T' (fun _ => true) c = T (fun _ => true) c) -> same_report r' r.
Proof.
  intros OD R3 R4 S3 S4 E EA.
  assert (LS : map br_label (bp_rows r') = map br_label (bp_rows r)).
  { apply PropJoin.ascending_same; [apply S3|apply R3|]. intros a. rewrite (flat_rows_of o' T' r' a S3), (flat_rows_of o T r a R3). split; intros (c & Hc); exists c; [rewrite <- E|rewrite E]; auto. }
  split; [|split].
  - apply (PropJoin.rows_same _ _ (fun a c => T (fun n => str_eqb (PropAgree.cut_by o n) a) c) LS).
    + intros row Hi c. destruct S3 as [_ S3]. destruct (S3 _ (PropAgree.cut_by_cuts o')) as [X1 _]. destruct (X1 row Hi) as (_ & _ & ->). apply E.
    + intros row Hi c. destruct R3 as [_ R3]. destruct (R3 _ (PropAgree.cut_by_cuts o)) as [X1 _]. destruct (X1 row Hi) as (_ & _ & ->). auto.
  - destruct R4 as [R4 _], S4 as [S4 _]. pose proof (f_equal (@length _) LS) as LE. rewrite !map_length in LE. rewrite LE in S4.
    destruct (bp_total r'), (bp_total r); split; intros H; try congruence; exfalso.
    + assert (Y : (None : option (list money)) <> None) by (apply R4, S4; congruence). congruence.
    + assert (Y : (None : option (list money)) <> None) by (apply S4, R4; congruence). congruence.
  - intros ms' ms c H' H. destruct R4 as [_ R4], S4 as [_ S4]. destruct (R4 ms H) as [_ ->]. destruct (S4 ms' H') as [_ ->]. auto.
Qed.

(** ** A journal cut at a day *)
Lemma stated_part w l' l : same_directives l' l -> incl (pl_txns l') (pl_txns l) -> stated_journal w l -> stated_journal w l'.
Proof.
  intros D I [P1 P2 [P3 P4 P5]]. destruct D as (E1 & E2 & E3).
  assert (MA : forall n, mentions_account l' n -> mentions_account l n) by (intros n (t & p & Ht & X); exists t, p; split; auto).
  assert (MC : forall n, mentions_commodity l' n -> mentions_commodity l n).
  { intros n [(p & Hp & X)|(t & p & q & Ht & X)]; [left; exists p; split; auto|right; exists t, p, q; split; auto]. }
  constructor; auto.
  - intros t p Ht. apply P2. auto.
  - constructor; [| |rewrite E1; auto].
    + intros n m Hn Hm. unfold account_meant. rewrite E1. apply P3; auto.
    + intros n m Hn Hm. unfold commodity_meant. rewrite E2. apply P4; auto.
Qed.
Lemma cut_incl day l' l : cut_at day l' l -> incl (pl_txns l') (pl_txns l).
Proof. intros (_ & E) t Ht. rewrite E in Ht. apply filter_In in Ht. apply Ht. Qed.
Lemma cut_names day l' l : cut_at day l' l -> same_names l' l.
Proof. intros ((E1 & E2 & _) & _). split; auto. Qed.
Lemma nothing_much : as_much nothing nothing.
Proof. intros a c. reflexivity. Qed.
(** The transactions of the cut journal by date are the first ones of the whole. *)
Lemma cut_sorted day l' l us : cut_at day l' l -> date_sorted (pl_txns l) us -> date_sorted (pl_txns l') (filter (dated_before day) us).
Proof. intros (_ & ->) D. apply filter_date_sorted. auto. Qed.
Lemma cut_order w skip day l' l us : cut_at day l' l -> date_sorted (pl_txns l) us -> all_in_order w l skip nothing us -> all_in_order w l' skip nothing (filter (dated_before day) us).
Proof.
  intros C D IO. rewrite (sorted_split day us) in IO by apply D. apply order_app in IO. destruct IO as [IO _].
  apply (same_order w l l' (cut_names _ _ _ C) skip _ nothing nothing); auto using nothing_much. intros t Ht. apply filter_In in Ht. apply (sorted_incl _ _ D). apply Ht.
Qed.
(** A journal that is accepted is accepted up to any day. *)
Theorem C98_cut_check : forall depth w o day file file' l l', world_ok w -> file_parses depth w file l -> file_parses depth w file' l' ->
  stated_journal w l -> cut_at day l' l -> exit_status (run_cmd depth w CCheck o file) = 0%Z -> exit_status (run_cmd depth w CCheck o file') = 0%Z.
Proof.
  intros depth w o day file file' l l' Hw HF HF' SJ C CH. pose proof (sorted_of depth w file l HF SJ) as D. pose proof (stated_part w l' l (proj1 C) (cut_incl _ _ _ C) SJ) as SJ'.
  apply (C83_check depth w o file' l' _ Hw HF' SJ' (cut_sorted _ _ _ _ C D)). eapply cut_order; eauto. apply (C83_check depth w o file l _ Hw HF SJ D). auto.
Qed.
Print Assumptions C98_cut_check.
Lemma cut_total w skip o o' day l' l us P c : cut_at day l' l -> date_sorted (pl_txns l) us -> without_end o o' -> o_end o = Some day ->
  total_added w l' skip o' P nothing (filter (dated_before day) us) c = total_added w l skip o P nothing us c.
Proof.
  intros C D ((R & _) & B & E) OE. assert (I : incl (filter (dated_before day) us) (pl_txns l)) by (intros t Ht; apply filter_In in Ht; apply (sorted_incl _ _ D); apply Ht).
  rewrite (same_total w l l' (cut_names _ _ _ C) skip o' P _ nothing nothing c I nothing_much). rewrite (sorted_split day us) at 2 by apply D. rewrite total_app, (total_outside w l skip o P (filter (fun t => negb _) us)).
  - rewrite (total_window w l skip o o' P); [ring|auto|]. intros t Ht. apply filter_In in Ht. destruct Ht as [_ Ht]. unfold in_window, dated_before in *. rewrite B, E, OE. destruct (t_date t); auto. rewrite Ht. auto.
  - intros t Ht. apply filter_In in Ht. destruct Ht as [_ Ht]. unfold in_window, dated_before in *. rewrite OE. destruct (t_date t); auto. destruct (_ <? day)%Z; [discriminate|]. apply Bool.andb_false_r.
Qed.
(** What it prints without an end is what the whole journal prints with --end. *)
Theorem C98_cut_balance : forall depth w o o' day file file' l l' no_total A, world_ok w -> file_parses depth w file l -> file_parses depth w file' l' ->
  stated_journal w l -> cut_at day l' l -> without_end o o' -> o_end o = Some day -> exit_status (run_cmd depth w (CBalance true no_total) o file) = 0%Z ->
  asked_accounts w (o_query o) A -> o_exchange o = None -> can_be_cut w o l ->
  exists r r' lines lines', run_cmd depth w (CBalance true no_total) o file = Ok lines /\ balance_printed r lines /\
    run_cmd depth w (CBalance true no_total) o' file' = Ok lines' /\ balance_printed r' lines' /\ same_report r' r.
Proof.
  intros depth w o o' day file file' l l' nt A Hw HF HF' SJ C WE OE RUN HA OX HC. pose proof (sorted_of depth w file l HF SJ) as D. pose proof (stated_part w l' l (proj1 C) (cut_incl _ _ _ C) SJ) as SJ'.
  pose proof (order_of_run _ _ _ _ _ _ _ Hw HF SJ D RUN) as IO. cbn beta iota in IO. pose proof (cut_sorted _ _ _ _ C D) as D'. pose proof WE as ((O1 & O2 & O3 & O4 & O5) & _).
  assert (IO' : all_in_order w l' (o_no_balance_check o') nothing (filter (dated_before day) (by_date (pl_txns l)))) by (rewrite <- O5; eapply cut_order; eauto).
  assert (HA' : asked_accounts w (o_query o') A) by (rewrite <- O3; auto). assert (OX' : o_exchange o' = None) by congruence.
  assert (HC' : can_be_cut w o' l').
  { intros d E. rewrite <- O2 in E. destruct (HC d E) as [D1 D2]. split; auto. intros n (t & p & Ht & Hp & Hn). rewrite (same_meant w l l' (cut_names _ _ _ C)). apply D2. exists t, p. split; auto. apply (cut_incl _ _ _ C). auto. }
  destruct (stated_flat_cut depth w o file l _ nt A Hw HF SJ D IO HA OX HC) as (r & lines & R1 & R2 & R3 & R4 & _).
  destruct (stated_flat_cut depth w o' file' l' _ nt A Hw HF' SJ' D' IO' HA' OX' HC') as (r' & lines' & S1 & S2 & S3 & S4 & _).
  exists r, r', lines, lines'. do 4 (split; auto). eapply (same_flat o o'); [congruence|exact R3|exact R4|exact S3|exact S4| |].
  - intros a c. rewrite <- O5. rewrite (cut_total w _ o o' day l' l _ _ c C D WE OE). unfold PropAgree.cut_by. rewrite <- O2. auto.
  - intros c. rewrite <- O5. apply (cut_total w _ o o' day l' l _ _ c C D WE OE).
Qed.
Print Assumptions C98_cut_balance.
Lemma entries_app w l skip us vs : forall now ess, all_entries w l skip now (us ++ vs) ess ->
  exists es1 es2, ess = es1 ++ es2 /\ all_entries w l skip now us es1 /\ all_entries w l skip (after_txns w l skip now us) vs es2 /\ length es1 = length us.
Proof.
  induction us as [|t us IH]; intros now ess H; cbn [app] in H.
  - exists [], ess. split; auto. split; [constructor|]. split; auto.
  - inversion H as [|? ? ? es ess' E1 E2]; subst. destruct (IH _ _ E2) as (e1 & e2 & -> & X1 & X2 & X3). exists (es :: e1), e2. split; auto. split; [constructor; auto|]. split; auto. cbn. congruence.
Qed.
Lemma combine_app {A B} (a a' : list A) (b b' : list B) : length b = length a -> combine (a ++ a') (b ++ b') = combine a b ++ combine a' b'.
Proof. revert b. induction a as [|x a IH]; intros [|y b] E; try discriminate; auto. cbn. rewrite IH; auto. Qed.
Lemma entries_outside o A us ess : (forall t, In t us -> in_window o t = false) -> flat_map (asked_entries o A) (combine us ess) = [].
Proof.
  revert ess. induction us as [|t us IH]; intros [|es ess] H; auto. cbn [combine flat_map]. rewrite IH by (intros; apply H; right; auto). unfold asked_entries. cbn [fst]. rewrite H by (left; auto). auto.
Qed.
Lemma entries_window o o' A us ess : o_real o' = o_real o -> (forall t, In t us -> in_window o' t = in_window o t) -> flat_map (asked_entries o' A) (combine us ess) = flat_map (asked_entries o A) (combine us ess).
Proof.
  intros R. revert ess. induction us as [|t us IH]; intros [|es ess] H; auto. cbn [combine flat_map]. rewrite IH by (intros; apply H; right; auto). f_equal. unfold asked_entries. cbn [fst snd]. rewrite H by (left; auto).
  unfold asked_for. rewrite R. auto.
Qed.
Lemma entry_same es : map (entry_moved (fun a => a)) es = es.
Proof. induction es as [|[[k a] m] es IH]; auto. cbn [map]. rewrite IH. auto. Qed.
(** Both registers show the lines of the transactions before the day, one after the other. *)
Theorem C98_cut_register : forall depth w o o' day file file' l l' us A, world_ok w -> file_parses depth w file l -> file_parses depth w file' l' ->
  stated_journal w l -> cut_at day l' l -> without_end o o' -> o_end o = Some day -> exit_status (run_cmd depth w CRegister o file) = 0%Z ->
  asked_accounts w (o_query o) A -> date_sorted (pl_txns l') us ->
  exists rows rows' ess ess' lines lines', run_cmd depth w CRegister o file = Ok lines /\ register_printed w rows lines /\
    run_cmd depth w CRegister o' file' = Ok lines' /\ register_printed w rows' lines' /\
    all_entries w l (o_no_balance_check o) nothing us ess /\ register_asked_shows w o l A us ess rows /\
    all_entries w l (o_no_balance_check o) nothing us ess' /\ register_asked_shows w o l' A us ess' rows'.
Proof.
  intros depth w o o' day file file' l l' us0 A Hw HF HF' SJ C WE OE RUN HA DU. pose proof (sorted_of depth w file l HF SJ) as D. pose proof (stated_part w l' l (proj1 C) (cut_incl _ _ _ C) SJ) as SJ'.
  pose proof (order_of_run _ _ _ _ _ _ _ Hw HF SJ D RUN) as IO. cbn beta iota in IO. pose proof (cut_sorted _ _ _ _ C D) as D'. pose proof WE as ((O1 & O2 & O3 & O4 & O5) & OB & ON).
  assert (US : us0 = filter (dated_before day) (by_date (pl_txns l))).
  { assert (X : Forall2 eq (filter (dated_before day) (by_date (pl_txns l))) us0).
    { apply (sort_related eq (pl_txns l') _ (pl_txns l') us0); auto; [intros u t ->; auto|clear; induction (pl_txns l'); constructor; auto|exact (stated_dated _ _ (file_parsed _ _ _ _ HF') SJ')]. }
    clear -X. induction X; congruence. }
  set (us := filter (dated_before day) (by_date (pl_txns l))) in *. set (vs := filter (fun t => negb (dated_before day t)) (by_date (pl_txns l))).
  assert (IO' : all_in_order w l' (o_no_balance_check o') nothing us) by (rewrite <- O5; eapply cut_order; eauto).
  assert (HA' : asked_accounts w (o_query o') A) by (rewrite <- O3; auto).
  destruct (C83_asked_register depth w o file l _ A Hw HF SJ D IO HA) as (rows & groups & ess & R1 & R2 & R3 & R4).
  destruct (C83_asked_register depth w o' file' l' us A Hw HF' SJ' D' IO' HA') as (rows' & groups' & ess' & S1 & S2 & S3 & S4).
  rewrite (sorted_split day (by_date (pl_txns l))) in R3, R4 by apply D. fold us vs in R3, R4. destruct (entries_app w l _ us vs _ _ R3) as (e1 & e2 & -> & X1 & X2 & X3).
  assert (I : incl us (pl_txns l)) by (intros t Ht; apply filter_In in Ht; apply (sorted_incl _ _ D); apply Ht).
  rewrite <- O5 in S3. destruct (mv_all_entries (fun a => a) w l l' (proj2 (cut_names _ _ _ C)) (o_no_balance_check o) us us (same_txns w l l' (cut_names _ _ _ C) us) (same_good w l us I) nothing nothing (same_linked w l _ _ nothing_much) ess' S3) as (e3 & Y1 & Y2).
  assert (Y3 : ess' = e3) by (rewrite Y2; clear; induction e3 as [|e es IH]; auto; cbn [map]; rewrite IH, entry_same; auto). subst e3. clear Y2.
  assert (W1 : forall t, In t vs -> in_window o t = false).
  { intros t Ht. apply filter_In in Ht. destruct Ht as [_ Ht]. unfold in_window, dated_before in *. rewrite OE. destruct (t_date t); auto. destruct (_ <? day)%Z; [discriminate|]. apply Bool.andb_false_r. }
  assert (W2 : forall t, In t us -> in_window o' t = in_window o t).
  { intros t Ht. apply filter_In in Ht. destruct Ht as [_ Ht]. unfold in_window, dated_before in *. rewrite OB, ON, OE. destruct (t_date t); auto. rewrite Ht. auto. }
  exists rows, rows', e1, ess', (concat groups), (concat groups'). split; auto. split; [exists groups; auto|]. split; auto. split; [exists groups'; auto|]. rewrite US. split; auto. split; [|split; auto].
  - unfold register_asked_shows in *. rewrite (combine_app us vs e1 e2 X3), flat_map_app, (entries_outside o A vs e2 W1), app_nil_r in R4. exact R4.
  - unfold register_asked_shows in *. rewrite (entries_window o o' A us ess' (eq_sym O1) W2) in S4. exact S4.
Qed.
Print Assumptions C98_cut_register.

(** ** Balances carried forward *)
Section Carried.
  Context (w : world) (skip : bool) (day : Z) (l l' : pledger) (first opening later : list (txn rposting)) (CF : carried_forward w skip day l l' first opening later).
  Lemma later_incl : incl later (pl_txns l).
  Proof using CF. intros t Ht. apply (sorted_incl _ _ (cf_old _ _ _ _ _ _ _ _ CF)). apply in_or_app. auto. Qed.
  Lemma carried_order : all_in_order w l' skip nothing (opening ++ later) <-> all_in_order w l skip nothing (first ++ later).
  Proof using CF.
    rewrite !order_app. destruct (cf_in_order _ _ _ _ _ _ _ _ CF) as [I1 I2].
    rewrite (same_order w l l' (cf_names _ _ _ _ _ _ _ _ CF) skip later (after_txns w l skip nothing first) (after_txns w l' skip nothing opening) later_incl); [tauto|]. exact (cf_holds _ _ _ _ _ _ _ _ CF).
  Qed.
  Lemma carried_later o P c : total_added w l' skip o P (after_txns w l' skip nothing opening) later c = total_added w l skip o P (after_txns w l skip nothing first) later c.
  Proof using CF. apply (same_total w l l' (cf_names _ _ _ _ _ _ _ _ CF) skip o P later); [exact later_incl|]. exact (cf_holds _ _ _ _ _ _ _ _ CF). Qed.
  Lemma carried_period o P c b : o_begin o = Some b -> (day <= b)%Z -> total_added w l' skip o P nothing (opening ++ later) c = total_added w l skip o P nothing (first ++ later) c.
  Proof using CF.
    intros OB Hb. rewrite !total_app, carried_later. f_equal.
    assert (X : forall t, In t (first ++ opening) -> in_window o t = false).
    { intros t Ht. apply (cf_before _ _ _ _ _ _ _ _ CF) in Ht. unfold in_window, dated_before in *. rewrite OB. destruct (t_date t) as [d|]; auto. apply Z.ltb_lt in Ht. destruct (Z.leb_spec b d); auto. lia. }
    rewrite !total_outside; auto; intros t Ht; apply X; apply in_or_app; auto.
  Qed.
  Lemma carried_account o a c : o_real o = true -> o_begin o = None -> (forall e, o_end o = Some e -> (day <= e)%Z) ->
    total_added w l' skip o (str_eqb a) nothing (opening ++ later) c = total_added w l skip o (str_eqb a) nothing (first ++ later) c.
  Proof using CF.
    intros R OB OE. rewrite !total_app, carried_later. f_equal.
    assert (X : forall t, In t (first ++ opening) -> in_window o t = true).
    { intros t Ht. apply (cf_before _ _ _ _ _ _ _ _ CF) in Ht. unfold in_window, dated_before in *. rewrite OB. destruct (t_date t) as [d|]; [|discriminate]. apply Z.ltb_lt in Ht. destruct (o_end o) as [e|] eqn:E; auto. specialize (OE e eq_refl). cbn. apply Z.ltb_lt. lia. }
    rewrite !held; auto; try (intros t Ht; apply X; apply in_or_app; auto). rewrite (cf_holds _ _ _ _ _ _ _ _ CF). auto.
  Qed.
  Lemma total_pred l0 o us now (P Q : str -> bool) c : (forall n, P n = Q n) -> total_added w l0 skip o P now us c = total_added w l0 skip o Q now us c.
  Proof using Type.
    intros E. revert now. induction us as [|t us IH]; intros now; cbn [total_added]; auto. rewrite IH. f_equal. destruct (in_window o t); auto. unfold txn_adds_to. generalize (rest_of w l0 skip now t). intros rest. clear IH.
    generalize (t_postings t). intros ps. revert now. induction ps as [|p ps IHp]; intros now; cbn [adds_to]; auto. rewrite IHp, E. auto.
  Qed.
  Lemma total_only l0 o A us a c : total_added w l0 skip o (fun n => A n && str_eqb n a) nothing us c = if A a then total_added w l0 skip o (str_eqb a) nothing us c else 0.
  Proof using Type.
    destruct (A a) eqn:E.
    - apply total_pred. intros n. destruct (str_eqb_spec n a) as [->|N]; [rewrite E, str_eqb_refl; auto|]. destruct (str_eqb_spec a n) as [X|]; [symmetry in X; contradiction|]. apply Bool.andb_false_r.
    - apply total_none. intros n. destruct (str_eqb_spec n a) as [->|N]; [rewrite E; auto|apply Bool.andb_false_r].
  Qed.
End Carried.
(** The journal continued from the opening balances is accepted exactly if the whole one is. *)
Theorem C98_carried_check : forall depth w o day file file' l l' first opening later, world_ok w -> file_parses depth w file l -> file_parses depth w file' l' ->
  stated_journal w l -> stated_journal w l' -> carried_forward w false day l l' first opening later ->
  (exit_status (run_cmd depth w CCheck o file') = 0%Z <-> exit_status (run_cmd depth w CCheck o file) = 0%Z).
Proof.
  intros depth w o day file file' l l' first opening later Hw HF HF' SJ SJ' CF.
  rewrite (C83_check depth w o file' l' _ Hw HF' SJ' (cf_new _ _ _ _ _ _ _ _ CF)), (C83_check depth w o file l _ Hw HF SJ (cf_old _ _ _ _ _ _ _ _ CF)). eapply carried_order; eauto.
Qed.
Print Assumptions C98_carried_check.
(** For a period that begins on the day or later, both show the same. *)
Theorem C98_carried_period : forall depth w o day b file file' l l' first opening later no_total A, world_ok w -> file_parses depth w file l -> file_parses depth w file' l' ->
  stated_journal w l -> stated_journal w l' -> carried_forward w (o_no_balance_check o) day l l' first opening later ->
  o_begin o = Some b -> (day <= b)%Z -> exit_status (run_cmd depth w (CBalance true no_total) o file) = 0%Z ->
  asked_accounts w (o_query o) A -> o_exchange o = None -> can_be_cut w o l -> can_be_cut w o l' ->
  exists r r' lines lines', run_cmd depth w (CBalance true no_total) o file = Ok lines /\ balance_printed r lines /\
    run_cmd depth w (CBalance true no_total) o file' = Ok lines' /\ balance_printed r' lines' /\ same_report r' r.
Proof.
  intros depth w o day b file file' l l' first opening later nt A Hw HF HF' SJ SJ' CF OB Hb RUN HA OX HC HC'. pose proof (cf_old _ _ _ _ _ _ _ _ CF) as D. pose proof (cf_new _ _ _ _ _ _ _ _ CF) as D'.
  pose proof (order_of_run _ _ _ _ _ _ _ Hw HF SJ D RUN) as IO. cbn beta iota in IO. pose proof (proj2 (carried_order _ _ _ _ _ _ _ _ CF) IO) as IO'.
  destruct (stated_flat_cut depth w o file l _ nt A Hw HF SJ D IO HA OX HC) as (r & lines & R1 & R2 & R3 & R4 & _).
  destruct (stated_flat_cut depth w o file' l' _ nt A Hw HF' SJ' D' IO' HA OX HC') as (r' & lines' & S1 & S2 & S3 & S4 & _).
  exists r, r', lines, lines'. do 4 (split; auto). eapply (same_flat o o); [auto|exact R3|exact R4|exact S3|exact S4| |]; intros; cbn beta; eapply carried_period; eauto.
Qed.
Print Assumptions C98_carried_period.
(** What the accounts hold at the end (real postings) is the same. *)
Theorem C98_carried_real : forall depth w o day file file' l l' first opening later no_total A, world_ok w -> file_parses depth w file l -> file_parses depth w file' l' ->
  stated_journal w l -> stated_journal w l' -> carried_forward w (o_no_balance_check o) day l l' first opening later ->
  o_real o = true -> o_begin o = None -> (forall e, o_end o = Some e -> (day <= e)%Z) -> exit_status (run_cmd depth w (CBalance true no_total) o file) = 0%Z ->
  asked_accounts w (o_query o) A -> o_exchange o = None -> o_depth o = None ->
  exists r r' lines lines', run_cmd depth w (CBalance true no_total) o file = Ok lines /\ balance_printed r lines /\
    run_cmd depth w (CBalance true no_total) o file' = Ok lines' /\ balance_printed r' lines' /\ same_report r' r.
Proof.
  intros depth w o day file file' l l' first opening later nt A Hw HF HF' SJ SJ' CF RE OB OE RUN HA OX ND. pose proof (cf_old _ _ _ _ _ _ _ _ CF) as D. pose proof (cf_new _ _ _ _ _ _ _ _ CF) as D'.
  pose proof (order_of_run _ _ _ _ _ _ _ Hw HF SJ D RUN) as IO. cbn beta iota in IO. pose proof (proj2 (carried_order _ _ _ _ _ _ _ _ CF) IO) as IO'.
  destruct (stated_flat depth w o file l _ nt A Hw HF SJ D IO HA OX ND) as (r & lines & R1 & R2 & R3 & R4 & R5).
  destruct (stated_flat depth w o file' l' _ nt A Hw HF' SJ' D' IO' HA OX ND) as (r' & lines' & S1 & S2 & S3 & S4 & S5).
  exists r, r', lines, lines'. do 4 (split; auto).
  assert (T : forall a c, total_added w l' (o_no_balance_check o) o (fun n => A n && str_eqb n a) nothing (opening ++ later) c = total_added w l (o_no_balance_check o) o (fun n => A n && str_eqb n a) nothing (first ++ later) c).
  { intros a c. rewrite !total_only. destruct (A a); auto. eapply carried_account; eauto. }
  assert (CB : forall n, PropAgree.cut_by o n = n) by (intros n; unfold PropAgree.cut_by; rewrite ND; auto).
  assert (TC : forall a c, total_added w l' (o_no_balance_check o) o (fun n => A n && str_eqb (PropAgree.cut_by o n) a) nothing (opening ++ later) c = total_added w l (o_no_balance_check o) o (fun n => A n && str_eqb (PropAgree.cut_by o n) a) nothing (first ++ later) c).
  { intros a c. rewrite (total_pred w _ l' o _ _ _ (fun n => A n && str_eqb n a)), (total_pred w _ l o _ _ _ (fun n => A n && str_eqb n a)) by (intros n; rewrite CB; auto). apply T. }
  assert (LS : map br_label (bp_rows r') = map br_label (bp_rows r)).
  { apply PropJoin.ascending_same; [apply S3|apply R3|]. intros a. rewrite (flat_rows_of o _ r' a S3), (flat_rows_of o _ r a R3). split; intros (c & Hc); exists c; cbn beta in *; [rewrite <- TC|rewrite TC]; auto. }
  eapply (same_flat o o); [auto|exact R3|exact R4|exact S3|exact S4|exact TC|]. intros c. cbn beta. rewrite <- S5, <- R5.
  assert (RS := PropJoin.rows_same (bp_rows r') (bp_rows r) (fun a c => total_added w l (o_no_balance_check o) o (fun n => A n && str_eqb (PropAgree.cut_by o n) a) nothing (first ++ later) c) LS).
  assert (F : Forall2 (fun row' row => br_label row' = br_label row /\ forall c, moneys_amt (br_moneys row') c = moneys_amt (br_moneys row) c) (bp_rows r') (bp_rows r)).
  { apply RS.
    - intros row Hi k. destruct S3 as [_ S3]. destruct (S3 _ (PropAgree.cut_by_cuts o)) as [X1 _]. destruct (X1 row Hi) as (_ & _ & ->). apply TC.
    - intros row Hi k. destruct R3 as [_ R3]. destruct (R3 _ (PropAgree.cut_by_cuts o)) as [X1 _]. destruct (X1 row Hi) as (_ & _ & ->). auto. }
  unfold shown_for, shown_amount. clear -F. induction F as [|x y xs ys (_ & H) F IH]; auto. cbn [filter map]. rewrite !qsum_cons, H. cbn [filter map] in IH. rewrite IH. auto.
Qed.
Print Assumptions C98_carried_real.

(** ** A balance stated at the end *)
Lemma sorted_last (ts us : list (txn rposting)) t : date_sorted ts us -> (forall u, In u ts -> not_after u t) -> (exists d, t_date t = Some d) -> date_sorted (ts ++ [t]) (us ++ [t]).
Proof.
  intros (P & S & E) H (d & Hd). split; [apply Permutation_app; auto|]. split.
  - assert (H' : forall u, In u us -> not_after u t) by (intros u Hu; apply H; apply (Permutation_in _ (Permutation_sym P)); auto). clear -S H'. induction S as [|u us S IH F]; cbn; [constructor; constructor|].
    constructor; [apply IH; intros; apply H'; right; auto|]. apply Forall_app. split; auto. constructor; auto. apply H'. left. auto.
  - intros x. rewrite !filter_app, E. auto.
Qed.
(** A balance stated at the end, with nothing moved, is accepted exactly if it is what the balance report shows. *)
Theorem C98_stated_as_shown : forall depth w o x file file' l l' t n q k no_total A, world_ok w -> file_parses depth w file l -> file_parses depth w file' l' ->
  stated_journal w l -> stated_journal w l' -> same_names l' l -> pl_txns l' = pl_txns l ++ [t] -> states_only t n q k -> (forall u, In u (pl_txns l) -> not_after u t) ->
  exit_status (run_cmd depth w CCheck x file) = 0%Z ->
  o_real o = true -> o_begin o = None -> o_end o = None -> o_no_balance_check o = false -> o_exchange o = None -> o_depth o = None ->
  asked_accounts w (o_query o) A -> A (account_meant w l n) = true ->
  exists r lines, run_cmd depth w (CBalance true no_total) o file = Ok lines /\ balance_printed r lines /\
    (exit_status (run_cmd depth w CCheck x file') = 0%Z <-> shown_for r (str_eqb (account_meant w l n)) (commodity_meant w l k) = q).
Proof.
  intros depth w o x file file' l l' t n q k nt A Hw HF HF' SJ SJ' SN ET (TT & p & EP & PK & PA & PM & PC & PB) LATE CH RE OB OE NB OX ND HA AN.
  pose proof (sorted_of depth w file l HF SJ) as D. set (us := by_date (pl_txns l)) in *. apply (C83_check depth w x file l us Hw HF SJ D) in CH.
  assert (DT : exists d, t_date t = Some d).
  { pose proof (stated_dated _ _ (file_parsed _ _ _ _ HF') SJ') as DD. rewrite Forall_forall in DD. apply DD. rewrite ET. apply in_or_app. right. left. auto. }
  assert (D' : date_sorted (pl_txns l') (us ++ [t])) by (rewrite ET; apply sorted_last; auto).
  assert (IO : all_in_order w l (o_no_balance_check o) nothing us) by (rewrite NB; auto).
  destruct (stated_flat depth w o file l us nt A Hw HF SJ D IO HA OX ND) as (r & lines & R1 & R2 & R3 & R4 & R5). exists r, lines. do 2 (split; auto).
  rewrite (C83_check depth w x file' l' _ Hw HF' SJ' D'). rewrite order_app. cbn [all_in_order].
  rewrite (same_order w l l' SN false us nothing nothing (sorted_incl _ _ D) nothing_much).
  assert (SH : shown_for r (str_eqb (account_meant w l n)) (commodity_meant w l k) = after_txns w l false nothing us (account_meant w l n) (commodity_meant w l k)).
  { rewrite R5, NB. rewrite (total_pred w false l o us nothing _ (fun m => A m && str_eqb m (account_meant w l n))) by (intros m; rewrite (str_eqb_sym m); auto).
    rewrite total_only, AN. rewrite held; auto; [unfold nothing; ring|]. intros u Hu. unfold in_window. rewrite OB, OE.
    pose proof (stated_dated _ _ (file_parsed _ _ _ _ HF) SJ) as DD. rewrite Forall_forall in DD. destruct (DD u (sorted_incl _ _ D u Hu)) as (d & ->). auto. }
  rewrite SH.
  assert (AF : after_txns w l' false nothing us (account_meant w l n) (commodity_meant w l k) = after_txns w l false nothing us (account_meant w l n) (commodity_meant w l k)).
  { assert (Z : forall v m, after_txns w v false nothing us (account_meant w l n) m = total_added w v false o (str_eqb (account_meant w l n)) nothing us m).
    { intros v m. rewrite held; auto; [unfold nothing; ring|]. intros u Hu. unfold in_window. rewrite OB, OE.
      pose proof (stated_dated _ _ (file_parsed _ _ _ _ HF) SJ) as DD. rewrite Forall_forall in DD. destruct (DD u (sorted_incl _ _ D u Hu)) as (d & ->). auto. }
    rewrite !Z. apply (same_total w l l' SN); [exact (sorted_incl _ _ D)|exact nothing_much]. }
  rewrite <- AF. set (now := after_txns w l' false nothing us).
  assert (MA : account_meant w l' n = account_meant w l n) by (apply same_meant; auto).
  assert (MC : commodity_meant w l' k = commodity_meant w l k) by (unfold commodity_meant; rewrite (proj2 SN); auto).
  assert (RP : real_posting p = true) by (unfold real_posting; rewrite PK; auto).
  assert (Z0 : forall c, written_in w l' (0, k) c = 0) by (intros c; unfold written_in; cbn [fst snd]; destruct (str_eqb _ c); auto).
  assert (TR : true_of w l' false now p <-> now (account_meant w l n) (commodity_meant w l k) = q).
  { unfold true_of. rewrite RP, PM, PB. unfold after_posting, its_account, moved. rewrite RP, PA, PM, MA, str_eqb_refl. cbn [andb]. split.
    - intros H. specialize (H eq_refl eq_refl q k eq_refl). rewrite MC, Z0 in H. rewrite <- H. ring.
    - intros H _ _ q' k' E. assert (E1 : q' = q) by congruence. assert (E2 : k' = k) by congruence. subst q' k'. rewrite MC, Z0, H. ring. }
  unfold in_order_now. rewrite EP. cbn [all_true filter value_sum].
  assert (BL : blank false p = false) by (unfold blank; rewrite RP, PM; auto). rewrite BL.
  assert (F1 : SpecTxn.fine (kind_value w l' VirtualMustBalance t)).
  { left. intros c. unfold kind_value. rewrite EP. cbn [map]. rewrite PK. cbn [kind_eqb]. vm_compute. reflexivity. }
  assert (F2 : SpecTxn.fine (fun c => (if real_posting p then counts w l' false now p c else 0) + 0)).
  { left. intros c. rewrite RP. unfold counts. rewrite PM. unfold written_value. rewrite PM, PC. rewrite Z0. ring. }
  rewrite TR. tauto.
Qed.
Print Assumptions C98_stated_as_shown.

(** ** Cases *)
Section Unseen.
  Context (w : world) (l : pledger) (skip : bool) (c : str).
  Definition free_of (p : rposting) : Prop := forall q k, rp_money p = Some (q, k) \/ rp_cost p = Some (q, k) \/ rp_balance p = Some (q, k) -> commodity_meant w l k <> c.
  Definition none_held (now : holdings) : Prop := forall a, now a c = 0.
  Lemma free_written p m : free_of p -> rp_money p = Some m \/ rp_cost p = Some m \/ rp_balance p = Some m -> written_in w l m c = 0.
  Proof using Type. destruct m as [q k]. intros F H. unfold written_in. cbn [fst snd]. destruct (str_eqb_spec (commodity_meant w l k) c) as [E|]; auto. exfalso. exact (F q k H E). Qed.
  Lemma free_moved now p : none_held now -> free_of p -> moved w l skip now p c = 0.
  Proof using Type.
    intros N F. unfold moved. destruct (rp_money p) eqn:E; [apply (free_written p); auto|]. destruct (rp_balance p) eqn:E2; auto. destruct skip; auto. rewrite (free_written p) by auto. rewrite N. ring.
  Qed.
  Lemma free_value p : free_of p -> written_value w l p c = 0.
  Proof using Type.
    intros F. unfold written_value. destruct (rp_money p) as [[q k]|] eqn:E; auto. destruct (rp_cost p) as [m|] eqn:E2; [|rewrite (free_written p) by auto; auto].
    destruct (rp_cost_type p) as [[]|]; rewrite ?(free_written p) by auto; try ring. destruct (qc_neg q); ring.
  Qed.
  Lemma free_after now p : none_held now -> free_of p -> none_held (after_posting w l skip now p).
  Proof using Type. intros N F a. unfold after_posting. rewrite N, free_moved by auto. destruct (_ && _); ring. Qed.
  Lemma free_sum ps : Forall free_of ps -> forall now, none_held now -> value_sum w l skip now ps c = 0.
  Proof using Type.
    induction 1 as [|p ps F _ IH]; intros now N; cbn [value_sum]; auto. rewrite IH by (apply free_after; auto). unfold counts. rewrite (free_moved now p N F), (free_value p F). destruct (real_posting p), (rp_money p); ring.
  Qed.
  Lemma free_adds rest K A ps : rest c = 0 -> Forall free_of ps -> forall now, none_held now -> adds_to w l skip rest K A now ps c = 0.
  Proof using Type.
    intros R. induction 1 as [|p ps F _ IH]; intros now N; cbn [adds_to]; auto. rewrite IH by (apply free_after; auto). rewrite R, (free_moved now p N F). destruct (_ && _), (blank skip p); ring.
  Qed.
  Lemma free_txns us : Forall (fun t => Forall free_of (t_postings t)) us -> forall now, none_held now -> none_held (after_txns w l skip now us).
  Proof using Type.
    induction 1 as [|t us F _ IH]; intros now N; cbn [after_txns]; auto. apply IH. intros a. unfold after_txn, txn_adds_to. rewrite N, free_adds; [ring| |exact F|exact N]. unfold rest_of. rewrite (free_sum _ F now N). ring.
  Qed.
End Unseen.
Definition period_of (b e : option Z) (real : bool) : opts :=
  {| o_real := real; o_begin := b; o_end := e; o_query := []; o_depth := None; o_exchange := None; o_no_balance_check := false |}.
Lemma held_here w l us a c : incl us (pl_txns l) -> forallb (fun t => match t_date t with Some _ => true | None => false end) us = true ->
  after_txns w l false nothing us a c <> 0 -> In a (map (account_meant w l) (used_accounts l)) /\ In c (map (commodity_meant w l) (used_commodities l)).
Proof.
  intros I DT H. split.
  - assert (E : total_added w l false (period_of None None true) (fun n => true && str_eqb n a) nothing us c <> 0).
    { rewrite (total_pred w false l _ us nothing _ (str_eqb a)) by (intros n; apply str_eqb_sym). rewrite held; auto.
      - intros Z. apply H. rewrite <- Z. unfold nothing. ring.
      - intros t Ht. rewrite forallb_forall in DT. apply DT in Ht. unfold in_window. cbn. destruct (t_date t); [auto|discriminate]. }
    destruct (total_account w l false _ (fun _ => true) us a c I E) as (n & Hn & ->). apply in_map. apply used_account. auto.
  - destruct (in_dec PropAgree.str_dec c (map (commodity_meant w l) (used_commodities l))) as [Hi|Hn]; auto. exfalso. apply H. apply free_txns; [|intros x; reflexivity].
    apply Forall_forall. intros t Ht. apply Forall_forall. intros p Hp q k X E. apply Hn. rewrite <- E. apply in_map. apply used_commodity. right. exists t, p, q. auto.
Qed.
Definition holds_check (w : world) (l l' : pledger) (us us' : list (txn rposting)) : bool :=
  let dated_all := forallb (fun t => match t_date t with Some _ => true | None => false end) in
  dated_all us && dated_all us' &&
  forallb (fun a => forallb (fun c => qc_eqb (after_txns w l' false nothing us' a c) (after_txns w l false nothing us a c))
    (map (commodity_meant w l) (used_commodities l) ++ map (commodity_meant w l') (used_commodities l')))
    (map (account_meant w l) (used_accounts l) ++ map (account_meant w l') (used_accounts l')).
Lemma holds_check_ok w l l' us us' : incl us (pl_txns l) -> incl us' (pl_txns l') -> holds_check w l l' us us' = true -> forall a c, after_txns w l' false nothing us' a c = after_txns w l false nothing us a c.
Proof.
  intros I I' H a c. unfold holds_check in H. cbn zeta in H. apply andb_prop in H. destruct H as [H H3]. apply andb_prop in H. destruct H as [H1 H2]. rewrite forallb_forall in H3.
  set (x := after_txns w l' false nothing us' a c). set (y := after_txns w l false nothing us a c).
  assert (K : In a (map (account_meant w l) (used_accounts l) ++ map (account_meant w l') (used_accounts l')) -> In c (map (commodity_meant w l) (used_commodities l) ++ map (commodity_meant w l') (used_commodities l')) -> x = y).
  { intros Ha Hc. specialize (H3 a Ha). rewrite forallb_forall in H3. specialize (H3 c Hc). unfold x, y. destruct (qc_eqb_spec (after_txns w l' false nothing us' a c) (after_txns w l false nothing us a c)); auto. discriminate. }
  destruct (qc_eqb_spec x 0) as [Zx|Nx]; [destruct (qc_eqb_spec y 0) as [Zy|Ny]; [congruence|]|].
  - destruct (held_here w l us a c I H1 Ny) as [Ka Kc]. apply K; apply in_or_app; auto.
  - destruct (held_here w l' us' a c I' H2 Nx) as [Ka Kc]. apply K; apply in_or_app; auto.
Qed.
Definition head98 : list String.string := ["account Assets:Cash"; "  alias purse"; "commodity EUR"; "  alias E"]%string.
Definition jan98 : list String.string := ["2020-01-03 Job"; "  Assets:Bank  100 EUR = 100 E"; "  Income"; "2020-01-20 Cash"; "  Assets:Cash  50 EUR = 50 EUR"; "  (Budget)  5 EUR"; "  Assets:Bank"]%string.
Definition feb98 : list String.string := ["2020-02-03 Counted"; "  purse  = 38 E"; "  Lost"; "2020-02-04 Shop"; "  Food  8 EUR"; "  Assets:Cash  -8 EUR = 30 EUR"; "  [Goal]  1 EUR"; "  [Plan]  -1 EUR"]%string.
Definition open98 : list String.string := ["2020-01-31 Opening"; "  purse  50 EUR"; "  Assets:Bank  = 50 EUR"; "  Income"]%string.
Definition w98 : world :=
  {| w_lower := ascii_lower; w_numeric := fun _ => false; w_rx := fun _ _ => false; w_rx_ok := fun _ => true; w_width := None;
     w_read := fun p => if str_eqb p (L "whole") then Some (text (head98 ++ feb98 ++ jan98)) else if str_eqb p (L "january") then Some (text (head98 ++ jan98)) else
       if str_eqb p (L "new") then Some (text (head98 ++ open98 ++ feb98)) else
       if str_eqb p (L "stated") then Some (text (head98 ++ feb98 ++ jan98 ++ ["2020-02-29 Counted"; "  purse  0 E = 30 E"]%string)) else
       if str_eqb p (L "too much") then Some (text (head98 ++ feb98 ++ jan98 ++ ["2020-02-29 Counted"; "  purse  0 E = 31 E"]%string)) else None;
     w_glob := fun _ => None; w_two_timer := fun _ => None; w_now := 0%Z; w_ord := fun _ _ l => l |}.
Lemma w98_ok : world_ok w98.
Proof. split; [intros; apply Permutation_refl|exact ascii_lower_idem]. Qed.
Definition l98 (n : String.string) : pledger := get pl_new (tokenize_file 2 w98 (L n)).
Definition feb : Z := 737455.
Definition until_feb : opts := period_of None (Some feb) false.
Definition to_the_end : opts := period_of None None false.
Definition from_feb : opts := period_of (Some feb) None false.
Definition real_only : opts := period_of None None true.
Definition pays98 (o : opts) (n : String.string) : res (list str) := run_cmd 2 w98 (CBalance true false) o (L n).
Definition first98 : list (txn rposting) := by_date (pl_txns (l98 "january")).
Definition later98 : list (txn rposting) := filter (fun t => negb (dated_before feb t)) (by_date (pl_txns (l98 "whole"))).
Definition opening98 : list (txn rposting) := filter (dated_before feb) (by_date (pl_txns (l98 "new"))).
Example C98_case_cut : world_ok w98 /\ file_parses 2 w98 (L "whole") (l98 "whole") /\ file_parses 2 w98 (L "january") (l98 "january") /\ stated_journal w98 (l98 "whole") /\ cut_at feb (l98 "january") (l98 "whole") /\
  without_end until_feb to_the_end /\ asked_accounts w98 (o_query until_feb) (fun _ => true) /\ o_exchange until_feb = None /\ can_be_cut w98 until_feb (l98 "whole") /\ length (pl_txns (l98 "january")) = 2%nat /\
  exit_status (run_cmd 2 w98 CCheck until_feb (L "whole")) = 0%Z /\ exit_status (run_cmd 2 w98 CRegister until_feb (L "whole")) = 0%Z /\
  pays98 until_feb "whole" = Ok (map L ["           50.00 EUR  Assets:Bank"; "           50.00 EUR  Assets:Cash"; "            5.00 EUR  Budget"; "         -100.00 EUR  Income"; "--------------------"; "            5.00 EUR"]%string) /\
  pays98 to_the_end "january" = pays98 until_feb "whole".
Proof.
  split; [exact w98_ok|]. split; [apply file_parses_iff; vm_compute; reflexivity|]. split; [apply file_parses_iff; vm_compute; reflexivity|]. split; [apply stated_check_ok; vm_compute; reflexivity|].
  split; [split; [split; [vm_compute; reflexivity|split; [vm_compute; reflexivity|]]|vm_compute; reflexivity]|].
  { assert (E : pl_prices (l98 "january") = []) by (vm_compute; reflexivity). rewrite E. intros x []. }
  split; [split; [split; [reflexivity|split; [reflexivity|split; [reflexivity|split; reflexivity]]]|split; reflexivity]|]. split; [constructor|]. split; [reflexivity|]. split; [intros d E; discriminate E|].
  split; [vm_compute; reflexivity|]. split; [vm_compute; reflexivity|]. split; [vm_compute; reflexivity|]. split; vm_compute; reflexivity.
Qed.
Lemma in_order_98 n us : file_parses 2 w98 (L n) (l98 n) -> stated_journal w98 (l98 n) -> date_sorted (pl_txns (l98 n)) us -> exit_status (run_cmd 2 w98 CCheck to_the_end (L n)) = 0%Z -> all_in_order w98 (l98 n) false nothing us.
Proof. intros F S D H. exact (order_of_run 2 w98 CCheck to_the_end (L n) (l98 n) us w98_ok F S D H). Qed.
Example C98_case_carried : file_parses 2 w98 (L "whole") (l98 "whole") /\ file_parses 2 w98 (L "new") (l98 "new") /\ stated_journal w98 (l98 "whole") /\ stated_journal w98 (l98 "new") /\
  carried_forward w98 false feb (l98 "whole") (l98 "new") first98 opening98 later98 /\ length opening98 = 1%nat /\ length later98 = 2%nat /\
  exit_status (run_cmd 2 w98 CCheck real_only (L "whole")) = 0%Z /\ o_begin from_feb = Some feb /\ o_real real_only = true /\
  pays98 from_feb "new" = pays98 from_feb "whole" /\ pays98 real_only "new" = pays98 real_only "whole" /\
  pays98 real_only "whole" = Ok (map L ["           50.00 EUR  Assets:Bank"; "           30.00 EUR  Assets:Cash"; "            8.00 EUR  Food"; "         -100.00 EUR  Income"; "           12.00 EUR  Lost"; "--------------------"; "                   0"]%string).
Proof.
  assert (F : file_parses 2 w98 (L "whole") (l98 "whole")) by (apply file_parses_iff; vm_compute; reflexivity).
  assert (F' : file_parses 2 w98 (L "new") (l98 "new")) by (apply file_parses_iff; vm_compute; reflexivity).
  assert (S1 : stated_journal w98 (l98 "whole")) by (apply stated_check_ok; vm_compute; reflexivity).
  assert (S2 : stated_journal w98 (l98 "new")) by (apply stated_check_ok; vm_compute; reflexivity).
  assert (D : date_sorted (pl_txns (l98 "whole")) (first98 ++ later98)).
  { assert (E : first98 ++ later98 = by_date (pl_txns (l98 "whole"))) by (vm_compute; reflexivity). rewrite E. exact (sorted_of 2 w98 (L "whole") (l98 "whole") F S1). }
  assert (D' : date_sorted (pl_txns (l98 "new")) (opening98 ++ later98)).
  { assert (E : opening98 ++ later98 = by_date (pl_txns (l98 "new"))) by (vm_compute; reflexivity). rewrite E. exact (sorted_of 2 w98 (L "new") (l98 "new") F' S2). }
  split; [exact F|]. split; [exact F'|]. split; [exact S1|]. split; [exact S2|]. split.
  - constructor.
    + split; vm_compute; reflexivity.
    + exact D.
    + exact D'.
    + assert (X : forallb (dated_before feb) (first98 ++ opening98) = true) by (vm_compute; reflexivity). rewrite forallb_forall in X. exact X.
    + assert (X : forallb (fun t => negb (dated_before feb t)) later98 = true) by (vm_compute; reflexivity). rewrite forallb_forall in X. intros t Ht. apply X in Ht. clear -Ht. destruct (dated_before feb t); [discriminate|auto].
    + assert (O1 : all_in_order w98 (l98 "whole") false nothing (first98 ++ later98)) by (apply in_order_98; [exact F|exact S1|exact D|vm_compute; reflexivity]).
      assert (O2 : all_in_order w98 (l98 "new") false nothing (opening98 ++ later98)) by (apply in_order_98; [exact F'|exact S2|exact D'|vm_compute; reflexivity]).
      split; [exact (proj1 (proj1 (order_app w98 (l98 "whole") false first98 later98 nothing) O1))|exact (proj1 (proj1 (order_app w98 (l98 "new") false opening98 later98 nothing) O2))].
    + apply holds_check_ok; [intros t Ht; apply (sorted_incl _ _ D); apply in_or_app; left; exact Ht|intros t Ht; apply (sorted_incl _ _ D'); apply in_or_app; left; exact Ht|vm_compute; reflexivity].
  - split; [vm_compute; reflexivity|]. split; [vm_compute; reflexivity|]. split; [vm_compute; reflexivity|]. split; [reflexivity|]. split; [reflexivity|]. split; [vm_compute; reflexivity|]. split; vm_compute; reflexivity.
Qed.
(** The wallet is counted at the end: 30 EUR is accepted, 31 EUR is not. *)
(** The wallet is counted at the end: the 30 EUR that are shown are accepted; 31 EUR are not. *)
Definition counted (t : txn rposting) : bool :=
  match t_type t, t_postings t with
  | TReal, [p] => match rp_kind p, rp_money p, rp_cost p, rp_balance p with
                  | Real, Some (a, k), None, Some (b, k') => str_eqb (rp_account p) (L "purse") && qc_eqb a 0 && str_eqb k (L "E") && qc_eqb b (qz 30) && str_eqb k' (L "E")
                  | _, _, _, _ => false end
  | _, _ => false
  end.
Lemma counted_ok t : counted t = true -> states_only t (L "purse") (qz 30) (L "E").
Proof.
  unfold counted, states_only. destruct (t_type t); try discriminate. destruct (t_postings t) as [|p [|]]; try discriminate.
  destruct (rp_kind p) eqn:K; try discriminate. destruct (rp_money p) as [[a k]|] eqn:M; try discriminate. destruct (rp_cost p) eqn:C; try discriminate. destruct (rp_balance p) as [[b k']|] eqn:B; try discriminate.
  rewrite !Bool.andb_true_iff. intros ((((X1 & X2) & X3) & X4) & X5). apply str_eqb_eq in X1, X3, X5. destruct (qc_eqb_spec a 0) as [->|]; [|discriminate X2]. destruct (qc_eqb_spec b (qz 30)) as [->|]; [|discriminate X4]. subst. split; [reflexivity|]. exists p. rewrite K, M, C, B. auto 10.
Qed.
Definition last98 : txn rposting := last (pl_txns (l98 "stated")) (Build_txn None None CUnknown None [] None [] [] TReal []).
Example C98_case_stated : file_parses 2 w98 (L "whole") (l98 "whole") /\ file_parses 2 w98 (L "stated") (l98 "stated") /\ stated_journal w98 (l98 "whole") /\ stated_journal w98 (l98 "stated") /\
  same_names (l98 "stated") (l98 "whole") /\ pl_txns (l98 "stated") = pl_txns (l98 "whole") ++ [last98] /\ states_only last98 (L "purse") (qz 30) (L "E") /\ (forall u, In u (pl_txns (l98 "whole")) -> not_after u last98) /\
  account_meant w98 (l98 "whole") (L "purse") = L "Assets:Cash" /\ commodity_meant w98 (l98 "whole") (L "E") = L "EUR" /\
  exit_status (run_cmd 2 w98 CCheck real_only (L "whole")) = 0%Z /\ exit_status (run_cmd 2 w98 CCheck real_only (L "stated")) = 0%Z /\ exit_status (run_cmd 2 w98 CCheck real_only (L "too much")) = 1%Z.
Proof.
  split; [apply file_parses_iff; vm_compute; reflexivity|]. split; [apply file_parses_iff; vm_compute; reflexivity|]. split; [apply stated_check_ok; vm_compute; reflexivity|]. split; [apply stated_check_ok; vm_compute; reflexivity|].
  split; [split; vm_compute; reflexivity|]. split; [vm_compute; reflexivity|]. split; [apply counted_ok; vm_compute; reflexivity|]. split.
  { assert (X : forallb (fun u => match t_date u, t_date last98 with Some a, Some b => (a <=? b)%Z | _, _ => false end) (pl_txns (l98 "whole")) = true) by (vm_compute; reflexivity).
    rewrite forallb_forall in X. intros u Hu. apply X in Hu. unfold not_after. clear X. destruct (t_date u); [|discriminate Hu]. destruct (t_date last98); [|discriminate Hu]. apply Z.leb_le. exact Hu. }
  split; [vm_compute; reflexivity|]. split; [vm_compute; reflexivity|]. split; [vm_compute; reflexivity|]. split; vm_compute; reflexivity.
Qed.
