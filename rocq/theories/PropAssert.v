(** C83: journals with balance assertions and assignments, from the journal to the reports. *)
From Coq Require Import Lia Sorting.Sorted.
From Verif Require Import Base BaseFacts Numerals Money Alist Comment Txn Expr Filter Price Tokens Ledger Reports App Spec MoneyFacts SpecList SpecTxn TxnFacts SpecLedger
  TokenFacts JournalFacts LedgerFacts LedgerFacts2 LedgerFacts3 PropTxn PropLedger SpecQuery SpecReports ReportFacts ReportFacts2 ReportFacts3 PropReports PropApp
  SpecText SpecDates SpecTokens SpecJournal JournalRead PropJournal SpecLayout PropLayout SpecBook BookFacts PropBook PropBook2 SpecAssert AssertFacts.
Open Scope Qc_scope.

(** ** The ledger is made exactly if all transactions are in order *)
Lemma stated_dated w l : parsed w l -> stated_journal w l -> Forall (fun u => exists d, t_date u = Some d) (pl_txns l).
Proof.
  intros Hp P. pose proof (jo_txns w l (parsed_ok _ _ Hp)) as D. rewrite Forall_forall in *. intros t Ht. apply D in Ht as X. unfold rtxn_ok in X.
  rewrite (sj_txns _ _ P t Ht) in X. apply X.
Qed.
Lemma stated_sorted w l al cs pays ts dir costs us sorted : parsed w l -> stated_journal w l -> journal_read w l al cs pays ts dir costs ->
  date_sorted (pl_txns l) us -> date_sorted ts sorted -> Forall2 (stated_txn w l) us sorted.
Proof.
  intros Hp P JR DU DS. pose proof (read_stated_all _ _ _ _ _ _ _ _ (jo_txns w l (parsed_ok _ _ Hp)) P JR) as F.
  apply (sort_related (stated_txn w l) (pl_txns l) us ts sorted); auto; [intros u t (X & _); auto|eapply stated_dated; eauto].
Qed.
Lemma stated_outcome w skip l us : world_ok w -> parsed w l -> stated_journal w l -> date_sorted (pl_txns l) us ->
  (all_in_order w l skip nothing us /\ exists lg, to_ledger w skip l = Ok lg /\ ledger_built w skip l lg) \/
  (~ all_in_order w l skip nothing us /\ exists e, to_ledger w skip l = Err e).
Proof.
  intros Hw Hp P DU. destruct (stated_all w l P) as [_ R0]. destruct (to_ledger_plain w skip l Hw (parsed_ok _ _ Hp) R0) as [(lg & E & B)|[(e & v & E & _ & R)|(E & t & p & Ht & Hi & Z)]].
  - left. split; eauto. destruct B as [ts dir costs sorted run imps _ _ JR DS RZ LR _|]; [|congruence].
    destruct (run_stated w l skip us sorted run _ _ nothing (stated_sorted _ _ _ _ _ _ _ _ _ _ Hp P JR DU DS) RZ LR) as [A _]. exact A.
  - right. split; eauto. destruct R as (al & cs & pays & ts & dir & costs & sorted & run & JR & DS & RZ & SR).
    eapply stopped_stated; [eapply stated_sorted; eauto|exact RZ|exact SR].
  - destruct (sj_postings _ _ P t p Ht Hi) as (_ & _ & X). contradiction.
Qed.
Lemma stated_totals w l skip lg us o A c : parsed w l -> stated_journal w l -> date_sorted (pl_txns l) us -> ledger_built w skip l lg ->
  qsum (map (txn_counted (asked_for o) A c) (filter (window_of o) (lg_txns lg))) = total_added w l skip o A nothing us c.
Proof.
  intros Hp P DU B. destruct (stated_all w l P) as [_ R0]. destruct B as [ts dir costs sorted run imps _ _ JR DS RZ LR _|]; [|congruence].
  apply (run_stated w l skip us sorted run _ _ nothing (stated_sorted _ _ _ _ _ _ _ _ _ _ Hp P JR DU DS) RZ LR).
Qed.
Lemma stated_whole w l skip lg : world_ok w -> parsed w l -> stated_journal w l -> to_ledger w skip l = Ok lg -> ledger_built w skip l lg ->
  forall t, In t (lg_txns lg) -> (exists d, t_date t = Some d) /\ forall p, In p (t_postings t) -> p_amount p <> None.
Proof.
  intros Hw Hp P E0 B t Ht. split; [apply (made_dated w lg Hw (made_plain _ _ _ _ Hp E0)); auto|].
  destruct (stated_all w l P) as [_ R0]. destruct B as [ts dir costs sorted run imps _ _ JR DS _ LR _|]; [|congruence].
  pose proof (read_stated_all _ _ _ _ _ _ _ _ (jo_txns w l (parsed_ok _ _ Hp)) P JR) as F. destruct DS as [PM _]. destruct (perm_forall2 _ _ _ _ F PM) as (us & PU & FU).
  apply run_txns in LR. clear - FU LR Ht. revert us FU. induction LR as [|t1 t2 sorted ts2 (run0 & prs & LT) LR IH]; intros us FU; [destruct Ht|].
  inversion FU as [|u ? us' ? PT FU']; subst. destruct Ht as [<-|Ht]; [|eapply IH; eauto].
  destruct LT as (_ & _ & (kept & fills & E & F2 & HF & _) & _). destruct PT as (_ & R & PP & _).
  intros p Hi. rewrite E in Hi. rewrite !in_app_iff in Hi. destruct Hi as [Hi|[Hi|Hi]].
  - clear -F2 Hi. induction F2 as [|x y ps ps' K F IH]; destruct Hi; subst; [apply K|auto].
  - apply (HF p Hi).
  - apply filter_In in Hi. destruct Hi as [Hi N]. clear -R PP Hi N. induction R as [|x y ps ps' Q F IH]; [destruct Hi|]. inversion PP as [|? ? (_ & X & _) PP']; subst.
    destruct Hi as [->|Hi]; auto. destruct Q as (_ & K & _ & A & _). rewrite A. rewrite K in N.
    destruct (rp_money x); [discriminate|]. exfalso. apply X; auto. intros E. rewrite E in N. discriminate.
Qed.

(** ** C83 *)
Lemma subtotal_stated w o l skip lg us tps A c : parsed w l -> stated_journal w l -> date_sorted (pl_txns l) us -> ledger_built w skip l lg -> reported_postings w o None lg tps ->
  subtotal (map snd tps) A c = total_added w l skip o A nothing us c.
Proof. intros Hp P DU B R. rewrite (reported_totals _ _ _ _ _ _ R). rewrite (stated_totals w l skip lg us) by auto. reflexivity. Qed.
Lemma flat_stated w site o tot l skip lg us r : world_ok w -> parsed w l -> stated_journal w l -> date_sorted (pl_txns l) us -> whole_report o -> to_ledger w skip l = Ok lg -> ledger_built w skip l lg ->
  balance_report w site o true tot lg = Ok r -> flat_shows (fun A => total_added w l skip o A nothing us) r /\ total_shows (fun A => total_added w l skip o A nothing us) tot r.
Proof.
  intros Hw Hp P DU O E B H. pose proof O as (_ & OD & OX). pose proof (made_plain _ _ _ _ Hp E) as M. split.
  - destruct (C56_flat_rows_partial w site o tot lg r Hw M OX H) as (q & tps & Q & R & A & F1 & F2). pose proof (query_none w o q O Q). subst q.
    assert (C : cuts o (fun n => n)) by (intros n; rewrite OD; auto). split; auto. split.
    + intros row Hi. destruct (F1 row _ Hi C) as (X1 & X2 & X3). do 2 (split; auto). intros c. rewrite X3. rewrite subtotal_eqb. eapply subtotal_stated; eauto.
    + intros a c Hn. apply (F2 (fun n => n) a c C). rewrite subtotal_eqb, (subtotal_stated w o l skip lg us) by auto. auto.
  - destruct (C57_total w site o true tot lg r Hw M OX H) as (q & tps & Q & R & T1 & T2). pose proof (query_none w o q O Q). subst q.
    split; auto. intros ms Em. destruct (T2 ms Em) as [X Y]. split; auto. intros c. rewrite Y. eapply subtotal_stated; eauto.
Qed.
Lemma tree_stated w site o tot l skip lg us r : world_ok w -> parsed w l -> stated_journal w l -> date_sorted (pl_txns l) us -> whole_report o -> to_ledger w skip l = Ok lg -> ledger_built w skip l lg ->
  balance_report w site o false tot lg = Ok r -> tree_shows (fun A => total_added w l skip o A nothing us) r /\ total_shows (fun A => total_added w l skip o A nothing us) tot r.
Proof.
  intros Hw Hp P DU O E B H. pose proof O as (_ & OD & OX). pose proof (made_plain _ _ _ _ Hp E) as M. split.
  - destruct (C55_tree_rows_partial w site o tot lg r Hw M OX H) as (q & tps & accs & Q & R & A & F). pose proof (query_none w o q O Q). subst q.
    exists accs. split; auto. eapply forall2_weaken; [|exact F]. intros a row (H1 & H2 & _ & H4 & H5 & H6). do 4 (split; auto). intros Hc c. rewrite H6 by auto. eapply subtotal_stated; eauto.
  - destruct (C57_total w site o false tot lg r Hw M OX H) as (q & tps & Q & R & T1 & T2). pose proof (query_none w o q O Q). subst q.
    split; auto. intros ms Em. destruct (T2 ms Em) as [X Y]. split; auto. intros c. rewrite Y. eapply subtotal_stated; eauto.
Qed.
Lemma file_parsed depth w file l : file_parses depth w file l -> parsed w l.
Proof. intros (c & _ & F). exists depth, (Some file), [file], c. auto. Qed.

(** If the transactions are in order one after the other, by date, the balance report shows what they add. *)
Theorem C83_balance : forall depth w o file l us flat no_total, world_ok w -> file_parses depth w file l -> stated_journal w l -> whole_report o ->
  date_sorted (pl_txns l) us -> all_in_order w l (o_no_balance_check o) nothing us ->
  let total := fun A => total_added w l (o_no_balance_check o) o A nothing us in
  exists r lines, run_cmd depth w (CBalance flat no_total) o file = Ok lines /\ balance_printed r lines /\
    (if flat then flat_shows total r else tree_shows total r) /\ total_shows total (negb no_total) r.
Proof.
  intros depth w o file l us flat nt Hw HF P O DU A total. pose proof (file_parsed _ _ _ _ HF) as Hp.
  apply file_parses_iff in HF. destruct (stated_outcome w (o_no_balance_check o) l us Hw Hp P DU) as [(_ & lg & E & B)|(N & _)]; [|contradiction].
  destruct (report_whole w (report_site lg) o flat (negb nt) lg O (stated_whole _ _ _ _ Hw Hp P E B)) as (r & Er).
  destruct (C69_printed depth w o file l lg Hw HF E) as [HP _]. destruct (HP flat nt r Er) as (lines & L1 & L2). exists r, lines. do 2 (split; auto).
  destruct flat; [eapply flat_stated|eapply tree_stated]; eauto.
Qed.
Print Assumptions C83_balance.
(** Otherwise every command fails with status 1; check looks at the balances in any case. *)
Theorem C83_refused : forall depth w c o file l us, world_ok w -> file_parses depth w file l -> stated_journal w l ->
  date_sorted (pl_txns l) us -> ~ all_in_order w l (match c with CCheck => false | _ => o_no_balance_check o end) nothing us ->
  exit_status (run_cmd depth w c o file) = 1%Z.
Proof.
  intros depth w c o file l us Hw HF P DU N. pose proof (file_parsed _ _ _ _ HF) as Hp.
  apply file_parses_iff in HF. unfold run_cmd. rewrite HF. cbn [bind]. unfold run_on.
  destruct c; match type of N with ~ all_in_order _ _ ?s _ _ => destruct (stated_outcome w s l us Hw Hp P DU) as [(A & _)|(_ & e & E)]; [contradiction|rewrite E; reflexivity] end.
Qed.
Print Assumptions C83_refused.
(** check accepts exactly the journals in order. *)
Theorem C83_check : forall depth w o file l us, world_ok w -> file_parses depth w file l -> stated_journal w l -> date_sorted (pl_txns l) us ->
  (exit_status (run_cmd depth w CCheck o file) = 0%Z <-> all_in_order w l false nothing us).
Proof.
  intros depth w o file l us Hw HF P DU. pose proof (file_parsed _ _ _ _ HF) as Hp.
  destruct (stated_outcome w false l us Hw Hp P DU) as [(A & lg & E & _)|(N & e & E)]; apply file_parses_iff in HF; unfold run_cmd; rewrite HF; cbn [bind]; unfold run_on; rewrite E; cbn; split; auto; discriminate || contradiction.
Qed.
Print Assumptions C83_check.

(** ** The last word *)
Section Last.
Context (w : world) (l : pledger) (skip : bool).
Lemma adds_ext rest K K' A ps : (forall p, In p ps -> A (its_account w l p) = true -> K (rp_kind p) = K' (rp_kind p)) -> forall now c,
  adds_to w l skip rest K A now ps c = adds_to w l skip rest K' A now ps c.
Proof.
  induction ps as [|p ps IH]; intros H now c; [reflexivity|]. cbn [adds_to]. rewrite IH by (intros; apply H; auto; right; auto). f_equal.
  destruct (A (its_account w l p)) eqn:E; [|rewrite !andb_false_r; auto]. rewrite (H p) by (auto; left; auto). auto.
Qed.
Lemma total_held o a ts : (forall t, In t ts -> in_window o t = true) ->
  (forall t p, In t ts -> In p (t_postings t) -> its_account w l p = a -> asked_for o (rp_kind p) = kind_eqb (rp_kind p) Real) ->
  forall now c, now a c + total_added w l skip o (str_eqb a) now ts c = after_txns w l skip now ts a c.
Proof.
  induction ts as [|t ts IH]; intros W H now c; cbn [total_added after_txns]; [ring|]. rewrite <- IH by (intros; eauto using in_cons).
  rewrite (W t) by (left; auto). unfold after_txn at 2. unfold txn_adds_to. rewrite (adds_ext _ (asked_for o) (fun k => kind_eqb k Real)); [ring|].
  intros p Hp E. apply (H t); [left| |]; auto. destruct (str_eqb_spec a (its_account w l p)); congruence.
Qed.
Lemma untouched_adds rest a ps : (forall p, In p ps -> ~ touches w l a p) -> forall now c, adds_to w l skip rest (fun k => kind_eqb k Real) (str_eqb a) now ps c = 0.
Proof.
  induction ps as [|p ps IH]; intros H now c; [reflexivity|]. cbn [adds_to]. rewrite IH by (intros; apply H; right; auto). fold (real_posting p).
  destruct (real_posting p) eqn:Er; cbn [andb]; [|ring]. destruct (str_eqb_spec a (its_account w l p)) as [->|]; [|ring]. exfalso. apply (H p); [left; auto|split; auto].
Qed.
Lemma untouched_after a ts : (forall t p, In t ts -> In p (t_postings t) -> ~ touches w l a p) -> forall now c, after_txns w l skip now ts a c = now a c.
Proof.
  induction ts as [|t ts IH]; intros H now c; [reflexivity|]. cbn [after_txns]. rewrite IH by (intros; eapply H; [right|]; eauto). unfold after_txn, txn_adds_to.
  rewrite untouched_adds; [ring|]. intros p Hp. apply (H t); [left|]; auto.
Qed.
Lemma untouched_postings a ps : (forall p, In p ps -> ~ touches w l a p) -> forall now c, after_postings w l skip now ps a c = now a c.
Proof.
  induction ps as [|p ps IH]; intros H now c; [reflexivity|]. cbn [after_postings]. rewrite IH by (intros; apply H; right; auto). unfold after_posting.
  destruct (real_posting p) eqn:Er; cbn [andb]; [|ring]. destruct (str_eqb_spec a (its_account w l p)) as [->|]; [|ring]. exfalso. apply (H p); [left; auto|split; auto].
Qed.
Lemma adds_after rest a ps : (forall p, In p ps -> blank skip p = true -> its_account w l p <> a) -> forall now c,
  now a c + adds_to w l skip rest (fun k => kind_eqb k Real) (str_eqb a) now ps c = after_postings w l skip now ps a c.
Proof.
  induction ps as [|p ps IH]; intros H now c; cbn [adds_to after_postings]; [ring|]. rewrite <- IH by (intros; apply H; auto; right; auto). unfold after_posting at 2. fold (real_posting p).
  destruct (real_posting p); cbn [andb]; [|ring]. destruct (str_eqb_spec a (its_account w l p)) as [->|]; [|ring].
  destruct (blank skip p) eqn:Eb; [|ring]. exfalso. apply (H p); auto. left. auto.
Qed.
Lemma after_app now ps qs : after_postings w l skip now (ps ++ qs) = after_postings w l skip (after_postings w l skip now ps) qs.
Proof. revert now. induction ps; intros now; cbn; auto. Qed.
Lemma txns_app now ps qs : after_txns w l skip now (ps ++ qs) = after_txns w l skip (after_txns w l skip now ps) qs.
Proof. revert now. induction ps; intros now; cbn; auto. Qed.
Lemma true_app now ps qs : all_true w l skip now (ps ++ qs) -> all_true w l skip (after_postings w l skip now ps) qs.
Proof. revert now. induction ps as [|p ps IH]; intros now H; cbn in *; auto. apply IH, H. Qed.
Lemma order_app now ps qs : all_in_order w l skip now (ps ++ qs) -> all_in_order w l skip (after_txns w l skip now ps) qs.
Proof. revert now. induction ps as [|p ps IH]; intros now H; cbn in *; auto. apply IH, H. Qed.
End Last.
Lemma last_held w l us p q k : last_word w l us p q k -> all_in_order w l false nothing us ->
  after_txns w l false nothing us (its_account w l p) (commodity_meant w l k) = q /\
  (rp_money p = None -> forall c, after_txns w l false nothing us (its_account w l p) c = written_in w l (q, k) c).
Proof.
  intros [(us1 & t & us2 & ps1 & ps2 & -> & Ep & L1 & L2 & L3) R B] A. set (a := its_account w l p) in *.
  assert (E : forall c, after_txns w l false nothing (us1 ++ t :: us2) a c = after_posting w l false (after_postings w l false (after_txns w l false nothing us1) ps1) p a c).
  { intros c. rewrite txns_app. cbn [after_txns]. rewrite untouched_after by auto. unfold after_txn, txn_adds_to. rewrite adds_after by auto.
    rewrite Ep, after_app. cbn [after_postings]. apply untouched_postings. auto. }
  assert (Rp : real_posting p = true) by (unfold real_posting; rewrite R; auto).
  assert (N0 : rp_money p = None -> forall c, after_txns w l false nothing (us1 ++ t :: us2) a c = written_in w l (q, k) c).
  { intros N c. rewrite E. unfold after_posting, moved. rewrite Rp, N, B. fold a. rewrite str_eqb_refl. cbn [andb]. ring. }
  split; auto. destruct (rp_money p) as [m|] eqn:Em.
  - rewrite E. apply order_app in A. destruct A as [(_ & T & _) _]. rewrite Ep in T. apply true_app in T. destruct T as [T _]. specialize (T Rp eq_refl q k B). rewrite Em in T. exact T.
  - rewrite N0 by auto. unfold written_in. cbn [fst snd]. rewrite str_eqb_refl. auto.
Qed.
(** The flat report of everything shows for the account what was stated last; if it was stated instead of an amount,
    nothing else. *)
Theorem C83_last_word : forall depth w o file l us no_total p q k, world_ok w -> file_parses depth w file l -> stated_journal w l -> whole_report o ->
  o_begin o = None -> o_end o = None -> o_no_balance_check o = false ->
  date_sorted (pl_txns l) us -> all_in_order w l false nothing us -> last_word w l us p q k ->
  (o_real o = true \/ forall t x, In t (pl_txns l) -> In x (t_postings t) -> its_account w l x = its_account w l p -> rp_kind x = Real) ->
  exists r lines, run_cmd depth w (CBalance true no_total) o file = Ok lines /\ balance_printed r lines /\
    (q <> 0 -> exists row, In row (bp_rows r) /\ br_label row = its_account w l p) /\
    forall row, In row (bp_rows r) -> br_label row = its_account w l p ->
      moneys_amt (br_moneys row) (commodity_meant w l k) = q /\
      (rp_money p = None -> forall c, moneys_amt (br_moneys row) c = if str_eqb (commodity_meant w l k) c then q else 0).
Proof.
  intros depth w o file l us nt p q k Hw HF P O OB OE OS DU A LW K.
  assert (A' : all_in_order w l (o_no_balance_check o) nothing us) by (rewrite OS; auto).
  destruct (C83_balance depth w o file l us true nt Hw HF P O DU A') as (r & lines & R1 & R2 & (F1 & F2 & F3) & _). rewrite OS in F2, F3.
  exists r, lines. do 2 (split; auto).
  assert (T : forall c, total_added w l false o (str_eqb (its_account w l p)) nothing us c = after_txns w l false nothing us (its_account w l p) c).
  { intros c. rewrite <- (total_held w l false o); [unfold nothing at 2; ring| |].
    - pose proof (stated_dated w l (file_parsed _ _ _ _ HF) P) as D. rewrite Forall_forall in D. intros t Ht. destruct (D t) as (d & Ed).
      { destruct DU as [PM _]. eapply Permutation_in; [symmetry; exact PM|auto]. }
      unfold in_window. rewrite Ed, OB, OE. auto.
    - intros t x Ht Hx Ea. unfold asked_for. destruct K as [-> |K]; [reflexivity|]. rewrite (K t x); auto; [destruct (o_real o); reflexivity|].
      destruct DU as [PM _]. eapply Permutation_in; [symmetry; exact PM|auto]. }
  destruct (last_held w l us p q k LW A) as [H1 H2]. split.
  - intros Nq. assert (I : In (its_account w l p) (map br_label (bp_rows r))). { apply (F3 _ (commodity_meant w l k)). rewrite T, H1. auto. }
    apply in_map_iff in I. destruct I as (row & E & I). exists row. auto.
  - intros row Hr E. destruct (F2 row Hr) as (_ & _ & X). rewrite E in X. split; [rewrite X, T; auto|]. intros Em c. rewrite X, T, (H2 Em). reflexivity.
Qed.
Print Assumptions C83_last_word.

(** ** The register *)
Lemma walked_entries w l skip now ps ks : walked w l skip now ps ks -> real_entries w l skip now ps (map entry_of ks).
Proof.
  induction 1 as [now|now p ps ks G H IH|now p ps q ks m G Q1 QR Em MV PV H IH]; [constructor|apply re_skip; auto|].
  cbn [map]. unfold entry_of at 1. rewrite QR, Q1, Em. apply re_line; auto.
Qed.
Lemma stated_entries w l skip now run t t1 t2 prs : stated_txn w l t t1 -> (forall a c, run a c = now a c) -> ledger_txn skip run t1 t2 prs ->
  entries_now w l skip now t (map entry_of (t_postings t2)).
Proof.
  intros PT N LT. destruct (ledger_walked w l skip t t1 t2 run prs now PT N LT) as (kept & fills & E & W & HF & HE).
  destruct PT as (_ & F & P & _).
  assert (EV : map entry_of (filter (fun p => negb (kind_eqb (p_kind p) Real)) (t_postings t1)) = flat_map (written_entry w l) (filter (fun p => negb (real_posting p)) (t_postings t))).
  { clear -F P. induction F as [|p p' ps ps' (A & K & B & M & _) F IH]; inversion P as [|? ? (_ & X & _) P']; subst; [reflexivity|].
    cbn [filter]. unfold real_posting at 1. rewrite K. destruct (kind_eqb (rp_kind p) Real) eqn:E; cbn [negb]; [auto|].
    cbn [map flat_map]. rewrite IH by auto. unfold written_entry at 2. destruct (rp_money p) as [[q c]|] eqn:Em.
    - cbn [app]. f_equal. unfold entry_of. rewrite A, K, M. reflexivity.
    - exfalso. apply X; auto. intros E'. rewrite E' in E. discriminate. }
  assert (SD : map snd (map entry_of fills) = map (fun x => match x with Some m => m | None => MZero end) (map p_amount fills)) by (rewrite !map_map; reflexivity).
  rewrite E, !map_app, EV. constructor.
  - apply walked_entries. auto.
  - intros e He. apply in_map_iff in He. destruct He as (q & <- & Hq). destruct (HF q Hq) as (K & _ & p & Ep & A). exists p. split; auto. cbn. rewrite K, A. auto.
  - destruct fills as [|q0 fs] eqn:Efs; [constructor|]. rewrite <- Efs in *. destruct (HF q0) as (_ & _ & p0 & Ep & _); [rewrite Efs; left; auto|].
    destruct (HE p0 Ep) as [ND _]. clear Efs. apply (NoDup_map_inv snd). rewrite SD. assert (H : forall q, In q fills -> p_amount q <> None) by (intros q Hq; apply (HF q Hq)). clear -ND H.
    induction fills as [|q fs IH]; [constructor|]. cbn [map] in *. inversion ND as [|? ? N1 N2]; subst. constructor; [|apply IH; auto; intros; apply H; right; auto].
    intros X. apply N1. apply in_map_iff in X. destruct X as (y & Y1 & Y2). apply in_map_iff in Y2 as Y3. destruct Y3 as (z & <- & Hz).
    assert (p_amount z <> None) by (apply H; right; auto). assert (p_amount q <> None) by (apply H; left; auto).
    destruct (p_amount z), (p_amount q); try congruence.
  - intros p Hp m. destruct (HE p Hp) as [_ I]. assert (X : In m (map snd (map entry_of fills)) <-> In (Some m) (map p_amount fills)).
    { rewrite SD, in_map_iff. split.
      - intros (y & Y1 & Y2). apply in_map_iff in Y2 as Y3. destruct Y3 as (z & <- & Hz). destruct (HF z Hz) as (_ & A & _). destruct (p_amount z); congruence.
      - intros Y. exists (Some m). auto. }
    rewrite X, I. split.
    + intros (a & c & -> & -> & Nz). exists c. auto.
    + intros (c & Nz & ->). exists (rest_of w l skip now t c), c. auto.
Qed.
Definition stated_txn_named (w : world) (l : pledger) (t : txn rposting) (t' : txn posting) : Prop := stated_txn w l t t' /\ t_desc t' = t_desc t.
Lemma read_stated_named w l al cs pays ts dir costs : parsed w l -> stated_journal w l -> journal_read w l al cs pays ts dir costs -> Forall2 (stated_txn_named w l) (pl_txns l) ts.
Proof.
  intros Hp P J. pose proof (read_stated_all _ _ _ _ _ _ _ _ (jo_txns w l (parsed_ok _ _ Hp)) P J) as F1.
  pose proof (jr_txns _ _ _ _ _ _ _ _ J) as F. rewrite (proj1 (stated_all w l P)) in F.
  clear -F F1. induction F1 as [|t t' ts ts' S F1 IH]; inversion F as [|? ? ? ? (R1 & _) F']; subst; constructor; auto. split; auto. unfold header in R1. congruence.
Qed.
Lemma entries_all w l skip us sorted run ts imps now : Forall2 (stated_txn_named w l) us sorted -> (forall a c, run a c = now a c) -> ledger_run skip run sorted ts imps ->
  all_entries w l skip now us (map (fun t => map entry_of (t_postings t)) ts) /\ Forall2 (fun u t => t_date t = t_date u /\ t_desc t = t_desc u) us ts.
Proof.
  intros F N R. revert us now F N. induction R as [run|run run' t1 t2 prs s ts prices LT NR R IH]; intros us now F N; inversion F as [|t ? us' ? (PT & PN) F']; subst.
  - split; constructor.
  - destruct (IH us' (after_txn w l skip now t) F') as [I1 I2].
    { intros a c. rewrite NR, N, account_counted. unfold after_txn. f_equal. eapply stated_moves; eauto. }
    split; [cbn [map]; constructor; auto; eapply stated_entries; eauto|]. constructor; auto.
    destruct LT as (_ & (H1 & _ & _ & _ & H2 & _) & _). destruct PT as (H3 & _). split; congruence.
Qed.
Lemma register_stated w site o l skip lg us rows : world_ok w -> parsed w l -> stated_journal w l -> whole_report o -> date_sorted (pl_txns l) us ->
  to_ledger w skip l = Ok lg -> ledger_built w skip l lg ->
  register_report w site o lg = Ok rows -> exists ess, all_entries w l skip nothing us ess /\ register_shows w o l us ess rows.
Proof.
  intros Hw Hp P O DU E B H. pose proof (made_plain _ _ _ _ Hp E) as M. pose proof (stated_whole _ _ _ _ Hw Hp P E B) as LW.
  destruct (C59_register w site o lg rows Hw M H) as (q & sel & Q & S & C). pose proof (query_none w o q O Q). subst q. cbn zeta in C. destruct C as [C1 C2].
  destruct (stated_all w l P) as [_ R0]. destruct B as [ts dir costs sorted run imps _ _ JR DS RZ LR _|]; [|congruence].
  assert (FU : Forall2 (stated_txn_named w l) us sorted).
  { apply (sort_related (stated_txn_named w l) (pl_txns l) us ts sorted); auto; [intros u t ((X & _) & _); auto|eapply read_stated_named; eauto|eapply stated_dated; eauto]. }
  destruct (entries_all w l skip us sorted run _ _ nothing FU RZ LR) as [FE FH].
  exists (map (fun t => map entry_of (t_postings t)) (lg_txns lg)). split; auto. unfold register_shows. cbn zeta.
  pose proof (lines_same w o (lg_commodities lg) us (lg_txns lg) FH sel S) as SL. pose proof (forall2_length _ _ _ SL) as LE.
  assert (AM : forall x, In x (flat_map with_heading sel) -> p_amount (snd x) <> None).
  { intros x Hx. apply in_flat_map in Hx. destruct Hx as ([t ps] & Hs & Hx).
    assert (X : In t (lg_txns lg) /\ incl ps (t_postings t)).
    { clear -S Hs. induction S as [|u s ts sel (E & SE) S IH]; [destruct Hs|]. destruct Hs as [->|Hs].
      - cbn in E, SE. subst u. split; [left; auto|]. clear -SE. induction SE; intros z Hx; [destruct Hx|destruct Hx as [<-|Hx]; [left; auto|right; auto]|right; auto].
      - destruct (IH Hs). split; [right|]; auto. }
    destruct X as [X1 X2]. destruct (LW t X1) as [_ Y]. unfold with_heading in Hx. cbn [fst snd] in Hx. destruct ps as [|p r]; [destruct Hx|].
    destruct Hx as [<-|Hx]; [cbn; apply Y, X2; left; auto|]. apply in_map_iff in Hx. destruct Hx as (z & <- & Hz). cbn. apply Y, X2. right. auto. }
  split; [congruence|]. intros i row h e E1 E2. destruct (C2 i row E1) as (h' & p & J1 & J2 & J3 & J4 & J5 & J6).
  destruct (forall2_nth _ _ _ SL i _ _ E2 J1) as (L1 & L2 & L3 & L4). cbn [fst snd] in *. split; [congruence|]. split; [symmetry; auto|]. split; [|split; auto].
  - unfold heading in J4. unfold head_written. destruct h as [t|], h' as [u|], (rr_head row) as [[d n]|]; try contradiction; auto.
    destruct J4 as [J4 J7]. destruct L4 as [L4 L5]. split; [congruence|]. rewrite <- L5. eapply payee_written; eauto.
  - intros c. rewrite J6. f_equal. pose proof (forall2_firstn _ _ _ (Datatypes.S i) SL) as FL.
    assert (AM' : forall x, In x (firstn (Datatypes.S i) (flat_map with_heading sel)) -> p_amount (snd x) <> None).
    { intros x Hx. apply AM. rewrite <- (firstn_skipn (Datatypes.S i)). apply in_app_iff. left. auto. }
    clear -FL AM'. induction FL as [|x y a b (_ & _ & L3 & _) FL IH]; [reflexivity|]. cbn [map]. f_equal; [|apply IH; intros; apply AM'; right; auto].
    symmetry. apply L3. apply AM'. left. auto.
Qed.
Theorem C83_register : forall depth w o file l us, world_ok w -> file_parses depth w file l -> stated_journal w l -> whole_report o ->
  date_sorted (pl_txns l) us -> all_in_order w l (o_no_balance_check o) nothing us ->
  exists rows groups ess, run_cmd depth w CRegister o file = Ok (concat groups) /\ Forall2 (entry_printed (w_width w)) rows groups /\
    all_entries w l (o_no_balance_check o) nothing us ess /\ register_shows w o l us ess rows.
Proof.
  intros depth w o file l us Hw HF P O DU A. pose proof (file_parsed _ _ _ _ HF) as Hp.
  apply file_parses_iff in HF. destruct (stated_outcome w (o_no_balance_check o) l us Hw Hp P DU) as [(_ & lg & E & B)|(N & _)]; [|contradiction].
  assert (R : exists rows, register_report w (report_site lg) o lg = Ok rows).
  { pose proof (stated_whole _ _ _ _ Hw Hp P E B) as LW. unfold register_report, query_node. destruct O as (Q & _). rewrite Q. cbn [length Nat.ltb bind]. cbn.
    destruct (select_whole w o (lg_txns lg) (lg_commodities lg)) as (sel & Es & _); [intros t Ht; apply (LW t Ht)|]. rewrite Es. cbn [bind].
    apply register_whole.
    - intros t ps Hi. destruct (select_in w o _ _ _ _ Es t ps Hi) as [I1 I2]. destruct (LW t I1) as [D Y]. split; auto.
    - destruct (made_dated w lg Hw (made_plain _ _ _ _ Hp E)) as [(_ & _ & B3) _]. auto. }
  destruct R as (rows & R). destruct (C69_printed depth w o file l lg Hw HF E) as [_ HR]. destruct (HR rows R) as (groups & G1 & G2).
  destruct (register_stated w _ o l _ lg us rows Hw Hp P O DU E B R) as (ess & X1 & X2).
  exists rows, groups, ess. auto.
Qed.
Print Assumptions C83_register.

(** ** From the text *)
Theorem C83_from_the_text : forall d w o path s l us, world_ok w -> blanks_not_numeric w ->
  w_read w path = Some s -> journal_written w pl_new l s -> stated_journal w l -> whole_report o -> date_sorted (pl_txns l) us ->
  let skip := o_no_balance_check o in
  let total := fun A => total_added w l skip o A nothing us in
  (all_in_order w l skip nothing us ->
   (forall flat no_total, exists r lines, run_cmd (S d) w (CBalance flat no_total) o path = Ok lines /\ balance_printed r lines /\
      (if flat then flat_shows total r else tree_shows total r) /\ total_shows total (negb no_total) r) /\
   exists rows groups ess, run_cmd (S d) w CRegister o path = Ok (concat groups) /\ Forall2 (entry_printed (w_width w)) rows groups /\
     all_entries w l skip nothing us ess /\ register_shows w o l us ess rows) /\
  (~ all_in_order w l skip nothing us -> forall c, c <> CCheck -> exit_status (run_cmd (S d) w c o path) = 1%Z) /\
  (exit_status (run_cmd (S d) w CCheck o path) = 0%Z <-> all_in_order w l false nothing us).
Proof.
  intros d w o path s l us Hw Hb Hr J P O DU skip total.
  assert (F : file_parses (S d) w path l) by (apply file_parses_iff; eapply C67_file_read_as_written; eauto).
  split; [|split].
  - intros A. split; [intros flat nt; eapply C83_balance; eauto|eapply C83_register; eauto].
  - intros N c Hc. eapply C83_refused; eauto. destruct c; auto.
  - eapply C83_check; eauto.
Qed.
Print Assumptions C83_from_the_text.

(** ** Journals that meet the hypotheses *)
Definition stated_check (w : world) (l : pledger) : bool :=
  forallb (fun t => match t_type t with TReal => true | _ => false end &&
    forallb (fun p => is_none (rp_expr p) && (kind_eqb (rp_kind p) Real || negb (is_none (rp_money p))) &&
      match rp_money p, rp_cost p, rp_cost_type p with Some (q, _), Some _, Some PTotal => negb (qc_eqb q 0) | _, _, _ => true end) (t_postings t)) (pl_txns l) &&
  same_meaning w (account_meant w l) (used_accounts l) && same_meaning w (commodity_meant w l) (used_commodities l) &&
  forallb (fun a => match ac_payees a with [] => true | _ => false end) (l_values (pl_accounts l)).
Lemma stated_check_ok w l : stated_check w l = true -> stated_journal w l.
Proof.
  intros H. unfold stated_check in H. rewrite !andb_true_iff in H. destruct H as (((H1 & H2) & H3) & H4). rewrite forallb_forall in H1.
  constructor.
  - intros t Ht. apply H1 in Ht. apply andb_true_iff in Ht. destruct Ht as [X _]. destruct (t_type t); auto; discriminate.
  - intros t p Ht Hp. apply H1 in Ht. apply andb_true_iff in Ht. destruct Ht as [_ X]. rewrite forallb_forall in X. apply X in Hp. rewrite !andb_true_iff in Hp.
    destruct Hp as ((P2 & P3) & P4). split; [destruct (rp_expr p); auto; discriminate|]. split.
    + intros K E. rewrite E in P3. destruct (rp_kind p); try discriminate. congruence.
    + intros (c & k & E1 & E2 & E3). rewrite E1, E2, E3 in P4. discriminate.
  - constructor.
    + intros n m Hn Hm. apply (same_meaning_ok w _ (used_accounts l)); auto using used_account.
    + intros n m Hn Hm. apply (same_meaning_ok w _ (used_commodities l)); auto using used_commodity.
    + intros a Ha. rewrite forallb_forall in H4. apply H4 in Ha. destruct (ac_payees a); auto. discriminate.
Qed.
Lemma order_of_run depth w c o file l us : world_ok w -> file_parses depth w file l -> stated_journal w l -> date_sorted (pl_txns l) us ->
  exit_status (run_cmd depth w c o file) = 0%Z -> all_in_order w l (match c with CCheck => false | _ => o_no_balance_check o end) nothing us.
Proof.
  intros Hw HF P DU H. destruct (stated_outcome w (match c with CCheck => false | _ => o_no_balance_check o end) l us Hw (file_parsed _ _ _ _ HF) P DU) as [(A & _)|(N & _)]; auto.
  apply (C83_refused depth w c o file l us Hw HF P DU) in N. congruence.
Qed.
Lemma order_refuted depth w o file l us : world_ok w -> file_parses depth w file l -> stated_journal w l -> date_sorted (pl_txns l) us ->
  exit_status (run_cmd depth w CCheck o file) = 1%Z -> ~ all_in_order w l false nothing us.
Proof. intros Hw HF P DU H A. apply (C83_check depth w o file l us Hw HF P DU) in A. congruence. Qed.
Lemma w65_ok t : world_ok (w65 t).
Proof. split; [intros; apply Permutation_refl|exact ascii_lower_idem]. Qed.
(** An opening balance, an amount with the balance after it, a balance counted by hand, a purchase; not in the order of the dates. *)
Definition t83 : list String.string :=
  ["2021-01-02 Shop"; "  Expenses:Food  10 EUR"; "  Assets:Cash  -10 EUR = 40 EUR";
   "2021-01-01 Opening"; "  Assets:Cash  = 50 EUR"; "  Equity";
   "2021-01-03 Counted"; "  Assets:Cash  = 38.50 EUR"; "  Expenses:Lost";
   "2021-01-04 Shares"; "  Assets:Broker  2 ACME @ 10 EUR = 2 ACME"; "  Assets:Cash  -20 EUR = 18.50 EUR"]%string.
Definition l83 : pledger := get pl_new (tokenize_file 2 (w65 t83) (L "book")).
Definition us83 : list (txn rposting) := by_date (pl_txns l83).
Lemma f83 : file_parses 2 (w65 t83) (L "book") l83.
Proof. apply file_parses_iff. vm_compute. reflexivity. Qed.
Lemma p83 : stated_journal (w65 t83) l83.
Proof. apply stated_check_ok. vm_compute. reflexivity. Qed.
Lemma d83 : date_sorted (pl_txns l83) us83.
Proof. apply by_date_sorted. exact (stated_dated _ _ (file_parsed _ _ _ _ f83) p83). Qed.
Lemma o83 : all_in_order (w65 t83) l83 false nothing us83.
Proof. refine (order_of_run 2 (w65 t83) CCheck plain_opts (L "book") l83 us83 (w65_ok _) f83 p83 d83 _). vm_compute. reflexivity. Qed.
Example C83_case : world_ok (w65 t83) /\ file_parses 2 (w65 t83) (L "book") l83 /\ stated_journal (w65 t83) l83 /\ whole_report plain_opts /\
  date_sorted (pl_txns l83) us83 /\ map t_date us83 <> map t_date (pl_txns l83) /\
  all_in_order (w65 t83) l83 (o_no_balance_check plain_opts) nothing us83 /\
  run_cmd 2 (w65 t83) (CBalance true false) plain_opts (L "book") = Ok (map L
    ["           2.00 ACME  Assets:Broker"; "           18.50 EUR  Assets:Cash"; "          -50.00 EUR  Equity"; "           10.00 EUR  Expenses:Food";
     "            1.50 EUR  Expenses:Lost"; "--------------------"; "          -20.00 EUR"; "           2.00 ACME"]%string) /\
  run_cmd 2 (w65 t83) CRegister plain_opts (L "book") = Ok (map L
    ["2021-01-01 Opening                                   Assets:Cash                               50.00 EUR        50.00 EUR";
     "                                                     Equity                                   -50.00 EUR                0";
     "2021-01-02 Shop                                      Expenses:Food                             10.00 EUR        10.00 EUR";
     "                                                     Assets:Cash                              -10.00 EUR                0";
     "2021-01-03 Counted                                   Assets:Cash                               -1.50 EUR        -1.50 EUR";
     "                                                     Expenses:Lost                              1.50 EUR                0";
     "2021-01-04 Shares                                    Assets:Broker                             2.00 ACME        2.00 ACME";
     "                                                     Assets:Cash                              -20.00 EUR        2.00 ACME";
     "                                                                                                               -20.00 EUR"]%string).
Proof.
  split; [exact (w65_ok _)|]. split; [exact f83|]. split; [exact p83|]. split; [repeat split|]. split; [exact d83|].
  split; [vm_compute; discriminate|]. split; [exact o83|]. split; vm_compute; reflexivity.
Qed.

(** The last word about Assets:Cash is its last posting, in the last transaction. *)
Definition void83 : txn rposting := {| t_date := None; t_edate := None; t_cleared := CUnknown; t_code := None; t_desc := []; t_payee := None;
  t_postings := []; t_comments := []; t_type := TReal; t_tags := [] |}.
Definition last83 : rposting := nth 1 (t_postings (nth 3 us83 void83)) (post73 [] None).
Definition q83 : Qc := match rp_balance last83 with Some (q, _) => q | None => 0 end.
Lemma last_of {A} (l : list A) n d : length l = S n -> l = firstn n l ++ nth n l d :: [].
Proof. revert n. induction l as [|a l IH]; intros [|n] H; try discriminate; cbn. - destruct l; auto; discriminate. - f_equal. apply IH. cbn in H. congruence. Qed.
Example C83_last_word_case : its_account (w65 t83) l83 last83 = L "Assets:Cash" /\ this q83 = (37 # 2)%Q /\
  last_word (w65 t83) l83 us83 last83 q83 (L "EUR") /\
  forall t x, In t (pl_txns l83) -> In x (t_postings t) -> its_account (w65 t83) l83 x = its_account (w65 t83) l83 last83 -> rp_kind x = Real.
Proof.
  split; [vm_compute; reflexivity|]. split; [vm_compute; reflexivity|]. split; [|].
  - assert (B : exists q, rp_balance last83 = Some (q, L "EUR")).
    { destruct (rp_balance last83) as [[q k]|] eqn:E.
      - exists q. assert (X : match rp_balance last83 with Some (_, k) => k | None => [] end = L "EUR") by (vm_compute; reflexivity). rewrite E in X. rewrite X. reflexivity.
      - assert (X : is_none (rp_balance last83) = false) by (vm_compute; reflexivity). rewrite E in X. discriminate X. }
    destruct B as (q & B). constructor; [|vm_compute; reflexivity|unfold q83; rewrite B; reflexivity]. clear q B.
    exists (firstn 3 us83), (nth 3 us83 void83), [], (firstn 1 (t_postings (nth 3 us83 void83))), [].
    split; [apply last_of; vm_compute; reflexivity|]. split; [apply last_of; vm_compute; reflexivity|]. split; [intros x []|]. split; [intros u x []|].
    assert (B : forallb (fun x => negb (blank false x)) (t_postings (nth 3 us83 void83)) = true) by (vm_compute; reflexivity).
    intros x Hx Hb. rewrite forallb_forall in B. apply B in Hx. rewrite Hb in Hx. discriminate Hx.
  - assert (B : forallb (fun t => forallb (fun x => kind_eqb (rp_kind x) Real) (t_postings t)) (pl_txns l83) = true) by (vm_compute; reflexivity).
    intros t x Ht Hx _. rewrite forallb_forall in B. apply B in Ht. rewrite forallb_forall in Ht. apply Ht in Hx. destruct (rp_kind x); [reflexivity|discriminate Hx|discriminate Hx].
Qed.
(** A balance that is not true: refused, and accepted with --no-balance-check; then a balance without an amount is an open amount. *)
Definition t83b : list String.string :=
  ["2021-01-01 Opening"; "  Assets:Cash  50 EUR"; "  Equity  -50 EUR"; "2021-01-02 Shop"; "  Expenses:Food  10 EUR"; "  Assets:Cash  -10 EUR = 45 EUR";
   "2021-01-03 Counted"; "  Assets:Cash  = 30 EUR"; "  Expenses:Lost  1 EUR"]%string.
Definition l83b : pledger := get pl_new (tokenize_file 2 (w65 t83b) (L "book")).
Definition us83b : list (txn rposting) := by_date (pl_txns l83b).
Definition unchecked : opts :=
  {| o_real := false; o_begin := None; o_end := None; o_query := []; o_depth := None; o_exchange := None; o_no_balance_check := true |}.
Lemma f83b : file_parses 2 (w65 t83b) (L "book") l83b.
Proof. apply file_parses_iff. vm_compute. reflexivity. Qed.
Lemma p83b : stated_journal (w65 t83b) l83b.
Proof. apply stated_check_ok. vm_compute. reflexivity. Qed.
Lemma d83b : date_sorted (pl_txns l83b) us83b.
Proof. apply by_date_sorted. exact (stated_dated _ _ (file_parsed _ _ _ _ f83b) p83b). Qed.
Example C83_refused_case : file_parses 2 (w65 t83b) (L "book") l83b /\ stated_journal (w65 t83b) l83b /\ date_sorted (pl_txns l83b) us83b /\
  ~ all_in_order (w65 t83b) l83b false nothing us83b.
Proof.
  split; [exact f83b|]. split; [exact p83b|]. split; [exact d83b|].
  refine (order_refuted 2 (w65 t83b) plain_opts (L "book") l83b us83b (w65_ok _) f83b p83b d83b _). vm_compute. reflexivity.
Qed.
Example C83_unchecked_case : whole_report unchecked /\ all_in_order (w65 t83b) l83b (o_no_balance_check unchecked) nothing us83b /\
  run_cmd 2 (w65 t83b) (CBalance true true) unchecked (L "book") = Ok (map L
    ["           39.00 EUR  Assets:Cash"; "          -50.00 EUR  Equity"; "           10.00 EUR  Expenses:Food"; "            1.00 EUR  Expenses:Lost"]%string).
Proof.
  split; [repeat split|]. split; [|vm_compute; reflexivity].
  refine (order_of_run 2 (w65 t83b) (CBalance true true) unchecked (L "book") l83b us83b (w65_ok _) f83b p83b d83b _). vm_compute. reflexivity.
Qed.
(** A journal as text. *)
Definition t83c : list String.string := ["2021-01-01 Shop"; "  Food  = 10 EUR"; "  Cash"]%string.
Definition post83 : rposting :=
  {| rp_account := L "Food"; rp_money := None; rp_cost_type := None; rp_cost := None; rp_balance := Some (of_Z 10, L "EUR"); rp_comments := []; rp_expr := None;
     rp_kind := Real; rp_payee := Some (L "Shop") |}.
Definition txn83 : txn rposting :=
  {| t_date := Some 737790%Z; t_edate := None; t_cleared := CUnknown; t_code := None; t_desc := L "Shop"; t_payee := Some (L "Shop");
     t_postings := [post83; post73 (L "Cash") None]; t_comments := []; t_type := TReal; t_tags := [] |}.
Definition l83c : pledger := add_txn txn83 pl_new.
Definition s83c : str := [] ++ (L "2021-01-01 Shop" ++ c_nl :: [] ++ (L "  Food  = 10 EUR" ++ c_nl :: L "  Cash" ++ nl)) ++ [] ++ [].
Example C83_written_case : blanks_not_numeric (w65 t83c) /\ w_read (w65 t83c) (L "book") = Some s83c /\ journal_written (w65 t83c) pl_new l83c s83c /\
  stated_journal (w65 t83c) l83c /\ date_sorted (pl_txns l83c) (pl_txns l83c) /\ all_in_order (w65 t83c) l83c false nothing (pl_txns l83c).
Proof.
  split; [apply w65_blanks|]. assert (R : w_read (w65 t83c) (L "book") = Some s83c) by (vm_compute; reflexivity). split; [exact R|].
  assert (P : stated_journal (w65 t83c) l83c) by (apply stated_check_ok; vm_compute; reflexivity).
  assert (J : journal_written (w65 t83c) pl_new l83c s83c).
  { set (w := w65 t83c).
    refine (jw_item w _ [] _ _ _ _ _ _ _); [constructor| |refine (jw_end w _ [] [] _ _); [constructor|apply blanks_nil]].
    refine (iw_transaction w _ txn83 _ _).
    refine (tw w 737790 None (L "Shop") None None [] (t_postings txn83) (L "2021-01-01 Shop") [] (L "  Food  = 10 EUR" ++ c_nl :: L "  Cash" ++ nl) _ _ _).
    - exists (L "2021-01-01"), [], (L " "), [], [], [], [], [].
      split; [reflexivity|]. split; [apply (day_b 2021 1 1 (L "2021") (L "01") (L "01") 45%N); try reflexivity; try discriminate; cbn; auto|].
      split; [reflexivity|]. split; [split; [apply spaces_b; reflexivity|discriminate]|]. split; [left; reflexivity|]. split; [left; reflexivity|].
      split; [|split; [apply spaces_b; reflexivity|split; reflexivity]].
      split; [apply free_b; reflexivity|]. split; [intros (c & r & E & H); inv E; cbn in H; intuition discriminate|]. split; [intros r; split; discriminate|].
      intros ds r Hd E. destruct ds as [|x ds]; [discriminate|]. inv E. specialize (Hd 83%N (or_introl eq_refl)). lia.
    - constructor.
    - refine (pl_line w _ [] (L "  ") post83 [] [] (L "Food  = 10 EUR") [] _ _ _ _ _ _ _ _ _);
        [constructor|split; [apply blanks_b; reflexivity|discriminate]| |constructor|reflexivity|reflexivity|].
      + exists (L "Food"). split; [apply name_b; [discriminate|reflexivity]|].
        split; [refine (af_real _ _ _ eq_refl _ _ _); [reflexivity|discriminate|discriminate]|].
        split; [eexists _, _; split; [reflexivity|split; [discriminate|reflexivity]]|]. right.
        exists (L "  "), [], (L "= 10 EUR"). split; [reflexivity|].
        split; [right; exists c_sp, c_sp; split; [reflexivity|]; split; [reflexivity|]; split; [reflexivity|]; split; discriminate|].
        split; [apply one_line_b; reflexivity|]. split; [apply blanks_nil|]. right.
        refine (de_parts w post83 [] [] [] [L "= 10 EUR"] [] (L "= 10 EUR") [] eq_refl _ _ _ _ _ _ _ _);
          [reflexivity|reflexivity| |left; auto|reflexivity|constructor|apply blanks_nil|reflexivity].
        exists (L " "), (L "10 EUR"). split; [apply blanks_b; reflexivity|]. split; [|reflexivity]. refine (mw_after w _ _ (L "10") (L " ") (L "EUR") _ _ _).
        * apply (literal_b false (L "10") false []); try reflexivity; try discriminate; qc.
        * apply blanks_b. reflexivity.
        * apply word_b; reflexivity.
      + refine (pl_line w _ [] (L "  ") (post73 (L "Cash") None) [] [] (L "Cash") [] _ _ _ _ _ _ _ _ _);
          [constructor|split; [apply blanks_b; reflexivity|discriminate]| |constructor|reflexivity|reflexivity|constructor].
        exists (L "Cash"). split; [apply name_b; [discriminate|reflexivity]|].
        split; [refine (af_real _ _ _ eq_refl _ _ _); [reflexivity|discriminate|discriminate]|].
        split; [eexists _, _; split; [reflexivity|split; [discriminate|reflexivity]]|]. left. split; [reflexivity|]. split; [|reflexivity]. repeat split. }
  assert (F : file_parses 2 (w65 t83c) (L "book") l83c) by (apply file_parses_iff; eapply C67_file_read_as_written; [apply w65_blanks|exact R|exact J]).
  assert (D : date_sorted (pl_txns l83c) (pl_txns l83c)) by exact (by_date_sorted _ (stated_dated _ _ (file_parsed _ _ _ _ F) P)).
  split; [exact J|]. split; [exact P|]. split; [exact D|].
  refine (order_of_run 2 (w65 t83c) CCheck plain_opts (L "book") l83c _ (w65_ok _) F P D _). vm_compute. reflexivity.
Qed.
