(** C103: balances that are stated beside amounts are checks and nothing else. *)
From Coq Require Import Lia Sorting.Sorted.
From Verif Require Import Base BaseFacts Numerals Money Alist Comment Txn Expr Filter Price Tokens Ledger Reports App Spec MoneyFacts SpecList SpecTxn TxnFacts SpecLedger
  TokenFacts JournalFacts LedgerFacts LedgerFacts2 LedgerFacts3 PropAlist PropTxn PropLedger SpecQuery SpecExpr ExprFacts PropExpr PropQuery SpecReports ReportFacts ReportFacts2 ReportFacts3 PropReports PropApp
  SpecText SpecDates SpecTokens SpecJournal JournalRead PropJournal SpecLayout PropLayout SpecPrice PropPrice SpecBook BookFacts PropBook PropBook2 SpecAsk PropAsk
  SpecWords PropRuleQuery SpecAssert AssertFacts PropAssert SpecRules ShownFacts RuleFacts RuleFacts2 PropRules SpecExchange2 PropExchange2 PropAssert2 SpecAgree SpecJoin SpecRename PropRename SpecCarry PropCarry SpecChecks.
From Verif Require PropJoin PropAgree PropScale PropTokens.
Open Scope Qc_scope.

Section Told.
  Context (w : world) (l l' : pledger) (EA : pl_accounts l' = pl_accounts l) (EC : pl_commodities l' = pl_commodities l) (skip honest : bool).
  Lemma tl_account n : account_meant w l' n = account_meant w l n.
  Proof using EA. unfold account_meant. rewrite EA. auto. Qed.
  Lemma tl_commodity n : commodity_meant w l' n = commodity_meant w l n.
  Proof using EC. unfold commodity_meant. rewrite EC. auto. Qed.
  Lemma tl_written m c : written_in w l' m c = written_in w l m c.
  Proof using EC. unfold written_in. rewrite tl_commodity. auto. Qed.
  Lemma tl_same_value p p' c : same_posting p p' -> written_value w l' p' c = written_value w l p c.
  Proof using EC. intros [A B C D E]. unfold written_value. rewrite B, C, D, E. destruct (rp_money p) as [[q k]|]; auto. destruct (rp_cost p) as [x|]; [|apply tl_written]. destruct (rp_cost_type p) as [[]|]; rewrite tl_written; auto. Qed.
  Definition agree (now now' : holdings) : Prop := forall a c, now' a c = now a c.
  Record same_step (now now' : holdings) (p p' : rposting) : Prop := {
    ss_kind : rp_kind p' = rp_kind p;
    ss_account : its_account w l' p' = its_account w l p;
    ss_blank : blank skip p' = blank skip p;
    ss_moved : forall c, moved w l' skip now' p' c = moved w l skip now p c;
    ss_counts : forall c, counts w l' skip now' p' c = counts w l skip now p c;
    ss_bracket : rp_kind p = VirtualMustBalance -> forall c, written_value w l' p' c = written_value w l p c;
    ss_after : agree (after_posting w l skip now p) (after_posting w l' skip now' p');
    ss_true : true_of w l skip now p -> true_of w l' skip now' p';
    ss_back : honest = true -> true_of w l' skip now' p' -> true_of w l skip now p;
  }.
  Lemma real_kind p p' : rp_kind p' = rp_kind p -> real_posting p' = real_posting p.
  Proof using Type. intros E. unfold real_posting. rewrite E. auto. Qed.
  Lemma after_agree now now' p p' : agree now now' -> rp_kind p' = rp_kind p -> its_account w l' p' = its_account w l p -> (forall c, moved w l' skip now' p' c = moved w l skip now p c) ->
    agree (after_posting w l skip now p) (after_posting w l' skip now' p').
  Proof using Type. intros AG K A M a c. unfold after_posting. rewrite AG, (real_kind _ _ K), A, M. auto. Qed.
  Lemma told_step now now' p p' : agree now now' -> told w l skip honest now p p' -> same_step now now' p p'.
  Proof using EA EC.
    intros AG H. destruct H as [S B|S M0 B HT|q k b SK K K' A M0 B0 M1 C1 MS BB].
    - assert (IA : its_account w l' p' = its_account w l p) by (unfold its_account; rewrite (sp_account _ _ S); apply tl_account).
      assert (MV : forall c, moved w l' skip now' p' c = moved w l skip now p c).
      { intros c. unfold moved. rewrite (sp_money _ _ S), B, IA. destruct (rp_money p); [apply tl_written|]. destruct (rp_balance p); auto. destruct skip; auto. rewrite tl_written, AG. auto. }
      assert (AF : agree (after_posting w l skip now p) (after_posting w l' skip now' p')) by (apply after_agree; auto; apply S).
      assert (TR : true_of w l skip now p <-> true_of w l' skip now' p').
      { unfold true_of. rewrite (real_kind _ _ (sp_kind _ _ S)), B, (sp_money _ _ S), IA. split; intros H R SK q k E; specialize (H R SK q k E); destruct (rp_money p).
        - rewrite tl_commodity, AF. exact H.
        - intros c d. rewrite !MV. apply H.
        - rewrite tl_commodity, AF in H. exact H.
        - intros c d. rewrite <- !MV. apply H. }
      constructor; auto; try apply S.
      + unfold blank. rewrite (real_kind _ _ (sp_kind _ _ S)), B, (sp_money _ _ S). auto.
      + intros c. unfold counts. rewrite MV, (sp_money _ _ S), (tl_same_value p p' c S). auto.
      + intros _ c. apply tl_same_value. auto.
      + apply TR.
      + intros _. apply TR.
    - assert (IA : its_account w l' p' = its_account w l p) by (unfold its_account; rewrite (sp_account _ _ S); apply tl_account).
      assert (MV : forall c, moved w l' skip now' p' c = moved w l skip now p c).
      { intros c. unfold moved. rewrite (sp_money _ _ S). destruct (rp_money p); [apply tl_written|congruence]. }
      constructor; auto; try apply S.
      + unfold blank. rewrite (real_kind _ _ (sp_kind _ _ S)), (sp_money _ _ S). destruct (rp_money p); [auto|congruence].
      + intros c. unfold counts. rewrite MV, (sp_money _ _ S), (tl_same_value p p' c S). auto.
      + intros _ c. apply tl_same_value. auto.
      + apply after_agree; auto. apply S.
      + intros _ R SK q k E. congruence.
    - assert (IA : its_account w l' p' = its_account w l p) by (unfold its_account; rewrite A; apply tl_account).
      assert (MV : forall c, moved w l' skip now' p' c = moved w l skip now p c).
      { intros c. unfold moved. rewrite M0, M1, B0, SK, tl_written. apply MS. }
      assert (RP : real_posting p' = true) by (unfold real_posting; rewrite K'; auto).
      constructor; auto; try congruence.
      + unfold blank. rewrite M1, M0, B0, SK. rewrite !Bool.andb_false_r. auto.
      + intros c. unfold counts. rewrite MV, M0, M1. unfold written_value. rewrite M1, C1, tl_written, MS. unfold moved. rewrite M0, B0, SK. auto.
      + apply after_agree; auto. congruence.
      + intros _ R _ q' k' E. rewrite M1. destruct BB as [BB|BB]; [congruence|]. rewrite BB, B0 in E. injection E as ->. unfold after_posting. rewrite RP, str_eqb_refl. cbn [andb].
        unfold moved. rewrite M1, tl_written, MS, IA, AG. unfold written_in. cbn [fst snd]. rewrite tl_commodity, str_eqb_refl. ring.
      + intros _ _ R _ q' k' E. rewrite M0. intros c d Hc Hd. rewrite <- MV in Hc, Hd. unfold moved in Hc, Hd. rewrite M1 in Hc, Hd. unfold written_in in Hc, Hd. cbn [fst snd] in Hc, Hd.
        destruct (str_eqb_spec (commodity_meant w l' k) c) as [<-|]; [|congruence]. destruct (str_eqb_spec (commodity_meant w l' k) d) as [<-|]; [auto|congruence].
  Qed.
  (** One posting after the other. *)
  Lemma told_true ps : forall ps' now now', agree now now' -> all_told w l skip honest now ps ps' ->
    (all_true w l skip now ps -> all_true w l' skip now' ps') /\ (honest = true -> all_true w l' skip now' ps' -> all_true w l skip now ps).
  Proof using EA EC.
    induction ps as [|p ps IH]; intros ps' now now' AG H; inversion H as [|? ? p' ? ps2 T TS]; subst; [cbn; auto|].
    pose proof (told_step _ _ _ _ AG T) as S. destruct (IH _ _ _ (ss_after _ _ _ _ S) TS) as [I1 I2]. cbn [all_true]. split.
    - intros [X Y]. split; [apply (ss_true _ _ _ _ S); auto|auto].
    - intros HH [X Y]. split; [apply (ss_back _ _ _ _ S); auto|auto].
  Qed.
  Lemma told_sum ps : forall ps' now now' c, agree now now' -> all_told w l skip honest now ps ps' -> value_sum w l' skip now' ps' c = value_sum w l skip now ps c.
  Proof using EA EC.
    induction ps as [|p ps IH]; intros ps' now now' c AG H; inversion H as [|? ? p' ? ps2 T TS]; subst; [auto|].
    pose proof (told_step _ _ _ _ AG T) as S. cbn [value_sum]. rewrite (real_kind _ _ (ss_kind _ _ _ _ S)), (ss_counts _ _ _ _ S), (IH _ _ _ c (ss_after _ _ _ _ S) TS). auto.
  Qed.
  Lemma told_adds rest rest' K (P : str -> bool) ps : (forall c, rest' c = rest c) -> forall ps' now now' c, agree now now' -> all_told w l skip honest now ps ps' ->
    adds_to w l' skip rest' K P now' ps' c = adds_to w l skip rest K P now ps c.
  Proof using EA EC.
    intros RE. induction ps as [|p ps IH]; intros ps' now now' c AG H; inversion H as [|? ? p' ? ps2 T TS]; subst; [auto|].
    pose proof (told_step _ _ _ _ AG T) as S. cbn [adds_to]. rewrite (ss_kind _ _ _ _ S), (ss_account _ _ _ _ S), (ss_blank _ _ _ _ S), (ss_moved _ _ _ _ S), RE, (IH _ _ _ c (ss_after _ _ _ _ S) TS). auto.
  Qed.
  Lemma told_blanks ps : forall ps' now, all_told w l skip honest now ps ps' -> length (filter (blank skip) ps') = length (filter (blank skip) ps).
  Proof using EA EC.
    induction ps as [|p ps IH]; intros ps' now H; inversion H as [|? ? p' ? ps2 T TS]; subst; [auto|].
    assert (AG : agree now now) by (intros a c; auto). pose proof (told_step _ _ _ _ AG T) as S. cbn [filter]. rewrite (ss_blank _ _ _ _ S). destruct (blank skip p); cbn [length]; rewrite (IH _ _ TS); auto.
  Qed.
  Lemma told_bracket ps c : forall ps' now, all_told w l skip honest now ps ps' ->
    qsum (map (fun p => if kind_eqb (rp_kind p) VirtualMustBalance then written_value w l' p c else 0) ps') = qsum (map (fun p => if kind_eqb (rp_kind p) VirtualMustBalance then written_value w l p c else 0) ps).
  Proof using EA EC.
    induction ps as [|p ps IH]; intros ps' now H; inversion H as [|? ? p' ? ps2 T TS]; subst; [auto|].
    assert (AG : agree now now) by (intros a d; auto). pose proof (told_step _ _ _ _ AG T) as S. cbn [map]. rewrite !qsum_cons, (IH _ _ TS), (ss_kind _ _ _ _ S).
    destruct (rp_kind p) eqn:K; auto. cbn [kind_eqb]. rewrite (ss_bracket _ _ _ _ S K). auto.
  Qed.
  Definition txn_told (now : holdings) (t t' : txn rposting) : Prop := t_date t' = t_date t /\ all_told w l skip honest now (t_postings t) (t_postings t').
  Lemma told_txn_adds K P t t' now now' c : agree now now' -> txn_told now t t' -> txn_adds_to w l' skip K P now' t' c = txn_adds_to w l skip K P now t c.
  Proof using EA EC. intros AG [_ T]. unfold txn_adds_to. apply told_adds; auto. intros d. unfold rest_of. rewrite (told_sum _ _ _ _ d AG T). auto. Qed.
  Lemma told_after_txn t t' now now' : agree now now' -> txn_told now t t' -> agree (after_txn w l skip now t) (after_txn w l' skip now' t').
  Proof using EA EC. intros AG T a c. unfold after_txn. rewrite AG, (told_txn_adds _ _ t t' now now' c AG T). auto. Qed.
  Lemma by_length {A} (xs ys : list A) (P Q : Prop) : length xs = length ys -> (P -> Q) ->
    match xs with [] => P | [_] => True | _ => False end -> match ys with [] => Q | [_] => True | _ => False end.
  Proof using Type. intros E H X. destruct xs as [|a [|b r]], ys as [|a' [|b' r']]; try discriminate; auto. Qed.
  Lemma told_in_order t t' now now' : agree now now' -> txn_told now t t' ->
    (in_order_now w l skip now t -> in_order_now w l' skip now' t') /\ (honest = true -> in_order_now w l' skip now' t' -> in_order_now w l skip now t).
  Proof using EA EC.
    intros AG [_ T]. destruct (told_true _ _ _ _ AG T) as [T1 T2]. pose proof (told_blanks _ _ _ T) as BL.
    assert (VB : forall c, kind_value w l' VirtualMustBalance t' c = kind_value w l VirtualMustBalance t c) by (intros c; apply (told_bracket _ c _ _ T)).
    assert (VS : forall c, value_sum w l' skip now' (t_postings t') c = value_sum w l skip now (t_postings t) c) by (intros c; apply (told_sum _ _ _ _ c AG T)).
    pose proof (PropRename.fine_same _ _ VB) as FB. pose proof (PropRename.fine_same _ _ VS) as FS.
    split.
    - intros (H1 & H2 & H3). split; [apply FB; auto|]. split; [auto|]. revert H3. apply by_length; [auto|apply FS].
    - intros HH (H1 & H2 & H3). split; [apply FB; auto|]. split; [auto|]. revert H3. apply by_length; [auto|apply FS].
  Qed.
  Lemma told_all us : forall us' now now', agree now now' -> txns_told w l skip honest now us us' ->
    (all_in_order w l skip now us -> all_in_order w l' skip now' us') /\ (honest = true -> all_in_order w l' skip now' us' -> all_in_order w l skip now us).
  Proof using EA EC.
    induction us as [|t us IH]; intros us' now now' AG H; inversion H as [|? ? t' ? us2 D T TS]; subst; [cbn; auto|].
    assert (TT : txn_told now t t') by (split; auto). destruct (told_in_order _ _ _ _ AG TT) as [O1 O2]. destruct (IH _ _ _ (told_after_txn _ _ _ _ AG TT) TS) as [I1 I2]. cbn [all_in_order]. split.
    - intros [X Y]. auto.
    - intros HH [X Y]. auto.
  Qed.
  Lemma told_total o P us : forall us' now now' c, agree now now' -> txns_told w l skip honest now us us' -> total_added w l' skip o P now' us' c = total_added w l skip o P now us c.
  Proof using EA EC.
    induction us as [|t us IH]; intros us' now now' c AG H; inversion H as [|? ? t' ? us2 D T TS]; subst; [auto|].
    assert (TT : txn_told now t t') by (split; auto). cbn [total_added]. rewrite (told_txn_adds _ _ _ _ _ _ c AG TT), (IH _ _ _ c (told_after_txn _ _ _ _ AG TT) TS).
    unfold in_window. rewrite D. auto.
  Qed.
End Told.
Lemma agree_nothing : agree nothing nothing.
Proof. intros a c. auto. Qed.

(** check accepts the journal without the balances if it accepts the journal with them; and if the ones left out are true,
    the other way round. *)
Theorem C103_check : forall depth w o honest file file' l l', world_ok w -> file_parses depth w file l -> file_parses depth w file' l' ->
  stated_journal w l -> stated_journal w l' -> journal_told w false honest l l' ->
  (exit_status (run_cmd depth w CCheck o file) = 0%Z -> exit_status (run_cmd depth w CCheck o file') = 0%Z) /\
  (honest = true -> exit_status (run_cmd depth w CCheck o file') = 0%Z -> exit_status (run_cmd depth w CCheck o file) = 0%Z).
Proof.
  intros depth w o honest file file' l l' Hw HF HF' SJ SJ' (EA & EC & us & us' & D & D' & T).
  destruct (told_all w l l' EA EC false honest us us' nothing nothing agree_nothing T) as [T1 T2].
  rewrite (C83_check depth w o file l us Hw HF SJ D), (C83_check depth w o file' l' us' Hw HF' SJ' D'). auto.
Qed.
Print Assumptions C103_check.
Lemma told_runs depth w o honest file file' l l' (c : command) : world_ok w -> file_parses depth w file l -> file_parses depth w file' l' ->
  stated_journal w l -> stated_journal w l' -> journal_told w (o_no_balance_check o) honest l l' -> c <> CCheck ->
  exit_status (run_cmd depth w c o file) = 0%Z \/ honest = true /\ exit_status (run_cmd depth w c o file') = 0%Z ->
  exists us us', date_sorted (pl_txns l) us /\ date_sorted (pl_txns l') us' /\ all_in_order w l (o_no_balance_check o) nothing us /\ all_in_order w l' (o_no_balance_check o) nothing us' /\
    forall P c, total_added w l' (o_no_balance_check o) o P nothing us' c = total_added w l (o_no_balance_check o) o P nothing us c.
Proof.
  intros Hw HF HF' SJ SJ' (EA & EC & us & us' & D & D' & T) NC RUN.
  destruct (told_all w l l' EA EC (o_no_balance_check o) honest us us' nothing nothing agree_nothing T) as [T1 T2].
  assert (NE : (match c with CCheck => false | _ => o_no_balance_check o end) = o_no_balance_check o) by (destruct c; auto; congruence).
  exists us, us'. do 2 (split; auto).
  assert (IO : all_in_order w l (o_no_balance_check o) nothing us).
  { destruct RUN as [RUN|[HH RUN]]; [pose proof (order_of_run _ _ _ _ _ _ _ Hw HF SJ D RUN) as IO; rewrite NE in IO; auto|].
    pose proof (order_of_run _ _ _ _ _ _ _ Hw HF' SJ' D' RUN) as IO. rewrite NE in IO. auto. }
  split; auto. split; auto. intros P d. apply (told_total w l l' EA EC _ honest); auto using agree_nothing.
Qed.
(** The flat report is the same. *)
Theorem C103_balance : forall depth w o honest file file' l l' no_total A, world_ok w -> file_parses depth w file l -> file_parses depth w file' l' ->
  stated_journal w l -> stated_journal w l' -> journal_told w (o_no_balance_check o) honest l l' ->
  exit_status (run_cmd depth w (CBalance true no_total) o file) = 0%Z \/ honest = true /\ exit_status (run_cmd depth w (CBalance true no_total) o file') = 0%Z ->
  asked_accounts w (o_query o) A -> o_exchange o = None -> can_be_cut w o l -> can_be_cut w o l' ->
  exists r r' lines lines', run_cmd depth w (CBalance true no_total) o file = Ok lines /\ balance_printed r lines /\
    run_cmd depth w (CBalance true no_total) o file' = Ok lines' /\ balance_printed r' lines' /\ same_report r' r.
Proof.
  intros depth w o honest file file' l l' nt A Hw HF HF' SJ SJ' JT RUN HA OX HC HC'.
  destruct (told_runs depth w o honest file file' l l' (CBalance true nt) Hw HF HF' SJ SJ' JT) as (us & us' & D & D' & IO & IO' & T); [discriminate|exact RUN|].
  destruct (stated_flat_cut depth w o file l us nt A Hw HF SJ D IO HA OX HC) as (r & lines & R1 & R2 & R3 & R4 & _).
  destruct (stated_flat_cut depth w o file' l' us' nt A Hw HF' SJ' D' IO' HA OX HC') as (r' & lines' & S1 & S2 & S3 & S4 & _).
  exists r, r', lines, lines'. do 4 (split; auto). apply (same_flat o o _ _ (negb nt) r r' eq_refl R3 R4 S3 S4); [intros a c; apply T|intros c; apply T].
Qed.
Print Assumptions C103_balance.
(** The tree of the one, in terms of the flat report of the other. *)
Theorem C103_tree : forall depth w o o' honest file file' l l' no_total A, world_ok w -> file_parses depth w file l -> file_parses depth w file' l' ->
  stated_journal w l -> stated_journal w l' -> journal_told w (o_no_balance_check o) honest l l' ->
  exit_status (run_cmd depth w (CBalance true no_total) o' file) = 0%Z \/ honest = true /\ exit_status (run_cmd depth w (CBalance false no_total) o file') = 0%Z ->
  asked_accounts w (o_query o) A -> o_exchange o = None -> same_but_depth o o' -> o_depth o' = None ->
  exists r r' lines lines', run_cmd depth w (CBalance true no_total) o' file = Ok lines /\ balance_printed r lines /\
    run_cmd depth w (CBalance false no_total) o file' = Ok lines' /\ balance_printed r' lines' /\
    (exists accs, ascending accs /\
       Forall2 (fun a row => br_indent row = levels a /\ (exists part more, own_part a part /\ br_label row = part ++ more) /\
         (forall d, o_depth o = Some d -> (levels a <= d)%nat) /\ shown_amounts (br_moneys row) /\ br_moneys row <> [] /\
         (~ begins_with_colon a -> forall c, moneys_amt (br_moneys row) c = shown_for r (inside a) c)) accs (bp_rows r')) /\
    forall ms c, bp_total r' = Some ms -> moneys_amt ms c = shown_for r (fun _ => true) c.
Proof.
  intros depth w o o' honest file file' l l' nt A Hw HF HF' SJ SJ' JT RUN HA OX SD ND. destruct SD as (O1 & O2 & O3 & O4 & O5 & O6).
  assert (J : exists us us', date_sorted (pl_txns l) us /\ date_sorted (pl_txns l') us' /\ all_in_order w l (o_no_balance_check o) nothing us /\ all_in_order w l' (o_no_balance_check o) nothing us' /\
    forall P c, total_added w l' (o_no_balance_check o) o P nothing us' c = total_added w l (o_no_balance_check o) o P nothing us c).
  { destruct JT as (EA & EC & us & us' & D & D' & T).
    destruct (told_all w l l' EA EC (o_no_balance_check o) honest us us' nothing nothing agree_nothing T) as [T1 T2]. exists us, us'. do 2 (split; auto).
    assert (IO : all_in_order w l (o_no_balance_check o) nothing us).
    { destruct RUN as [RUN|[HH RUN]]; [rewrite O6; exact (order_of_run _ _ _ _ _ _ _ Hw HF SJ D RUN)|apply T2; auto; exact (order_of_run _ _ _ _ _ _ _ Hw HF' SJ' D' RUN)]. }
    split; auto. split; auto. intros P d. apply (told_total w l l' EA EC _ honest); auto using agree_nothing. }
  destruct J as (us & us' & D & D' & IO & IO' & T).
  assert (HA' : asked_accounts w (o_query o') A) by (rewrite <- O4; auto). assert (OX' : o_exchange o' = None) by congruence.
  assert (IO2 : all_in_order w l (o_no_balance_check o') nothing us) by (rewrite <- O6; auto).
  destruct (stated_flat depth w o' file l us nt A Hw HF SJ D IO2 HA' OX' ND) as (r & lines & R1 & R2 & R3 & R4 & R5).
  destruct (C83_asked_balance depth w o file' l' us' false nt A Hw HF' SJ' D' IO' HA OX) as (r' & lines' & S1 & S2 & S3 & S4); [discriminate|].
  exists r, r', lines, lines'. do 4 (split; auto). cbn beta iota zeta in S3, S4.
  assert (W : forall P us now c, total_added w l (o_no_balance_check o') o' P now us c = total_added w l (o_no_balance_check o) o P now us c).
  { intros P vs. rewrite <- O6. induction vs as [|t vs IH]; intros now c; auto. cbn [total_added]. rewrite IH. unfold in_window, asked_for. rewrite O1, O2, O3. auto. }
  assert (TT : forall P c, total_added w l' (o_no_balance_check o) o (fun n => A n && P n) nothing us' c = shown_for r P c) by (intros P c; rewrite R5, W; apply T).
  split.
  - destruct S3 as (accs & AS & FR). exists accs. split; auto. eapply forall2_weaken; [|exact FR]. intros a row (H1 & H2 & H3 & H4 & H5 & H6). do 5 (split; auto).
    intros N c. rewrite (H6 N). apply TT.
  - intros ms c E. destruct S4 as [_ S4]. destruct (S4 ms E) as [_ ->]. apply TT.
Qed.
Print Assumptions C103_tree.
(** ** The register *)
Lemma stated_sums depth w o file l us A : world_ok w -> file_parses depth w file l -> stated_journal w l -> date_sorted (pl_txns l) us ->
  all_in_order w l (o_no_balance_check o) nothing us -> asked_accounts w (o_query o) A ->
  exists rows accs lines, run_cmd depth w CRegister o file = Ok lines /\ register_printed w rows lines /\ Forall2 account_of_line rows accs /\
    (forall P c, lines_amount rows accs P c = total_added w l (o_no_balance_check o) o (fun n => A n && P n) nothing us c) /\
    forall c, final_total rows c = total_added w l (o_no_balance_check o) o (fun n => A n && true) nothing us c.
Proof.
  intros Hw HF P DU IO HA. pose proof (file_parsed _ _ _ _ HF) as Hp. apply file_parses_iff in HF.
  destruct (stated_outcome w (o_no_balance_check o) l us Hw Hp P DU) as [(_ & lg & E & B)|(N & _)]; [|contradiction]. pose proof (made_plain _ _ _ _ Hp E) as M.
  destruct (shown_rows w (report_site lg) o lg A Hw M (stated_whole _ _ _ _ Hw Hp P E B) HA) as (rows & R).
  destruct (C69_printed depth w o file l lg Hw HF E) as [_ HR]. destruct (HR rows R) as (groups & G1 & G2).
  assert (TT : forall Q c, qsum (map (txn_counted (asked_for o) Q c) (filter (window_of o) (lg_txns lg))) = total_added w l (o_no_balance_check o) o Q nothing us c)
    by (intros Q c; apply (stated_totals w l (o_no_balance_check o) lg us); auto).
  destruct (asked_node w o A HA) as (q0 & Q0 & AN). destruct (PropAgree.register_shown _ _ _ _ _ Hw M R) as (q & sel & Q1 & _ & RP & FL & FT & _).
  assert (q = q0) by congruence. subst q. destruct (PropAgree.lines_shown _ _ FL) as (accs & A1 & _ & A2). rewrite PropAgree.headings_postings in A2.
  exists rows, accs, (concat groups). split; auto. split; [exists groups; auto|]. split; auto. split.
  - intros Q c. rewrite A2, <- TT, <- sel_postings. eapply reported_asked_totals; eauto.
  - intros c. rewrite FT, <- TT, <- sel_postings. apply (reported_asked_totals w o q0 lg _ A (fun _ => true) c); auto.
Qed.
Theorem C103_register : forall depth w o honest file file' l l' A, world_ok w -> file_parses depth w file l -> file_parses depth w file' l' ->
  stated_journal w l -> stated_journal w l' -> journal_told w (o_no_balance_check o) honest l l' ->
  exit_status (run_cmd depth w CRegister o file) = 0%Z \/ honest = true /\ exit_status (run_cmd depth w CRegister o file') = 0%Z ->
  asked_accounts w (o_query o) A ->
  exists rows rows' accs accs' lines lines', run_cmd depth w CRegister o file = Ok lines /\ register_printed w rows lines /\ Forall2 account_of_line rows accs /\
    run_cmd depth w CRegister o file' = Ok lines' /\ register_printed w rows' lines' /\ Forall2 account_of_line rows' accs' /\
    (forall P c, lines_amount rows' accs' P c = lines_amount rows accs P c) /\ forall c, final_total rows' c = final_total rows c.
Proof.
  intros depth w o honest file file' l l' A Hw HF HF' SJ SJ' JT RUN HA.
  destruct (told_runs depth w o honest file file' l l' CRegister Hw HF HF' SJ SJ' JT) as (us & us' & D & D' & IO & IO' & T); [discriminate|exact RUN|].
  destruct (stated_sums depth w o file l us A Hw HF SJ D IO HA) as (rows & accs & lines & R1 & R2 & R3 & R4 & R5).
  destruct (stated_sums depth w o file' l' us' A Hw HF' SJ' D' IO' HA) as (rows' & accs' & lines' & S1 & S2 & S3 & S4 & S5).
  exists rows, rows', accs, accs', lines, lines'. do 6 (split; auto). split; [intros P c; rewrite S4, R4; apply T|intros c; rewrite S5, R5; apply T].
Qed.
Print Assumptions C103_register.

(** ** A case *)
Definition same_posting_check (p p' : rposting) : bool :=
  str_eqb (rp_account p') (rp_account p) && kind_eqb (rp_kind p') (rp_kind p) && PropScale.amount_eqb (rp_money p') (rp_money p) && PropScale.amount_eqb (rp_cost p') (rp_cost p) &&
  match rp_cost_type p', rp_cost_type p with Some PTotal, Some PTotal | Some PPerUnit, Some PPerUnit | None, None => true | _, _ => false end.
Lemma same_posting_check_ok p p' : same_posting_check p p' = true -> same_posting p p'.
Proof.
  unfold same_posting_check. intros H. do 4 (let H' := fresh "X" in apply andb_prop in H; destruct H as [H H']). constructor; try (apply PropScale.amount_eqb_ok; assumption).
  - apply str_eqb_eq. auto.
  - destruct (rp_kind p'), (rp_kind p); try discriminate; auto.
  - destruct (rp_cost_type p') as [[]|], (rp_cost_type p) as [[]|]; try discriminate; auto.
Qed.
Definition left_out_check (p p' : rposting) : bool :=
  same_posting_check p p' && (PropScale.amount_eqb (rp_balance p') (rp_balance p) || match rp_money p, rp_balance p' with Some _, None => true | _, _ => false end).
Lemma left_out_ok w l now p p' : left_out_check p p' = true -> true_of w l false now p -> told w l false true now p p'.
Proof.
  intros H T. apply andb_prop in H as [H1 H2]. apply same_posting_check_ok in H1. apply orb_prop in H2 as [H2|H2]; [apply told_same; auto; apply PropScale.amount_eqb_ok; auto|].
  apply told_left_out; auto; [destruct (rp_money p); [discriminate|discriminate H2]|destruct (rp_money p); [|discriminate H2]; destruct (rp_balance p'); [discriminate H2|auto]].
Qed.
Lemma left_out_all w l ps : forall ps' now, PropScale.pairs_check left_out_check ps ps' = true -> all_true w l false now ps -> all_told w l false true now ps ps'.
Proof.
  induction ps as [|p ps IH]; intros [|p' ps'] now H T; try discriminate; [constructor|]. cbn in H. apply andb_prop in H as [H1 H2]. destruct T as [T1 T2]. constructor; auto. apply left_out_ok; auto.
Qed.
Definition txn_left_out (t t' : txn rposting) : bool := PropScale.date_eqb (t_date t') (t_date t) && PropScale.pairs_check left_out_check (t_postings t) (t_postings t').
Lemma date_eqb_ok a b : PropScale.date_eqb a b = true -> a = b.
Proof. destruct a, b; cbn; intros H; try discriminate; auto. apply Z.eqb_eq in H. congruence. Qed.
Lemma left_out_txns w l us : forall us' now vs vs', PropScale.pairs_check txn_left_out us us' = true -> all_in_order w l false now us ->
  txns_told w l false true (after_txns w l false now us) vs vs' -> txns_told w l false true now (us ++ vs) (us' ++ vs').
Proof.
  induction us as [|t us IH]; intros [|t' us'] now vs vs' H T X; try discriminate; [exact X|]. cbn in H. apply andb_prop in H as [H1 H2]. apply andb_prop in H1 as [H0 H1]. destruct T as [(_ & T1 & _) T2].
  cbn [app]. constructor; [apply date_eqb_ok; auto|apply left_out_all; auto|]. apply IH; auto.
Qed.
(** The bank's statements are noted and the purse is counted; in the other file the statements are not there, and what was
    found missing in the purse is written out. *)
Definition head103 : list String.string := ["account Assets:Cash"; "  alias purse"]%string.
Definition with103 (b : String.string) : list String.string := ["2021-01-01 Job"; String.append "  Assets:Bank  100 EUR = " b; "  Income"; "2021-01-02 Cash"; "  purse  50 EUR"; "  Assets:Bank  -50 EUR = 50 EUR"; "2021-01-03 Counted"; "  Assets:Cash  = 42 EUR"; "  Lost"]%string.
Definition bare103 : list String.string := ["2021-01-01 Job"; "  Assets:Bank  100 EUR"; "  Income"; "2021-01-02 Cash"; "  purse  50 EUR"; "  Assets:Bank  -50 EUR"; "2021-01-03 Counted"; "  Assets:Cash  -8 EUR"; "  Lost"]%string.
Definition w103 : world := PropTokens.disk [(L "./with", text (head103 ++ with103 "100 EUR")); (L "./bare", text (head103 ++ bare103)); (L "./false", text (head103 ++ firstn 6 (with103 "90 EUR")));
  (L "./early", text (head103 ++ firstn 6 bare103))].
Definition l103 (f : String.string) : pledger := get pl_new (tokenize_file 2 w103 (L (String.append "./" f))).
Lemma w103_ok : world_ok w103.
Proof. split; [intros; apply Permutation_refl|exact ascii_lower_idem]. Qed.
Lemma parses103 f : match tokenize_file 2 w103 (L (String.append "./" f)) with Ok l => l103 f = l | _ => False end -> file_parses 2 w103 (L (String.append "./" f)) (l103 f).
Proof. intros H. apply file_parses_iff. destruct (tokenize_file 2 w103 (L (String.append "./" f))); subst; auto; destruct H. Qed.
Definition first103 (f : String.string) : list (txn rposting) := firstn 2 (pl_txns (l103 f)).
Definition rest103 (f : String.string) : list (txn rposting) := skipn 2 (pl_txns (l103 f)).
Definition opts103 (skip : bool) : opts :=
  {| o_query := o_query plain_opts; o_real := o_real plain_opts; o_begin := None; o_end := None; o_exchange := None; o_depth := None; o_no_balance_check := skip |}.
Definition shows103 (o : opts) (f : String.string) : res (list str) := run_cmd 2 w103 (CBalance true false) o (L (String.append "./" f)).
Lemma counted103 w l now (us us' : list (txn rposting)) cash eur (a b d : Qc) : now cash eur = a -> (forall c, now cash c <> 0 -> c = eur) -> d = b - a ->
  commodity_meant w l eur = eur ->
  match us, us' with
  | [t], [t'] => PropScale.date_eqb (t_date t') (t_date t) && match t_postings t, t_postings t' with
      | [p; q], [p'; q'] => str_eqb (its_account w l p) cash && str_eqb (rp_account p') (rp_account p) && kind_eqb (rp_kind p) Real && kind_eqb (rp_kind p') Real &&
          PropScale.amount_eqb (rp_money p) None && PropScale.amount_eqb (rp_balance p) (Some (b, eur)) && PropScale.amount_eqb (rp_money p') (Some (d, eur)) && PropScale.amount_eqb (rp_cost p') None &&
          PropScale.amount_eqb (rp_balance p') None && same_posting_check q q' && PropScale.amount_eqb (rp_balance q') (rp_balance q)
      | _, _ => false end
  | _, _ => false end = true -> txns_told w l false true now us us'.
Proof.
  intros HA HZ HD HE H. destruct us as [|t [|]]; try discriminate. destruct us' as [|t' [|]]; try discriminate. apply andb_prop in H as [D H].
  constructor; [apply date_eqb_ok; auto| |constructor]. destruct (t_postings t) as [|p [|q [|]]]; try discriminate. destruct (t_postings t') as [|p' [|q' [|]]]; try discriminate.
  do 10 (let H' := fresh "X" in apply andb_prop in H; destruct H as [H H']). repeat match goal with E : PropScale.amount_eqb _ _ = true |- _ => apply PropScale.amount_eqb_ok in E end. apply str_eqb_eq in H, X8.
  constructor; [|constructor; [apply told_same; auto; apply same_posting_check_ok; auto|constructor]].
  apply (told_written_out w l false true now p p' d eur (b, eur)); auto; [destruct (rp_kind p); try discriminate; auto|destruct (rp_kind p'); try discriminate; auto|].
  intros c. rewrite H. unfold written_in. cbn [fst snd]. rewrite HE. destruct (str_eqb_spec eur c) as [<-|N]; [rewrite HA; auto|].
  destruct (qc_eqb_spec (now cash c) 0) as [->|Z]; [ring|]. exfalso. apply N. symmetry. auto.
Qed.
Example C103_case : world_ok w103 /\ file_parses 2 w103 (L "./with") (l103 "with") /\ file_parses 2 w103 (L "./bare") (l103 "bare") /\ stated_journal w103 (l103 "with") /\ stated_journal w103 (l103 "bare") /\
  journal_told w103 false true (l103 "with") (l103 "bare") /\ exit_status (run_cmd 2 w103 CCheck (opts103 false) (L "./with")) = 0%Z /\
  shows103 (opts103 false) "bare" = shows103 (opts103 false) "with" /\
  shows103 (opts103 false) "with" = Ok (map L ["           50.00 EUR  Assets:Bank"; "           42.00 EUR  Assets:Cash"; "         -100.00 EUR  Income"; "            8.00 EUR  Lost"; "--------------------"; "                   0"]%string).
Proof.
  assert (F : file_parses 2 w103 (L "./with") (l103 "with")) by (apply parses103; vm_compute; reflexivity). assert (F' : file_parses 2 w103 (L "./bare") (l103 "bare")) by (apply parses103; vm_compute; reflexivity).
  assert (S : stated_journal w103 (l103 "with")) by (apply stated_check_ok; vm_compute; reflexivity). assert (S' : stated_journal w103 (l103 "bare")) by (apply stated_check_ok; vm_compute; reflexivity).
  assert (CH : exit_status (run_cmd 2 w103 CCheck (opts103 false) (L "./with")) = 0%Z) by (vm_compute; reflexivity).
  split; [exact w103_ok|]. split; [exact F|]. split; [exact F'|]. split; [exact S|]. split; [exact S'|]. split.
  { split; [vm_compute; reflexivity|]. split; [vm_compute; reflexivity|]. exists (first103 "with" ++ rest103 "with"), (first103 "bare" ++ rest103 "bare").
    assert (D : date_sorted (pl_txns (l103 "with")) (first103 "with" ++ rest103 "with")).
    { assert (E : first103 "with" ++ rest103 "with" = by_date (pl_txns (l103 "with"))) by (vm_compute; reflexivity). rewrite E. exact (sorted_of 2 w103 (L "./with") (l103 "with") F S). }
    assert (D' : date_sorted (pl_txns (l103 "bare")) (first103 "bare" ++ rest103 "bare")).
    { assert (E : first103 "bare" ++ rest103 "bare" = by_date (pl_txns (l103 "bare"))) by (vm_compute; reflexivity). rewrite E. exact (sorted_of 2 w103 (L "./bare") (l103 "bare") F' S'). }
    split; [exact D|]. split; [exact D'|].
    pose proof (order_of_run 2 w103 CCheck (opts103 false) (L "./with") (l103 "with") _ w103_ok F S D CH) as IO.
    apply left_out_txns; [vm_compute; reflexivity|exact (proj1 (proj1 (PropCarry.order_app w103 (l103 "with") false (first103 "with") (rest103 "with") nothing) IO))|].
    apply (counted103 w103 (l103 "with") _ _ _ (L "Assets:Cash") (L "EUR") (qz 50) (qz 42) (qz (-8))).
    - apply Qc_is_canon. vm_compute. reflexivity.
    - intros c Hc. assert (I : incl (first103 "with") (pl_txns (l103 "with"))) by (intros t Ht; apply (sorted_incl _ _ D); apply in_or_app; left; exact Ht).
      destruct (held_here w103 (l103 "with") (first103 "with") (L "Assets:Cash") c I) as [_ Kc]; [vm_compute; reflexivity|exact Hc|].
      assert (X : forallb (fun k => str_eqb k (L "EUR")) (map (commodity_meant w103 (l103 "with")) (used_commodities (l103 "with"))) = true) by (vm_compute; reflexivity).
      rewrite forallb_forall in X. apply str_eqb_eq. exact (X c Kc).
    - apply Qc_is_canon. vm_compute. reflexivity.
    - vm_compute. reflexivity.
    - vm_compute. reflexivity. }
  split; [exact CH|]. split; vm_compute; reflexivity.
Qed.
(** A balance that is not true is found out by check; with --no-balance-check the file says what the other one says. *)
Example C103_false_balance : exit_status (run_cmd 2 w103 CCheck (opts103 false) (L "./false")) = 1%Z /\ exit_status (run_cmd 2 w103 CCheck (opts103 false) (L "./early")) = 0%Z /\
  shows103 (opts103 true) "false" = shows103 (opts103 true) "early" /\
  shows103 (opts103 true) "early" = Ok (map L ["           50.00 EUR  Assets:Bank"; "           50.00 EUR  Assets:Cash"; "         -100.00 EUR  Income"; "--------------------"; "                   0"]%string).
Proof. split; [vm_compute; reflexivity|]. split; [vm_compute; reflexivity|]. split; vm_compute; reflexivity. Qed.
