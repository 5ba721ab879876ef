(** C93: a report for a period is the report of the journal that has only the transactions of that period. *)
From Coq Require Import Lia.
From Verif Require Import Base BaseFacts Numerals Money Alist Comment Txn Expr Filter Price Tokens Ledger Reports App Spec MoneyFacts SpecList SpecTxn TxnFacts SpecLedger
  TokenFacts JournalFacts LedgerFacts LedgerFacts2 LedgerFacts3 PropTxn PropLedger SpecQuery SpecExpr ExprFacts PropExpr PropQuery SpecReports ReportFacts ReportFacts2 ReportFacts3 PropReports PropApp
  SpecText SpecDates SpecTokens SpecJournal JournalRead PropJournal SpecLayout PropLayout SpecBook BookFacts PropBook PropBook2 SpecAsk PropAsk SpecAgree PropAgree SpecJoin PropTokens PropJoin SpecPeriod.
Open Scope Qc_scope.

Lemma part_txns o l' l : part_of_period o l' l -> incl (pl_txns l') (pl_txns l).
Proof. intros (_ & X) t Ht. apply (Permutation_in t X) in Ht. apply filter_In in Ht. apply Ht. Qed.
Lemma part_window o l' l t : part_of_period o l' l -> In t (pl_txns l') -> in_window o t = true.
Proof. intros (_ & X) Ht. apply (Permutation_in t X) in Ht. apply filter_In in Ht. apply Ht. Qed.
Lemma window_wider o o' t : without_period o o' -> in_window o t = true -> in_window o' t = true.
Proof. intros (_ & B & E). unfold in_window. rewrite B, E. destruct (t_date t); auto. Qed.
Lemma part_order w o l' l : part_of_period o l' l -> Forall (in_order w l) (pl_txns l) -> Forall (in_order w l') (pl_txns l').
Proof.
  intros X. pose proof (part_txns _ _ _ X) as I. destruct X as (D & _). rewrite !Forall_forall. intros H t Ht. apply (in_order_same w l' l t D). auto.
Qed.
Lemma adds_period w o o' l P c t : without_period o o' -> in_window o t = true -> txn_adds w o' l P c t = txn_adds w o l P c t.
Proof. intros WP Ht. unfold txn_adds. rewrite (window_wider o o' t WP Ht), Ht. destruct WP as ((R & _) & _). unfold asked_for. rewrite R. auto. Qed.
Lemma book_period w o o' l' l P c : part_of_period o l' l -> without_period o o' -> book_total w o' l' P c = book_total w o l P c.
Proof.
  intros X WP. rewrite !book_by_txn. pose proof X as (D & PM). rewrite (adds_same w o' l' l P c D).
  rewrite (qsum_perm _ _ (Permutation_map (txn_adds w o' l P c) PM)). clear X PM D. generalize (pl_txns l) as us. induction us as [|t us IH]; auto.
  cbn [filter map]. rewrite qsum_cons, <- IH. destruct (in_window o t) eqn:E; cbn [map]; rewrite ?qsum_cons.
  - rewrite (adds_period w o o' l P c t WP E). auto.
  - assert (Z : txn_adds w o l P c t = 0) by (unfold txn_adds; rewrite E; auto). rewrite Z. ring.
Qed.

(** A journal that is accepted is accepted when only the transactions of a period are kept. *)
Theorem C93_check : forall depth w o k file' file l' l, world_ok w -> file_parses depth w file' l' -> file_parses depth w file l ->
  plain_journal w l -> part_of_period k l' l -> exit_status (run_cmd depth w CCheck o file) = 0%Z -> exit_status (run_cmd depth w CCheck o file') = 0%Z.
Proof.
  intros depth w o k f' f l' l Hw F' F P X CH. pose proof (plain_part w l' l (proj1 X) (part_txns _ _ _ X) P) as P'.
  apply (C73_check depth w o f' l' Hw F' P'). apply (part_order w k l' l X). apply (C73_check depth w o f l Hw F P). auto.
Qed.
Print Assumptions C93_check.

(** Balance for a period says what balance without a period says of the journal of that period. *)
Theorem C93_balance : forall depth w o o' file' file l' l no_total A, world_ok w -> file_parses depth w file' l' -> file_parses depth w file l ->
  plain_journal w l -> part_of_period o l' l -> without_period o o' -> exit_status (run_cmd depth w CCheck o file) = 0%Z ->
  asked_accounts w (o_query o) A -> o_exchange o = None -> can_be_cut w o l ->
  exists r' r lines' lines, run_cmd depth w (CBalance true no_total) o' file' = Ok lines' /\ balance_printed r' lines' /\
    run_cmd depth w (CBalance true no_total) o file = Ok lines /\ balance_printed r lines /\ same_report r' r.
Proof.
  intros depth w o o' f' f l' l nt A Hw F' F P X WP CH HA OX HC. pose proof (plain_part w l' l (proj1 X) (part_txns _ _ _ X) P) as P'.
  apply (C73_check depth w o f l Hw F P) in CH. pose proof (part_order w o l' l X CH) as CH'. pose proof WP as ((O1 & O2 & O3 & O4 & O5) & _).
  assert (HA' : asked_accounts w (o_query o') A) by (rewrite <- O3; auto). assert (OX' : o_exchange o' = None) by congruence.
  assert (HC' : can_be_cut w o' l').
  { intros d E. rewrite <- O2 in E. exact (cut_part w o l' l (proj1 X) (part_txns _ _ _ X) HC d E). }
  destruct (flat_report depth w o f l nt A Hw F P CH HA OX HC) as (r & lines & R1 & R2 & R3 & R4 & _).
  destruct (flat_report depth w o' f' l' nt A Hw F' P' CH' HA' OX' HC') as (r' & lines' & S1 & S2 & S3 & S4 & _).
  exists r', r, lines', lines. do 4 (split; auto).
  assert (T : forall Q c, asked_total w o' l' A Q c = asked_total w o l A Q c) by (intros Q c; apply book_period; auto).
  assert (CB : forall n, cut_by o' n = cut_by o n) by (intros n; unfold cut_by; rewrite O2; auto).
  assert (TC : forall a c, asked_total w o' l' A (fun n => str_eqb (cut_by o' n) a) c = asked_total w o l A (fun n => str_eqb (cut_by o n) a) c).
  { intros a c. rewrite <- T. apply asked_same. intros n. rewrite CB. auto. }
  assert (LS : map br_label (bp_rows r') = map br_label (bp_rows r)).
  { apply ascending_same; [apply S3|apply R3|]. intros a. rewrite (flat_labels w o' l' A r' a S3), (flat_labels w o l A r a R3). split; intros (c & Hc); exists c; [rewrite <- TC|rewrite TC]; auto. }
  split; [|split].
  - apply (rows_same _ _ (fun a c => asked_total w o l A (fun n => str_eqb (cut_by o n) a) c) LS).
    + intros row Hi c. destruct S3 as [_ S3]. destruct (S3 (cut_by o') (cut_by_cuts o')) as [X1 _]. destruct (X1 row Hi) as (_ & _ & ->). apply TC.
    + intros row Hi c. destruct R3 as [_ R3]. destruct (R3 (cut_by o) (cut_by_cuts o)) as [X1 _]. destruct (X1 row Hi) as (_ & _ & ->). auto.
  - destruct R4 as [R4 _], S4 as [S4 _]. pose proof (f_equal (@length _) LS) as LE. rewrite !map_length in LE. rewrite LE in S4.
    destruct (bp_total r'), (bp_total r); split; intros H; try congruence; exfalso.
    + assert (Y : (None : option (list money)) <> None) by (apply R4, S4; congruence). congruence.
    + assert (Y : (None : option (list money)) <> None) by (apply S4, R4; congruence). congruence.
  - intros ms' ms c E' E. destruct R4 as [_ R4], S4 as [_ S4]. destruct (R4 ms E) as [_ ->]. destruct (S4 ms' E') as [_ ->]. apply T.
Qed.
Print Assumptions C93_balance.

(** The tree report for a period, in terms of the flat report of the journal of that period. *)
Theorem C93_tree : forall depth w o o' file' file l' l no_total A, world_ok w -> file_parses depth w file' l' -> file_parses depth w file l ->
  plain_journal w l -> part_of_period o l' l -> without_period o o' -> exit_status (run_cmd depth w CCheck o file) = 0%Z ->
  asked_accounts w (o_query o) A -> o_exchange o = None -> o_depth o = None ->
  exists r' r lines' lines, run_cmd depth w (CBalance true no_total) o' file' = Ok lines' /\ balance_printed r' lines' /\
    run_cmd depth w (CBalance false no_total) o file = Ok lines /\ balance_printed r lines /\
    (exists accs, ascending accs /\
       Forall2 (fun a row => br_indent row = levels a /\ (exists part more, own_part a part /\ br_label row = part ++ more) /\
         shown_amounts (br_moneys row) /\ br_moneys row <> [] /\
         (~ begins_with_colon a -> forall c, moneys_amt (br_moneys row) c = shown_for r' (inside a) c)) accs (bp_rows r)) /\
    forall ms c, bp_total r = Some ms -> moneys_amt ms c = shown_for r' (fun _ => true) c.
Proof.
  intros depth w o o' f' f l' l nt A Hw F' F P X WP CH HA OX ND. pose proof (plain_part w l' l (proj1 X) (part_txns _ _ _ X) P) as P'.
  apply (C73_check depth w o f l Hw F P) in CH. pose proof (part_order w o l' l X CH) as CH'. pose proof WP as ((O1 & O2 & O3 & O4 & O5) & _).
  assert (HA' : asked_accounts w (o_query o') A) by (rewrite <- O3; auto). assert (OX' : o_exchange o' = None) by congruence.
  assert (HC' : can_be_cut w o' l') by (intros d E; congruence).
  destruct (C78_balance depth w o f l false nt A Hw F P CH HA OX) as (r & lines & R1 & R2 & R3 & R4); [discriminate|].
  destruct (flat_report depth w o' f' l' nt A Hw F' P' CH' HA' OX' HC') as (r' & lines' & S1 & S2 & S3 & S4 & S5).
  exists r', r, lines', lines. do 4 (split; auto).
  assert (CU : forall n, cut_by o' n = n) by (intros n; unfold cut_by; rewrite <- O2, ND; auto).
  assert (T : forall Q c, asked_total w o l A Q c = shown_for r' Q c).
  { intros Q c. rewrite S5. rewrite (asked_same w o' l' A _ Q c) by (intros; rewrite CU; auto). symmetry. apply book_period; auto. }
  split.
  - destruct R3 as (accs & AS & FR). exists accs. split; auto. eapply forall2_weaken; [|exact FR]. intros a row (H1 & H2 & _ & H4 & H5 & H6). do 4 (split; auto).
    intros N c. rewrite (H6 N). apply T.
  - intros ms c E. destruct R4 as [_ R4]. destruct (R4 ms E) as [_ ->]. apply T.
Qed.
Print Assumptions C93_tree.

(** ** The register *)
Lemma kept_window (R : txn rposting -> list entry -> Prop) o A us : forall es, Forall2 R us es ->
  exists fs, Forall2 R (filter (in_window o) us) fs /\ flat_map (kept o A) (combine us es) = flat_map (kept o A) (combine (filter (in_window o) us) fs).
Proof.
  induction us as [|u us IH]; intros es H; inv H; [exists []; cbn; auto|]. destruct (IH _ H4) as (fs & E1 & E2).
  cbn [combine filter flat_map]. destruct (in_window o u) eqn:E.
  - exists (y :: fs). split; auto. cbn [combine flat_map]. rewrite E2. auto.
  - exists fs. split; auto. unfold kept at 1. cbn [fst]. rewrite E. auto.
Qed.
Lemma kept_period o o' A us : without_period o o' -> (forall u, In u us -> in_window o u = true) -> forall es : list (list entry),
  flat_map (kept o' A) (combine us es) = flat_map (kept o A) (combine us es).
Proof.
  intros WP. induction us as [|u us IH]; intros H es; auto. destruct es as [|e es]; auto. cbn [combine flat_map].
  rewrite IH by (intros; apply H; right; auto). f_equal. unfold kept. cbn [fst snd]. pose proof (H u (or_introl eq_refl)) as Hu. rewrite Hu, (window_wider o o' u WP Hu).
  destruct WP as ((R & _) & _). unfold asked_for. rewrite R. auto.
Qed.
(** The register for a period has the lines of the register of the journal of that period, and the same last total. *)
Theorem C93_register : forall depth w o o' file' file l' l A, world_ok w -> file_parses depth w file' l' -> file_parses depth w file l ->
  plain_journal w l -> part_of_period o l' l -> without_period o o' -> exit_status (run_cmd depth w CCheck o file) = 0%Z -> asked_accounts w (o_query o) A ->
  exists rows' rows lines' lines, run_cmd depth w CRegister o' file' = Ok lines' /\ register_printed w rows' lines' /\
    run_cmd depth w CRegister o file = Ok lines /\ register_printed w rows lines /\
    Permutation (map line_amount rows') (map line_amount rows) /\ forall c, final_total rows' c = final_total rows c.
Proof.
  intros depth w o o' f' f l' l A Hw F' F P X WP CH HA. pose proof X as (D & PM). pose proof (plain_part w l' l D (part_txns _ _ _ X) P) as P'.
  apply (C73_check depth w o f l Hw F P) in CH. pose proof (part_order w o l' l X CH) as CH'. pose proof WP as ((O1 & O2 & O3 & O4 & O5) & _).
  assert (HA' : asked_accounts w (o_query o') A) by (rewrite <- O3; auto).
  destruct (C78_register depth w o f l A Hw F P CH HA) as (rows & g & R1 & R2 & R3).
  destruct (C78_register depth w o' f' l' A Hw F' P' CH' HA') as (rows' & g' & S1 & S2 & S3).
  exists rows', rows, (concat g'), (concat g). split; auto. split; [exists g'; auto|]. split; auto. split; [exists g; auto|].
  destruct (register_lines _ _ _ _ _ R3) as (us & es & U1 & U2 & U3 & U4). destruct (register_lines _ _ _ _ _ S3) as (us' & es' & V1 & V2 & V3 & V4).
  apply (entries_directives w l' l _ _ D) in V2. rewrite (kept_period o o' A us' WP) in V3.
  2:{ intros u Hu. apply (part_window o l' l u X). exact (Permutation_in u (Permutation_sym V1) Hu). }
  assert (V4' : forall c, final_total rows' c = qsum (map (fun e => money_amt (snd e) c) (flat_map (kept o A) (combine us' es')))).
  { intros c. rewrite V4, (kept_period o o' A us' WP); auto. intros u Hu. apply (part_window o l' l u X). exact (Permutation_in u (Permutation_sym V1) Hu). }
  destruct (kept_window _ o A us es U2) as (fs & K1 & K2). rewrite K2 in U3, U4.
  assert (PU : Permutation us' (filter (in_window o) us)).
  { eapply Permutation_trans; [symmetry; exact V1|]. eapply Permutation_trans; [exact PM|]. apply filter_perm. exact U1. }
  pose proof (lines_permuted w l o A _ _ _ _ PU V2 K1) as PL. split.
  - rewrite U3, V3. apply Permutation_map. auto.
  - intros c. rewrite U4, V4'. apply qsum_perm, Permutation_map. auto.
Qed.
Print Assumptions C93_register.

(** ** A case *)
(** Both years of C88; the options ask for the year 2020. *)
Definition o93 : opts := {| o_real := false; o_begin := Some 737424%Z; o_end := Some 737790%Z; o_query := []; o_depth := None; o_exchange := None; o_no_balance_check := false |}.
Example C93_case : world_ok w88 /\ file_parses 3 w88 (L "./y20") (l88 "y20") /\ file_parses 3 w88 (L "./both") (l88 "both") /\ plain_journal w88 (l88 "both") /\
  part_of_period o93 (l88 "y20") (l88 "both") /\ length (pl_txns (l88 "y20")) = 2%nat /\ length (pl_txns (l88 "both")) = 4%nat /\ without_period o93 plain_opts /\
  exit_status (run_cmd 3 w88 CCheck o93 (L "./both")) = 0%Z /\ asked_accounts w88 (o_query o93) (fun _ => true) /\ o_exchange o93 = None /\ can_be_cut w88 o93 (l88 "both") /\
  shows88 o93 "both" = shows88 plain_opts "y20".
Proof.
  split; [exact w88_ok|]. split; [apply parses88; vm_compute; reflexivity|]. split; [apply parses88; vm_compute; reflexivity|].
  split; [apply plain_check_ok; vm_compute; reflexivity|]. split.
  - split; [apply directives88; vm_compute; reflexivity|]. replace (filter (in_window o93) (pl_txns (l88 "both"))) with (pl_txns (l88 "y20")) by (vm_compute; reflexivity). apply Permutation_refl.
  - split; [vm_compute; reflexivity|]. split; [vm_compute; reflexivity|]. split; [repeat split|]. split; [vm_compute; reflexivity|]. split; [constructor|]. split; [reflexivity|].
    split; [intros d E; discriminate E|]. vm_compute; reflexivity.
Qed.
