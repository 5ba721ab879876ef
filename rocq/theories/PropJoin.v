(** C88: arranging the transactions of a journal differently changes no balance; the balances of a journal put together
    from two are the sums of theirs. *)
From Coq Require Import Lia Sorting.Sorted.
From Verif Require Import Base BaseFacts Numerals Money Alist Comment Txn Expr Filter Price Tokens Ledger Reports App Spec MoneyFacts SpecList SpecTxn TxnFacts SpecLedger
  TokenFacts JournalFacts LedgerFacts LedgerFacts2 LedgerFacts3 PropTxn PropLedger SpecQuery SpecExpr ExprFacts PropExpr PropQuery SpecReports ReportFacts ReportFacts2 ReportFacts3 PropReports PropApp
  SpecText SpecDates SpecTokens SpecJournal JournalRead PropJournal SpecLayout PropLayout SpecBook BookFacts PropBook PropBook2 SpecAsk PropAsk SpecAgree PropAgree SpecJoin PropTokens.
Open Scope Qc_scope.

(** ** What the journals say *)
Lemma meant_same w l' l : same_directives l' l -> account_meant w l' = account_meant w l /\ commodity_meant w l' = commodity_meant w l.
Proof. intros (E1 & E2 & _). unfold account_meant, commodity_meant. rewrite E1, E2. auto. Qed.
Lemma plain_part w l' l : same_directives l' l -> incl (pl_txns l') (pl_txns l) -> plain_journal w l -> plain_journal w l'.
Proof.
  intros D I [P1 P2 P3 P4 P5]. destruct (meant_same w _ _ D) as [M1 M2]. destruct D as (E1 & E2 & E3).
  assert (MA : forall n, mentions_account l' n -> mentions_account l n) by (intros n (t & p & Ht & X); exists t, p; split; auto).
  assert (MC : forall n, mentions_commodity l' n -> mentions_commodity l n).
  { intros n [(p & Hp & X)|(t & p & q & Ht & X)]; [left; exists p; split; auto|right; exists t, p, q; split; auto]. }
  constructor.
  - auto.
  - intros t p Ht. apply P2. auto.
  - rewrite M1. auto.
  - rewrite M2. auto.
  - rewrite E1. auto.
Qed.
Lemma in_order_same w l' l t : same_directives l' l -> in_order w l' t <-> in_order w l t.
Proof.
  intros D. destruct (meant_same w _ _ D) as [_ M].
  assert (K : forall k, kind_value w l' k t = kind_value w l k t) by (intros k; unfold kind_value, written_value, written_in; rewrite M; auto).
  unfold in_order. rewrite !K. tauto.
Qed.
Lemma cut_part w o l' l : same_directives l' l -> incl (pl_txns l') (pl_txns l) -> can_be_cut w o l -> can_be_cut w o l'.
Proof.
  intros D I H d E. destruct (meant_same w _ _ D) as [M _]. destruct (H d E) as [H1 H2]. split; auto. intros n (t & p & Ht & X). rewrite M. apply H2. exists t, p. split; auto.
Qed.
(** What one transaction adds. *)
Definition txn_adds (w : world) (o : opts) (l : pledger) (P : str -> bool) (c : str) (t : txn rposting) : Qc :=
  if in_window o t
  then qsum (map (fun p => if asked_for o (rp_kind p) && P (account_meant w l (rp_account p)) then adds w l t p c else 0) (t_postings t)) else 0.
Lemma book_by_txn w o l P c : book_total w o l P c = qsum (map (txn_adds w o l P c) (pl_txns l)).
Proof.
  unfold book_total. induction (pl_txns l) as [|t ts IH]; auto. cbn [filter map]. rewrite qsum_cons, <- IH. unfold txn_adds at 1.
  destruct (in_window o t); cbn [map]; rewrite ?qsum_cons; auto. ring.
Qed.
Lemma adds_same w o l' l P c : same_directives l' l -> txn_adds w o l' P c = txn_adds w o l P c.
Proof. intros D. destruct (meant_same w _ _ D) as [M1 M2]. unfold txn_adds, adds, kind_value, written_value, written_in. rewrite M1, M2. auto. Qed.
Lemma book_rearranged w o l' l P c : rearranged l' l -> book_total w o l' P c = book_total w o l P c.
Proof. intros (D & X). rewrite !book_by_txn, (adds_same w o l' l P c D). apply qsum_perm, Permutation_map. auto. Qed.
Lemma book_joined w o l1 l2 l P c : joined l1 l2 l -> book_total w o l P c = book_total w o l1 P c + book_total w o l2 P c.
Proof.
  intros (D1 & D2 & X). rewrite !book_by_txn, (adds_same w o l1 l P c D1), (adds_same w o l2 l P c D2).
  rewrite <- (qsum_perm _ _ (Permutation_map (txn_adds w o l P c) X)), map_app, qsum_app. auto.
Qed.

(** ** Which journals are accepted *)
Lemma same_txns l' l : Permutation (pl_txns l') (pl_txns l) -> incl (pl_txns l') (pl_txns l).
Proof. intros X t Ht. eapply Permutation_in; eauto. Qed.
Lemma joined_incl l1 l2 l : joined l1 l2 l -> incl (pl_txns l1) (pl_txns l) /\ incl (pl_txns l2) (pl_txns l).
Proof. intros (_ & _ & X). split; intros t Ht; eapply Permutation_in; eauto; apply in_app_iff; auto. Qed.
Lemma order_rearranged w l' l : rearranged l' l -> Forall (in_order w l') (pl_txns l') <-> Forall (in_order w l) (pl_txns l).
Proof.
  intros (D & X). rewrite !Forall_forall. split; intros H t Ht.
  - apply (in_order_same w l' l t D). apply H. eapply Permutation_in; [symmetry|]; eauto.
  - apply (in_order_same w l' l t D). apply H. eapply Permutation_in; eauto.
Qed.
Lemma order_joined w l1 l2 l : joined l1 l2 l -> Forall (in_order w l) (pl_txns l) <-> Forall (in_order w l1) (pl_txns l1) /\ Forall (in_order w l2) (pl_txns l2).
Proof.
  intros (D1 & D2 & X). assert (E : Forall (in_order w l) (pl_txns l) <-> Forall (in_order w l) (pl_txns l1 ++ pl_txns l2)).
  { rewrite !Forall_forall. split; intros H t Ht; apply H; [exact (Permutation_in t X Ht)|exact (Permutation_in t (Permutation_sym X) Ht)]. }
  rewrite E, Forall_app. rewrite !Forall_forall. split; intros [H1 H2]; split; intros t Ht.
  - apply (in_order_same w l1 l t D1). auto.
  - apply (in_order_same w l2 l t D2). auto.
  - apply (in_order_same w l1 l t D1). auto.
  - apply (in_order_same w l2 l t D2). auto.
Qed.

(** Whatever the order of the transactions in the file, check accepts it or does not. *)
Theorem C88_check_rearranged : forall depth w o file' file l' l, world_ok w -> file_parses depth w file' l' -> file_parses depth w file l ->
  plain_journal w l -> rearranged l' l ->
  (exit_status (run_cmd depth w CCheck o file') = 0%Z <-> exit_status (run_cmd depth w CCheck o file) = 0%Z).
Proof.
  intros depth w o f' f l' l Hw F' F P R. pose proof R as (D & X). pose proof (plain_part w l' l D (same_txns _ _ X) P) as P'.
  rewrite (C73_check depth w o f' l' Hw F' P'), (C73_check depth w o f l Hw F P). apply order_rearranged. auto.
Qed.
Print Assumptions C88_check_rearranged.
(** Check accepts a journal put together from two exactly if it accepts both. *)
Theorem C88_check_joined : forall depth w o file1 file2 file l1 l2 l, world_ok w -> file_parses depth w file1 l1 -> file_parses depth w file2 l2 ->
  file_parses depth w file l -> plain_journal w l -> joined l1 l2 l ->
  (exit_status (run_cmd depth w CCheck o file) = 0%Z <->
   exit_status (run_cmd depth w CCheck o file1) = 0%Z /\ exit_status (run_cmd depth w CCheck o file2) = 0%Z).
Proof.
  intros depth w o f1 f2 f l1 l2 l Hw F1 F2 F P J. pose proof J as (D1 & D2 & _). destruct (joined_incl _ _ _ J) as [I1 I2].
  pose proof (plain_part w l1 l D1 I1 P) as P1. pose proof (plain_part w l2 l D2 I2 P) as P2.
  rewrite (C73_check depth w o f1 l1 Hw F1 P1), (C73_check depth w o f2 l2 Hw F2 P2), (C73_check depth w o f l Hw F P). apply order_joined. auto.
Qed.
Print Assumptions C88_check_joined.

(** ** The balances *)
Lemma asked_same w o l A P Q c : (forall n, P n = Q n) -> asked_total w o l A P c = asked_total w o l A Q c.
Proof. intros E. unfold asked_total. rewrite !book_by_txn. f_equal. apply map_ext. intros t. unfold txn_adds. destruct (in_window o t); auto. f_equal. apply map_ext. intros p. rewrite E. auto. Qed.
(** The flat report, its rows summed over any accounts. *)
Lemma flat_report depth w o file l nt A : world_ok w -> file_parses depth w file l -> plain_journal w l ->
  Forall (in_order w l) (pl_txns l) -> asked_accounts w (o_query o) A -> o_exchange o = None -> can_be_cut w o l ->
  exists r lines, run_cmd depth w (CBalance true nt) o file = Ok lines /\ balance_printed r lines /\
    asked_flat w o l A r /\ asked_total_shown w o l A (negb nt) r /\
    forall P c, shown_for r P c = asked_total w o l A (fun n => P (cut_by o n)) c.
Proof.
  intros Hw HF P IO HA OX HC. assert (Hp : parsed w l) by (destruct HF as (c & _ & F); exists depth, (Some file), [file], c; auto).
  apply file_parses_iff in HF. destruct (plain_outcome w (o_no_balance_check o) l Hw Hp P) as [(_ & lg & E & B)|(N & _)]; [|contradiction].
  destruct (report_asked w (report_site lg) o true (negb nt) l _ lg A Hw Hp P B HA OX (fun _ => HC)) as (r & Er).
  destruct (C69_printed depth w o file l lg Hw HF E) as [HP _]. destruct (HP true nt r Er) as (lines & L1 & L2). exists r, lines. do 2 (split; auto).
  destruct (asked_node w o A HA) as (q0 & Q0 & AN). pose proof (made_plain _ _ _ _ Hp E) as M. split; [|split].
  - destruct (C56_flat_rows_partial w _ o _ lg r Hw M OX Er) as (q & tps & Q & R & AS & F1 & F2). assert (q = q0) by congruence. subst q.
    split; auto. intros cut C. split.
    + intros row Hi. destruct (F1 row _ Hi C) as (X1 & X2 & X3). do 2 (split; auto). intros c. rewrite X3. eapply subtotal_asked; eauto.
    + intros a c Hn. apply (F2 cut a c C). rewrite (subtotal_asked w o l (o_no_balance_check o) lg q0 tps A) by auto. auto.
  - destruct (C57_total w _ o true _ lg r Hw M OX Er) as (q & tps & Q & R & T1 & T2). assert (q = q0) by congruence. subst q.
    split; auto. intros ms Em. destruct (T2 ms Em) as [X Y]. split; auto. intros c. rewrite Y. eapply subtotal_asked; eauto.
  - intros P' c. destruct (flat_shown _ _ _ _ _ _ Hw M OX Er) as (q & tps & Q & R & FS). assert (q = q0) by congruence. subst q.
    rewrite (FS (cut_by o) P' c (cut_by_cuts o)). eapply subtotal_asked; eauto.
Qed.
(** Rows are there for the accounts with an amount, and only for them. *)
Lemma shown_something ms : shown_amounts ms -> ms <> [] -> exists c, moneys_amt ms c <> 0.
Proof.
  destruct ms as [|m ms]; [contradiction|]. intros [N F] _. inv F. cbn [map] in N. inv N. destruct m as [|q k]; [discriminate|]. exists k. unfold moneys_amt. cbn [map]. rewrite qsum_cons.
  rewrite sum_of_none.
  - cbn. rewrite str_eqb_refl. cbn in H1. intros Z. assert (q = 0) by (rewrite <- Z; ring). subst q. discriminate.
  - intros x Hx. destruct x as [|q' k']; auto. cbn. destruct (str_eqb_spec k' k); auto. subst k'. destruct H3. apply (in_map m_commodity _ _ Hx).
Qed.

Lemma label_row rows a : In a (map br_label rows) -> exists row, In row rows /\ br_label row = a.
Proof. intros H. apply in_map_iff in H. destruct H as (row & E & Hi). eauto. Qed.
Lemma flat_labels w o l A r a : asked_flat w o l A r -> In a (map br_label (bp_rows r)) <-> exists c, asked_total w o l A (fun n => str_eqb (cut_by o n) a) c <> 0.
Proof.
  intros [AS AF]. destruct (AF (cut_by o) (cut_by_cuts o)) as [F1 F2]. split.
  - intros H. destruct (label_row _ _ H) as (row & Hi & <-). destruct (F1 row Hi) as (X1 & X2 & X3). destruct (shown_something _ X1 X2) as (c & Hc). exists c. rewrite <- X3. auto.
  - intros (c & Hc). eauto.
Qed.
Lemma ascending_same a b : ascending a -> ascending b -> (forall x, In x a <-> In x b) -> a = b.
Proof.
  intros A B E. apply (sorted_perm_eq lt_name).
  - intros x y _ _ H1 H2. exfalso. apply str_ltb_leb in H1, H2. destruct H1 as [H1 N], H2 as [H2 _]. apply N. apply str_leb_antisym; auto.
  - apply sorted_ascending. auto.
  - apply sorted_ascending. auto.
  - apply NoDup_Permutation; auto using ascending_NoDup.
Qed.
Lemma rows_same rows' rows (g : str -> str -> Qc) : map br_label rows' = map br_label rows ->
  (forall row, In row rows' -> forall c, moneys_amt (br_moneys row) c = g (br_label row) c) ->
  (forall row, In row rows -> forall c, moneys_amt (br_moneys row) c = g (br_label row) c) ->
  Forall2 (fun row' row => br_label row' = br_label row /\ forall c, moneys_amt (br_moneys row') c = moneys_amt (br_moneys row) c) rows' rows.
Proof.
  revert rows. induction rows' as [|x xs IH]; intros [|y ys] E H1 H2; try discriminate; constructor.
  - cbn in E. injection E as E _. split; auto. intros c. rewrite H1 by (left; auto). rewrite H2 by (left; auto). rewrite E. auto.
  - cbn in E. injection E as _ E. apply IH; auto; intros row Hi; [apply H1|apply H2]; right; auto.
Qed.
(** Whatever the order of the transactions in the file, the balance report says the same. *)
Theorem C88_balance_rearranged : forall depth w o file' file l' l no_total A, world_ok w -> file_parses depth w file' l' -> file_parses depth w file l ->
  plain_journal w l -> rearranged l' l -> exit_status (run_cmd depth w CCheck o file) = 0%Z ->
  asked_accounts w (o_query o) A -> o_exchange o = None -> can_be_cut w o l ->
  exists r' r lines' lines, run_cmd depth w (CBalance true no_total) o file' = Ok lines' /\ balance_printed r' lines' /\
    run_cmd depth w (CBalance true no_total) o file = Ok lines /\ balance_printed r lines /\ same_report r' r.
Proof.
  intros depth w o f' f l' l nt A Hw F' F P R CH HA OX HC. pose proof R as (D & X). pose proof (plain_part w l' l D (same_txns _ _ X) P) as P'.
  apply (C73_check depth w o f l Hw F P) in CH. pose proof (proj2 (order_rearranged w l' l R) CH) as CH'.
  destruct (flat_report depth w o f l nt A Hw F P CH HA OX HC) as (r & lines & R1 & R2 & R3 & R4 & _).
  destruct (flat_report depth w o f' l' nt A Hw F' P' CH' HA OX (cut_part w o l' l D (same_txns _ _ X) HC)) as (r' & lines' & S1 & S2 & S3 & S4 & _).
  exists r', r, lines', lines. do 4 (split; auto).
  assert (T : forall Q c, asked_total w o l' A Q c = asked_total w o l A Q c) by (intros Q c; apply book_rearranged; auto).
  assert (LS : map br_label (bp_rows r') = map br_label (bp_rows r)).
  { apply ascending_same; [apply S3|apply R3|]. intros a. rewrite (flat_labels w o l' A r' a S3), (flat_labels w o l A r a R3). split; intros (c & Hc); exists c; [rewrite <- T|rewrite T]; auto. }
  split; [|split].
  - apply (rows_same _ _ (fun a c => asked_total w o l A (fun n => str_eqb (cut_by o n) a) c)); auto.
    + intros row Hi c. destruct S3 as [_ S3]. destruct (S3 (cut_by o) (cut_by_cuts o)) as [Y _]. destruct (Y row Hi) as (_ & _ & Z). rewrite Z. apply T.
    + intros row Hi c. destruct R3 as [_ R3]. destruct (R3 (cut_by o) (cut_by_cuts o)) as [Y _]. apply (Y row Hi).
  - destruct R4 as [R4 _], S4 as [S4 _]. pose proof (f_equal (@length _) LS) as LE. rewrite !map_length in LE. rewrite LE in S4.
    destruct (bp_total r'), (bp_total r); split; intros H; try congruence; exfalso.
    + assert (Y : (None : option (list money)) <> None) by (apply R4, S4; congruence). congruence.
    + assert (Y : (None : option (list money)) <> None) by (apply S4, R4; congruence). congruence.
  - intros ms' ms c E' E. destruct R4 as [_ R4], S4 as [_ S4]. destruct (R4 ms E) as [_ ->]. destruct (S4 ms' E') as [_ ->]. apply T.
Qed.
Print Assumptions C88_balance_rearranged.
(** The balances of a journal put together from two are the sums of theirs. *)
Theorem C88_balance_joined : forall depth w o file1 file2 file l1 l2 l no_total A, world_ok w -> file_parses depth w file1 l1 -> file_parses depth w file2 l2 ->
  file_parses depth w file l -> plain_journal w l -> joined l1 l2 l -> exit_status (run_cmd depth w CCheck o file) = 0%Z ->
  asked_accounts w (o_query o) A -> o_exchange o = None -> can_be_cut w o l ->
  exists r1 r2 r lines1 lines2 lines, run_cmd depth w (CBalance true no_total) o file1 = Ok lines1 /\ balance_printed r1 lines1 /\
    run_cmd depth w (CBalance true no_total) o file2 = Ok lines2 /\ balance_printed r2 lines2 /\
    run_cmd depth w (CBalance true no_total) o file = Ok lines /\ balance_printed r lines /\ sum_of_reports r1 r2 r.
Proof.
  intros depth w o f1 f2 f l1 l2 l nt A Hw F1 F2 F P J CH HA OX HC. pose proof J as (D1 & D2 & _). destruct (joined_incl _ _ _ J) as [I1 I2].
  pose proof (plain_part w l1 l D1 I1 P) as P1. pose proof (plain_part w l2 l D2 I2 P) as P2.
  apply (C73_check depth w o f l Hw F P) in CH. destruct (proj1 (order_joined w l1 l2 l J) CH) as [C1 C2].
  destruct (flat_report depth w o f l nt A Hw F P CH HA OX HC) as (r & lines & R1 & R2 & R3 & R4 & R5).
  destruct (flat_report depth w o f1 l1 nt A Hw F1 P1 C1 HA OX (cut_part w o l1 l D1 I1 HC)) as (r1 & lines1 & S1 & S2 & S3 & S4 & S5).
  destruct (flat_report depth w o f2 l2 nt A Hw F2 P2 C2 HA OX (cut_part w o l2 l D2 I2 HC)) as (r2 & lines2 & T1 & T2 & T3 & T4 & T5).
  exists r1, r2, r, lines1, lines2, lines. do 6 (split; auto).
  assert (T : forall Q c, asked_total w o l A Q c = asked_total w o l1 A Q c + asked_total w o l2 A Q c) by (intros Q c; apply book_joined; auto).
  assert (SY : forall l a c, asked_total w o l A (fun n => str_eqb (cut_by o n) a) c = asked_total w o l A (fun n => str_eqb a (cut_by o n)) c).
  { intros k a c. apply asked_same. intros n. destruct (str_eqb_spec (cut_by o n) a), (str_eqb_spec a (cut_by o n)); congruence. }
  split; [apply R3|]. split; [|split].
  - intros a. rewrite (flat_labels w o l A r a R3). split; intros (c & Hc); exists c; [rewrite S5, T5, <- T, <- SY|rewrite SY, T, <- S5, <- T5]; auto.
  - intros Q c. rewrite R5, S5, T5. apply T.
  - intros ms c E. destruct R4 as [_ R4]. destruct (R4 ms E) as [_ ->]. rewrite S5, T5. apply T.
Qed.
Print Assumptions C88_balance_joined.
(** A row of the report with sub-accounts is the sum of the rows of the account and its sub-accounts of the two. *)
Theorem C88_tree_joined : forall depth w o o' file1 file2 file l1 l2 l no_total A, world_ok w -> file_parses depth w file1 l1 -> file_parses depth w file2 l2 ->
  file_parses depth w file l -> plain_journal w l -> joined l1 l2 l -> exit_status (run_cmd depth w CCheck o file) = 0%Z ->
  asked_accounts w (o_query o) A -> o_exchange o = None -> same_but_depth o o' -> o_depth o' = None ->
  exists r1 r2 r lines1 lines2 lines, run_cmd depth w (CBalance true no_total) o' file1 = Ok lines1 /\ balance_printed r1 lines1 /\
    run_cmd depth w (CBalance true no_total) o' file2 = Ok lines2 /\ balance_printed r2 lines2 /\
    run_cmd depth w (CBalance false no_total) o file = Ok lines /\ balance_printed r lines /\
    (exists accs, ascending accs /\
       Forall2 (fun a row => br_indent row = levels a /\ (exists part more, own_part a part /\ br_label row = part ++ more) /\
         shown_amounts (br_moneys row) /\ br_moneys row <> [] /\
         (~ begins_with_colon a -> forall c, moneys_amt (br_moneys row) c = shown_for r1 (inside a) c + shown_for r2 (inside a) c)) accs (bp_rows r)) /\
    forall ms c, bp_total r = Some ms -> moneys_amt ms c = shown_for r1 (fun _ => true) c + shown_for r2 (fun _ => true) c.
Proof.
  intros depth w o o' f1 f2 f l1 l2 l nt A Hw F1 F2 F P J CH HA OX SD ND. pose proof J as (D1 & D2 & _). destruct (joined_incl _ _ _ J) as [I1 I2].
  pose proof (plain_part w l1 l D1 I1 P) as P1. pose proof (plain_part w l2 l D2 I2 P) as P2.
  apply (C73_check depth w o f l Hw F P) in CH. destruct (proj1 (order_joined w l1 l2 l J) CH) as [C1 C2].
  destruct SD as (O1 & O2 & O3 & O4 & O5 & O6). assert (HA' : asked_accounts w (o_query o') A) by (rewrite <- O4; auto). assert (OX' : o_exchange o' = None) by congruence.
  assert (HC : forall k, can_be_cut w o' k) by (intros k d E; congruence).
  destruct (C78_balance depth w o f l false nt A Hw F P CH HA OX) as (r & lines & R1 & R2 & R3 & R4); [discriminate|].
  destruct (flat_report depth w o' f1 l1 nt A Hw F1 P1 C1 HA' OX' (HC l1)) as (r1 & lines1 & S1 & S2 & S3 & S4 & S5).
  destruct (flat_report depth w o' f2 l2 nt A Hw F2 P2 C2 HA' OX' (HC l2)) as (r2 & lines2 & T1 & T2 & T3 & T4 & T5).
  exists r1, r2, r, lines1, lines2, lines. do 6 (split; auto).
  assert (W : forall k Q c, asked_total w o k A Q c = asked_total w o' k A Q c).
  { intros k Q c. unfold asked_total, book_total, in_window, asked_for. rewrite O1, O2, O3. auto. }
  assert (CU : forall n, cut_by o' n = n) by (intros n; unfold cut_by; rewrite ND; auto).
  assert (T : forall Q c, asked_total w o l A Q c = shown_for r1 Q c + shown_for r2 Q c).
  { intros Q c. rewrite S5, T5, W. rewrite (asked_same w o' l1 A _ Q c) by (intros; rewrite CU; auto). rewrite (asked_same w o' l2 A _ Q c) by (intros; rewrite CU; auto).
    apply book_joined; auto. }
  split.
  - destruct R3 as (accs & AS & FR). exists accs. split; auto. eapply forall2_weaken; [|exact FR]. intros a row (H1 & H2 & _ & H4 & H5 & H6). do 4 (split; auto).
    intros N c. rewrite (H6 N). apply T.
  - intros ms c E. destruct R4 as [_ R4]. destruct (R4 ms E) as [_ ->]. apply T.
Qed.
Print Assumptions C88_tree_joined.

(** ** The register *)
Lemma entries_same w l t e1 e2 : txn_entries w l t e1 -> txn_entries w l t e2 -> Permutation e1 e2.
Proof.
  intros [g1 A1 N1 M1] [g2 A2 N2 M2]. apply Permutation_app_head, Permutation_app_tail. apply NoDup_Permutation; auto.
  assert (K : forall ga gb : list entry,
    (forall e, In e ga -> exists p, filter open_posting (t_postings t) = [p] /\ fst e = (Real, account_meant w l (rp_account p))) ->
    (forall e, In e gb -> exists p, filter open_posting (t_postings t) = [p] /\ fst e = (Real, account_meant w l (rp_account p))) ->
    (forall p, filter open_posting (t_postings t) = [p] -> forall m, In m (map snd ga) -> In m (map snd gb)) -> forall e, In e ga -> In e gb).
  { intros ga gb A B M e He. destruct (A e He) as (p & Ep & Ee). pose proof (M p Ep (snd e) (in_map snd _ _ He)) as H. apply in_map_iff in H. destruct H as (e' & E1 & H).
    destruct (B e' H) as (p' & Ep' & Ee'). rewrite Ep in Ep'. injection Ep' as <-. destruct e as [x y], e' as [x' y']. cbn in *. subst. auto. }
  intros e. split; apply K; auto; intros p Ep m Hm.
  - apply (M2 p Ep). apply (M1 p Ep). auto.
  - apply (M1 p Ep). apply (M2 p Ep). auto.
Qed.
Definition kept (o : opts) (A : str -> bool) (te : txn rposting * list entry) : list entry :=
  if in_window o (fst te) then filter (fun e => asked_for o (entry_kind e) && A (snd (fst e))) (snd te) else [].
Lemma kept_lines o A te : map snd (asked_entries o A te) = kept o A te.
Proof. unfold asked_entries, kept. destruct (in_window o (fst te)); auto. destruct (filter _ (snd te)) as [|e r]; auto. cbn. rewrite map_map. cbn. rewrite map_id. auto. Qed.
Lemma kept_all o A tes : map snd (flat_map (asked_entries o A) tes) = flat_map (kept o A) tes.
Proof. induction tes as [|te tes IH]; auto. cbn [flat_map]. rewrite map_app, kept_lines, IH. auto. Qed.
Lemma kept_same w l o A us : forall e1 e2, Forall2 (txn_entries w l) us e1 -> Forall2 (txn_entries w l) us e2 ->
  Permutation (flat_map (kept o A) (combine us e1)) (flat_map (kept o A) (combine us e2)).
Proof.
  induction us as [|u us IH]; intros e1 e2 H1 H2; inv H1; inv H2; auto. cbn [combine flat_map]. apply Permutation_app; auto.
  unfold kept. cbn [fst snd]. destruct (in_window o u); auto. apply filter_perm. eapply entries_same; eauto.
Qed.
Lemma permuted_entries {A B} (R : A -> B -> Prop) us us' : Permutation us us' -> forall es, Forall2 R us es ->
  exists es', Forall2 R us' es' /\ Permutation (combine us es) (combine us' es').
Proof.
  induction 1 as [|x us us' H IH|x y us|us us' us'' H1 IH1 H2 IH2]; intros es F.
  - inv F. exists []. split; constructor.
  - inv F. destruct (IH _ H4) as (es' & E1 & E2). exists (y :: es'). split; [constructor; auto|]. cbn. constructor. auto.
  - inv F. inv H3. eexists. split; [constructor; [eassumption|constructor; eassumption]|]. cbn. apply perm_swap.
  - destruct (IH1 _ F) as (e1 & E1 & E2). destruct (IH2 _ E1) as (e2 & E3 & E4). exists e2. split; auto. eapply Permutation_trans; eauto.
Qed.
Lemma lines_permuted w l o A us us' es es' : Permutation us us' -> Forall2 (txn_entries w l) us es -> Forall2 (txn_entries w l) us' es' ->
  Permutation (flat_map (kept o A) (combine us es)) (flat_map (kept o A) (combine us' es')).
Proof.
  intros H F F'. destruct (permuted_entries _ _ _ H _ F) as (e & E1 & E2). eapply Permutation_trans; [apply Permutation_flat_map, E2|]. eapply kept_same; eauto.
Qed.
Lemma entries_directives w l' l us es : same_directives l' l -> Forall2 (txn_entries w l') us es -> Forall2 (txn_entries w l) us es.
Proof.
  intros D. destruct (meant_same w _ _ D) as [M1 M2]. apply forall2_weaken. intros t e [fills A N M].
  assert (K : forall k, kind_value w l' k t = kind_value w l k t) by (intros k; unfold kind_value, written_value, written_in; rewrite M2; auto).
  assert (WE : written_entry w l' = written_entry w l) by (unfold written_entry; rewrite M1, M2; auto).
  rewrite WE. rewrite M1 in A. rewrite K in M. constructor; auto.
Qed.
Lemma register_lines w o l A rows : asked_register w o l A rows -> exists us es, Permutation (pl_txns l) us /\ Forall2 (txn_entries w l) us es /\
  map line_amount rows = map (fun e => (entry_shown e, snd e)) (flat_map (kept o A) (combine us es)) /\
  forall c, final_total rows c = qsum (map (fun e => money_amt (snd e) c) (flat_map (kept o A) (combine us es))).
Proof.
  intros (us & es & (X & _) & FE & LE & H). exists us, es. do 2 (split; auto). cbn zeta in *. rewrite <- kept_all. set (lines := flat_map (asked_entries o A) (combine us es)) in *. split.
  - rewrite map_map. clearbody lines. clear -LE H. 
    assert (Y : forall i row x, nth_error rows i = Some row -> nth_error lines i = Some x -> line_amount row = (entry_shown (snd x), snd (snd x))).
    { intros i row [h e] E1 E2. destruct (H i row h e E1 E2) as (H1 & H2 & _). unfold line_amount. rewrite H1, H2. auto. }
    clear H. revert lines LE Y. induction rows as [|r rows IH]; intros [|x lines] LE Y; try discriminate; auto. cbn [map]. f_equal.
    + apply (Y O); auto.
    + apply IH; [injection LE; auto|]. intros i row y. apply (Y (S i)).
  - intros c. unfold final_total. destruct (rev rows) as [|row rs] eqn:E.
    + assert (rows = []) as -> by (rewrite <- (rev_involutive rows), E; auto). destruct lines; [reflexivity|discriminate].
    + assert (ER : rows = rev rs ++ [row]) by (rewrite <- (rev_involutive rows), E; auto).
      assert (N : nth_error rows (length (rev rs)) = Some row) by (rewrite ER, nth_error_app2, Nat.sub_diag by auto; auto).
      assert (LL : length lines = S (length (rev rs))) by (rewrite <- LE, ER, app_length; cbn; lia).
      destruct (nth_error lines (length (rev rs))) as [[h e]|] eqn:NL; [|apply nth_error_None in NL; lia].
      destruct (H _ _ _ _ N NL) as (_ & _ & _ & _ & Z). rewrite Z, <- LL, firstn_all, map_map. auto.
Qed.
(** The register of a journal put together from two has the lines of both; its last running total is the sum of theirs. *)
Theorem C88_register_joined : forall depth w o file1 file2 file l1 l2 l A, world_ok w -> file_parses depth w file1 l1 -> file_parses depth w file2 l2 ->
  file_parses depth w file l -> plain_journal w l -> joined l1 l2 l -> exit_status (run_cmd depth w CCheck o file) = 0%Z -> asked_accounts w (o_query o) A ->
  exists rows1 rows2 rows lines1 lines2 lines, run_cmd depth w CRegister o file1 = Ok lines1 /\ register_printed w rows1 lines1 /\
    run_cmd depth w CRegister o file2 = Ok lines2 /\ register_printed w rows2 lines2 /\
    run_cmd depth w CRegister o file = Ok lines /\ register_printed w rows lines /\
    Permutation (map line_amount rows1 ++ map line_amount rows2) (map line_amount rows) /\
    forall c, final_total rows c = final_total rows1 c + final_total rows2 c.
Proof.
  intros depth w o f1 f2 f l1 l2 l A Hw F1 F2 F P J CH HA. pose proof J as (D1 & D2 & X). destruct (joined_incl _ _ _ J) as [I1 I2].
  pose proof (plain_part w l1 l D1 I1 P) as P1. pose proof (plain_part w l2 l D2 I2 P) as P2.
  apply (C73_check depth w o f l Hw F P) in CH. destruct (proj1 (order_joined w l1 l2 l J) CH) as [C1 C2].
  destruct (C78_register depth w o f l A Hw F P CH HA) as (rows & g & R1 & R2 & R3).
  destruct (C78_register depth w o f1 l1 A Hw F1 P1 C1 HA) as (rows1 & g1 & S1 & S2 & S3).
  destruct (C78_register depth w o f2 l2 A Hw F2 P2 C2 HA) as (rows2 & g2 & T1 & T2 & T3).
  exists rows1, rows2, rows, (concat g1), (concat g2), (concat g). split; auto. split; [exists g1; auto|]. split; auto. split; [exists g2; auto|]. split; auto. split; [exists g; auto|].
  destruct (register_lines _ _ _ _ _ R3) as (us & es & U1 & U2 & U3 & U4). destruct (register_lines _ _ _ _ _ S3) as (us1 & es1 & V1 & V2 & V3 & V4).
  destruct (register_lines _ _ _ _ _ T3) as (us2 & es2 & W1 & W2 & W3 & W4).
  apply (entries_directives w l1 l _ _ D1) in V2. apply (entries_directives w l2 l _ _ D2) in W2.
  assert (PU : Permutation (us1 ++ us2) us).
  { eapply Permutation_trans; [apply Permutation_app; symmetry; [exact V1|exact W1]|]. eapply Permutation_trans; [exact X|exact U1]. }
  pose proof (lines_permuted w l o A _ _ _ _ PU (forall2_app _ _ _ _ _ V2 W2) U2) as PL.
  assert (CA : combine (us1 ++ us2) (es1 ++ es2) = combine us1 es1 ++ combine us2 es2).
  { clear -V2. induction V2; cbn; auto. f_equal. auto. }
  rewrite CA, flat_map_app in PL. split.
  - rewrite U3, V3, W3, <- map_app. apply Permutation_map. auto.
  - intros c. rewrite U4, V4, W4, <- qsum_app, <- map_app. symmetry. apply qsum_perm, Permutation_map. auto.
Qed.
Print Assumptions C88_register_joined.
(** Whatever the order of the transactions in the file, the register has the same lines and the same last running total. *)
Theorem C88_register_rearranged : forall depth w o file' file l' l A, world_ok w -> file_parses depth w file' l' -> file_parses depth w file l ->
  plain_journal w l -> rearranged l' l -> exit_status (run_cmd depth w CCheck o file) = 0%Z -> asked_accounts w (o_query o) A ->
  exists rows' rows lines' lines, run_cmd depth w CRegister o file' = Ok lines' /\ register_printed w rows' lines' /\
    run_cmd depth w CRegister o file = Ok lines /\ register_printed w rows lines /\
    Permutation (map line_amount rows') (map line_amount rows) /\ forall c, final_total rows' c = final_total rows c.
Proof.
  intros depth w o f' f l' l A Hw F' F P R CH HA. pose proof R as (D & X). pose proof (plain_part w l' l D (same_txns _ _ X) P) as P'.
  apply (C73_check depth w o f l Hw F P) in CH. pose proof (proj2 (order_rearranged w l' l R) CH) as CH'.
  destruct (C78_register depth w o f l A Hw F P CH HA) as (rows & g & R1 & R2 & R3).
  destruct (C78_register depth w o f' l' A Hw F' P' CH' HA) as (rows' & g' & S1 & S2 & S3).
  exists rows', rows, (concat g'), (concat g). split; auto. split; [exists g'; auto|]. split; auto. split; [exists g; auto|].
  destruct (register_lines _ _ _ _ _ R3) as (us & es & U1 & U2 & U3 & U4). destruct (register_lines _ _ _ _ _ S3) as (us' & es' & V1 & V2 & V3 & V4).
  apply (entries_directives w l' l _ _ D) in V2.
  assert (PU : Permutation us' us) by (eapply Permutation_trans; [symmetry; exact V1|]; eapply Permutation_trans; [exact X|exact U1]).
  pose proof (lines_permuted w l o A _ _ _ _ PU V2 U2) as PL. split.
  - rewrite U3, V3. apply Permutation_map. auto.
  - intros c. rewrite U4, V4. apply qsum_perm, Permutation_map. auto.
Qed.
Print Assumptions C88_register_rearranged.

(** ** Journals that meet the hypotheses *)
(** Two years in files of their own, with the same declarations; both together, the later first; the transactions of
    one year in another order. *)
Definition head88 : list String.string := ["account Assets:Cash"; "  alias purse"; "commodity EUR"; "  alias E"]%string.
Definition year20 : list String.string := ["2020-03-02 Shop"; "  Expenses:Food  10.50 EUR"; "  Expenses:Drinks  2 USD @ 0.5 E"; "  purse"; "2020-01-01 Job"; "  Assets:Bank  100 EUR"; "  (Budget)  7 EUR"; "  Income  -100 EUR"]%string.
Definition year21 : list String.string := ["2021-02-01 Cash"; "  Assets:Cash  30 EUR"; "  Assets:Bank"; "2021-02-01 Bar"; "  Expenses:Drinks  -2 USD"; "  Assets:Cash  2 USD"]%string.
Definition turned20 : list String.string := ["2020-01-01 Job"; "  Assets:Bank  100 EUR"; "  (Budget)  7 EUR"; "  Income  -100 EUR"; "2020-03-02 Shop"; "  Expenses:Food  10.50 EUR"; "  Expenses:Drinks  2 USD @ 0.5 E"; "  purse"]%string.
Definition inc88 (n : String.string) : String.string := String.append "include " n.
Definition w88 : world := disk [(L "./head", text head88); (L "./y20", text (inc88 "head" :: year20)); (L "./y21", text (inc88 "head" :: year21));
  (L "./both", text (inc88 "head" :: year21 ++ year20)); (L "./turned", text (inc88 "head" :: turned20))].
Definition l88 (f : String.string) : pledger := get pl_new (tokenize_file 3 w88 (L (String.append "./" f))).
Lemma w88_ok : world_ok w88.
Proof. split; [intros; apply Permutation_refl|exact ascii_lower_idem]. Qed.
Definition shows88 (o : opts) (f : String.string) : res (list str) := run_cmd 3 w88 (CBalance true false) o (L (String.append "./" f)).
Lemma parses88 f : match tokenize_file 3 w88 (L (String.append "./" f)) with Ok l => l88 f = l | _ => False end -> file_parses 3 w88 (L (String.append "./" f)) (l88 f).
Proof. intros H. apply file_parses_iff. destruct (tokenize_file 3 w88 (L (String.append "./" f))); subst; auto; destruct H. Qed.
Lemma directives88 f : pl_accounts (l88 f) = pl_accounts (l88 "both") -> pl_commodities (l88 f) = pl_commodities (l88 "both") -> pl_prices (l88 f) = pl_prices (l88 "both") ->
  same_directives (l88 f) (l88 "both").
Proof. intros A B C. split; auto. split; auto. rewrite C. apply incl_refl. Qed.
(** The row of Expenses:Drinks is not there any more in the report of both: the two rows cancel. *)
Example C88_joined_case : world_ok w88 /\ file_parses 3 w88 (L "./y20") (l88 "y20") /\ file_parses 3 w88 (L "./y21") (l88 "y21") /\ file_parses 3 w88 (L "./both") (l88 "both") /\
  plain_journal w88 (l88 "both") /\ joined (l88 "y20") (l88 "y21") (l88 "both") /\ exit_status (run_cmd 3 w88 CCheck plain_opts (L "./both")) = 0%Z /\
  asked_accounts w88 (o_query plain_opts) (fun _ => true) /\ o_exchange plain_opts = None /\ can_be_cut w88 plain_opts (l88 "both") /\
  shows88 plain_opts "y20" = Ok (map L ["          100.00 EUR  Assets:Bank"; "          -11.50 EUR  Assets:Cash"; "            7.00 EUR  Budget"; "            2.00 USD  Expenses:Drinks";
    "           10.50 EUR  Expenses:Food"; "         -100.00 EUR  Income"; "--------------------"; "            6.00 EUR"; "            2.00 USD"]%string) /\
  shows88 plain_opts "y21" = Ok (map L ["          -30.00 EUR  Assets:Bank"; "           30.00 EUR"; "            2.00 USD  Assets:Cash"; "           -2.00 USD  Expenses:Drinks";
    "--------------------"; "                   0"]%string) /\
  shows88 plain_opts "both" = Ok (map L ["           70.00 EUR  Assets:Bank"; "           18.50 EUR"; "            2.00 USD  Assets:Cash"; "            7.00 EUR  Budget";
    "           10.50 EUR  Expenses:Food"; "         -100.00 EUR  Income"; "--------------------"; "            6.00 EUR"; "            2.00 USD"]%string).
Proof.
  split; [exact w88_ok|]. split; [apply parses88; vm_compute; reflexivity|]. split; [apply parses88; vm_compute; reflexivity|]. split; [apply parses88; vm_compute; reflexivity|].
  split; [apply plain_check_ok; vm_compute; reflexivity|]. split.
  - split; [apply directives88; vm_compute; reflexivity|]. split; [apply directives88; vm_compute; reflexivity|].
    replace (pl_txns (l88 "both")) with (pl_txns (l88 "y21") ++ pl_txns (l88 "y20")) by (vm_compute; reflexivity). apply Permutation_app_comm.
  - split; [vm_compute; reflexivity|]. split; [constructor|]. split; [reflexivity|]. split; [intros d E; discriminate E|]. split; [vm_compute; reflexivity|]. split; vm_compute; reflexivity.
Qed.
Example C88_rearranged_case : file_parses 3 w88 (L "./turned") (l88 "turned") /\ plain_journal w88 (l88 "y20") /\ rearranged (l88 "turned") (l88 "y20") /\
  pl_txns (l88 "turned") <> pl_txns (l88 "y20") /\ exit_status (run_cmd 3 w88 CCheck plain_opts (L "./y20")) = 0%Z /\ shows88 plain_opts "turned" = shows88 plain_opts "y20".
Proof.
  split; [apply parses88; vm_compute; reflexivity|]. split; [apply plain_check_ok; vm_compute; reflexivity|]. split.
  - split.
    + assert (E : pl_prices (l88 "turned") = pl_prices (l88 "y20")) by (vm_compute; reflexivity). split; [vm_compute; reflexivity|]. split; [vm_compute; reflexivity|]. rewrite E. apply incl_refl.
    + replace (pl_txns (l88 "turned")) with (rev (pl_txns (l88 "y20"))) by (vm_compute; reflexivity). apply Permutation_sym, Permutation_rev.
  - split; [intros H; apply (f_equal (map (@t_date rposting))) in H; vm_compute in H; discriminate H|]. split; vm_compute; reflexivity.
Qed.
