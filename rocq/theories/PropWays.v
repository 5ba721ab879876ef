(** C102: a transaction may be written in several ways. *)
From Coq Require Import Lia.
From Verif Require Import Base BaseFacts Numerals Money Alist Comment Txn Expr Filter Price Tokens Ledger Reports App Spec MoneyFacts SpecList SpecTxn TxnFacts SpecLedger
  TokenFacts JournalFacts LedgerFacts LedgerFacts2 LedgerFacts3 PropTxn PropLedger SpecQuery SpecExpr ExprFacts PropExpr PropQuery SpecReports ReportFacts ReportFacts2 ReportFacts3 PropReports PropApp
  SpecText SpecDates SpecTokens SpecJournal JournalRead PropJournal SpecLayout PropLayout SpecBook BookFacts PropBook PropBook2 SpecAsk PropAsk SpecAgree PropAgree SpecJoin PropTokens PropJoin SpecScale PropScale SpecWays.
Open Scope Qc_scope.

Section Ways.
  Context (w : world) (l : pledger).
  (** Everything about a transaction that matters, in terms of its postings. *)
  Definition values (k : kind) (ps : list rposting) (c : str) : Qc :=
    qsum (map (fun p => if kind_eqb (rp_kind p) k then written_value w l p c else 0) ps).
  Definition order_of (ps : list rposting) : Prop :=
    SpecTxn.fine (values VirtualMustBalance ps) /\
    match filter open_posting ps with [] => SpecTxn.fine (values Real ps) | [_] => True | _ => False end.
  Definition places (o : opts) (P : str -> bool) (v : Qc) (c : str) (ps : list rposting) : Qc :=
    qsum (map (fun p => if asked_for o (rp_kind p) && P (account_meant w l (rp_account p))
      then match rp_money p with Some m => written_in w l m c | None => - v end else 0) ps).
  Lemma values_app k ps qs c : values k (ps ++ qs) c = values k ps c + values k qs c.
  Proof using Type. unfold values. rewrite map_app, qsum_app. auto. Qed.
  Lemma values_cons k p ps c : values k (p :: ps) c = (if kind_eqb (rp_kind p) k then written_value w l p c else 0) + values k ps c.
  Proof using Type. unfold values. cbn [map]. rewrite qsum_cons. auto. Qed.
  Lemma places_app o P v c ps qs : places o P v c (ps ++ qs) = places o P v c ps + places o P v c qs.
  Proof using Type. unfold places. rewrite map_app, qsum_app. auto. Qed.
  Lemma places_cons o P v c p ps : places o P v c (p :: ps) = (if asked_for o (rp_kind p) && P (account_meant w l (rp_account p))
      then match rp_money p with Some m => written_in w l m c | None => - v end else 0) + places o P v c ps.
  Proof using Type. unfold places. cbn [map]. rewrite qsum_cons. auto. Qed.
  Lemma divided_value p p1 p2 x y k c : same_place w l p p1 -> same_place w l p p2 ->
    rp_money p = Some (x + y, k) -> rp_money p1 = Some (x, k) -> rp_money p2 = Some (y, k) ->
    (rp_cost p = None /\ rp_cost p1 = None /\ rp_cost p2 = None \/
     rp_kind p <> VirtualMustBalance /\ rp_cost_type p = Some PPerUnit /\
     rp_cost p1 = rp_cost p /\ rp_cost_type p1 = Some PPerUnit /\ rp_cost p2 = rp_cost p /\ rp_cost_type p2 = Some PPerUnit) ->
    written_value w l p c = written_value w l p1 c + written_value w l p2 c.
  Proof using Type.
    intros (_ & K1) (_ & K2) M0 M1 M2 H. unfold written_value. rewrite M0, M1, M2, K1, K2. destruct H as [(C0 & C1 & C2)|(NB & T0 & C1 & T1 & C2 & T2)].
    - rewrite C0, C1, C2. unfold written_in. cbn [fst snd]. destruct (str_eqb _ c); ring.
    - rewrite C1, C2, T0, T1, T2. assert (KE : kind_eqb (rp_kind p) VirtualMustBalance = false) by (destruct (rp_kind p); auto; congruence). rewrite KE. cbn [andb].
      destruct (rp_cost p) as [z|]; [ring|]. unfold written_in. cbn [fst snd]. destruct (str_eqb _ c); ring.
  Qed.
  Lemma open_given p m : rp_money p = Some m -> open_posting p = false.
  Proof using Type. intros E. unfold open_posting. rewrite E, Bool.andb_false_r. auto. Qed.
  Lemma filter_length_perm {A} (f : A -> bool) xs ys : Permutation xs ys -> length (filter f xs) = length (filter f ys).
  Proof using Type. intros H. apply Permutation_length, filter_perm. auto. Qed.
  Lemma order_by_length ps : order_of ps <-> SpecTxn.fine (values VirtualMustBalance ps) /\
    (length (filter open_posting ps) <= 1)%nat /\ (length (filter open_posting ps) = 0%nat -> SpecTxn.fine (values Real ps)).
  Proof using Type.
    unfold order_of. destruct (filter open_posting ps) as [|a [|b r]]; cbn [length]; split; intros H; try (repeat split; try tauto; try lia; intros; lia); destruct H as (H1 & H2); try tauto; destruct H2; try lia; tauto.
  Qed.
  Lemma fine_same f g : (forall c, f c = g c) -> SpecTxn.fine f <-> SpecTxn.fine g.
  Proof using Type.
    intros E. unfold SpecTxn.fine, balanced, exchange. split; intros [H|[(c & H1) (d & H2)]].
    - left. intros c. rewrite <- E. auto.
    - right. split; [exists c|exists d]; rewrite <- E; auto.
    - left. intros c. rewrite E. auto.
    - right. split; [exists c|exists d]; rewrite E; auto.
  Qed.
  (** The real postings are worth the same, or one side left an amount open and the other is worth nothing. *)
  Record same_thing (ps ps' : list rposting) : Prop := {
    st_brackets : forall c, values VirtualMustBalance ps' c = values VirtualMustBalance ps c;
    st_order : order_of ps' <-> order_of ps;
    st_places : forall o P c, places o P (values Real ps' c) c ps' = places o P (values Real ps c) c ps;
  }.
  Lemma way_same ps ps' : another_way w l ps ps' -> same_thing ps ps'.
  Proof using Type.
    induction 1 as [ps ps' H|bf p p1 p2 af x y k S1 S2 M0 M1 M2 CO|bf p p' af q k KR S0 M0 M1 C1 NO SUM|bf p p' af S0 SA WV|ps ps' H IH|ps ps' ps'' H1 IH1 H2 IH2].
    - assert (V : forall k c, values k ps' c = values k ps c) by (intros k c; apply qsum_perm, Permutation_map; symmetry; auto). constructor.
      + auto.
      + rewrite !order_by_length, (filter_length_perm _ _ _ H), (fine_same _ _ (V VirtualMustBalance)), (fine_same _ _ (V Real)). tauto.
      + intros o P c. rewrite V. apply qsum_perm, Permutation_map. symmetry. auto.
    - pose proof (fun c => divided_value p p1 p2 x y k c S1 S2 M0 M1 M2 CO) as DV. destruct S1 as (A1 & K1), S2 as (A2 & K2).
      assert (V : forall kd c, values kd (bf ++ p1 :: p2 :: af) c = values kd (bf ++ p :: af) c).
      { intros kd c. rewrite !values_app, !values_cons, K1, K2, DV. destruct (kind_eqb (rp_kind p) kd); ring. }
      constructor; auto.
      + assert (FL : length (filter open_posting (bf ++ p1 :: p2 :: af)) = length (filter open_posting (bf ++ p :: af))).
        { rewrite !filter_app. cbn [filter]. rewrite (open_given _ _ M0), (open_given _ _ M1), (open_given _ _ M2). auto. }
        rewrite !order_by_length, FL, (fine_same _ _ (V VirtualMustBalance)), (fine_same _ _ (V Real)). tauto.
      + intros o P c. rewrite V, !places_app, !places_cons, A1, A2, K1, K2, M0, M1, M2. destruct (asked_for o (rp_kind p) && P (account_meant w l (rp_account p))); [|ring].
        unfold written_in. cbn [fst snd]. destruct (str_eqb _ c); ring.
    - destruct S0 as (A1 & K1). rewrite KR in K1.
      assert (WV : forall c, written_value w l p' c = written_in w l (q, k) c) by (intros c; unfold written_value; rewrite M1, C1; auto).
      assert (WO : forall c, written_value w l p c = 0) by (intros c; unfold written_value; rewrite M0; auto).
      assert (R1 : forall c, values Real (bf ++ p' :: af) c = 0).
      { intros c. rewrite <- (SUM c). change (real_value w l (bf ++ af) c) with (values Real (bf ++ af) c). rewrite !values_app, values_cons, K1, WV. cbn [kind_eqb]. ring. }
      assert (R2 : forall c, values Real (bf ++ p :: af) c = - written_in w l (q, k) c).
      { intros c. pose proof (SUM c) as X. change (real_value w l (bf ++ af) c) with (values Real (bf ++ af) c) in X. rewrite values_app in X. rewrite values_app, values_cons, KR, WO. cbn [kind_eqb]. qlra. }
      assert (VB : forall c, values VirtualMustBalance (bf ++ p' :: af) c = values VirtualMustBalance (bf ++ p :: af) c).
      { intros c. rewrite !values_app, !values_cons, K1, KR. reflexivity. }
      assert (F0 : forall xs, (forall x, In x xs -> rp_money x <> None) -> filter open_posting xs = []).
      { induction xs as [|x xs IH]; intros H; auto. cbn [filter]. rewrite IH by (intros; apply H; cbn; auto). unfold open_posting.
        destruct (rp_money x) eqn:E2; [rewrite Bool.andb_false_r; auto|]. exfalso. apply (H x); cbn; auto. }
      assert (FB : filter open_posting bf = []) by (apply F0; intros x Hx; apply NO, in_app_iff; auto). assert (FA : filter open_posting af = []) by (apply F0; intros x Hx; apply NO, in_app_iff; auto).
      assert (NP : forall o P c v v', places o P v c bf + places o P v c af = places o P v' c bf + places o P v' c af).
      { intros o P c v v'. rewrite <- !places_app. revert NO. generalize (bf ++ af). intros xs NO.
        induction xs as [|x xs IH]; [reflexivity|]. rewrite !places_cons, IH by (intros; apply NO; cbn; auto). destruct (rp_money x) eqn:E2; auto. exfalso. apply (NO x); cbn; auto. }
      constructor; auto.
      + rewrite !order_by_length, !filter_app. cbn [filter]. rewrite FB, FA, (open_given _ _ M1). unfold open_posting. rewrite KR, M0. cbn [kind_eqb andb app length].
        rewrite (fine_same _ _ VB). assert (SpecTxn.fine (values Real (bf ++ p' :: af))) by (left; exact R1). split; intros (X & _ & _); repeat split; auto; intros; discriminate.
      + intros o P c. rewrite R1, R2, !places_app, !places_cons, A1, K1, KR, M0, M1. rewrite Qcopp_involutive. pose proof (NP o P c 0 (- written_in w l (q, k) c)) as X.
        destruct (asked_for o Real && P (account_meant w l (rp_account p))); qlra.
    - destruct S0 as (A1 & K1).
      assert (V : forall kd c, values kd (bf ++ p' :: af) c = values kd (bf ++ p :: af) c) by (intros kd c; rewrite !values_app, !values_cons, K1, WV; auto).
      constructor; auto.
      + assert (FL : length (filter open_posting (bf ++ p' :: af)) = length (filter open_posting (bf ++ p :: af))).
        { rewrite !filter_app. cbn [filter]. assert (OP : open_posting p' = open_posting p) by (unfold open_posting; rewrite K1; destruct (rp_money p), (rp_money p'); cbn in SA; try contradiction; auto).
          rewrite OP, !app_length. destruct (open_posting p); auto. }
        rewrite !order_by_length, FL, (fine_same _ _ (V VirtualMustBalance)), (fine_same _ _ (V Real)). tauto.
      + intros o P c. rewrite V, !places_app, !places_cons, A1, K1. destruct (rp_money p), (rp_money p'); cbn in SA; try contradiction; auto. rewrite SA. auto.
    - destruct IH as [I1 I2 I3]. constructor; [symmetry; auto|tauto|symmetry; auto].
    - destruct IH1 as [I1 I2 I3], IH2 as [J1 J2 J3]. constructor; [intros c; rewrite J1; auto|tauto|intros; rewrite J3; auto].
  Qed.
End Ways.

Lemma order_postings w l t : in_order w l t <-> order_of w l (t_postings t).
Proof. reflexivity. Qed.
Lemma adds_postings w o l P c t : txn_adds w o l P c t = if in_window o t then places w l o P (values w l Real (t_postings t) c) c (t_postings t) else 0.
Proof. reflexivity. Qed.
Lemma same_window o t t' : t_date t' = t_date t -> in_window o t' = in_window o t.
Proof. intros E. unfold in_window. rewrite E. auto. Qed.
Section Journal.
  Context (w : world) (l l' : pledger) (O : journal_otherwise w l l').
  Lemma way_meant : account_meant w l' = account_meant w l /\ commodity_meant w l' = commodity_meant w l.
  Proof using O. destruct O as (A & C & _). unfold account_meant, commodity_meant. rewrite A, C. auto. Qed.
  Lemma way_orders : Forall (in_order w l') (pl_txns l') <-> Forall (in_order w l) (pl_txns l).
  Proof using O.
    destruct way_meant as [MA MC]. destruct O as (_ & _ & ts & PE & F).
    assert (E : Forall (in_order w l) (pl_txns l) <-> Forall (in_order w l) ts).
    { rewrite !Forall_forall. split; intros H t Ht; apply H; [exact (Permutation_in t (Permutation_sym PE) Ht)|exact (Permutation_in t PE Ht)]. }
    assert (S : forall t, in_order w l' t <-> in_order w l t) by (intros t; unfold in_order, kind_value, written_value, written_in; rewrite MC; tauto).
    rewrite E. clear E PE. induction F as [|t t' ts ts' (_ & H) F IH]; [split; constructor|].
    pose proof (st_order _ _ _ _ (way_same w l _ _ H)) as X. rewrite <- !order_postings in X.
    split; intros Y; inversion Y; subst; constructor; try (apply IH; auto); [apply X, S|apply S, X]; auto.
  Qed.
  Lemma way_book o P c : book_total w o l' P c = book_total w o l P c.
  Proof using O.
    destruct way_meant as [MA MC]. destruct O as (_ & _ & ts & PE & F). rewrite !book_by_txn.
    assert (E : txn_adds w o l' P c = txn_adds w o l P c) by (unfold txn_adds, adds, kind_value, written_value, written_in; rewrite MA, MC; auto).
    rewrite E, (qsum_perm _ _ (Permutation_map (txn_adds w o l P c) PE)). clear E PE. f_equal. induction F as [|t t' ts ts' (D & H) F IH]; auto. cbn [map]. rewrite IH. f_equal.
    rewrite !adds_postings, (same_window o t t' D). destruct (in_window o t); auto. apply (st_places _ _ _ _ (way_same w l _ _ H)).
  Qed.
End Journal.

(** ** C102 *)
(** [check] accepts a journal in whatever way its transactions are written. *)
Theorem C102_check : forall depth w o file file' l l', world_ok w -> file_parses depth w file l -> file_parses depth w file' l' ->
  plain_journal w l -> plain_journal w l' -> journal_otherwise w l l' ->
  (exit_status (run_cmd depth w CCheck o file') = 0%Z <-> exit_status (run_cmd depth w CCheck o file) = 0%Z).
Proof.
  intros depth w o f f' l l' Hw F F' P P' H. rewrite (C73_check depth w o f' l' Hw F' P'), (C73_check depth w o f l Hw F P). apply way_orders. auto.
Qed.
Print Assumptions C102_check.
(** The flat balance report is the same. *)
Theorem C102_balance : forall depth w o file file' l l' no_total A, world_ok w -> file_parses depth w file l -> file_parses depth w file' l' ->
  plain_journal w l -> plain_journal w l' -> journal_otherwise w l l' -> exit_status (run_cmd depth w CCheck o file) = 0%Z ->
  asked_accounts w (o_query o) A -> o_exchange o = None -> can_be_cut w o l -> can_be_cut w o l' ->
  exists r r' lines lines', run_cmd depth w (CBalance true no_total) o file = Ok lines /\ balance_printed r lines /\
    run_cmd depth w (CBalance true no_total) o file' = Ok lines' /\ balance_printed r' lines' /\ same_report r' r.
Proof.
  intros depth w o f0 f l0 l nt A Hw F0 F P0 P H CH0 HA OX HC0 HC.
  apply (C73_check depth w o f0 l0 Hw F0 P0) in CH0. pose proof (proj2 (way_orders w l0 l H) CH0) as CH.
  destruct (flat_report depth w o f l nt A Hw F P CH HA OX HC) as (r & lines & R1 & R2 & R3 & R4 & _).
  destruct (flat_report depth w o f0 l0 nt A Hw F0 P0 CH0 HA OX HC0) as (r0 & lines0 & S1 & S2 & S3 & S4 & _).
  exists r0, r, lines0, lines. do 4 (split; auto).
  assert (T : forall Q c, asked_total w o l0 A Q c = asked_total w o l A Q c) by (intros Q c; symmetry; apply (way_book w l0 l H)).
  assert (LS : map br_label (bp_rows r) = map br_label (bp_rows r0)).
  { apply ascending_same; [apply R3|apply S3|]. intros a. rewrite (flat_labels w o l0 A r0 a S3), (flat_labels w o l A r a R3). split; intros (c & Hc); exists c; [rewrite T|rewrite <- T]; auto. }
  split; [|split].
  - apply (rows_same _ _ (fun a c => asked_total w o l A (fun n => str_eqb (cut_by o n) a) c)); auto.
    + intros row Hi c. destruct R3 as [_ R3]. destruct (R3 (cut_by o) (cut_by_cuts o)) as [Y _]. apply (Y row Hi).
    + intros row Hi c. destruct S3 as [_ S3]. destruct (S3 (cut_by o) (cut_by_cuts o)) as [Y _]. destruct (Y row Hi) as (_ & _ & Z). rewrite Z. apply T.
  - destruct R4 as [R4 _], S4 as [S4 _]. pose proof (f_equal (@length _) LS) as LE. rewrite !map_length in LE. rewrite LE in R4.
    destruct (bp_total r), (bp_total r0); split; intros X; try congruence; exfalso.
    + assert (Y : (None : option (list money)) <> None) by (apply S4, R4; congruence). congruence.
    + assert (Y : (None : option (list money)) <> None) by (apply R4, S4; congruence). congruence.
  - intros ms ms0 c E E0. destruct R4 as [_ R4], S4 as [_ S4]. destruct (R4 ms E) as [_ ->]. destruct (S4 ms0 E0) as [_ ->]. symmetry. apply T.
Qed.
Print Assumptions C102_balance.
(** The tree of the one, in terms of the flat report of the other. *)
Theorem C102_tree : forall depth w o o' file file' l l' no_total A, world_ok w -> file_parses depth w file l -> file_parses depth w file' l' ->
  plain_journal w l -> plain_journal w l' -> journal_otherwise w l l' -> exit_status (run_cmd depth w CCheck o file) = 0%Z ->
  asked_accounts w (o_query o) A -> o_exchange o = None -> same_but_depth o o' -> o_depth o' = None ->
  exists r r' lines lines', run_cmd depth w (CBalance true no_total) o' file = Ok lines /\ balance_printed r lines /\
    run_cmd depth w (CBalance false no_total) o file' = Ok lines' /\ balance_printed r' lines' /\
    (exists accs, ascending accs /\
       Forall2 (fun a row => br_indent row = levels a /\ (exists part more, own_part a part /\ br_label row = part ++ more) /\
         shown_amounts (br_moneys row) /\ br_moneys row <> [] /\
         (~ begins_with_colon a -> forall c, moneys_amt (br_moneys row) c = shown_for r (inside a) c)) accs (bp_rows r')) /\
    forall ms c, bp_total r' = Some ms -> moneys_amt ms c = shown_for r (fun _ => true) c.
Proof.
  intros depth w o o' f0 f l0 l nt A Hw F0 F P0 P H CH0 HA OX SD ND.
  apply (C73_check depth w o f0 l0 Hw F0 P0) in CH0. pose proof (proj2 (way_orders w l0 l H) CH0) as CH.
  destruct SD as (O1 & O2 & O3 & O4 & O5 & O6). assert (HA' : asked_accounts w (o_query o') A) by (rewrite <- O4; auto). assert (OX' : o_exchange o' = None) by congruence.
  assert (HC : can_be_cut w o' l0) by (intros d E; congruence).
  destruct (C78_balance depth w o f l false nt A Hw F P CH HA OX) as (r & lines & R1 & R2 & R3 & R4); [discriminate|].
  destruct (flat_report depth w o' f0 l0 nt A Hw F0 P0 CH0 HA' OX' HC) as (r0 & lines0 & S1 & S2 & S3 & S4 & S5).
  exists r0, r, lines0, lines. do 4 (split; auto).
  assert (W : forall k Q c, asked_total w o k A Q c = asked_total w o' k A Q c).
  { intros k Q c. unfold asked_total, book_total, in_window, asked_for. rewrite O1, O2, O3. auto. }
  assert (CU : forall n, cut_by o' n = n) by (intros n; unfold cut_by; rewrite ND; auto).
  assert (T : forall Q c, asked_total w o l A Q c = shown_for r0 Q c).
  { intros Q c. rewrite S5, <- W. rewrite (asked_same w o l0 A _ Q c) by (intros; rewrite CU; auto). apply (way_book w l0 l H). }
  split.
  - destruct R3 as (accs & AS & FR). exists accs. split; auto. eapply forall2_weaken; [|exact FR]. intros a row (H1 & H2 & _ & H4 & H5 & H6). do 4 (split; auto).
    intros N c. rewrite (H6 N). apply T.
  - intros ms c E. destruct R4 as [_ R4]. destruct (R4 ms E) as [_ ->]. apply T.
Qed.
Print Assumptions C102_tree.

(** ** The register *)
Section Entries.
  Context (w : world) (l : pledger) (o : opts) (P : str -> bool) (c : str).
  Definition entry_amt (e : entry) : Qc := if asked_for o (entry_kind e) && P (snd (fst e)) then money_amt (snd e) c else 0.
  Lemma written_amt (f : rposting -> bool) ps : qsum (map entry_amt (flat_map (written_entry w l) (filter f ps))) + qsum (map entry_amt (flat_map (written_entry w l) (filter (fun p => negb (f p)) ps))) =
    places w l o P 0 c ps.
  Proof using Type.
    induction ps as [|p ps IH]; [change (0 + 0 = 0); ring|]. rewrite places_cons, <- IH. cbn [filter].
    assert (E : qsum (map entry_amt (written_entry w l p)) = if asked_for o (rp_kind p) && P (account_meant w l (rp_account p)) then match rp_money p with Some m => written_in w l m c | None => - 0 end else 0).
    { unfold written_entry. destruct (rp_money p) as [[q k]|]; cbn [map].
      - rewrite qsum_cons. change (qsum []) with 0. unfold entry_amt, entry_kind, written_in. cbn [fst snd money_amt]. destruct (asked_for o (rp_kind p) && P (account_meant w l (rp_account p))); ring.
      - change (qsum []) with 0. destruct (_ && _); ring. }
    destruct (f p); cbn [negb flat_map]; rewrite map_app, qsum_app, E; ring.
  Qed.
  Lemma places_open v ps : places w l o P v c ps = places w l o P 0 c ps + qsum (map (fun p => if asked_for o (rp_kind p) && P (account_meant w l (rp_account p)) then - v else 0) (filter (fun p => match rp_money p with None => true | _ => false end) ps)).
  Proof using Type.
    induction ps as [|p ps IH]; [change (0 = 0 + 0); ring|]. rewrite !places_cons, IH. cbn [filter]. destruct (rp_money p); cbn [map]; rewrite ?qsum_cons; destruct (_ && _); ring.
  Qed.
  Lemma entries_adds t es : (forall p, In p (t_postings t) -> plain_posting p) -> in_order w l t -> txn_entries w l t es ->
    qsum (map entry_amt es) = places w l o P (values w l Real (t_postings t) c) c (t_postings t).
  Proof using Type.
    intros PP IO [fills A N I]. rewrite !map_app, !qsum_app, places_open, <- (written_amt real_posting).
    assert (FO : filter (fun p => match rp_money p with None => true | _ => false end) (t_postings t) = filter open_posting (t_postings t)).
    { apply filter_ext_in. intros p Hp. unfold open_posting. destruct (PP p Hp) as (_ & _ & V & _). destruct (rp_money p) eqn:E; [rewrite Bool.andb_false_r; auto|]. destruct (rp_kind p); auto; exfalso; apply V; auto; discriminate. }
    rewrite FO. match goal with |- _ + (?X + _) = _ + ?Y => enough (E : X = Y) by (rewrite E, (Qcplus_comm Y), Qcplus_assoc; reflexivity) end.
    destruct IO as [_ IO]. destruct (filter open_posting (t_postings t)) as [|p [|p2 ps]] eqn:EO; [|clear IO|destruct IO].
    - destruct fills as [|e f]; [reflexivity|]. destruct (A e (or_introl eq_refl)) as (p & X & _). discriminate.
    - assert (RK : rp_kind p = Real).
      { assert (In p (filter open_posting (t_postings t))) as X by (rewrite EO; left; auto). apply filter_In in X. destruct X as [_ X]. unfold open_posting in X. destruct (rp_kind p); auto; discriminate. }
      assert (AF : forall e, In e fills -> fst e = (Real, account_meant w l (rp_account p))) by (intros e He; destruct (A e He) as (p' & X & Y); injection X as <-; exact Y).
      assert (SF : qsum (map (fun e : entry => money_amt (snd e) c) fills) = - values w l Real (t_postings t) c).
      { rewrite <- (fills_sum (fun k => - values w l Real (t_postings t) k) c (map (fun e : entry => Some (snd e)) fills)).
        - rewrite map_map. reflexivity.
        - clear I A. induction N as [|x f NI N IH]; cbn [map]; constructor; [|apply IH; intros; apply AF; right; auto]. intros X. apply NI. apply in_map_iff in X as (y & Ey & Hy).
          assert (y = x) as <-; auto. pose proof (AF x (or_introl eq_refl)) as F1. pose proof (AF y (or_intror Hy)) as F2. destruct x as [xa xm], y as [ya ym]. cbn [fst snd] in *. congruence.
        - intros x Hx. apply in_map_iff in Hx as (y & <- & _). discriminate.
        - intros m. assert (X : In (Some m) (map (fun e : entry => Some (snd e)) fills) <-> In m (map snd fills)).
          { rewrite !in_map_iff. split; intros (x & E & Hx); exists x; (split; [|exact Hx]); [injection E as E; exact E|f_equal; exact E]. }
          rewrite X, (I p eq_refl). change (kind_value w l Real t) with (values w l Real (t_postings t)). split.
          + intros (k & Z & ->). exists (- values w l Real (t_postings t) k), k. split; auto. split; auto. intros Y. apply Z. qlra.
          + intros (a & k & -> & -> & Z). exists k. split; auto. intros Y. apply Z. rewrite Y. ring. }
      cbn [map]. rewrite qsum_cons. change (qsum []) with 0. rewrite RK, <- SF. clear -AF. induction fills as [|x f IH]; [destruct (_ && _); reflexivity|].
      cbn [map]. rewrite !qsum_cons, IH by (intros; apply AF; right; auto). unfold entry_amt, entry_kind. rewrite (AF x) by (left; auto). cbn [fst snd]. destruct (asked_for o Real && P (account_meant w l (rp_account p))); ring.
  Qed.
End Entries.
(** What the lines of the register that are asked for add up to. *)
Lemma kept_amount w l o A (P : str -> bool) c us es : (forall t : txn rposting, In t us -> (forall p, In p (t_postings t) -> plain_posting p) /\ in_order w l t) -> Forall2 (txn_entries w l) us es ->
  qsum (map (fun e : entry => if P (snd (fst e)) then money_amt (snd e) c else 0) (flat_map (kept o A) (combine us es))) = qsum (map (txn_adds w o l (fun n => A n && P n) c) us).
Proof.
  intros H F. induction F as [|t e us es T F IH]; [reflexivity|]. cbn [combine flat_map map]. rewrite map_app, qsum_app, qsum_cons, IH by (intros; apply H; right; auto). f_equal.
  rewrite adds_postings. unfold kept. cbn [fst snd]. destruct (in_window o t); [|reflexivity]. destruct (H t (or_introl eq_refl)) as [PP IO]. rewrite <- (entries_adds w l o _ c t e PP IO T).
  clear. induction e as [|x e IH]; [reflexivity|]. cbn [filter map]. rewrite qsum_cons, <- IH. unfold entry_amt at 1. destruct (asked_for o (entry_kind x)); cbn [andb]; [|ring].
  destruct (A (snd (fst x))); cbn [andb map]; [rewrite qsum_cons; auto|ring].
Qed.
Lemma lines_of_register w o l A rows : plain_journal w l -> Forall (in_order w l) (pl_txns l) -> asked_register w o l A rows -> exists accs, Forall2 account_of_line rows accs /\
  (forall P c, lines_amount rows accs P c = asked_total w o l A P c) /\ forall c, final_total rows c = asked_total w o l A (fun _ => true) c.
Proof.
  intros PJ IO H. destruct (register_lines _ _ _ _ _ H) as (us & es & U1 & U2 & U3 & U4). set (E := flat_map (kept o A) (combine us es)) in *.
  assert (HY : forall t, In t us -> (forall p, In p (t_postings t) -> plain_posting p) /\ in_order w l t).
  { intros t Ht. apply (Permutation_in _ (Permutation_sym U1)) in Ht. split; [intros p Hp; apply (pj_postings w l PJ t p Ht Hp)|]. rewrite Forall_forall in IO. auto. }
  assert (BT : forall (P : str -> bool) c, qsum (map (fun e : entry => if P (snd (fst e)) then money_amt (snd e) c else 0) E) = asked_total w o l A P c).
  { intros P c. unfold E, asked_total. rewrite (kept_amount w l o A P c us es HY U2), book_by_txn. apply qsum_perm, Permutation_map, Permutation_sym. auto. }
  exists (map (fun e : entry => snd (fst e)) E). split; [|split].
  - clear - U3. clearbody E. revert E U3. induction rows as [|row rows IH]; intros [|e E] X; try discriminate; constructor.
    + cbn [map] in X. injection X as X1 X2 X3. unfold account_of_line. rewrite X1. unfold entry_shown. destruct (entry_kind e); auto.
    + apply IH. cbn [map] in X. injection X as _ _ X. exact X.
  - intros P c. rewrite <- BT. clear - U3. clearbody E. unfold lines_amount. revert E U3. induction rows as [|row rows IH]; intros [|e E] X; try discriminate; auto.
    cbn [map combine]. rewrite !qsum_cons. cbn [map] in X. injection X as X1 X2 X3. rewrite (IH E X3). cbn [fst snd]. rewrite X2. auto.
  - intros c. rewrite U4, <- BT. reflexivity.
Qed.
(** The register has the same sums for each account, and the same last running total. *)
Theorem C102_register : forall depth w o file file' l l' A, world_ok w -> file_parses depth w file l -> file_parses depth w file' l' ->
  plain_journal w l -> plain_journal w l' -> journal_otherwise w l l' -> exit_status (run_cmd depth w CCheck o file) = 0%Z -> asked_accounts w (o_query o) A ->
  exists rows rows' accs accs' lines lines', run_cmd depth w CRegister o file = Ok lines /\ register_printed w rows lines /\ Forall2 account_of_line rows accs /\
    run_cmd depth w CRegister o file' = Ok lines' /\ register_printed w rows' lines' /\ Forall2 account_of_line rows' accs' /\
    (forall P c, lines_amount rows' accs' P c = lines_amount rows accs P c) /\ forall c, final_total rows' c = final_total rows c.
Proof.
  intros depth w o f0 f l0 l A Hw F0 F P0 P H CH0 HA.
  apply (C73_check depth w o f0 l0 Hw F0 P0) in CH0. pose proof (proj2 (way_orders w l0 l H) CH0) as CH.
  destruct (C78_register depth w o f l A Hw F P CH HA) as (rows & g & R1 & R2 & R3).
  destruct (C78_register depth w o f0 l0 A Hw F0 P0 CH0 HA) as (rows0 & g0 & S1 & S2 & S3).
  destruct (lines_of_register w o l A rows P CH R3) as (accs & X1 & X2 & X3). destruct (lines_of_register w o l0 A rows0 P0 CH0 S3) as (accs0 & Y1 & Y2 & Y3).
  exists rows0, rows, accs0, accs, (concat g0), (concat g). split; auto. split; [exists g0; auto|]. split; auto. split; auto. split; [exists g; auto|]. split; auto. split.
  - intros Q c. rewrite X2, Y2. apply (way_book w l0 l H).
  - intros c. rewrite X3, Y3. apply (way_book w l0 l H).
Qed.
Print Assumptions C102_register.

(** ** A case *)
(** A shopping trip paid with some of a fund, what is left of it going to the purse; and the rent.  In the other file the
    rent comes first, and its postings are in the other order; what is sold of the fund is in two postings, and what goes
    to the purse is written out; the payee is another. *)
Definition head102 : list String.string := ["account Assets:Cash"; "  alias purse"]%string.
Definition one102 : list String.string := ["2021-01-05 Shop"; "  Expenses:Food  10.50 EUR"; "  Assets:Fund  -5 AAA @ 3 EUR"; "  purse"; "2021-01-06 Rent"; "  Expenses:Rent  50 EUR"; "  purse"]%string.
Definition two102 : list String.string := ["2021-01-06 Rent"; "  purse"; "  Expenses:Rent  50 EUR"; "2021-01-05 Shop in town"; "  Assets:Fund  -2 AAA @ 3 EUR"; "  Assets:Fund  -3 AAA @ 3 EUR"; "  Assets:Cash  4.50 EUR"; "  Expenses:Food  10.50 EUR"]%string.
Definition w102 : world := disk [(L "./one", text (head102 ++ one102)); (L "./two", text (head102 ++ two102))].
Definition l102 (f : String.string) : pledger := get pl_new (tokenize_file 2 w102 (L (String.append "./" f))).
Lemma w102_ok : world_ok w102.
Proof. split; [intros; apply Permutation_refl|exact ascii_lower_idem]. Qed.
Lemma parses102 f : match tokenize_file 2 w102 (L (String.append "./" f)) with Ok l => l102 f = l | _ => False end -> file_parses 2 w102 (L (String.append "./" f)) (l102 f).
Proof. intros H. apply file_parses_iff. destruct (tokenize_file 2 w102 (L (String.append "./" f))); subst; auto; destruct H. Qed.
Definition is_posting (w : world) (l : pledger) (a : str) (m c : option (Qc * str)) (p : rposting) : bool :=
  str_eqb (account_meant w l (rp_account p)) a && kind_eqb (rp_kind p) Real && amount_eqb (rp_money p) m && amount_eqb (rp_cost p) c &&
  match c, rp_cost_type p with None, _ | Some _, Some PPerUnit => true | _, _ => false end.
Lemma is_posting_ok w l a m c p : is_posting w l a m c p = true -> account_meant w l (rp_account p) = a /\ rp_kind p = Real /\ rp_money p = m /\ rp_cost p = c /\ (c <> None -> rp_cost_type p = Some PPerUnit).
Proof.
  unfold is_posting. intros H. do 4 (let H' := fresh "X" in apply andb_prop in H; destruct H as [H H']). apply str_eqb_eq in H. apply amount_eqb_ok in X1, X0.
  split; auto. split; [destruct (rp_kind p); try discriminate; auto|]. split; auto. split; auto. destruct c; [|congruence]. destruct (rp_cost_type p) as [[]|]; try discriminate; auto.
Qed.
Lemma shop_way w l ps ps' food fund purse eur aaa (x y z u v : Qc) : x + y = z -> u + z * (1 + 1 + 1) + v = 0 ->
  match ps with [a; b; d] => is_posting w l food (Some (u, eur)) None a && is_posting w l fund (Some (z, aaa)) (Some (1 + 1 + 1, eur)) b && is_posting w l purse None None d | _ => false end = true ->
  match ps' with [b1; b2; d; a] => is_posting w l fund (Some (x, aaa)) (Some (1 + 1 + 1, eur)) b1 && is_posting w l fund (Some (y, aaa)) (Some (1 + 1 + 1, eur)) b2 &&
    is_posting w l purse (Some (v, eur)) None d && is_posting w l food (Some (u, eur)) None a | _ => false end = true ->
  another_way w l ps ps'.
Proof.
  intros XY UV H H'. destruct ps as [|a [|b [|d [|]]]]; try discriminate. destruct ps' as [|b1 [|b2 [|d' [|a' [|]]]]]; try discriminate.
  apply andb_prop in H as [H D]. apply andb_prop in H as [A B]. apply andb_prop in H' as [H' A']. apply andb_prop in H' as [H' D']. apply andb_prop in H' as [B1 B2].
  apply is_posting_ok in A as (A1 & A2 & A3 & A4 & _), B as (B11 & B12 & B13 & B14 & B15), D as (D1 & D2 & D3 & D4 & _), D' as (E1 & E2 & E3 & E4 & _).
  apply is_posting_ok in B1 as (F1 & F2 & F3 & F4 & F5), B2 as (G1 & G2 & G3 & G4 & G5), A' as (H1 & H2 & H3 & H4 & _).
  apply aw_steps with [a; b1; b2; d].
  { apply (aw_divided w l [a] b b1 b2 [d] x y aaa); try (split; congruence); try congruence. right. split; [congruence|]. split; [apply B15; discriminate|]. split; [congruence|]. split; [apply F5; discriminate|]. split; [congruence|]. apply G5; discriminate. }
  apply aw_steps with [a; b1; b2; d'].
  { apply (aw_written_out w l [a; b1; b2] d d' [] v eur); try (split; congruence); try congruence.
    - intros q [<-|[<-|[<-|[]]]]; congruence.
    - intros c. unfold real_value. cbn [app map]. rewrite !qsum_cons. change (qsum []) with 0. rewrite A2, F2, G2. cbn [kind_eqb]. unfold written_value. rewrite A3, A4, F3, F4, F5, G3, G4, G5 by discriminate.
      rewrite F2, G2. cbn [kind_eqb andb]. unfold written_in. cbn [fst snd]. destruct (str_eqb (commodity_meant w l eur) c); [|ring]. transitivity (u + z * (1 + 1 + 1) + v); [rewrite <- XY; ring|exact UV]. }
  apply aw_steps with [a'; b1; b2; d'].
  { apply (aw_named w l [] a a' [b1; b2; d']); [split; congruence| |].
    - rewrite A3, H3. cbn. auto.
    - intros c. unfold written_value. rewrite A3, H3, A4, H4. auto. }
  apply aw_order. apply (Permutation_app_comm [a'] [b1; b2; d']).
Qed.
Definition shows102 (o : opts) (f : String.string) : res (list str) := run_cmd 2 w102 (CBalance true false) o (L (String.append "./" f)).
Example C102_case : world_ok w102 /\ file_parses 2 w102 (L "./one") (l102 "one") /\ file_parses 2 w102 (L "./two") (l102 "two") /\ plain_journal w102 (l102 "one") /\ plain_journal w102 (l102 "two") /\
  journal_otherwise w102 (l102 "one") (l102 "two") /\ exit_status (run_cmd 2 w102 CCheck plain_opts (L "./one")) = 0%Z /\ can_be_cut w102 plain_opts (l102 "one") /\
  shows102 plain_opts "one" = Ok (map L ["          -45.50 EUR  Assets:Cash"; "           -5.00 AAA  Assets:Fund"; "           10.50 EUR  Expenses:Food"; "           50.00 EUR  Expenses:Rent"; "--------------------"; "           15.00 EUR"; "           -5.00 AAA"]%string) /\
  shows102 plain_opts "two" = Ok (map L ["          -45.50 EUR  Assets:Cash"; "           -5.00 AAA  Assets:Fund"; "           10.50 EUR  Expenses:Food"; "           50.00 EUR  Expenses:Rent"; "--------------------"; "           -5.00 AAA"; "           15.00 EUR"]%string).
Proof.
  split; [exact w102_ok|]. split; [apply parses102; vm_compute; reflexivity|]. split; [apply parses102; vm_compute; reflexivity|].
  split; [apply plain_check_ok; vm_compute; reflexivity|]. split; [apply plain_check_ok; vm_compute; reflexivity|].
  split.
  { split; [vm_compute; reflexivity|]. split; [vm_compute; reflexivity|]. exists (rev (pl_txns (l102 "one"))). split; [apply Permutation_rev|].
    assert (E : exists t u t' u', pl_txns (l102 "one") = [t; u] /\ pl_txns (l102 "two") = [u'; t'] /\ t_date t' = t_date t /\ t_date u' = t_date u /\ t_postings u' = rev (t_postings u)).
    { do 4 eexists. split; [vm_compute; reflexivity|]. split; [vm_compute; reflexivity|]. split; [reflexivity|]. split; reflexivity. }
    destruct E as (t & u & t' & u' & E1 & E2 & D1 & D2 & E3). rewrite E1, E2. cbn [rev app]. constructor; [|constructor; [|constructor]].
    - split; auto. apply aw_order. rewrite E3. apply Permutation_rev.
    - split; auto.
      assert (Et : t = nth 0 (pl_txns (l102 "one")) t) by (rewrite E1; reflexivity). assert (Et' : t' = nth 1 (pl_txns (l102 "two")) t') by (rewrite E2; reflexivity).
      apply (shop_way _ _ _ _ (L "Expenses:Food") (L "Assets:Fund") (L "Assets:Cash") (L "EUR") (L "AAA") (Q2Qc (-2)) (Q2Qc (-3)) (Q2Qc (-5)) (Q2Qc (21 # 2)) (Q2Qc (9 # 2))).
      + apply Qc_is_canon. vm_compute. reflexivity.
      + apply Qc_is_canon. vm_compute. reflexivity.
      + rewrite Et. clear. vm_compute. reflexivity.
      + rewrite Et'. clear. vm_compute. reflexivity. }
  split; [vm_compute; reflexivity|]. split; [intros d E; discriminate E|]. split; [vm_compute; reflexivity|vm_compute; reflexivity].
Qed.
