(** C95: the same journal in other units. *)
From Coq Require Import Lia.
From Verif Require Import Base BaseFacts Numerals Money Alist Comment Txn Expr Filter Price Tokens Ledger Reports App Spec MoneyFacts SpecList SpecTxn TxnFacts SpecLedger
  TokenFacts JournalFacts LedgerFacts LedgerFacts2 LedgerFacts3 PropTxn PropLedger SpecQuery SpecExpr ExprFacts PropExpr PropQuery SpecReports ReportFacts ReportFacts2 ReportFacts3 PropReports PropApp
  SpecText SpecDates SpecTokens SpecJournal JournalRead PropJournal SpecLayout PropLayout SpecBook BookFacts PropBook PropBook2 SpecAsk PropAsk SpecAgree PropAgree SpecJoin PropTokens PropJoin SpecScale.
Open Scope Qc_scope.

Lemma qsum_times {A} (x : Qc) (f : A -> Qc) l : qsum (map (fun a => x * f a) l) = x * qsum (map f l).
Proof. induction l as [|a l IH]; cbn [map]; [change (qsum []) with 0; ring|]. rewrite !qsum_cons, IH. ring. Qed.
Lemma qsum_pairs {A B} (R : A -> B -> Prop) (x : Qc) (f : A -> Qc) (g : B -> Qc) l l' : Forall2 R l l' -> (forall a b, R a b -> g b = x * f a) ->
  qsum (map g l') = x * qsum (map f l).
Proof. intros F H. induction F as [|a b l l' Hab F IH]; cbn [map]; [change (qsum []) with 0; ring|]. rewrite !qsum_cons, IH, (H _ _ Hab). ring. Qed.
Lemma pos_not_zero (x : Qc) : 0 < x -> x <> 0.
Proof. intros H ->. apply (Qclt_not_eq _ _ H). auto. Qed.
Lemma times_zero (x y : Qc) : 0 < x -> (x * y = 0 <-> y = 0).
Proof. intros H. split; [|intros ->; ring]. intros E. destruct (Qcmult_integral _ _ E) as [Z|Z]; auto. destruct (pos_not_zero _ H). auto. Qed.
Lemma times_pos (x y : Qc) : 0 < x -> (0 < x * y <-> 0 < y).
Proof.
  intros H. split; intros G.
  - destruct (Qclt_le_dec 0 y) as [|Y]; auto. exfalso. assert (K : x * y <= 0). { replace 0 with (0 * x) by ring. replace (x * y) with (y * x) by ring. apply Qcmult_le_compat_r; auto. apply Qclt_le_weak. auto. }
    exact (Qcle_not_lt _ _ K G).
  - replace 0 with (0 * y) by ring. apply Qcmult_lt_compat_r; auto.
Qed.
Lemma times_neg (x y : Qc) : 0 < x -> (x * y < 0 <-> y < 0).
Proof.
  intros H. pose proof (times_pos x (- y) H) as K. split; intros G.
  - assert (P : 0 < - y). { apply K. replace (x * - y) with (- (x * y)) by ring. qlra. } qlra.
  - assert (P : 0 < x * - y). { apply K. qlra. } replace (x * - y) with (- (x * y)) in P by ring. qlra.
Qed.
Lemma times_sign (x y : Qc) : 0 < x -> qc_neg (x * y) = qc_neg y.
Proof.
  intros H. pose proof (times_neg x y H) as K. destruct (qc_neg_spec (x * y)), (qc_neg_spec y); tauto.
Qed.

Lemma some_inj {A} (x y : A) : Some x = Some y -> x = y.
Proof. congruence. Qed.

Section Units.
  Context (k : str -> Qc) (w : world) (l l' : pledger) (U : in_other_units k w l l').
  Lemma unit_meant : account_meant w l' = account_meant w l /\ commodity_meant w l' = commodity_meant w l.
  Proof using U. destruct U as [_ A C _ _]. unfold account_meant, commodity_meant. rewrite A, C. auto. Qed.
  Lemma unit_written m c : written_in w l' (in_units k w l m) c = k c * written_in w l m c.
  Proof using U.
    unfold written_in, in_units. cbn [fst snd]. rewrite (proj2 unit_meant). destruct (str_eqb_spec (commodity_meant w l (snd m)) c) as [<-|]; ring.
  Qed.
  Lemma unit_value p p' c : posting_in_units k w l p p' -> written_value w l' p' c = k c * written_value w l p c.
  Proof using U.
    pose proof (ou_positive _ _ _ _ U) as KP. intros [H1 H2 H3 H4 H5 H6 H7]. unfold written_value. rewrite H3, H4, H5, H2. unfold cost_in_units.
    destruct (rp_money p) as [[q n]|]; cbn [option_map]; [|ring]. unfold in_units at 1. cbn [fst snd].
    destruct (rp_cost p) as [x|]; [|apply (unit_written (q, n))].
    assert (NZ : k (commodity_meant w l n) <> 0) by (apply pos_not_zero; auto).
    assert (Un : forall b : bool, (if b && qc_neg (k (commodity_meant w l n) * q) then - (k (commodity_meant w l n) * q) else k (commodity_meant w l n) * q) *
        written_in w l' (fst (in_units k w l x) / k (commodity_meant w l n), snd x) c = k c * ((if b && qc_neg q then - q else q) * written_in w l x c)).
    { intros b. assert (E : written_in w l' (fst (in_units k w l x) / k (commodity_meant w l n), snd x) c = k c * written_in w l x c / k (commodity_meant w l n)).
      { pose proof (unit_written x c) as X. unfold written_in in *. cbn [fst snd in_units] in *. rewrite <- X. destruct (str_eqb _ c); [reflexivity|]. field. auto. }
      rewrite E, times_sign by auto. destruct (b && qc_neg q); field; auto. }
    destruct (rp_cost_type p) as [[]|]; cbn [snd].
    - rewrite times_sign, unit_written by auto. destruct (qc_neg q); ring.
    - apply Un.
    - apply Un.
  Qed.
  Lemma unit_kind kd t t' c : txn_in_units k w l t t' -> kind_value w l' kd t' c = k c * kind_value w l kd t c.
  Proof using U.
    intros (_ & _ & F). unfold kind_value. apply (qsum_pairs (posting_in_units k w l)); auto. intros p p' Hp. rewrite (pu_kind _ _ _ _ _ Hp). destruct (kind_eqb _ _); [apply unit_value; auto|ring].
  Qed.
  Lemma unit_fine f g : (forall c, g c = k c * f c) -> SpecTxn.fine g <-> SpecTxn.fine f.
  Proof using U.
    pose proof (ou_positive _ _ _ _ U) as KP. intros E. unfold SpecTxn.fine, balanced, exchange. split; intros [H|[(c & H1) (d & H2)]].
    - left. intros c. specialize (H c). rewrite E in H. apply times_zero in H; auto.
    - right. rewrite E in H1, H2. split; [exists c; apply times_pos in H1; auto|exists d; apply times_neg in H2; auto].
    - left. intros c. rewrite E, H. ring.
    - right. split; [exists c; rewrite E; apply times_pos; auto|exists d; rewrite E; apply times_neg; auto].
  Qed.
  Lemma unit_open ps ps' : Forall2 (posting_in_units k w l) ps ps' -> Forall2 (posting_in_units k w l) (filter open_posting ps) (filter open_posting ps').
  Proof using Type.
    induction 1 as [|p p' ps ps' H F IH]; cbn [filter]; auto. assert (E : open_posting p' = open_posting p).
    { unfold open_posting. rewrite (pu_kind _ _ _ _ _ H), (pu_money _ _ _ _ _ H). destruct (rp_money p); auto. }
    rewrite E. destruct (open_posting p); auto.
  Qed.
  Lemma unit_order t t' : txn_in_units k w l t t' -> in_order w l' t' <-> in_order w l t.
  Proof using U.
    intros T. unfold in_order. rewrite (unit_fine (kind_value w l VirtualMustBalance t) (kind_value w l' VirtualMustBalance t')) by (intros c; apply unit_kind; auto).
    assert (R : SpecTxn.fine (kind_value w l' Real t') <-> SpecTxn.fine (kind_value w l Real t)) by (apply unit_fine; intros c; apply unit_kind; auto).
    pose proof (unit_open _ _ (proj2 (proj2 T))) as O. inversion O as [|a b x y H1 H2 E1 E2]; [tauto|]. inversion H2; tauto.
  Qed.
  Lemma unit_orders : Forall (in_order w l') (pl_txns l') <-> Forall (in_order w l) (pl_txns l).
  Proof using U.
    pose proof (ou_txns _ _ _ _ U) as F. induction F as [|t t' ts ts' H F IH]; [split; constructor|].
    split; intros X; inv X; constructor; try (apply IH; auto; fail); apply (unit_order t t' H); auto.
  Qed.
  Lemma unit_adds t t' p p' c : txn_in_units k w l t t' -> posting_in_units k w l p p' -> adds w l' t' p' c = k c * adds w l t p c.
  Proof using U.
    intros T P. unfold adds. rewrite (pu_money _ _ _ _ _ P). destruct (rp_money p) as [m|]; cbn [option_map]; [apply unit_written|]. rewrite (unit_kind Real t t' c T). ring.
  Qed.
  Lemma unit_window o t t' : txn_in_units k w l t t' -> in_window o t' = in_window o t.
  Proof using Type. intros (D & _). unfold in_window. rewrite D. auto. Qed.
  Lemma unit_book o P c : book_total w o l' P c = k c * book_total w o l P c.
  Proof using U.
    rewrite !book_by_txn. apply (qsum_pairs (txn_in_units k w l)); [apply U|]. intros t t' T. unfold txn_adds. rewrite (unit_window o t t' T). destruct (in_window o t); [|ring].
    apply (qsum_pairs (posting_in_units k w l)); [apply T|]. intros p p' Hp. rewrite (pu_kind _ _ _ _ _ Hp), (pu_account _ _ _ _ _ Hp), (proj1 unit_meant).
    destruct (asked_for o (rp_kind p) && P (account_meant w l (rp_account p))); [apply unit_adds; auto|ring].
  Qed.
  Lemma in_pairs {A B} (R : A -> B -> Prop) xs ys y : Forall2 R xs ys -> In y ys -> exists x, In x xs /\ R x y.
  Proof using Type. induction 1 as [|a b xs ys H F IH]; cbn; [intros []|]. intros [<-|Hy]; [exists a; auto|]. destruct (IH Hy) as (x & Hx & Hr). exists x. auto. Qed.
  Lemma unit_posting t' p' : In t' (pl_txns l') -> In p' (t_postings t') -> exists t p, In t (pl_txns l) /\ In p (t_postings t) /\ txn_in_units k w l t t' /\ posting_in_units k w l p p'.
  Proof using U.
    intros Ht Hp. destruct (in_pairs _ _ _ _ (ou_txns _ _ _ _ U) Ht) as (t & Ht0 & T). destruct (in_pairs _ _ _ _ (proj2 (proj2 T)) Hp) as (p & Hp0 & P). exists t, p. auto.
  Qed.
  Lemma unit_accounts n : mentions_account l' n -> mentions_account l n.
  Proof using U. intros (t' & p' & Ht & Hp & <-). destruct (unit_posting t' p' Ht Hp) as (t & p & H1 & H2 & _ & P). exists t, p. rewrite (pu_account _ _ _ _ _ P). auto. Qed.
  Lemma unit_commodities n : mentions_commodity l' n -> mentions_commodity l n.
  Proof using U.
    intros [(p' & Hp & H)|(t' & p' & q & Ht & Hp & H)].
    - destruct (ou_prices _ _ _ _ U p' Hp) as (p & Hp0 & E1 & E2). left. exists p. rewrite <- E1, <- E2. auto.
    - destruct (unit_posting t' p' Ht Hp) as (t & p & H1 & H2 & _ & P). right. destruct P as [_ _ M _ C B _]. rewrite M, C, B in H. unfold cost_in_units in H.
      destruct H as [H|[H|H]].
      + destruct (rp_money p) as [[q0 n0]|] eqn:E; [|discriminate]. cbn in H. injection H as _ <-. exists t, p, q0. auto.
      + destruct (rp_cost p) as [[q0 n0]|] eqn:E; [|discriminate]. exists t, p, q0. split; auto. split; auto. right. left.
        destruct (rp_cost_type p) as [[]|]; cbn in H; try (injection H as _ <-; auto; fail); destruct (rp_money p); cbn in H; injection H as _ <-; auto.
      + destruct (rp_balance p) as [[q0 n0]|] eqn:E; [|discriminate]. cbn in H. injection H as _ <-. exists t, p, q0. auto.
  Qed.
  Lemma unit_plain : plain_journal w l -> plain_journal w l'.
  Proof using U.
    intros [P1 P2 P3 P4 P5]. destruct unit_meant as [A C]. constructor.
    - intros t' Ht. destruct (in_pairs _ _ _ _ (ou_txns _ _ _ _ U) Ht) as (t & Ht0 & (_ & -> & _)). auto.
    - intros t' p' Ht Hp. destruct (unit_posting t' p' Ht Hp) as (t & p & H1 & H2 & _ & P). destruct (P2 t p H1 H2) as (Q1 & Q2 & Q3 & Q4). destruct P as [_ K M T CO B X].
      split; [rewrite B, Q1; auto|]. split; [congruence|]. split; [rewrite K, M; intros Y; specialize (Q3 Y); destruct (rp_money p); [discriminate|congruence]|].
      intros (c & x & Y1 & Y2 & Y3). apply Q4. rewrite M in Y1. rewrite CO in Y2. rewrite T in Y3. destruct (rp_money p) as [[q n]|] eqn:E; [|discriminate]. unfold in_units in Y1. cbn [option_map fst snd] in Y1. apply some_inj in Y1.
      pose proof (f_equal fst Y1) as Z1. pose proof (f_equal snd Y1) as Z2. cbn [fst snd] in Z1, Z2. apply times_zero in Z1; [|apply U]. subst q. subst c. unfold cost_in_units in Y2. destruct (rp_cost p) as [y|] eqn:E2; [|discriminate]. exists n, y. auto.
    - intros n m Hn Hm. rewrite A. apply P3; apply unit_accounts; auto.
    - intros n m Hn Hm. rewrite C. apply P4; apply unit_commodities; auto.
    - rewrite (ou_accounts _ _ _ _ U). auto.
  Qed.
End Units.

(** [check] accepts the journal in the new units exactly if it accepts it in the old ones. *)
Theorem C95_check : forall depth w o k file file' l l', world_ok w -> file_parses depth w file l -> file_parses depth w file' l' ->
  plain_journal w l -> in_other_units k w l l' ->
  (exit_status (run_cmd depth w CCheck o file') = 0%Z <-> exit_status (run_cmd depth w CCheck o file) = 0%Z).
Proof.
  intros depth w o k f f' l l' Hw F F' P U. rewrite (C73_check depth w o f' l' Hw F' (unit_plain k w l l' U P)), (C73_check depth w o f l Hw F P). apply (unit_orders k). auto.
Qed.
Print Assumptions C95_check.
(** Balance: the same rows, each amount in the new units. *)
Theorem C95_balance : forall depth w o k file file' l l' no_total A, world_ok w -> file_parses depth w file l -> file_parses depth w file' l' ->
  plain_journal w l -> in_other_units k w l l' -> exit_status (run_cmd depth w CCheck o file) = 0%Z ->
  asked_accounts w (o_query o) A -> o_exchange o = None -> can_be_cut w o l ->
  exists r r' lines lines', run_cmd depth w (CBalance true no_total) o file = Ok lines /\ balance_printed r lines /\
    run_cmd depth w (CBalance true no_total) o file' = Ok lines' /\ balance_printed r' lines' /\ report_in_units k r r'.
Proof.
  intros depth w o k f f' l l' nt A Hw F F' P U CH HA OX HC. pose proof (unit_plain k w l l' U P) as P'. pose proof (ou_positive _ _ _ _ U) as KP.
  apply (C73_check depth w o f l Hw F P) in CH. pose proof (proj2 (unit_orders k w l l' U) CH) as CH'.
  assert (HC' : can_be_cut w o l').
  { intros d E. destruct (HC d E) as [D1 D2]. split; auto. intros n Hn. rewrite (proj1 (unit_meant k w l l' U)). apply D2. apply (unit_accounts k w l l' U). auto. }
  destruct (flat_report depth w o f l nt A Hw F P CH HA OX HC) as (r & lines & R1 & R2 & R3 & R4 & _).
  destruct (flat_report depth w o f' l' nt A Hw F' P' CH' HA OX HC') as (r' & lines' & S1 & S2 & S3 & S4 & _).
  exists r, r', lines, lines'. do 4 (split; auto).
  assert (T : forall Q c, asked_total w o l' A Q c = k c * asked_total w o l A Q c) by (intros Q c; apply (unit_book k w l l' U)).
  assert (LS : map br_label (bp_rows r') = map br_label (bp_rows r)).
  { apply ascending_same; [apply S3|apply R3|]. intros a. rewrite (flat_labels w o l' A r' a S3), (flat_labels w o l A r a R3).
    split; intros (c & Hc); exists c; intros E; apply Hc; [rewrite T, E; ring|rewrite T in E; apply times_zero in E; auto]. }
  split; [|split].
  - assert (X : forall row, In row (bp_rows r') -> forall c, moneys_amt (br_moneys row) c = k c * asked_total w o l A (fun n => str_eqb (cut_by o n) (br_label row)) c).
    { intros row Hi c. destruct S3 as [_ S3]. destruct (S3 (cut_by o) (cut_by_cuts o)) as [X1 _]. destruct (X1 row Hi) as (_ & _ & ->). apply T. }
    assert (Y : forall row, In row (bp_rows r) -> forall c, moneys_amt (br_moneys row) c = asked_total w o l A (fun n => str_eqb (cut_by o n) (br_label row)) c).
    { intros row Hi c. destruct R3 as [_ R3]. destruct (R3 (cut_by o) (cut_by_cuts o)) as [X1 _]. destruct (X1 row Hi) as (_ & _ & ->). auto. }
    revert LS X Y. generalize (bp_rows r'), (bp_rows r). clear. intros rows'. induction rows' as [|row' rows' IH]; intros [|row rows] LS X Y; try discriminate; constructor.
    + injection LS as E _. split; auto. intros c. rewrite (X row' (or_introl eq_refl)), (Y row (or_introl eq_refl)), E. auto.
    + apply IH; [injection LS as _ E; exact E| |]; intros; [apply X|apply Y]; right; auto.
  - destruct R4 as [R4 _], S4 as [S4 _]. pose proof (f_equal (@length _) LS) as LE. rewrite !map_length in LE. rewrite LE in S4.
    destruct (bp_total r'), (bp_total r); split; intros H; try congruence; exfalso.
    + assert (Y : (None : option (list money)) <> None) by (apply R4, S4; congruence). congruence.
    + assert (Y : (None : option (list money)) <> None) by (apply S4, R4; congruence). congruence.
  - intros ms ms' c E E'. destruct R4 as [_ R4], S4 as [_ S4]. destruct (R4 ms E) as [_ ->]. destruct (S4 ms' E') as [_ ->]. apply T.
Qed.
Print Assumptions C95_balance.

(** The tree report in the new units, in terms of the flat report in the old ones. *)
Theorem C95_tree : forall depth w o k file file' l l' no_total A, world_ok w -> file_parses depth w file l -> file_parses depth w file' l' ->
  plain_journal w l -> in_other_units k w l l' -> exit_status (run_cmd depth w CCheck o file) = 0%Z ->
  asked_accounts w (o_query o) A -> o_exchange o = None -> o_depth o = None ->
  exists r r' lines lines', run_cmd depth w (CBalance true no_total) o file = Ok lines /\ balance_printed r lines /\
    run_cmd depth w (CBalance false no_total) o file' = Ok lines' /\ balance_printed r' lines' /\
    (exists accs, ascending accs /\
       Forall2 (fun a row => br_indent row = levels a /\ (exists part more, own_part a part /\ br_label row = part ++ more) /\
         shown_amounts (br_moneys row) /\ br_moneys row <> [] /\
         (~ begins_with_colon a -> forall c, moneys_amt (br_moneys row) c = k c * shown_for r (inside a) c)) accs (bp_rows r')) /\
    forall ms c, bp_total r' = Some ms -> moneys_amt ms c = k c * shown_for r (fun _ => true) c.
Proof.
  intros depth w o k f f' l l' nt A Hw F F' P U CH HA OX ND. pose proof (unit_plain k w l l' U P) as P'.
  apply (C73_check depth w o f l Hw F P) in CH. pose proof (proj2 (unit_orders k w l l' U) CH) as CH'.
  assert (HC : can_be_cut w o l) by (intros d E; congruence).
  destruct (flat_report depth w o f l nt A Hw F P CH HA OX HC) as (r & lines & R1 & R2 & R3 & R4 & R5).
  destruct (C78_balance depth w o f' l' false nt A Hw F' P' CH' HA OX) as (r' & lines' & S1 & S2 & S3 & S4); [discriminate|].
  exists r, r', lines, lines'. do 4 (split; auto).
  assert (CU : forall n, cut_by o n = n) by (intros n; unfold cut_by; rewrite ND; auto).
  assert (T : forall Q c, asked_total w o l' A Q c = k c * shown_for r Q c).
  { intros Q c. rewrite R5. rewrite (asked_same w o l A _ Q c) by (intros; rewrite CU; auto). apply (unit_book k w l l' U). }
  split.
  - destruct S3 as (accs & AS & FR). exists accs. split; auto. eapply forall2_weaken; [|exact FR]. intros a row (H1 & H2 & _ & H4 & H5 & H6). do 4 (split; auto).
    intros N c. rewrite (H6 N). apply T.
  - intros ms c E. destruct S4 as [_ S4]. destruct (S4 ms E) as [_ ->]. apply T.
Qed.
Print Assumptions C95_tree.

(** ** The register *)
Section Entries.
  Context (k : str -> Qc) (KP : forall c, 0 < k c).
  Definition entry_in_units (e : entry) : entry := (fst e, money_in_units k (snd e)).
  Lemma money_units_inj m m' : money_in_units k m = money_in_units k m' -> m = m'.
  Proof using KP.
    destruct m as [|q c], m' as [|q' c']; unfold money_in_units; try discriminate; auto. intros H.
    assert (E2 : c = c') by congruence. subst c'. assert (E : k c * q = k c * q') by congruence. f_equal.
    assert (Z : k c * (q - q') = 0) by (replace (k c * (q - q')) with (k c * q - k c * q') by ring; rewrite E; ring). apply times_zero in Z; auto. qlra.
  Qed.
  Lemma entry_units_inj e e' : entry_in_units e = entry_in_units e' -> e = e'.
  Proof using KP. destruct e as [x m], e' as [x' m']. unfold entry_in_units. cbn [fst snd]. intros H. f_equal; [congruence|]. apply money_units_inj. congruence. Qed.
  Lemma money_units_amt m c : money_amt (money_in_units k m) c = k c * money_amt m c.
  Proof using Type. destruct m as [|q d]; unfold money_in_units, money_amt; cbn; [ring|]. destruct (str_eqb_spec d c) as [<-|]; ring. Qed.
  Lemma nodup_units es : NoDup es -> NoDup (map entry_in_units es).
  Proof using KP.
    induction 1 as [|e es N _ IH]; constructor; auto. intros H. apply in_map_iff in H as (x & E & Hx). apply entry_units_inj in E. congruence.
  Qed.
  Lemma kept_units o A t t' es : in_window o t' = in_window o t -> kept o A (t', map entry_in_units es) = map entry_in_units (kept o A (t, es)).
  Proof using Type.
    intros E. unfold kept. cbn [fst snd]. rewrite E. destruct (in_window o t); auto. induction es as [|e es IH]; auto. cbn [map filter]. change (asked_for o (entry_kind (entry_in_units e)) && A (snd (fst (entry_in_units e)))) with (asked_for o (entry_kind e) && A (snd (fst e))).
    destruct (asked_for o (entry_kind e) && A (snd (fst e))); cbn [map]; rewrite IH; auto.
  Qed.
End Entries.
Lemma unit_entries k w l l' t t' es : in_other_units k w l l' -> txn_in_units k w l t t' -> txn_entries w l t es -> txn_entries w l' t' (map (entry_in_units k) es).
Proof.
  intros U T [fills FA FN FM]. pose proof (ou_positive _ _ _ _ U) as KP. destruct (unit_meant k w l l' U) as [MA MC]. rewrite !map_app.
  assert (W : forall (f : rposting -> bool), (forall p p', posting_in_units k w l p p' -> f p' = f p) ->
    map (entry_in_units k) (flat_map (written_entry w l) (filter f (t_postings t))) = flat_map (written_entry w l') (filter f (t_postings t'))).
  { intros f Hf. destruct T as (_ & _ & F). clear FA FM FN. induction F as [|p p' ps ps' H F IH]; auto. cbn [filter]. rewrite (Hf p p' H). destruct (f p); auto. cbn [flat_map]. rewrite map_app, IH. f_equal.
    unfold written_entry. rewrite (pu_money _ _ _ _ _ H), (pu_kind _ _ _ _ _ H), (pu_account _ _ _ _ _ H), MA, MC. destruct (rp_money p) as [[q n]|]; reflexivity. }
  assert (RK : forall p p', posting_in_units k w l p p' -> real_posting p' = real_posting p) by (intros p p' H; unfold real_posting; rewrite (pu_kind _ _ _ _ _ H); auto).
  assert (W2 := W (fun p => negb (real_posting p)) (fun p p' H => f_equal negb (RK p p' H))).
  enough (G : txn_entries w l' t' (flat_map (written_entry w l') (filter real_posting (t_postings t')) ++ map (entry_in_units k) fills ++
    flat_map (written_entry w l') (filter (fun p => negb (real_posting p)) (t_postings t')))) by (rewrite <- (W real_posting RK), <- W2 in G; exact G).
  clear W W2.
  pose proof (unit_open k w l _ _ (proj2 (proj2 T))) as O.
  assert (OP : forall p', filter open_posting (t_postings t') = [p'] -> exists p, filter open_posting (t_postings t) = [p] /\ posting_in_units k w l p p').
  { intros p' E. rewrite E in O. inversion O as [|p x ps xs H1 H2 E1 E2]; subst. inversion H2; subst. exists p. auto. }
  constructor.
  - intros e He. apply in_map_iff in He as (x & <- & Hx). destruct (FA x Hx) as (p & Ep & Ef). rewrite Ep in O. inversion O as [|a p' ps xs H1 H2 E1 E2]; subst. inversion H2; subst.
    exists p'. split; auto. unfold entry_in_units. cbn [fst]. rewrite Ef, MA, (pu_account _ _ _ _ _ H1). auto.
  - apply nodup_units; auto.
  - intros p' E m. destruct (OP p' E) as (p & Ep & _). specialize (FM p Ep). rewrite map_map. unfold entry_in_units. cbn [snd].
    assert (Y : In m (map (fun x : entry => money_in_units k (snd x)) fills) <-> exists m0, In m0 (map snd fills) /\ m = money_in_units k m0).
    { rewrite in_map_iff. split.
      - intros (x & <- & Hx). exists (snd x). split; auto. apply in_map. auto.
      - intros (m0 & Hm & ->). apply in_map_iff in Hm as (x & <- & Hx). exists x. auto. }
    rewrite Y. split.
    + intros (m0 & Hm & ->). apply FM in Hm as (c & Hc & ->). exists c. rewrite (unit_kind k w l l' U Real t t' c T). split.
      * intros Z. apply times_zero in Z; auto.
      * unfold money_in_units. f_equal. ring.
    + intros (c & Hc & ->). rewrite (unit_kind k w l l' U Real t t' c T) in *. exists (M (- kind_value w l Real t c) c). split.
      * apply FM. exists c. split; auto. intros Z. apply Hc. rewrite Z. ring.
      * unfold money_in_units. f_equal. ring.
Qed.
(** The register has the same lines with the amounts in the new units, and so has its last total. *)
Theorem C95_register : forall depth w o k file file' l l' A, world_ok w -> file_parses depth w file l -> file_parses depth w file' l' ->
  plain_journal w l -> in_other_units k w l l' -> exit_status (run_cmd depth w CCheck o file) = 0%Z -> asked_accounts w (o_query o) A ->
  exists rows rows' lines lines', run_cmd depth w CRegister o file = Ok lines /\ register_printed w rows lines /\
    run_cmd depth w CRegister o file' = Ok lines' /\ register_printed w rows' lines' /\
    Permutation (map line_amount rows') (map (line_in_units k) (map line_amount rows)) /\ forall c, final_total rows' c = k c * final_total rows c.
Proof.
  intros depth w o k f f' l l' A Hw F F' P U CH HA. pose proof (unit_plain k w l l' U P) as P'. pose proof (ou_positive _ _ _ _ U) as KP.
  apply (C73_check depth w o f l Hw F P) in CH. pose proof (proj2 (unit_orders k w l l' U) CH) as CH'.
  destruct (C78_register depth w o f l A Hw F P CH HA) as (rows & g & R1 & R2 & R3).
  destruct (C78_register depth w o f' l' A Hw F' P' CH' HA) as (rows' & g' & S1 & S2 & S3).
  exists rows, rows', (concat g), (concat g'). split; auto. split; [exists g; auto|]. split; auto. split; [exists g'; auto|].
  destruct (register_lines _ _ _ _ _ R3) as (us & es & U1 & U2 & U3 & U4). destruct (register_lines _ _ _ _ _ S3) as (vs & fs & V1 & V2 & V3 & V4).
  destruct (Permutation_Forall2 U1 (ou_txns _ _ _ _ U)) as (us' & W1 & W2).
  assert (X : Forall2 (txn_entries w l') us' (map (map (entry_in_units k)) es) /\
    flat_map (kept o A) (combine us' (map (map (entry_in_units k)) es)) = map (entry_in_units k) (flat_map (kept o A) (combine us es))).
  { clear - U W2 U2. revert us' W2. induction U2 as [|t e us es H F IH]; intros us' W; inversion W as [|a t' b us2 T W' E1 E2]; subst; [split; constructor|].
    destruct (IH us2 W') as [I1 I2]. split.
    - constructor; auto. eapply unit_entries; eauto.
    - cbn [map combine flat_map]. rewrite I2, map_app. f_equal. apply kept_units. unfold in_window. rewrite (proj1 T). auto. }
  destruct X as [X1 X2].
  assert (PU : Permutation vs us') by (eapply Permutation_trans; [symmetry; exact V1|exact W1]).
  pose proof (lines_permuted w l' o A _ _ _ _ PU V2 X1) as PL. rewrite X2 in PL. split.
  - rewrite U3, V3. eapply Permutation_trans; [apply Permutation_map, PL|]. rewrite !map_map. apply Permutation_refl'. apply map_ext. intros e. reflexivity.
  - intros c. rewrite U4, V4. rewrite (qsum_perm _ _ (Permutation_map _ PL)), map_map. rewrite <- qsum_times. f_equal. apply map_ext. intros e. unfold entry_in_units. cbn [snd]. apply money_units_amt.
Qed.
Print Assumptions C95_register.

(** ** A case *)
Definition amount_eqb (a b : option (Qc * str)) : bool :=
  match a, b with Some x, Some y => qc_eqb (fst x) (fst y) && str_eqb (snd x) (snd y) | None, None => true | _, _ => false end.
Lemma amount_eqb_ok a b : amount_eqb a b = true -> a = b.
Proof.
  destruct a as [[q n]|], b as [[r m]|]; cbn [amount_eqb fst snd]; intros H; try discriminate; auto. apply andb_prop in H. destruct H as [H1 H2].
  destruct (qc_eqb_spec q r); [|discriminate]. apply str_eqb_eq in H2. congruence.
Qed.
Definition posting_check (k : str -> Qc) (w : world) (l : pledger) (p p' : rposting) : bool :=
  str_eqb (rp_account p') (rp_account p) && kind_eqb (rp_kind p') (rp_kind p) && amount_eqb (rp_money p') (option_map (in_units k w l) (rp_money p)) &&
  match rp_cost_type p', rp_cost_type p with None, None | Some PTotal, Some PTotal | Some PPerUnit, Some PPerUnit => true | _, _ => false end &&
  amount_eqb (rp_cost p') (cost_in_units k w l p) && amount_eqb (rp_balance p') (option_map (in_units k w l) (rp_balance p)) &&
  match rp_expr p', rp_expr p with None, None => true | _, _ => false end.
Lemma posting_check_ok k w l p p' : posting_check k w l p p' = true -> posting_in_units k w l p p'.
Proof.
  unfold posting_check. intros H. do 6 (let H' := fresh "X" in apply andb_prop in H; destruct H as [H H']).
  constructor; try (apply amount_eqb_ok; assumption).
  - apply str_eqb_eq. auto.
  - destruct (rp_kind p'), (rp_kind p); try discriminate; auto.
  - destruct (rp_cost_type p') as [[]|], (rp_cost_type p) as [[]|]; try discriminate; auto.
  - destruct (rp_expr p'), (rp_expr p); try discriminate; auto.
Qed.
Fixpoint pairs_check {A B} (f : A -> B -> bool) (xs : list A) (ys : list B) : bool :=
  match xs, ys with [], [] => true | x :: xs, y :: ys => f x y && pairs_check f xs ys | _, _ => false end.
Lemma pairs_check_ok {A B} (f : A -> B -> bool) (R : A -> B -> Prop) : (forall x y, f x y = true -> R x y) -> forall xs ys, pairs_check f xs ys = true -> Forall2 R xs ys.
Proof. intros H xs. induction xs as [|x xs IH]; intros [|y ys] E; try discriminate; constructor; cbn in E; apply andb_prop in E; destruct E; auto. Qed.
Definition date_eqb (a b : option Z) : bool := match a, b with Some x, Some y => Z.eqb x y | None, None => true | _, _ => false end.
Definition txn_check (k : str -> Qc) (w : world) (l : pledger) (t t' : txn rposting) : bool :=
  date_eqb (t_date t') (t_date t) && match t_type t', t_type t with TReal, TReal => true | _, _ => false end && pairs_check (posting_check k w l) (t_postings t) (t_postings t').
Lemma txn_check_ok k w l t t' : txn_check k w l t t' = true -> txn_in_units k w l t t'.
Proof.
  unfold txn_check. intros H. apply andb_prop in H. destruct H as [H H3]. apply andb_prop in H. destruct H as [H1 H2]. split; [|split].
  - destruct (t_date t'), (t_date t); try discriminate; auto. apply Z.eqb_eq in H1. congruence.
  - destruct (t_type t'), (t_type t); try discriminate; auto.
  - eapply pairs_check_ok; [|exact H3]. apply posting_check_ok.
Qed.
(** Euros become cents, and each share is split into four. *)
Definition cents (c : str) : Qc := if str_eqb c (L "EUR") then qz 100 else if str_eqb c (L "ACME") then qz 4 else 1.
Lemma cents_positive c : 0 < cents c.
Proof. unfold cents. destruct (str_eqb c (L "EUR")); [reflexivity|]. destruct (str_eqb c (L "ACME")); reflexivity. Qed.
Definition euros95 : list String.string := ["2020-01-01 Job"; "  Assets:Bank  100 EUR"; "  (Budget)  7 EUR"; "  Income  -100 E"; "2020-03-02 Shares"; "  Assets:Shares  2 ACME @ 10.50 E"; "  purse";
  "2020-03-04 Shares"; "  Assets:Shares  -1 ACME @@ 12 EUR"; "  [Goal:Car]  3 EUR"; "  [Goal:House]  -3 EUR"; "  Assets:Bank  11.75 EUR"; "  Fees  0.25 EUR"]%string.
Definition cents95 : list String.string := ["2020-01-01 Job"; "  Assets:Bank  10000 EUR"; "  (Budget)  700 EUR"; "  Income  -10000 E"; "2020-03-02 Shares"; "  Assets:Shares  8 ACME @ 262.50 E"; "  purse";
  "2020-03-04 Shares"; "  Assets:Shares  -4 ACME @@ 1200 EUR"; "  [Goal:Car]  300 EUR"; "  [Goal:House]  -300 EUR"; "  Assets:Bank  1175 EUR"; "  Fees  25 EUR"]%string.
Definition w95 : world := disk [(L "./head", text head88); (L "./euros", text (inc88 "head" :: euros95)); (L "./cents", text (inc88 "head" :: cents95))].
Definition l95 (f : String.string) : pledger := get pl_new (tokenize_file 3 w95 (L (String.append "./" f))).
Lemma w95_ok : world_ok w95.
Proof. split; [intros; apply Permutation_refl|exact ascii_lower_idem]. Qed.
Lemma parses95 f : match tokenize_file 3 w95 (L (String.append "./" f)) with Ok l => l95 f = l | _ => False end -> file_parses 3 w95 (L (String.append "./" f)) (l95 f).
Proof. intros H. apply file_parses_iff. destruct (tokenize_file 3 w95 (L (String.append "./" f))); subst; auto; destruct H. Qed.
Definition shows95 (f : String.string) : res (list str) := run_cmd 3 w95 (CBalance true false) plain_opts (L (String.append "./" f)).
Example C95_case : world_ok w95 /\ file_parses 3 w95 (L "./euros") (l95 "euros") /\ file_parses 3 w95 (L "./cents") (l95 "cents") /\ plain_journal w95 (l95 "euros") /\
  in_other_units cents w95 (l95 "euros") (l95 "cents") /\ length (pl_txns (l95 "cents")) = 3%nat /\ exit_status (run_cmd 3 w95 CCheck plain_opts (L "./euros")) = 0%Z /\
  asked_accounts w95 (o_query plain_opts) (fun _ => true) /\ o_exchange plain_opts = None /\ can_be_cut w95 plain_opts (l95 "euros") /\
  shows95 "euros" = Ok (map L ["          111.75 EUR  Assets:Bank"; "          -21.00 EUR  Assets:Cash"; "           1.00 ACME  Assets:Shares"; "            7.00 EUR  Budget"; "            0.25 EUR  Fees"; "            3.00 EUR  Goal:Car"; "           -3.00 EUR  Goal:House"; "         -100.00 EUR  Income"; "--------------------"; "           -2.00 EUR"; "           1.00 ACME"]%string) /\
  shows95 "cents" = Ok (map L ["        11175.00 EUR  Assets:Bank"; "        -2100.00 EUR  Assets:Cash"; "           4.00 ACME  Assets:Shares"; "          700.00 EUR  Budget"; "           25.00 EUR  Fees"; "          300.00 EUR  Goal:Car"; "         -300.00 EUR  Goal:House"; "       -10000.00 EUR  Income"; "--------------------"; "         -200.00 EUR"; "           4.00 ACME"]%string).
Proof.
  split; [exact w95_ok|]. split; [apply parses95; vm_compute; reflexivity|]. split; [apply parses95; vm_compute; reflexivity|].
  split; [apply plain_check_ok; vm_compute; reflexivity|]. split.
  - constructor; [exact cents_positive|vm_compute; reflexivity|vm_compute; reflexivity| |].
    + intros p' Hp. exfalso. assert (E : pl_prices (l95 "cents") = []) by (vm_compute; reflexivity). rewrite E in Hp. exact Hp.
    + eapply pairs_check_ok; [apply txn_check_ok|]. vm_compute. reflexivity.
  - split; [vm_compute; reflexivity|]. split; [vm_compute; reflexivity|]. split; [constructor|]. split; [reflexivity|].
    split; [intros d E; discriminate E|]. split; vm_compute; reflexivity.
Qed.
