(** C101: a booking and its reversal cancel. *)
From Coq Require Import Lia.
From Verif Require Import Base BaseFacts Numerals Money Alist Comment Txn Expr Filter Price Tokens Ledger Reports App Spec MoneyFacts SpecList SpecTxn TxnFacts SpecLedger
  TokenFacts JournalFacts LedgerFacts LedgerFacts2 LedgerFacts3 PropTxn PropLedger SpecQuery SpecExpr ExprFacts PropExpr PropQuery SpecReports ReportFacts ReportFacts2 ReportFacts3 PropReports PropApp
  SpecText SpecDates SpecTokens SpecJournal JournalRead PropJournal SpecLayout PropLayout SpecBook BookFacts PropBook PropBook2 SpecAsk PropAsk SpecAgree PropAgree SpecJoin PropTokens PropJoin SpecScale PropScale SpecReverse.
Open Scope Qc_scope.

Lemma qc_neg_opp (q : Qc) : q <> 0 -> qc_neg (- q) = negb (qc_neg q).
Proof.
  intros N. destruct (qc_neg_spec (- q)), (qc_neg_spec q); auto; exfalso; [qlra|apply N; qlra].
Qed.
Section Reversal.
  Context (w : world) (l : pledger).
  Lemma reversed_written m c : written_in w l (- fst m, snd m) c = - written_in w l m c.
  Proof using Type. unfold written_in. cbn [fst snd]. destruct (str_eqb _ c); ring. Qed.
  Lemma reversed_value p p' c : posting_reversed p p' -> ~ zero_total_cost p ->
    (rp_kind p = VirtualMustBalance -> rp_cost p <> None -> rp_cost_type p = Some PTotal) -> written_value w l p' c = - written_value w l p c.
  Proof using Type.
    intros [H1 H2 H3 H4 H5] NZ NB. unfold written_value. rewrite H2, H3, H4, H5. destruct (rp_money p) as [[q n]|] eqn:EM; cbn [option_map]; [|ring].
    cbn [fst snd]. destruct (rp_cost p) as [x|] eqn:EC; [|apply (reversed_written (q, n))].
    assert (NK : rp_cost_type p <> Some PTotal -> kind_eqb (rp_kind p) VirtualMustBalance = false).
    { intros N. destruct (rp_kind p) eqn:EK; auto. exfalso. apply N. apply NB; [auto|discriminate]. }
    destruct (rp_cost_type p) as [[]|] eqn:ET.
    - assert (Q : q <> 0) by (intros ->; apply NZ; exists n, x; auto). rewrite (qc_neg_opp q Q). destruct (qc_neg q); cbn [negb]; ring.
    - rewrite NK by discriminate. cbn [andb]. ring.
    - rewrite NK by discriminate. cbn [andb]. ring.
  Qed.
  Lemma reversed_real p p' c : posting_reversed p p' -> ~ zero_total_cost p -> rp_kind p = Real -> written_value w l p' c = - written_value w l p c.
  Proof using Type. intros R Z K. apply reversed_value; auto. congruence. Qed.
  Lemma pairs_sum (f g : rposting -> Qc) ps ps' : Forall2 posting_reversed ps ps' -> (forall p p', In p ps -> posting_reversed p p' -> g p' = - f p) ->
    qsum (map g ps') = - qsum (map f ps).
  Proof using Type.
    induction 1 as [|p p' ps ps' H F IH]; intros E; [change (0 = - 0); ring|]. cbn [map]. rewrite !qsum_cons, (E p p') by (cbn; auto). rewrite IH; [ring|]. intros; apply E; cbn; auto.
  Qed.
  Lemma reversed_kind k t t' c : reversal t t' -> (forall p, In p (t_postings t) -> ~ zero_total_cost p) -> k = Real \/ no_bracketed_price t ->
    kind_value w l k t' c = - kind_value w l k t c.
  Proof using Type.
    intros R Z NB. unfold kind_value. apply pairs_sum; auto. intros p p' Hi Hp. rewrite (rv_kind _ _ Hp). destruct (kind_eqb (rp_kind p) k) eqn:E; [|ring].
    destruct NB as [-> |NB]; [|apply reversed_value; auto]. apply reversed_real; auto. destruct (rp_kind p); cbn in E; congruence.
  Qed.
  Lemma fine_opp f g : (forall c, g c = - f c) -> SpecTxn.fine g <-> SpecTxn.fine f.
  Proof using Type.
    intros E. unfold SpecTxn.fine, balanced, exchange. split; intros [H|[(c & H1) (d & H2)]].
    - left. intros c. specialize (H c). rewrite E in H. qlra.
    - right. rewrite E in H1, H2. split; [exists d|exists c]; qlra.
    - left. intros c. rewrite E, H. ring.
    - right. split; [exists d|exists c]; rewrite E; qlra.
  Qed.
  Lemma reversed_open ps ps' : Forall2 posting_reversed ps ps' -> Forall2 posting_reversed (filter open_posting ps) (filter open_posting ps').
  Proof using Type.
    induction 1 as [|p p' ps ps' H F IH]; cbn [filter]; auto. assert (E : open_posting p' = open_posting p).
    { unfold open_posting. rewrite (rv_kind _ _ H), (rv_money _ _ H). destruct (rp_money p); auto. }
    rewrite E. destruct (open_posting p); auto.
  Qed.
  Lemma reversed_order t t' : reversal t t' -> (forall p, In p (t_postings t) -> ~ zero_total_cost p) -> no_bracketed_price t -> in_order w l t' <-> in_order w l t.
  Proof using Type.
    intros R Z NB. unfold in_order. rewrite (fine_opp (kind_value w l VirtualMustBalance t) (kind_value w l VirtualMustBalance t')) by (intros c; apply reversed_kind; auto).
    assert (Y : SpecTxn.fine (kind_value w l Real t') <-> SpecTxn.fine (kind_value w l Real t)) by (apply fine_opp; intros c; apply reversed_kind; auto).
    pose proof (reversed_open _ _ R) as O. inversion O as [|a b x y H1 H2 E1 E2]; [tauto|]. inversion H2; tauto.
  Qed.
  Lemma reversed_adds t t' p p' c : reversal t t' -> (forall p, In p (t_postings t) -> ~ zero_total_cost p) -> posting_reversed p p' -> adds w l t' p' c = - adds w l t p c.
  Proof using Type.
    intros R Z P. unfold adds. rewrite (rv_money _ _ P). destruct (rp_money p) as [m|]; cbn [option_map]; [apply reversed_written|]. rewrite (reversed_kind Real t t' c R Z); auto.
  Qed.
  Lemma reversed_txn o P c t t' : reversal t t' -> same_period o t t' -> (forall p, In p (t_postings t) -> ~ zero_total_cost p) ->
    txn_adds w o l P c t' = - txn_adds w o l P c t.
  Proof using Type.
    intros R S Z. unfold txn_adds. rewrite S. destruct (in_window o t); [|ring]. apply pairs_sum; auto. intros p p' _ Hp.
    rewrite (rv_kind _ _ Hp), (rv_account _ _ Hp). destruct (asked_for o (rp_kind p) && P (account_meant w l (rp_account p))); [apply reversed_adds; auto|ring].
  Qed.
  Lemma reversed_txns o P c ts ts' : Forall2 reversal ts ts' -> Forall2 (same_period o) ts ts' -> (forall t p, In t ts -> In p (t_postings t) -> ~ zero_total_cost p) ->
    qsum (map (txn_adds w o l P c) (ts ++ ts')) = 0.
  Proof using Type.
    intros R S Z. rewrite map_app, qsum_app. revert S Z. induction R as [|t t' ts ts' H F IH]; intros S Z; [change (0 + 0 = 0); ring|].
    inversion S; subst. cbn [map]. rewrite !qsum_cons, (reversed_txn o P c t t') by (auto; intros; apply (Z t); cbn; auto).
    assert (E : qsum (map (txn_adds w o l P c) ts) + qsum (map (txn_adds w o l P c) ts') = 0) by (apply IH; auto; intros; apply (Z t0); cbn; auto). qlra.
  Qed.
  (** The lines of the register. *)
  Definition opp_entry (e : entry) : entry := (fst e, match snd e with M q c => M (- q) c | MZero => MZero end).
  Lemma opp_entry_inj e e' : opp_entry e = opp_entry e' -> e = e'.
  Proof using Type.
    destruct e as [x m], e' as [x' m']. unfold opp_entry. cbn [fst snd]. intros H. f_equal; [congruence|].
    destruct m as [|q c], m' as [|q' c']; try discriminate; auto. f_equal; [|congruence]. assert (E : - q = - q') by congruence. qlra.
  Qed.
  Lemma nodup_opp es : NoDup es -> NoDup (map opp_entry es).
  Proof using Type. induction 1 as [|e es N _ IH]; constructor; auto. intros H. apply in_map_iff in H as (x & E & Hx). apply opp_entry_inj in E. congruence. Qed.
  Lemma kept_opp o A t t' es : same_period o t t' -> kept o A (t', map opp_entry es) = map opp_entry (kept o A (t, es)).
  Proof using Type.
    intros E. unfold kept. cbn [fst snd]. rewrite E. destruct (in_window o t); auto. induction es as [|e es IH]; auto. cbn [map filter]. change (asked_for o (entry_kind (opp_entry e)) && A (snd (fst (opp_entry e)))) with (asked_for o (entry_kind e) && A (snd (fst e))).
    destruct (asked_for o (entry_kind e) && A (snd (fst e))); cbn [map]; rewrite IH; auto.
  Qed.
  Lemma reversed_entries t t' es : reversal t t' -> (forall p, In p (t_postings t) -> ~ zero_total_cost p) -> txn_entries w l t es -> txn_entries w l t' (map opp_entry es).
  Proof using Type.
    intros T Z [fills FA FN FM]. rewrite !map_app.
    assert (W : forall (f : rposting -> bool), (forall p p', posting_reversed p p' -> f p' = f p) ->
      map opp_entry (flat_map (written_entry w l) (filter f (t_postings t))) = flat_map (written_entry w l) (filter f (t_postings t'))).
    { intros f Hf. clear FA FM FN Z. unfold reversal in T. induction T as [|p p' ps ps' H F IH]; auto. cbn [filter]. rewrite (Hf p p' H). destruct (f p); auto. cbn [flat_map]. rewrite map_app, IH. f_equal.
      unfold written_entry. rewrite (rv_money _ _ H), (rv_kind _ _ H), (rv_account _ _ H). destruct (rp_money p) as [[q n]|]; reflexivity. }
    assert (RK : forall p p', posting_reversed p p' -> real_posting p' = real_posting p) by (intros p p' H; unfold real_posting; rewrite (rv_kind _ _ H); auto).
    assert (W2 := W (fun p => negb (real_posting p)) (fun p p' H => f_equal negb (RK p p' H))).
    enough (G : txn_entries w l t' (flat_map (written_entry w l) (filter real_posting (t_postings t')) ++ map opp_entry fills ++
      flat_map (written_entry w l) (filter (fun p => negb (real_posting p)) (t_postings t')))) by (rewrite <- (W real_posting RK), <- W2 in G; exact G).
    clear W W2. pose proof (reversed_open _ _ T) as O.
    assert (K : forall c, kind_value w l Real t' c = - kind_value w l Real t c) by (intros c; apply reversed_kind; auto).
    constructor.
    - intros e He. apply in_map_iff in He as (x & <- & Hx). destruct (FA x Hx) as (p & Ep & Ef). rewrite Ep in O. inversion O as [|a p' ps xs H1 H2 E1 E2]; subst. inversion H2; subst.
      exists p'. split; auto. unfold opp_entry. cbn [fst]. rewrite Ef, (rv_account _ _ H1). auto.
    - apply nodup_opp; auto.
    - intros p' E m. assert (OP : exists p, filter open_posting (t_postings t) = [p]).
      { rewrite E in O. inversion O as [|p x ps xs H1 H2 E1 E2]; subst. inversion H2; subst. exists p. auto. }
      destruct OP as (p & Ep). specialize (FM p Ep). rewrite map_map. split.
      + intros H. apply in_map_iff in H as (x & <- & Hx). apply (in_map snd) in Hx. apply FM in Hx as (c & Hc & Hx). exists c. rewrite K. unfold opp_entry. cbn [snd]. rewrite Hx. split; [intros E0; apply Hc; qlra|reflexivity].
      + intros (c & Hc & ->). rewrite K in *. assert (H : In (M (- kind_value w l Real t c) c) (map snd fills)) by (apply FM; exists c; split; auto; intros E0; apply Hc; qlra).
        apply in_map_iff in H as (x & Ex & Hx). apply in_map_iff. exists x. split; auto. unfold opp_entry. cbn [snd]. rewrite Ex. reflexivity.
  Qed.
End Reversal.
Lemma plain_costs w l t p : plain_journal w l -> In t (pl_txns l) -> In p (t_postings t) -> ~ zero_total_cost p.
Proof. intros P Ht Hp. apply (pj_postings w l P t p Ht Hp). Qed.
Lemma has_incl ts l0 l : also_has ts l0 l -> incl (pl_txns l0) (pl_txns l) /\ incl ts (pl_txns l).
Proof. intros (_ & X). split; intros t Ht; eapply Permutation_in; eauto; apply in_app_iff; auto. Qed.
Lemma has_orders w ts l0 l : also_has ts l0 l -> Forall (in_order w l) (pl_txns l) <-> Forall (in_order w l0) (pl_txns l0) /\ Forall (in_order w l) ts.
Proof.
  intros (D & X). assert (E : Forall (in_order w l) (pl_txns l) <-> Forall (in_order w l) (pl_txns l0 ++ ts)).
  { rewrite !Forall_forall. split; intros H t Ht; apply H; [exact (Permutation_in t X Ht)|exact (Permutation_in t (Permutation_sym X) Ht)]. }
  rewrite E, Forall_app. assert (Y : Forall (in_order w l) (pl_txns l0) <-> Forall (in_order w l0) (pl_txns l0)); [|tauto].
  rewrite !Forall_forall. split; intros H t Ht; apply (in_order_same w l0 l t D); auto.
Qed.
Lemma reversed_book w o P c ts ts' l0 l : also_has (ts ++ ts') l0 l -> plain_journal w l -> Forall2 reversal ts ts' -> Forall2 (same_period o) ts ts' ->
  book_total w o l P c = book_total w o l0 P c.
Proof.
  intros H PJ R S. pose proof H as (D & X). destruct (has_incl _ _ _ H) as [_ I]. rewrite !book_by_txn, (adds_same w o l0 l P c D).
  rewrite <- (qsum_perm _ _ (Permutation_map (txn_adds w o l P c) X)), map_app, qsum_app, (reversed_txns w l o P c ts ts' R S); [ring|].
  intros t p Ht Hp. eapply plain_costs; eauto. apply I, in_app_iff. auto.
Qed.

(** ** C101 *)
(** [check] accepts the reversals of bookings that it accepts. *)
Theorem C101_check : forall depth w o file file' l l' ts ts', world_ok w -> file_parses depth w file l -> file_parses depth w file' l' ->
  plain_journal w l' -> also_has ts' l l' -> incl ts (pl_txns l) -> Forall2 reversal ts ts' -> Forall no_bracketed_price ts ->
  (exit_status (run_cmd depth w CCheck o file') = 0%Z <-> exit_status (run_cmd depth w CCheck o file) = 0%Z).
Proof.
  intros depth w o f f' l l' ts ts' Hw F F' P' H I R NB. pose proof H as (D & _). destruct (has_incl _ _ _ H) as [I0 I1]. pose proof (plain_part w l l' D I0 P') as P.
  rewrite (C73_check depth w o f' l' Hw F' P'), (C73_check depth w o f l Hw F P), (has_orders w ts' l l' H). split; [tauto|]. intros O. split; auto.
  assert (OT : Forall (in_order w l') ts) by (rewrite Forall_forall in *; intros t Ht; apply (in_order_same w l l' t D); auto).
  assert (Z : forall t p, In t ts -> In p (t_postings t) -> ~ zero_total_cost p) by (intros; eapply plain_costs; eauto).
  clear - R NB OT Z. induction R as [|t t' ts ts' H F IH]; constructor; inversion NB; inversion OT; subst.
  - apply (reversed_order w l' t t'); auto. intros. apply (Z t); cbn; auto.
  - apply IH; auto. intros. apply (Z t0); cbn; auto.
Qed.
Print Assumptions C101_check.
(** The flat balance report is the same with the bookings and their reversals as without both. *)
Theorem C101_balance : forall depth w o file0 file l0 l ts ts' no_total A, world_ok w -> file_parses depth w file0 l0 -> file_parses depth w file l ->
  plain_journal w l -> also_has (ts ++ ts') l0 l -> Forall2 reversal ts ts' -> Forall2 (same_period o) ts ts' ->
  exit_status (run_cmd depth w CCheck o file) = 0%Z -> asked_accounts w (o_query o) A -> o_exchange o = None -> can_be_cut w o l ->
  exists r r0 lines lines0, run_cmd depth w (CBalance true no_total) o file = Ok lines /\ balance_printed r lines /\
    run_cmd depth w (CBalance true no_total) o file0 = Ok lines0 /\ balance_printed r0 lines0 /\ same_report r r0.
Proof.
  intros depth w o f0 f l0 l ts ts' nt A Hw F0 F P H R S CH HA OX HC. pose proof H as (D & _). destruct (has_incl _ _ _ H) as [I0 _]. pose proof (plain_part w l0 l D I0 P) as P0.
  apply (C73_check depth w o f l Hw F P) in CH. pose proof (proj1 (proj1 (has_orders w _ l0 l H) CH)) as CH0.
  destruct (flat_report depth w o f l nt A Hw F P CH HA OX HC) as (r & lines & R1 & R2 & R3 & R4 & _).
  destruct (flat_report depth w o f0 l0 nt A Hw F0 P0 CH0 HA OX (cut_part w o l0 l D I0 HC)) as (r0 & lines0 & S1 & S2 & S3 & S4 & _).
  exists r, r0, lines, lines0. do 4 (split; auto).
  assert (T : forall Q c, asked_total w o l0 A Q c = asked_total w o l A Q c) by (intros Q c; symmetry; eapply reversed_book; eauto).
  assert (LS : map br_label (bp_rows r) = map br_label (bp_rows r0)).
  { apply ascending_same; [apply R3|apply S3|]. intros a. rewrite (flat_labels w o l0 A r0 a S3), (flat_labels w o l A r a R3). split; intros (c & Hc); exists c; [rewrite T|rewrite <- T]; auto. }
  split; [|split].
  - apply (rows_same _ _ (fun a c => asked_total w o l A (fun n => str_eqb (cut_by o n) a) c)); auto.
    + intros row Hi c. destruct R3 as [_ R3]. destruct (R3 (cut_by o) (cut_by_cuts o)) as [Y _]. apply (Y row Hi).
    + intros row Hi c. destruct S3 as [_ S3]. destruct (S3 (cut_by o) (cut_by_cuts o)) as [Y _]. destruct (Y row Hi) as (_ & _ & Z). rewrite Z. apply T.
  - destruct R4 as [R4 _], S4 as [S4 _]. pose proof (f_equal (@length _) LS) as LE. rewrite !map_length in LE. rewrite LE in R4.
    destruct (bp_total r), (bp_total r0); split; intros X; try congruence; exfalso.
    + assert (Y : (None : option (list money)) <> None) by (apply S4, R4; congruence). congruence.
    + assert (Y : (None : option (list money)) <> None) by (apply R4, S4; congruence). congruence.
  - intros ms ms0 c E E0. destruct R4 as [_ R4], S4 as [_ S4]. destruct (R4 ms E) as [_ ->]. destruct (S4 ms0 E0) as [_ ->]. symmetry. apply T.
Qed.
Print Assumptions C101_balance.
(** The tree of the file with both, in terms of the flat report of the file without them. *)
Theorem C101_tree : forall depth w o o' file0 file l0 l ts ts' no_total A, world_ok w -> file_parses depth w file0 l0 -> file_parses depth w file l ->
  plain_journal w l -> also_has (ts ++ ts') l0 l -> Forall2 reversal ts ts' -> Forall2 (same_period o) ts ts' ->
  exit_status (run_cmd depth w CCheck o file) = 0%Z -> asked_accounts w (o_query o) A -> o_exchange o = None -> same_but_depth o o' -> o_depth o' = None ->
  exists r r0 lines lines0, run_cmd depth w (CBalance false no_total) o file = Ok lines /\ balance_printed r lines /\
    run_cmd depth w (CBalance true no_total) o' file0 = Ok lines0 /\ balance_printed r0 lines0 /\
    (exists accs, ascending accs /\
       Forall2 (fun a row => br_indent row = levels a /\ (exists part more, own_part a part /\ br_label row = part ++ more) /\
         shown_amounts (br_moneys row) /\ br_moneys row <> [] /\
         (~ begins_with_colon a -> forall c, moneys_amt (br_moneys row) c = shown_for r0 (inside a) c)) accs (bp_rows r)) /\
    forall ms c, bp_total r = Some ms -> moneys_amt ms c = shown_for r0 (fun _ => true) c.
Proof.
  intros depth w o o' f0 f l0 l ts ts' nt A Hw F0 F P H R S CH HA OX SD ND. pose proof H as (D & _). destruct (has_incl _ _ _ H) as [I0 _]. pose proof (plain_part w l0 l D I0 P) as P0.
  apply (C73_check depth w o f l Hw F P) in CH. pose proof (proj1 (proj1 (has_orders w _ l0 l H) CH)) as CH0.
  destruct SD as (O1 & O2 & O3 & O4 & O5 & O6). assert (HA' : asked_accounts w (o_query o') A) by (rewrite <- O4; auto). assert (OX' : o_exchange o' = None) by congruence.
  assert (HC : can_be_cut w o' l0) by (intros d E; congruence).
  destruct (C78_balance depth w o f l false nt A Hw F P CH HA OX) as (r & lines & R1 & R2 & R3 & R4); [discriminate|].
  destruct (flat_report depth w o' f0 l0 nt A Hw F0 P0 CH0 HA' OX' HC) as (r0 & lines0 & S1 & S2 & S3 & S4 & S5).
  exists r, r0, lines, lines0. do 4 (split; auto).
  assert (W : forall k Q c, asked_total w o k A Q c = asked_total w o' k A Q c).
  { intros k Q c. unfold asked_total, book_total, in_window, asked_for. rewrite O1, O2, O3. auto. }
  assert (CU : forall n, cut_by o' n = n) by (intros n; unfold cut_by; rewrite ND; auto).
  assert (T : forall Q c, asked_total w o l A Q c = shown_for r0 Q c).
  { intros Q c. rewrite S5, <- W. rewrite (asked_same w o l0 A _ Q c) by (intros; rewrite CU; auto). eapply reversed_book; eauto. }
  split.
  - destruct R3 as (accs & AS & FR). exists accs. split; auto. eapply forall2_weaken; [|exact FR]. intros a row (H1 & H2 & _ & H4 & H5 & H6). do 4 (split; auto).
    intros N c. rewrite (H6 N). apply T.
  - intros ms c E. destruct R4 as [_ R4]. destruct (R4 ms E) as [_ ->]. apply T.
Qed.
Print Assumptions C101_tree.
(** The register has, besides the lines of the file without them, lines and the same lines with the opposite amounts; its last
    running total is the same. *)
Theorem C101_register : forall depth w o file0 file l0 l ts ts' A, world_ok w -> file_parses depth w file0 l0 -> file_parses depth w file l ->
  plain_journal w l -> also_has (ts ++ ts') l0 l -> Forall2 reversal ts ts' -> Forall2 (same_period o) ts ts' ->
  exit_status (run_cmd depth w CCheck o file) = 0%Z -> asked_accounts w (o_query o) A ->
  exists rows rows0 lines lines0 extra, run_cmd depth w CRegister o file = Ok lines /\ register_printed w rows lines /\
    run_cmd depth w CRegister o file0 = Ok lines0 /\ register_printed w rows0 lines0 /\
    Permutation (map line_amount rows) (map line_amount rows0 ++ extra ++ map opposite extra) /\
    forall c, final_total rows c = final_total rows0 c.
Proof.
  intros depth w o f0 f l0 l ts ts' A Hw F0 F P H R S CH HA. pose proof H as (D & X). destruct (has_incl _ _ _ H) as [I0 I1]. pose proof (plain_part w l0 l D I0 P) as P0.
  apply (C73_check depth w o f l Hw F P) in CH. pose proof (proj1 (proj1 (has_orders w _ l0 l H) CH)) as CH0.
  destruct (C78_register depth w o f l A Hw F P CH HA) as (rows & g & R1 & R2 & R3).
  destruct (C78_register depth w o f0 l0 A Hw F0 P0 CH0 HA) as (rows0 & g0 & S1 & S2 & S3).
  destruct (register_lines _ _ _ _ _ R3) as (us & es & U1 & U2 & U3 & U4). destruct (register_lines _ _ _ _ _ S3) as (vs & fs & V1 & V2 & V3 & V4).
  apply (entries_directives w l0 l _ _ D) in V2.
  (* the entries of [ts] are among those of the file *)
  assert (PU : Permutation us (vs ++ ts ++ ts')).
  { symmetry. eapply Permutation_trans; [|exact U1]. eapply Permutation_trans; [|exact X]. apply Permutation_app_tail. symmetry. exact V1. }
  destruct (permuted_entries _ _ _ PU _ U2) as (es' & W1 & _). apply Forall2_app_inv_l in W1 as (e0 & e12 & W1 & W2 & ->). apply Forall2_app_inv_l in W2 as (e1 & e2 & W2 & W3 & ->). clear W1 W3.
  assert (Z : forall t p, In t ts -> In p (t_postings t) -> ~ zero_total_cost p) by (intros t p Ht Hp; apply (plain_costs w l t p P); auto; apply I1, in_app_iff; auto).
  assert (Y : Forall2 (txn_entries w l) ts' (map (map opp_entry) e1) /\
    flat_map (kept o A) (combine ts' (map (map opp_entry) e1)) = map opp_entry (flat_map (kept o A) (combine ts e1))).
  { clear - R S W2 Z. revert ts' R S. induction W2 as [|t e ts es HE F IH]; intros ts' R S; inversion R as [|a t' b us2 T R' E1 E2]; subst; [repeat constructor|]. inversion S as [|a a' b b' T2 S' E1 E2]; subst.
    destruct (IH (fun t0 p Ht Hp => Z t0 p (or_intror Ht) Hp) us2 R' S') as [I1 I2]. split.
    - cbn [map]. constructor; auto. apply (reversed_entries w l t); auto. intros p Hp. apply (Z t); cbn; auto.
    - cbn [map combine flat_map]. rewrite I2, map_app. f_equal. apply kept_opp. auto. }
  destruct Y as [Y1 Y2].
  pose proof (lines_permuted w l o A _ _ _ _ PU U2 (forall2_app _ _ _ _ _ V2 (forall2_app _ _ _ _ _ W2 Y1))) as PL.
  assert (CA : forall (us1 us2 : list (txn rposting)) (es1 es2 : list (list entry)), Forall2 (txn_entries w l) us1 es1 -> combine (us1 ++ us2) (es1 ++ es2) = combine us1 es1 ++ combine us2 es2).
  { intros us1 us2 es1 es2 V. induction V; cbn; auto. f_equal. auto. }
  rewrite !CA, !flat_map_app, Y2 in PL by auto. set (E0 := flat_map (kept o A) (combine vs fs)) in *. set (E1 := flat_map (kept o A) (combine ts e1)) in *.
  exists rows, rows0, (concat g), (concat g0), (map (fun e => (entry_shown e, snd e)) E1). split; auto. split; [exists g; auto|]. split; auto. split; [exists g0; auto|]. split.
  - rewrite U3, V3. eapply Permutation_trans; [apply Permutation_map, PL|]. rewrite !map_app. apply Permutation_app_head, Permutation_app_head. rewrite !map_map. apply Permutation_refl'. apply map_ext. intros e. reflexivity.
  - intros c. rewrite U4, V4. rewrite (qsum_perm _ _ (Permutation_map _ PL)), !map_app, !qsum_app, map_map.
    assert (N : qsum (map (fun e => money_amt (snd (opp_entry e)) c) E1) = - qsum (map (fun e => money_amt (snd e) c) E1)).
    { generalize E1. intros xs. induction xs as [|e xs IH]; [change (0 = - 0); ring|]. cbn [map]. rewrite !qsum_cons, IH. unfold opp_entry, money_amt. cbn [snd]. destruct (snd e) as [|q d]; [ring|]. destruct (str_eqb d c); ring. }
    rewrite N. rewrite Qcplus_opp_r, Qcplus_0_r. reflexivity.
Qed.
Print Assumptions C101_register.

(** ** A case *)
(** A shopping trip with a price, and the bookings that take it back a month later, the open amount too; a total cost and a
    bracketed transfer. *)
Definition head101 : list String.string := ["account Assets:Cash"; "  alias purse"; "2021-01-01 Job"; "  Assets:Bank  100 EUR"; "  Income"]%string.
Definition trip101 : list String.string := ["2021-01-05 Shop"; "  Expenses:Food  10.50 EUR"; "  Assets:Fund  -2 AAA @ 3 EUR"; "  purse"; "2021-01-06 Fund"; "  Assets:Fund  4 BBB @@ 20 EUR"; "  Assets:Bank  -20 EUR"; "  [Plan:A]  5 EUR"; "  [Plan:B]  -5 EUR"]%string.
Definition back101 : list String.string := ["2021-02-05 Shop back"; "  Expenses:Food  -10.50 EUR"; "  Assets:Fund  2 AAA @ 3 EUR"; "  purse"; "2021-02-06 Fund back"; "  Assets:Fund  -4 BBB @@ 20 EUR"; "  Assets:Bank  20 EUR"; "  [Plan:A]  -5 EUR"; "  [Plan:B]  5 EUR"]%string.
Definition brack101 : list String.string := ["2021-01-05 Plan"; "  [Plan:A]  2 AAA @ 3 EUR"; "  [Plan:B]  -6 EUR"]%string.
Definition takes101 : list String.string := ["2021-01-06 Plan"; "  [Plan:A]  -2 AAA @ 3 EUR"; "  [Plan:B]  6 EUR"]%string.
Definition w101 : world := disk [(L "./none", text head101); (L "./trip", text (trip101 ++ head101)); (L "./both", text (trip101 ++ head101 ++ back101));
  (L "./brack", text brack101); (L "./takes", text (brack101 ++ takes101))].
Definition l101 (f : String.string) : pledger := get pl_new (tokenize_file 2 w101 (L (String.append "./" f))).
Lemma w101_ok : world_ok w101.
Proof. split; [intros; apply Permutation_refl|exact ascii_lower_idem]. Qed.
Lemma parses101 f : match tokenize_file 2 w101 (L (String.append "./" f)) with Ok l => l101 f = l | _ => False end -> file_parses 2 w101 (L (String.append "./" f)) (l101 f).
Proof. intros H. apply file_parses_iff. destruct (tokenize_file 2 w101 (L (String.append "./" f))); subst; auto; destruct H. Qed.
Definition ts101 : list (txn rposting) := firstn 2 (pl_txns (l101 "both")).
Definition ts101' : list (txn rposting) := skipn 3 (pl_txns (l101 "both")).
Definition reversed_check (p p' : rposting) : bool :=
  str_eqb (rp_account p') (rp_account p) && kind_eqb (rp_kind p') (rp_kind p) && amount_eqb (rp_money p') (option_map (fun m => (- fst m, snd m)) (rp_money p)) &&
  amount_eqb (rp_cost p') (rp_cost p) && match rp_cost_type p', rp_cost_type p with Some PTotal, Some PTotal | Some PPerUnit, Some PPerUnit | None, None => true | _, _ => false end.
Lemma reversed_check_ok p p' : reversed_check p p' = true -> posting_reversed p p'.
Proof.
  unfold reversed_check. intros H. do 4 (let H' := fresh "X" in apply andb_prop in H; destruct H as [H H']). constructor; try (apply amount_eqb_ok; assumption).
  - apply str_eqb_eq. auto.
  - destruct (rp_kind p'), (rp_kind p); try discriminate; auto.
  - destruct (rp_cost_type p') as [[]|], (rp_cost_type p) as [[]|]; try discriminate; auto.
Qed.
Definition reversals_check (ts ts' : list (txn rposting)) : bool := pairs_check (fun t t' => pairs_check reversed_check (t_postings t) (t_postings t')) ts ts'.
Lemma reversals_check_ok ts ts' : reversals_check ts ts' = true -> Forall2 reversal ts ts'.
Proof. apply pairs_check_ok. intros t t'. apply pairs_check_ok, reversed_check_ok. Qed.
Definition bracket_check (t : txn rposting) : bool :=
  forallb (fun p => negb (kind_eqb (rp_kind p) VirtualMustBalance) || match rp_cost p, rp_cost_type p with None, _ | _, Some PTotal => true | _, _ => false end) (t_postings t).
Lemma bracket_check_ok ts : forallb bracket_check ts = true -> Forall no_bracketed_price ts.
Proof.
  intros H. apply Forall_forall. intros t Ht p Hp K C. eapply forallb_forall in H; eauto. eapply forallb_forall in H; eauto. cbn beta in H. rewrite K in H. cbn in H.
  destruct (rp_cost p); [|congruence]. destruct (rp_cost_type p) as [[]|]; congruence.
Qed.
Lemma directives101 f g : pl_accounts (l101 f) = pl_accounts (l101 g) -> pl_commodities (l101 f) = pl_commodities (l101 g) -> pl_prices (l101 f) = pl_prices (l101 g) -> same_directives (l101 f) (l101 g).
Proof. intros A B C. split; auto. split; auto. rewrite C. apply incl_refl. Qed.
Definition shows101 (o : opts) (f : String.string) : res (list str) := run_cmd 2 w101 (CBalance true false) o (L (String.append "./" f)).
Example C101_case : world_ok w101 /\ file_parses 2 w101 (L "./none") (l101 "none") /\ file_parses 2 w101 (L "./trip") (l101 "trip") /\ file_parses 2 w101 (L "./both") (l101 "both") /\
  plain_journal w101 (l101 "both") /\ also_has (ts101 ++ ts101') (l101 "none") (l101 "both") /\ also_has ts101' (l101 "trip") (l101 "both") /\ incl ts101 (pl_txns (l101 "trip")) /\
  Forall2 reversal ts101 ts101' /\ Forall no_bracketed_price ts101 /\ Forall2 (same_period plain_opts) ts101 ts101' /\ length ts101 = 2%nat /\
  exit_status (run_cmd 2 w101 CCheck plain_opts (L "./both")) = 0%Z /\ can_be_cut w101 plain_opts (l101 "both") /\
  shows101 plain_opts "both" = shows101 plain_opts "none" /\ shows101 plain_opts "trip" <> shows101 plain_opts "none" /\
  shows101 plain_opts "none" = Ok (map L ["          100.00 EUR  Assets:Bank"; "         -100.00 EUR  Income"; "--------------------"; "                   0"]%string).
Proof.
  split; [exact w101_ok|]. split; [apply parses101; vm_compute; reflexivity|]. split; [apply parses101; vm_compute; reflexivity|]. split; [apply parses101; vm_compute; reflexivity|].
  split; [apply plain_check_ok; vm_compute; reflexivity|].
  assert (E1 : pl_txns (l101 "trip") = ts101 ++ pl_txns (l101 "none")) by (vm_compute; reflexivity).
  assert (E2 : pl_txns (l101 "both") = ts101 ++ pl_txns (l101 "none") ++ ts101') by (vm_compute; reflexivity).
  split; [split; [apply directives101; vm_compute; reflexivity|rewrite E2, !app_assoc; apply Permutation_app_tail, Permutation_app_comm]|].
  split; [split; [apply directives101; vm_compute; reflexivity|rewrite E2, E1, app_assoc; apply Permutation_refl]|].
  split; [rewrite E1; apply incl_appl, incl_refl|]. split; [apply reversals_check_ok; vm_compute; reflexivity|]. split; [apply bracket_check_ok; vm_compute; reflexivity|].
  split; [apply (pairs_check_ok (fun t t' => Bool.eqb (in_window plain_opts t') (in_window plain_opts t))); [intros t t' E; apply Bool.eqb_prop; exact E|vm_compute; reflexivity]|].
  split; [vm_compute; reflexivity|]. split; [vm_compute; reflexivity|]. split; [intros d E; discriminate E|]. split; [vm_compute; reflexivity|]. split; [vm_compute; discriminate|vm_compute; reflexivity].
Qed.
(** The exception: the value of a posting in brackets with a price for each unit does not have the sign of the amount. *)
Example C101_bracketed_price : exit_status (run_cmd 2 w101 CCheck plain_opts (L "./brack")) = 0%Z /\ exit_status (run_cmd 2 w101 CCheck plain_opts (L "./takes")) = 1%Z /\
  reversals_check (pl_txns (l101 "brack")) (skipn 1 (pl_txns (l101 "takes"))) = true.
Proof. split; [vm_compute; reflexivity|]. split; vm_compute; reflexivity. Qed.
