(** Facts about the register report. *)
From Coq Require Import Lia Sorting.Sorted.
From Verif Require Import Base BaseFacts Numerals Money Alist AlistFacts Txn Expr Filter Price Tokens Ledger Reports Spec MoneyFacts SpecList SpecTxn SpecLedger
  LedgerFacts LedgerFacts2 SpecQuery SpecReports ReportFacts ReportFacts2.
Open Scope Qc_scope.

(** The payees known later in the report: the ones known before, and descriptions. *)
Definition named_from (w : world) (pays known : alist payee) : Prop :=
  extends w pays known /\ forall d y, l_get w d known = Ok y -> payee_known w pays d (py_name y).
Lemma named_refl w pays : named_from w pays pays.
Proof. split; [apply extends_refl|]. intros d y E. unfold payee_known. rewrite E. auto. Qed.
Lemma named_weaken w pays known d n : named_from w pays known -> payee_known w known d n -> payee_known w pays d n.
Proof.
  intros [[E _] N] H. unfold payee_known in H. destruct (l_get w d known) as [y|e|x] eqn:Ek.
  - subst n. apply N. auto.
  - unfold payee_known. destruct (l_get w d pays) as [y|e'|x'] eqn:Ep; auto. apply E in Ep. congruence.
  - unfold payee_known. destruct (l_get w d pays) as [y|e'|x'] eqn:Ep; auto. apply E in Ep. congruence.
Qed.
Lemma named_trans w a b c : named_from w a b -> named_from w b c -> named_from w a c.
Proof.
  intros H [E N]. split; [eapply extends_trans; eauto; apply H|]. intros d y Ey. eapply named_weaken; [exact H|]. auto.
Qed.
Lemma get_payee_ok w desc pays n pays' : buildable w py_name py_aliases pays -> get_payee w desc pays = Ok (n, pays') ->
  buildable w py_name py_aliases pays' /\ named_from w pays pays' /\ payee_known w pays desc n.
Proof.
  intros B H. destruct (ensure_pay_ok w pays desc B) as (l' & E & B' & X & R). unfold ensure_pay, ensure in E. unfold get_payee in H.
  destruct (l_get w desc pays) as [y|e|x] eqn:El; [| |discriminate].
  - inv H. inv E. split; auto. split; [apply named_refl|]. unfold payee_known. rewrite El. auto.
  - inv E. change (pay_insert w _ pays) with (pay_insert w (payee_from desc) pays) in H.
    assert (G : forall k z, l_get w k (pay_insert w (payee_from desc) pays) = Ok z -> l_get w k pays = Ok z \/ w_lower w desc = w_lower w k /\ z = payee_from desc).
    { intros k z Ez. apply (insert_new_get w py_name py_aliases (payee_from desc) pays k z B) in Ez; auto. cbn. intros z'. congruence. }
    destruct (l_get w desc (pay_insert w (payee_from desc) pays)) as [y|e'|x] eqn:El'; try discriminate. inv H. split; auto.
    split; [split; auto|].
    + intros d z Ez. destruct (G d z Ez) as [P|[P ->]]; unfold payee_known; [rewrite P; auto|].
      destruct (l_get w d pays) as [z'| |] eqn:Ed; auto. symmetry in P. pose proof (get_lower w d desc pays z' P Ed). congruence.
    + destruct (G desc y El') as [P|[_ ->]]; [congruence|]. unfold payee_known. rewrite El. auto.
Qed.
Inductive register_shows (w : world) (pays : alist payee) : (str -> Qc) -> list (option (txn posting) * posting) -> list rrow -> Prop :=
| rg_nil run : register_shows w pays run [] []
| rg_line run run' h p lines row rows :
    rr_account row = shown_account p -> p_amount p = Some (rr_amount row) ->
    (forall c, run' c = run c + amount_in c p) ->
    (rr_total row = [MZero] \/ shown_amounts (rr_total row) /\ rr_total row <> []) ->
    (forall c, moneys_amt (rr_total row) c = run' c) ->
    heading w pays h (rr_head row) ->
    register_shows w pays run' lines rows ->
    register_shows w pays run ((h, p) :: lines) (row :: rows).
Lemma register_weaken w pays pays' run lines rows : named_from w pays pays' -> register_shows w pays' run lines rows -> register_shows w pays run lines rows.
Proof.
  intros E H. induction H; econstructor; eauto. unfold heading in *. destruct h as [t|], (rr_head row) as [[d n]|]; auto.
  destruct H4 as (H4 & Y). split; auto. eapply named_weaken; eauto.
Qed.
Lemma register_ext w pays run run0 lines rows : (forall c, run c = run0 c) -> register_shows w pays run lines rows -> register_shows w pays run0 lines rows.
Proof. intros E H. destruct H; econstructor; eauto. intros c. rewrite H1, E. auto. Qed.
Lemma register_app w pays l1 r1 l2 r2 : forall run run',
  register_shows w pays run l1 r1 -> (forall c, run' c = run c + qsum (map (fun x => amount_in c (snd x)) l1)) -> register_shows w pays run' l2 r2 ->
  register_shows w pays run (l1 ++ l2) (r1 ++ r2).
Proof.
  intros run run' H. revert run'. induction H; intros run2 E H'; cbn [app].
  - eapply register_ext; [|exact H']. intros c. rewrite E. cbn [map]. change (qsum []) with 0. ring.
  - econstructor; eauto. eapply IHregister_shows; [|exact H']. intros c. rewrite E, H1. cbn [map snd]. rewrite qsum_cons. ring.
Qed.
(** The running total: well-formed, and shown as a single zero when nothing is left. *)
Definition run_bal (b : balance) : Prop := b = bal_of MZero \/ good_bal b.
Lemma run_shown w s b m : world_ok w -> wf_bal b ->
  map snd (w_ord w s _ (running_add b m)) = [MZero] \/ shown_amounts (map snd (w_ord w s _ (running_add b m))) /\ map snd (w_ord w s _ (running_add b m)) <> [].
Proof.
  intros Hw W. unfold running_add. assert (G : good_bal (bal_add b (bal_of m))) by (apply good_add; [auto|apply wf_of]).
  destruct (bal_is_zero (bal_add b (bal_of m))) eqn:Z.
  - left. assert (P : Permutation (w_ord w s _ (bal_of MZero)) (bal_of MZero)) by apply Hw.
    unfold bal_of in *. symmetry in P. apply Permutation_length_1_inv in P. rewrite P. reflexivity.
  - right. destruct (shown_perm w s _ Hw G) as (S1 & S2 & _). auto.
Qed.
Lemma register_postings_ok w (Hw : world_ok w) t ps : forall site first b pays rows b' pays', register_postings w site t first ps b pays = Ok (rows, b', pays') ->
  wf_bal b -> buildable w py_name py_aliases pays ->
  wf_bal b' /\ buildable w py_name py_aliases pays' /\ named_from w pays pays' /\
  (forall c, bal_amt b' c = bal_amt b c + qsum (map (amount_in c) ps)) /\
  register_shows w pays (bal_amt b) (match ps with [] => [] | p :: r => ((if first : bool then Some t else None), p) :: map (fun x => (None, x)) r end) rows.
Proof.
  induction ps as [|p ps IH]; cbn [register_postings]; intros site first b pays rows b' pays' H W B.
  - inv H. split; auto. split; auto. split; [apply named_refl|]. split; [|constructor]. intros c. cbn [map]. change (qsum []) with 0. ring.
  - bind_inv H. destruct a as [head pays1]. rename Hb into Hh. bind_inv H. rename a into m. rename Hb into Hm. bind_inv H. destruct a as [[rows1 b2] pays2]. inv H. rename Hb into Hr.
    assert (Ea : p_amount p = Some m) by (destruct (p_amount p); inv Hm; auto).
    assert (HH : buildable w py_name py_aliases pays1 /\ named_from w pays pays1 /\ heading w pays (if first then Some t else None) head).
    { destruct first.
      - bind_inv Hh. bind_inv Hh. destruct a0 as [n p1]. inv Hh. destruct (get_payee_ok _ _ _ _ _ B Hb0) as (B1 & E1 & Y1). split; auto. split; auto.
        cbn [heading]. split; [destruct (t_date t); inv Hb; auto|]. auto.
      - inv Hh. split; auto. split; [apply named_refl|exact I]. }
    destruct HH as (B1 & E1 & HH). destruct (running_ok b m W) as [W1 R1].
    destruct (IH _ _ _ _ _ _ _ Hr W1 B1) as (W2 & B2 & E2 & R2 & RS).
    split; auto. split; auto. split; [eapply named_trans; eauto|].
    assert (Eam : forall c, amount_in c p = money_amt m c) by (intros c; unfold amount_in; rewrite Ea; auto).
    split; [intros c; rewrite R2, R1; cbn [map]; rewrite qsum_cons, Eam; ring|].
    apply rg_line with (run' := bal_amt (running_add b m)); cbn [rr_account rr_amount rr_total rr_head]; auto.
    + intros c. rewrite R1, Eam. auto.
    + apply run_shown; auto.
    + intros c. rewrite moneys_bal. unfold bal_amt. apply qsum_perm, Permutation_map. apply Hw.
    + eapply register_weaken; [exact E1|]. destruct ps; exact RS.
Qed.
Lemma register_txns_ok w (Hw : world_ok w) sel : forall site b pays rows, register_txns w site sel b pays = Ok rows -> wf_bal b -> buildable w py_name py_aliases pays ->
  register_shows w pays (bal_amt b) (flat_map with_heading sel) rows.
Proof.
  induction sel as [|[t ps] sel IH]; cbn [register_txns flat_map]; intros site b pays rows H W B; [inv H; constructor|].
  bind_inv H. destruct a as [[rows1 b1] pays1]. bind_inv H. inv H. destruct (register_postings_ok w Hw t ps _ _ _ _ _ _ _ Hb W B) as (W1 & B1 & E1 & R1 & RS).
  eapply register_app; [|intros c; rewrite R1|eapply register_weaken; [exact E1|eapply IH; eauto]].
  - exact RS.
  - f_equal. unfold with_heading. cbn [fst snd]. destruct ps as [|p r]; [reflexivity|]. cbn [map snd]. rewrite map_map. cbn [snd]. auto.
Qed.
Lemma register_index w pays run lines rows : register_shows w pays run lines rows -> length rows = length lines /\
  forall i row, nth_error rows i = Some row -> exists h p, nth_error lines i = Some (h, p) /\
    rr_account row = shown_account p /\ p_amount p = Some (rr_amount row) /\ heading w pays h (rr_head row) /\
    (rr_total row = [MZero] \/ shown_amounts (rr_total row) /\ rr_total row <> []) /\
    forall c, moneys_amt (rr_total row) c = run c + qsum (map (fun x => amount_in c (snd x)) (firstn (S i) lines)).
Proof.
  induction 1 as [|run run' h p lines row rows H1 H2 H3 H4 H5 H6 H7 [IH1 IH2]]; [split; auto; intros [|i] row; discriminate|].
  split; [cbn; congruence|]. intros [|i] r E; cbn in E.
  - inv E. exists h, p. split; auto. split; auto. split; auto. split; auto. split; auto. intros c. rewrite H5, H3. cbn [firstn map snd]. rewrite qsum_cons. change (qsum []) with 0. ring.
  - destruct (IH2 i r E) as (h' & p' & I1 & I2 & I3 & I4 & I5 & I6). exists h', p'. split; auto. split; auto. split; auto. split; auto. split; auto.
    intros c. rewrite I6, H3. change (firstn (S (S i)) ((h, p) :: lines)) with ((h, p) :: firstn (S i) lines). cbn [map snd]. rewrite qsum_cons. ring.
Qed.
