(** Facts for C83: from a journal with balances as written to the postings of the ledger. *)
From Coq Require Import Lia.
From Verif Require Import Base BaseFacts Numerals Money Alist Comment Txn Expr Filter Price Tokens Ledger Reports Spec MoneyFacts SpecList SpecTxn TxnFacts SpecLedger
  LedgerFacts LedgerFacts2 SpecQuery SpecReports SpecBook BookFacts SpecAssert TokenFacts.
Open Scope Qc_scope.

(** ** Reading *)
Definition stated_read (w : world) (l : pledger) (p : rposting) (p' : posting) : Prop :=
  p_account p' = account_meant w l (rp_account p) /\ p_kind p' = rp_kind p /\ p_balance p' = option_map (meant_money w l) (rp_balance p) /\
  p_amount p' = option_map (meant_money w l) (rp_money p) /\
  p_cost p' = match rp_cost p, rp_cost_type p with
              | None, _ => None
              | Some x, Some PTotal => Some (CTotal (meant_money w l x))
              | Some x, _ => Some (CPerUnit (meant_money w l x))
              end.
Lemma stated_commodity w l al cs pays ts dir costs n x : clear_names w l -> journal_read w l al cs pays ts dir costs ->
  mentions_commodity l n -> l_get w n cs = Ok x -> cu_name x = commodity_meant w l n.
Proof.
  intros P J Hn E. pose proof (jr_new_commodities _ _ _ _ _ _ _ _ J) as [N _]. destruct (N n x E) as [D|(D & m & Hm & Lm & ->)].
  - unfold commodity_meant. rewrite D. auto.
  - cbn. transitivity (commodity_meant w l m); [|apply (cn_commodities _ _ P); auto].
    unfold commodity_meant. destruct (l_get w m (pl_commodities l)) as [y| |] eqn:Ey; auto. destruct (D y). eapply lower_get; eauto.
Qed.
Lemma stated_account w l al cs pays ts dir costs n x : clear_names w l -> journal_read w l al cs pays ts dir costs ->
  mentions_account l n -> l_get w n al = Ok x -> ac_name x = account_meant w l n.
Proof.
  intros P J Hn E. pose proof (jr_new_accounts _ _ _ _ _ _ _ _ J) as [N _]. destruct (N n x E) as [D|(D & m & Hm & Lm & ->)].
  - unfold account_meant. rewrite D. auto.
  - cbn. transitivity (account_meant w l m); [|apply (cn_accounts _ _ P); auto].
    unfold account_meant. destruct (l_get w m (pl_accounts l)) as [y| |] eqn:Ey; auto. destruct (D y). eapply lower_get; eauto.
Qed.
Lemma read_stated w l al cs pays ts dir costs t p p' : clear_names w l -> journal_read w l al cs pays ts dir costs ->
  In t (pl_txns l) -> In p (t_postings t) -> reads_posting w al pays cs p p' -> stated_read w l p p'.
Proof.
  intros P J Ht Hp (R1 & R2 & R3 & R4 & (y & Y1 & _ & _) & (a & A1 & A2 & A3 & A4)).
  assert (MA : mentions_account l (rp_account p)) by (exists t, p; auto).
  assert (NP : forall b x, In b (l_values al) -> ~ claims_payee w x b).
  { intros b x Hb (rx & Hr & _). pose proof (jr_new_accounts _ _ _ _ _ _ _ _ J) as [_ N]. destruct (N b Hb) as [D|(m & _ & _ & ->)].
    - rewrite (cn_payees _ _ P b D) in Hr. destruct Hr.
    - destruct Hr. }
  split; [|split; [|split; [|split]]].
  - rewrite A1. eapply stated_account; eauto. destruct (is_unknown w (rp_account p)); [|auto].
    destruct (A4 eq_refl _ Y1) as [X|[_ X]]; auto. exfalso. eapply NP; eauto.
  - auto.
  - unfold reads_money in R2. destruct (rp_balance p) as [[q c]|] eqn:E, (p_balance p') as [[|q' c']|]; try contradiction; auto.
    destruct R2 as (-> & x & X1 & ->). cbn. unfold meant_money. cbn. f_equal. f_equal. eapply stated_commodity; eauto.
    right. exists t, p, q. auto.
  - unfold reads_money in R1. destruct (rp_money p) as [[q c]|] eqn:E, (p_amount p') as [[|q' c']|]; try contradiction; auto.
    destruct R1 as (-> & x & X1 & ->). cbn. unfold meant_money. cbn. f_equal. f_equal. eapply stated_commodity; eauto.
    right. exists t, p, q. auto.
  - unfold reads_cost in R3. destruct (rp_cost p) as [[q c]|] eqn:E; auto. destruct R3 as (m & M1 & M2). unfold reads_money in M1.
    destruct m as [|q' c']; [contradiction|]. destruct M1 as (-> & x & X1 & ->).
    assert (Ec : cu_name x = commodity_meant w l c) by (eapply stated_commodity; eauto; right; exists t, p, q; auto).
    unfold meant_money. cbn. rewrite <- Ec. destruct (rp_cost_type p) as [[]|]; auto. contradiction.
Qed.
Definition stated_txn (w : world) (l : pledger) (t : txn rposting) (t' : txn posting) : Prop :=
  t_date t' = t_date t /\ Forall2 (stated_read w l) (t_postings t) (t_postings t') /\ Forall stated_posting (t_postings t) /\
  Forall (fun p => rp_money p = None -> rp_cost p = None) (t_postings t).
Lemma stated_all w l : stated_journal w l -> journal_txns l = pl_txns l /\ rules l = [].
Proof.
  intros P. unfold journal_txns, rules. pose proof (sj_txns _ _ P) as H. induction (pl_txns l) as [|t ts IH]; [split; reflexivity|].
  destruct IH as [I1 I2]; [intros x Hx; apply H; right; auto|]. cbn [filter]. unfold is_real_txn, is_rule.
  rewrite (H t) by (left; auto). split; [f_equal; exact I1|exact I2].
Qed.
Lemma read_stated_txns w l al cs pays ts dir costs : Forall rtxn_ok (pl_txns l) -> clear_names w l ->
  (forall t p, In t (journal_txns l) -> In p (t_postings t) -> stated_posting p) -> journal_read w l al cs pays ts dir costs ->
  Forall2 (stated_txn w l) (journal_txns l) ts.
Proof.
  intros OK C P J. pose proof (jr_txns _ _ _ _ _ _ _ _ J) as F.
  eapply forall2_known; [|exact F]. intros t t' Ht (R1 & R2 & _). pose proof Ht as Ht'. unfold journal_txns in Ht'. apply filter_In in Ht'. destruct Ht' as [HT TY]. split; [|split; [|split]].
  - unfold header in R1. injection R1 as E _ _ _ _. auto.
  - eapply forall2_known; [|exact R2]. intros p p' Hp R. eapply read_stated; eauto.
  - apply Forall_forall. intros p Hp. apply (P t); auto.
  - rewrite Forall_forall in OK. specialize (OK t HT). unfold rtxn_ok in OK. unfold is_real_txn in TY. destruct (t_type t); try discriminate. destruct OK as (_ & pay & OK).
    eapply Forall_impl; [|exact OK]. intros p (_ & _ & X) Em. apply X. auto.
Qed.
Lemma read_stated_all w l al cs pays ts dir costs : Forall rtxn_ok (pl_txns l) -> stated_journal w l -> journal_read w l al cs pays ts dir costs ->
  Forall2 (stated_txn w l) (pl_txns l) ts.
Proof.
  intros OK P J. rewrite <- (proj1 (stated_all w l P)). eapply read_stated_txns; eauto using sj_names. intros t p Ht. rewrite (proj1 (stated_all w l P)) in Ht. apply (sj_postings _ _ P t); auto.
Qed.

(** ** Values *)
Lemma stated_value w l p p' c : stated_read w l p p' -> posting_value Real c p' = if real_posting p then written_value w l p c else 0.
Proof.
  intros (_ & K & _ & A & C). unfold posting_value, written_value, real_posting. rewrite A, K, C. destruct (rp_money p) as [[q k]|]; cbn [option_map].
  2:{ destruct (kind_eqb (rp_kind p) Real); auto. }
  destruct (kind_eqb (rp_kind p) Real) eqn:Er; auto.
  assert (Ev : kind_eqb (rp_kind p) VirtualMustBalance = false) by (destruct (rp_kind p); cbn in *; congruence). rewrite Ev. cbn [andb].
  destruct (rp_cost p) as [x|]; cbn [value_at_cost].
  - destruct (rp_cost_type p) as [[]|]; cbn [value_at_cost m_amount meant_money fst]; rewrite ?neg_meant; auto.
  - apply neg_meant.
Qed.
Lemma stated_bracket w l ps ps' c : Forall2 (stated_read w l) ps ps' ->
  virtual_group ps' c = qsum (map (fun p => if kind_eqb (rp_kind p) VirtualMustBalance then written_value w l p c else 0) ps).
Proof.
  unfold virtual_group. induction 1 as [|p p' ps ps' R F IH]; [reflexivity|]. cbn [map]. rewrite !qsum_cons, IH. f_equal.
  destruct R as (_ & K & _ & A & C). unfold written_value. rewrite A, K, C. destruct (rp_money p) as [[q k]|]; cbn [option_map].
  2:{ destruct (kind_eqb (rp_kind p) VirtualMustBalance); auto. }
  destruct (kind_eqb (rp_kind p) VirtualMustBalance) eqn:Er; auto. cbn [andb].
  destruct (rp_cost p) as [x|]; cbn [value_at_cost virtual_value].
  - destruct (rp_cost_type p) as [[]|]; cbn [value_at_cost virtual_value m_amount meant_money fst]; rewrite ?neg_meant; auto.
  - apply neg_meant.
Qed.

(** ** The verdict *)
Section Walk.
Context (w : world) (l : pledger) (skip : bool).
Notation moved := (moved w l skip). Notation counts := (counts w l skip). Notation after_posting := (after_posting w l skip).
Notation true_of := (true_of w l skip). Notation all_true := (all_true w l skip). Notation value_sum := (value_sum w l skip).
Notation after_postings := (after_postings w l skip). Notation blank := (blank skip).

Lemma real_kind p p' : stated_read w l p p' -> (p_kind p' = Real <-> real_posting p = true).
Proof. intros (_ & K & _). unfold real_posting. rewrite K. destruct (rp_kind p); cbn; split; congruence. Qed.
Lemma diff_zero (a b : Qc) : a - b = 0 -> a = b.
Proof. intros H. transitivity (a - b + b); [ring|]. rewrite H. ring. Qed.
Lemma single m c d : money_amt m c <> 0 -> money_amt m d <> 0 -> c = d.
Proof. destruct m as [|a k]; cbn; [congruence|]. destruct (str_eqb_spec k c), (str_eqb_spec k d); congruence. Qed.
Lemma step_stated p p' s now r : stated_read w l p p' -> (forall a c, s_run s a c = now a c) -> spec_step skip s p' r ->
  match r with
  | Some s' => true_of now p /\ (forall a c, s_run s' a c = after_posting now p a c) /\
      s_elided s' = (s_elided s + if blank p then 1 else 0)%nat /\
      (forall c, s_sum s' c = s_sum s c + if real_posting p then counts now p c else 0)
  | None => ~ true_of now p
  end.
Proof.
  intros R N H. pose proof (real_kind _ _ R) as RK. pose proof R as (A & K & B & M & C).
  assert (FB : p_kind p' <> Real -> real_posting p = false) by (intros X; destruct (real_posting p); auto; exfalso; apply X, RK; auto).
  fold (its_account w l p) in A.
  destruct H as [V|m s' R0 A0 S1 S2 S3 S4|m a c R0 A0 Sk B0 Ne|m b s' R0 A0 B0 Sk S1 S2 S3 S4|b c c' R0 A0 B0 Sk Nc N1 N2|s' R0 A0 B0 S2 S3 S4].
  - apply FB in V. split; [intros X; congruence|]. split; [|split].
    + intros a c. unfold SpecAssert.after_posting. rewrite V. cbn. rewrite N. ring.
    + unfold SpecAssert.blank. rewrite V. cbn. lia.
    + intros c. rewrite V. ring.
  - apply RK in R0. rewrite A0 in M. destruct (rp_money p) as [y|] eqn:Ey; [|discriminate]. injection M as ->.
    assert (MV : forall c, moved now p c = money_amt (meant_money w l y) c) by (intros c; unfold SpecAssert.moved; rewrite Ey, neg_meant; auto).
    split; [|split; [|split]].
    + intros _ Sk q k Eb. rewrite Ey. unfold SpecAssert.after_posting. rewrite R0, str_eqb_refl, MV. cbn [andb].
      rewrite Eb in B. cbn in B. specialize (S1 Sk _ _ B). rewrite A, N in S1. exact S1.
    + intros a c. rewrite S2, N, A. unfold SpecAssert.after_posting. rewrite R0, MV. auto.
    + unfold SpecAssert.blank. rewrite R0, Ey. cbn. lia.
    + intros c. rewrite S3, R0. f_equal. unfold SpecAssert.counts. rewrite Ey.
      pose proof (stated_value w l p p' c R) as SV. rewrite R0 in SV. rewrite <- SV. unfold posting_value. rewrite A0.
      assert (KR : kind_eqb (p_kind p') Real = true) by (rewrite K; exact R0). rewrite KR. auto.
  - apply RK in R0. intros T. rewrite A0 in M. destruct (rp_money p) as [y|] eqn:Ey; [|discriminate]. injection M as ->.
    rewrite B0 in B. destruct (rp_balance p) as [[q k]|] eqn:Eb; [|discriminate]. cbn in B. injection B as -> ->.
    specialize (T R0 Sk q k Eb). rewrite Ey in T. apply Ne. etransitivity; [|exact T]. unfold SpecAssert.after_posting. rewrite R0, str_eqb_refl. cbn [andb].
    unfold SpecAssert.moved. rewrite Ey, <- neg_meant, A, N. auto.
  - apply RK in R0. rewrite A0 in M. destruct (rp_money p) as [y|] eqn:Ey; [discriminate|].
    rewrite B0 in B. destruct (rp_balance p) as [y|] eqn:Eb; [|discriminate]. injection B as ->.
    assert (MV : forall c, moved now p c = money_amt m c) by (intros c; unfold SpecAssert.moved; rewrite Ey, Eb, Sk, S1, neg_meant, A, N; auto).
    split; [|split; [|split]].
    + intros _ _ q k _. rewrite Ey. intros c d. rewrite !MV. apply single.
    + intros a c. rewrite S2, N, A. unfold SpecAssert.after_posting. rewrite R0, MV. auto.
    + unfold SpecAssert.blank. rewrite R0, Ey, Eb, Sk. cbn. lia.
    + intros c. rewrite S3, R0. f_equal. unfold SpecAssert.counts. rewrite Ey, MV. auto.
  - apply RK in R0. intros T. rewrite A0 in M. destruct (rp_money p) as [y|] eqn:Ey; [discriminate|].
    rewrite B0 in B. destruct (rp_balance p) as [[q k]|] eqn:Eb; [|discriminate]. injection B as ->.
    specialize (T R0 Sk q k Eb). rewrite Ey in T. rewrite A, N in N1, N2. rewrite neg_meant in N1, N2. apply Nc, T; unfold SpecAssert.moved; rewrite Ey, Eb, Sk; intros X; [apply N1|apply N2];
      apply diff_zero in X; exact X.
  - apply RK in R0. rewrite A0 in M. destruct (rp_money p) as [y|] eqn:Ey; [discriminate|].
    assert (MV : forall c, moved now p c = 0).
    { intros c. unfold SpecAssert.moved. rewrite Ey. destruct (rp_balance p) eqn:Eb; auto. destruct B0 as [B0| ->]; auto. rewrite B0 in B. discriminate. }
    split; [|split; [|split]].
    + intros _ Sk q k Eb. destruct B0 as [B0|B0]; [|congruence]. rewrite B0, Eb in B. discriminate.
    + intros a c. rewrite S2, N. unfold SpecAssert.after_posting. rewrite MV. destruct (_ && _); ring.
    + rewrite S4. unfold SpecAssert.blank. rewrite R0, Ey. cbn [andb]. destruct (rp_balance p) eqn:Eb; [|lia]. destruct B0 as [B0| ->]; [|lia]. rewrite B0 in B. discriminate.
    + intros c. rewrite S3, R0. unfold SpecAssert.counts. rewrite Ey, MV. ring.
Qed.
Lemma steps_stated ps ps' : Forall2 (stated_read w l) ps ps' -> forall s now r, (forall a c, s_run s a c = now a c) -> spec_steps skip s ps' r ->
  match r with
  | Some s' => all_true now ps /\ (forall a c, s_run s' a c = after_postings now ps a c) /\
      s_elided s' = (s_elided s + length (filter blank ps))%nat /\
      (forall c, s_sum s' c = s_sum s c + value_sum now ps c)
  | None => ~ all_true now ps
  end.
Proof.
  induction 1 as [|p p' ps ps' R F IH]; intros s now r N H.
  - inversion H; subst. split; [exact I|]. split; [auto|]. split; [cbn; lia|]. intros c. cbn. ring.
  - inversion H as [|? ? ? S|? ? s1 ? ? S H']; subst; pose proof (step_stated p p' s now _ R N S) as X; cbn iota in X.
    + intros [T _]. contradiction.
    + destruct X as (X1 & X2 & X3 & X4). specialize (IH s1 (after_posting now p) r X2 H'). destruct r as [s'|].
      * destruct IH as (Y1 & Y2 & Y3 & Y4). split; [split; auto|]. split; [exact Y2|]. split.
        { rewrite Y3, X3. cbn [filter]. destruct (blank p); cbn [length]; lia. }
        intros c. rewrite Y4, X4. cbn [SpecAssert.value_sum]. ring.
      * intros [_ T]. contradiction.
Qed.
Lemma verdict_stated t t' run now v : stated_txn w l t t' -> (forall a c, run a c = now a c) -> spec_verdict skip t' run v ->
  (v = Accepted <-> in_order_now w l skip now t).
Proof.
  intros (_ & F & P & _) N H.
  assert (EV : forall c, virtual_group (t_postings t') c = kind_value w l VirtualMustBalance t c) by (intros c; apply stated_bracket; auto).
  assert (EV' : forall c, kind_value w l VirtualMustBalance t c = virtual_group (t_postings t') c) by (intros; auto).
  assert (ER : forall s, spec_steps skip (start run) (t_postings t') (Some s) ->
    s_elided s = length (filter blank (t_postings t)) /\ (forall c, s_sum s c = value_sum now (t_postings t) c) /\ all_true now (t_postings t)).
  { intros s S. destruct (steps_stated _ _ F (start run) now _ N S) as (T & _ & E1 & E2). split; [cbn in E1; auto|]. split; auto.
    intros c. rewrite E2. cbn. ring. }
  unfold in_order_now. destruct H as [V|V S|s V S N1 V2|s V S N1 V2|s V S N1|s n V S N1].
  - split; [discriminate|]. intros [X _]. exfalso. apply V. eapply fine_ext; eauto.
  - pose proof (steps_stated _ _ F (start run) now _ N S) as X. split; [discriminate|]. intros (_ & T & _). contradiction.
  - destruct (ER s S) as (E1 & E2 & T). split; auto. intros _. split; [eapply fine_ext; eauto|]. split; auto.
    destruct (filter blank (t_postings t)) as [|x [|y z]]; cbn in E1; try lia. eapply fine_ext; eauto.
  - destruct (ER s S) as (E1 & E2 & T). split; [discriminate|]. intros (_ & _ & X). exfalso.
    destruct (filter blank (t_postings t)) as [|x [|y z]]; cbn in E1; try lia. apply V2. eapply fine_ext; [|exact X]. auto.
  - destruct (ER s S) as (E1 & E2 & T). split; auto. intros _. split; [eapply fine_ext; eauto|]. split; auto.
    destruct (filter blank (t_postings t)) as [|x [|y z]]; cbn in E1; try lia.
  - destruct (ER s S) as (E1 & E2 & T). split; [discriminate|]. intros (_ & _ & X). exfalso.
    destruct (filter blank (t_postings t)) as [|x [|y z]]; cbn in E1; try lia.
Qed.

(** ** What a transaction moves *)
(** The part of the real postings with amounts. *)
Fixpoint given_adds (K : kind -> bool) (A : str -> bool) (now : holdings) (ps : list rposting) (c : str) : Qc :=
  match ps with
  | [] => 0
  | p :: r => (if K (rp_kind p) && A (its_account w l p) && real_posting p && negb (blank p) then moved now p c else 0) +
              given_adds K A (after_posting now p) r c
  end.
Definition blank_adds (rest : str -> Qc) (K : kind -> bool) (A : str -> bool) (ps : list rposting) (c : str) : Qc :=
  qsum (map (fun p => if K (rp_kind p) && A (its_account w l p) then rest c else 0) (filter blank ps)).
Definition virtual_adds (K : kind -> bool) (A : str -> bool) (ps : list rposting) (c : str) : Qc :=
  qsum (map (fun p => if K (rp_kind p) && A (its_account w l p) then moved nothing p c else 0) (filter (fun p => negb (real_posting p)) ps)).
Lemma adds_split rest K A ps : Forall stated_posting ps -> forall now c,
  adds_to w l skip rest K A now ps c = given_adds K A now ps c + blank_adds rest K A ps c + virtual_adds K A ps c.
Proof.
  induction 1 as [|p ps (_ & V & _) F IH]; intros now c; [cbn; change (qsum []) with 0; ring|]. cbn [adds_to given_adds]. rewrite IH. unfold blank_adds, virtual_adds. cbn [filter].
  destruct (real_posting p) eqn:Er; cbn [negb].
  - destruct (blank p) eqn:Eb; cbn [map negb andb]; rewrite ?qsum_cons; destruct (K (rp_kind p) && A (its_account w l p)); cbn [andb]; ring.
  - assert (Eb : blank p = false) by (unfold SpecAssert.blank; rewrite Er; auto). rewrite Eb. cbn [map negb andb]. rewrite qsum_cons.
    assert (Em : moved now p c = moved nothing p c).
    { unfold SpecAssert.moved. destruct (rp_money p) eqn:Em; auto. exfalso. apply V; auto. unfold real_posting in Er. intros X. rewrite X in Er. discriminate. }
    rewrite Em. destruct (K (rp_kind p) && A (its_account w l p)); cbn [andb]; ring.
Qed.
Lemma given_blank p p' : stated_read w l p p' -> elided skip p' = blank p /\ given skip p' = real_posting p && negb (blank p).
Proof.
  intros (_ & K & B & M & _). assert (E : elided skip p' = blank p).
  { unfold elided, SpecAssert.blank, real_posting. rewrite K, B, M. destruct (rp_kind p), (rp_money p), (rp_balance p); reflexivity. }
  split; auto. unfold given. rewrite E, K. reflexivity.
Qed.
Lemma blank_still now p : real_posting p && negb (blank p) = false -> forall a c, after_posting now p a c = now a c.
Proof.
  intros H a c. unfold SpecAssert.after_posting. destruct (real_posting p) eqn:Er; cbn [andb]; [|ring]. cbn in H. apply negb_false_iff in H.
  assert (E : moved now p c = 0). { unfold SpecAssert.moved. unfold SpecAssert.blank in H. rewrite Er in H. cbn in H. destruct (rp_money p); [discriminate|]. destruct (rp_balance p); auto. rewrite H. auto. }
  rewrite E. destruct (str_eqb _ _); ring.
Qed.
Lemma app_same {A} (a b : list A) x y a' b' : a ++ x :: b = a' ++ y :: b' -> length a = length a' -> a = a' /\ x = y.
Proof.
  revert a'. induction a as [|z a IH]; intros [|z' a'] E Len; try discriminate; cbn in E.
  - injection E as -> _. auto.
  - injection E as -> E. injection Len as Len. destruct (IH a' E Len) as [-> ->]. auto.
Qed.
Lemma keeps_length ps ks : Forall2 keeps ps ks -> length ps = length ks.
Proof. induction 1; cbn; auto. Qed.
(** The postings of the journal and those of the ledger, one after the other. *)
Inductive walked : holdings -> list rposting -> list posting -> Prop :=
| wk_nil now : walked now [] []
| wk_skip now p ps ks : real_posting p && negb (blank p) = false -> walked (after_posting now p) ps ks -> walked now (p :: ps) ks
| wk_keep now p ps q ks m : real_posting p && negb (blank p) = true -> p_account q = its_account w l p -> p_kind q = Real -> p_amount q = Some m ->
    amount_of w l skip now p m -> (forall c, posting_value Real c q = counts now p c) ->
    walked (after_posting now p) ps ks -> walked now (p :: ps) (q :: ks).
Lemma kept_walked run t1 t2 tail : (skip = false -> assigned run t1 t2) ->
  forall rpost post, Forall2 (stated_read w l) rpost post -> Forall (fun p => rp_money p = None -> rp_cost p = None) rpost ->
  forall pre kpre kpost now, t_postings t1 = pre ++ post -> t_postings t2 = kpre ++ kpost ++ tail ->
  Forall2 keeps (filter (given skip) pre) kpre -> Forall2 keeps (filter (given skip) post) kpost ->
  (forall a k, now a k = run a k + account_sum kpre a k) -> walked now rpost kpost.
Proof.
  intros HA rpost post F. induction F as [|p p' rpost post R F IH]; intros CO pre kpre kpost now E1 E2 K1 K2 N.
  - cbn in K2. inversion K2; subst. constructor.
  - inversion CO as [|? ? CO1 CO2]; subst. destruct (given_blank p p' R) as [Eb Eg]. cbn [filter] in K2. rewrite Eg in K2.
    destruct (real_posting p && negb (blank p)) eqn:G.
    + inversion K2 as [|? q ? kpost' Kq K2']; subst. clear K2. pose proof R as (RA & RK & RB & RM & RC). pose proof Kq as (Q1 & Q2 & Q3 & Q4 & _ & _ & _ & Q5 & Q6).
      apply andb_true_iff in G as G'. destruct G' as [Gr Gb]. apply negb_true_iff in Gb.
      assert (AM : exists m, p_amount q = Some m /\ amount_of w l skip now p m).
      { destruct (rp_money p) as [[a k0]|] eqn:Ey.
        - cbn in RM. rewrite Q6 by congruence. rewrite RM. eexists. split; [reflexivity|]. split.
          + intros k. unfold SpecAssert.moved. rewrite Ey. apply neg_meant.
          + intros a' k' E. rewrite Ey in E. injection E as <- <-. reflexivity.
        - destruct (rp_balance p) as [b|] eqn:Ebal; [|unfold SpecAssert.blank in Gb; rewrite Gr, Ey, Ebal in Gb; discriminate].
          assert (Sk : skip = false) by (unfold SpecAssert.blank in Gb; rewrite Gr, Ey, Ebal in Gb; auto).
          cbn in RM, RB. assert (RR : p_kind p' = Real) by (apply (real_kind p p' R); auto).
          destruct (HA Sk pre p' post _ E1 RR RM RB) as (before & q' & after & m & X1 & X2 & X3 & X4 & X5).
          rewrite Sk in K1. rewrite E2 in X1. cbn [app] in X1. destruct (app_same _ _ _ _ _ _ X1) as [<- <-].
          { rewrite <- (keeps_length _ _ K1), (keeps_length _ _ X2). auto. }
          exists m. split; auto. split; [|congruence]. intros k. rewrite X5. unfold SpecAssert.moved. rewrite Ey, Ebal, Sk, neg_meant, N. rewrite RA. reflexivity. }
      destruct AM as (m & Em & MV).
      assert (QR : kind_eqb (p_kind q) Real = true) by (rewrite Q4, RK; exact Gr).
      assert (RR : p_kind q = Real) by (destruct (p_kind q); auto; discriminate).
      apply (wk_keep now p rpost q kpost' m); auto; [rewrite Q1, RA; reflexivity| |].
      * intros c. unfold posting_value. rewrite Em, QR. unfold SpecAssert.counts. destruct (rp_money p) as [y|] eqn:Ey.
        { pose proof (stated_value w l p p' c R) as SV. rewrite Gr in SV. rewrite <- SV. unfold posting_value. cbn in RM. rewrite RM.
          assert (KR : kind_eqb (p_kind p') Real = true) by (rewrite RK; exact Gr). rewrite KR, Q3. rewrite Q6, RM in Em by congruence. injection Em as <-. auto. }
        { rewrite Q3, RC, CO1 by auto. cbn [value_at_cost]. apply MV. }
      * apply (IH CO2 (pre ++ [p']) (kpre ++ [q]) kpost' (after_posting now p)).
        { rewrite E1, <- app_assoc. auto. } { rewrite E2, <- app_assoc. auto. }
        { rewrite filter_app. cbn [filter]. rewrite Eg; cbn iota. apply Forall2_app; auto. } { auto. }
        { intros a k. rewrite account_sum_app, account_sum_cons. unfold account_sum at 2. cbn [map]. change (qsum []) with 0. unfold posting_to. rewrite Em, QR, Q1, RA.
          unfold SpecAssert.after_posting. rewrite N, Gr. cbn [andb]. fold (its_account w l p). rewrite (proj1 MV).
          destruct (str_eqb_spec (its_account w l p) a) as [<-|Na]; [rewrite str_eqb_refl; ring|]. destruct (str_eqb_spec a (its_account w l p)); [congruence|]. ring. }
    + apply wk_skip; auto. apply (IH CO2 (pre ++ [p']) kpre kpost (after_posting now p)).
      { rewrite E1, <- app_assoc. auto. } { auto. }
      { rewrite filter_app. cbn [filter]. rewrite Eg. rewrite app_nil_r. auto. } { auto. }
      { intros a k. rewrite blank_still by auto. apply N. }
Qed.
Lemma walked_sums now ps ks K A c : walked now ps ks -> qsum (map (counted K A c) ks) = given_adds K A now ps c /\ group_value Real ks c = value_sum now ps c.
Proof.
  induction 1 as [now|now p ps ks G H [I1 I2]|now p ps q ks m G Q1 QR Em MV PV H [I1 I2]]; [split; reflexivity| |]; cbn [given_adds SpecAssert.value_sum]; rewrite <- andb_assoc, G.
  - rewrite I1, I2. rewrite andb_false_r. split; [ring|].
    destruct (real_posting p) eqn:Gr; [|ring]. cbn in G. apply negb_false_iff in G. unfold SpecAssert.counts. unfold SpecAssert.blank in G. rewrite Gr in G. cbn in G.
    unfold SpecAssert.moved. destruct (rp_money p); [discriminate|]. destruct (rp_balance p); [rewrite G|]; ring.
  - apply andb_true_iff in G. destruct G as [Gr _]. cbn [map]. rewrite qsum_cons, I1, group_value_cons, I2, PV, Gr. split; f_equal.
    unfold counted, amount_in. assert (RK : rp_kind p = Real) by (unfold real_posting in Gr; destruct (rp_kind p); auto; discriminate).
    rewrite QR, RK, Q1, Em, (proj1 MV). rewrite andb_true_r. reflexivity.
Qed.
Lemma ledger_walked t t1 t2 run prs now : stated_txn w l t t1 -> (forall a k, run a k = now a k) -> ledger_txn skip run t1 t2 prs ->
  exists kept fills, t_postings t2 = kept ++ fills ++ filter (fun p => negb (kind_eqb (p_kind p) Real)) (t_postings t1) /\ walked now (t_postings t) kept /\
    (forall q, In q fills -> p_kind q = Real /\ p_amount q <> None /\ exists p, filter blank (t_postings t) = [p] /\ p_account q = its_account w l p) /\
    (forall p, filter blank (t_postings t) = [p] -> NoDup (map p_amount fills) /\
       forall m, In (Some m) (map p_amount fills) <-> exists a c, m = M a c /\ a = rest_of w l skip now t c /\ a <> 0).
Proof.
  intros PT N (V & _ & (kept & fills & E & F2 & HF & HE) & _ & _ & _ & HA). destruct PT as (_ & F & P & CO).
  assert (W : walked now (t_postings t) kept).
  { apply (kept_walked run t1 t2 (fills ++ filter (fun p => negb (kind_eqb (p_kind p) Real)) (t_postings t1)) HA _ _ F CO [] [] kept now); auto; [constructor|].
    intros a x. rewrite N. unfold account_sum. cbn. change (qsum []) with 0. ring. }
  exists kept, fills. do 2 (split; auto).
  assert (EL : Forall2 (stated_read w l) (filter blank (t_postings t)) (filter (elided skip) (t_postings t1))).
  { clear -F. induction F as [|p p' ps ps' R F IH]; cbn; auto. rewrite (proj1 (given_blank p p' R)). destruct (blank p); auto. }
  split.
  - intros q Hq. destruct (HF q Hq) as (Q1 & _ & _ & QA & _ & p & X & Q2 & _). do 2 (split; auto). rewrite X in EL. inversion EL as [|b ? bs ? Rb EL' Ex]; subst. inversion EL'; subst.
    exists b. split; auto. rewrite Q2. apply Rb.
  - intros p Hp. rewrite Hp in EL. inversion EL as [|? p1 ? ? Rb EL' Ex Ey]; subst. destruct HE as [ND I]; [rewrite <- Ey; discriminate|]. split; auto.
    intros m. rewrite I. unfold rest_of. split; intros (a & c & X1 & X2 & X3); exists a, c; rewrite (proj2 (walked_sums now _ _ (fun _ => true) (fun _ => true) c W)) in *; auto.
Qed.
Lemma stated_moves t t1 t2 run prs now K A c : stated_txn w l t t1 -> (forall a k, run a k = now a k) -> ledger_txn skip run t1 t2 prs ->
  qsum (map (counted K A c) (t_postings t2)) = txn_adds_to w l skip K A now t c.
Proof.
  intros PT N LT. destruct (ledger_walked t t1 t2 run prs now PT N LT) as (kept & fills & E & W & HF & HE).
  pose proof (proj1 (verdict_stated _ _ _ _ _ PT N (proj1 LT)) eq_refl) as (_ & _ & IO).
  destruct PT as (_ & F & P & CO). unfold txn_adds_to. rewrite adds_split by auto.
  rewrite E, !map_app, !qsum_app, (proj1 (walked_sums _ _ _ K A c W)). rewrite <- Qcplus_assoc. f_equal. f_equal.
  - unfold blank_adds. destruct (filter blank (t_postings t)) as [|b [|b2 bs]] eqn:Eb; [| |contradiction].
    + assert (fills = []) as ->; [|reflexivity]. destruct fills as [|q fs]; auto. destruct (HF q) as (_ & _ & p & X & _); [left; auto|]. discriminate.
    + destruct (HE b eq_refl) as [ND I]. cbn [map]. rewrite qsum_cons. change (qsum []) with 0. rewrite Qcplus_0_r.
      assert (RK : rp_kind b = Real).
      { assert (X : In b (filter blank (t_postings t))) by (rewrite Eb; left; auto). apply filter_In in X. destruct X as [_ X]. unfold SpecAssert.blank, real_posting in X. destruct (rp_kind b); auto; discriminate. }
      assert (HQ : forall q, In q fills -> p_kind q = Real /\ p_account q = its_account w l b).
      { intros q Hq. destruct (HF q Hq) as (Q1 & _ & p & X & Q2). injection X as <-. auto. }
      assert (S : qsum (map (amount_in c) fills) = rest_of w l skip now t c).
      { rewrite <- (fills_sum (rest_of w l skip now t) c (map p_amount fills)); auto.
        - rewrite map_map. reflexivity.
        - intros x Hx. apply in_map_iff in Hx. destruct Hx as (q & <- & Hq). apply (HF q Hq). }
      rewrite RK, <- S. clear -HQ. induction fills as [|q fs IH]; [destruct (_ && _); reflexivity|]. cbn [map]. rewrite !qsum_cons, IH by (intros; apply HQ; right; auto).
      unfold counted. destruct (HQ q) as [-> ->]; [left; auto|]. destruct (K Real && A (its_account w l b)); ring.
  - unfold virtual_adds. clear -F P. induction F as [|p p' ps ps' R F IH]; [reflexivity|]. inversion P as [|? ? (_ & V & _) P']; subst. cbn [filter].
    destruct R as (RA & RK & _ & RM & _). unfold real_posting at 1. rewrite <- RK. destruct (kind_eqb (p_kind p') Real) eqn:Er; cbn [negb]; [auto|]. cbn [map]. rewrite !qsum_cons, IH by auto. f_equal.
    unfold counted, amount_in. rewrite RA, RM, RK. fold (its_account w l p). unfold SpecAssert.moved. destruct (rp_money p) eqn:Ey; cbn [option_map]; [rewrite neg_meant; auto|].
    exfalso. apply V; auto. rewrite <- RK. intros X. rewrite X in Er. discriminate.
Qed.
Lemma account_counted ps a c : account_sum ps a c = qsum (map (counted (fun k => kind_eqb k Real) (str_eqb a) c) ps).
Proof.
  unfold account_sum. f_equal. apply map_ext. intros p. unfold posting_to, counted, amount_in.
  destruct (p_amount p), (kind_eqb (p_kind p) Real); cbn [andb]; auto; destruct (str_eqb_spec (p_account p) a), (str_eqb_spec a (p_account p)); congruence.
Qed.

(** ** The whole ledger *)
Lemma run_stated us sorted run ts' imps now : Forall2 (stated_txn w l) us sorted -> (forall a c, run a c = now a c) -> ledger_run skip run sorted ts' imps ->
  all_in_order w l skip now us /\
  forall o A c, qsum (map (txn_counted (asked_for o) A c) (filter (window_of o) ts')) = total_added w l skip o A now us c.
Proof.
  intros F N R. revert us now F N. induction R as [run|run run' t1 t2 prs ts ts' prices LT NR R IH]; intros us now F N; inversion F as [|t ? us' ? PT F']; subst.
  - split; [exact I|]. intros. reflexivity.
  - assert (N' : forall a c, run' a c = after_txn w l skip now t a c).
    { intros a c. rewrite NR, N, account_counted. unfold after_txn. f_equal. eapply stated_moves; eauto. }
    destruct (IH us' _ F' N') as [I1 I2]. split.
    + split; auto. eapply verdict_stated; eauto. apply LT.
    + intros o A c. cbn [filter total_added]. rewrite <- I2.
      assert (E : window_of o t2 = in_window o t).
      { unfold window_of, in_window. destruct LT as (_ & (D & _) & _). destruct PT as (D' & _). rewrite D, D'. auto. }
      rewrite E. destruct (in_window o t); cbn [map]; [|ring]. rewrite qsum_cons. f_equal. unfold txn_counted. eapply stated_moves; eauto.
Qed.
Lemma stopped_stated us sorted run now v : Forall2 (stated_txn w l) us sorted -> (forall a c, run a c = now a c) -> stopped_run skip run sorted v ->
  ~ all_in_order w l skip now us.
Proof.
  intros F N R. revert us now F N. induction R as [run t1 ts v V Nv|run run' t1 t2 prs ts v LT NR R IH]; intros us now F N AA; inversion F as [|t ? us' ? PT F']; subst; destruct AA as (A1 & A2).
  - apply Nv. eapply verdict_stated; eauto.
  - eapply (IH us' (after_txn w l skip now t)); eauto. intros a c. rewrite NR, N, account_counted. unfold after_txn. f_equal. eapply stated_moves; eauto.
Qed.
End Walk.
