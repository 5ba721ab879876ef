(** Facts for C73: from the journal as written to the postings of the ledger. *)
From Coq Require Import Lia.
From Verif Require Import Base BaseFacts Numerals Money Alist Comment Txn Expr Filter Price Tokens Ledger Reports Spec MoneyFacts SpecList SpecTxn TxnFacts SpecLedger
  LedgerFacts LedgerFacts2 SpecQuery SpecReports SpecBook.
Open Scope Qc_scope.

(** A plain posting and its posting of the ledger before balancing. *)
Definition meant_money (w : world) (l : pledger) (m : Qc * str) : money := M (fst m) (commodity_meant w l (snd m)).
Definition plain_read (w : world) (l : pledger) (p : rposting) (p' : posting) : Prop :=
  p_account p' = account_meant w l (rp_account p) /\ p_kind p' = rp_kind p /\ p_balance p' = None /\
  p_amount p' = option_map (meant_money w l) (rp_money p) /\
  p_cost p' = match rp_cost p, rp_cost_type p with
              | None, _ => None
              | Some x, Some PTotal => Some (CTotal (meant_money w l x))
              | Some x, _ => Some (CPerUnit (meant_money w l x))
              end.
Lemma lower_get {T} w n m (l : alist T) x : w_lower w n = w_lower w m -> l_get w n l = Ok x -> l_get w m l = Ok x.
Proof.
  unfold l_get. intros ->. destruct (hget str_eqb (w_lower w m) (l_list l)); auto. destruct (hget str_eqb (w_lower w m) (l_aliases l)); auto. discriminate.
Qed.
Lemma commodity_found w l al cs pays ts dir costs n x : plain_journal w l -> journal_read w l al cs pays ts dir costs ->
  mentions_commodity l n -> l_get w n cs = Ok x -> cu_name x = commodity_meant w l n.
Proof.
  intros P J Hn E. pose proof (jr_new_commodities _ _ _ _ _ _ _ _ J) as [N _]. destruct (N n x E) as [D|(D & m & Hm & Lm & ->)].
  - unfold commodity_meant. rewrite D. auto.
  - cbn. transitivity (commodity_meant w l m); [|apply (pj_commodities _ _ P); auto].
    unfold commodity_meant. destruct (l_get w m (pl_commodities l)) as [y| |] eqn:Ey; auto. destruct (D y). eapply lower_get; eauto.
Qed.
Lemma account_found w l al cs pays ts dir costs n x : plain_journal w l -> journal_read w l al cs pays ts dir costs ->
  mentions_account l n -> l_get w n al = Ok x -> ac_name x = account_meant w l n.
Proof.
  intros P J Hn E. pose proof (jr_new_accounts _ _ _ _ _ _ _ _ J) as [N _]. destruct (N n x E) as [D|(D & m & Hm & Lm & ->)].
  - unfold account_meant. rewrite D. auto.
  - cbn. transitivity (account_meant w l m); [|apply (pj_accounts _ _ P); auto].
    unfold account_meant. destruct (l_get w m (pl_accounts l)) as [y| |] eqn:Ey; auto. destruct (D y). eapply lower_get; eauto.
Qed.
Lemma read_plain w l al cs pays ts dir costs t p p' : plain_journal w l -> journal_read w l al cs pays ts dir costs ->
  In t (pl_txns l) -> In p (t_postings t) -> reads_posting w al pays cs p p' -> plain_read w l p p'.
Proof.
  intros P J Ht Hp (R1 & R2 & R3 & R4 & (y & Y1 & _ & _) & (a & A1 & A2 & A3 & A4)).
  destruct (pj_postings _ _ P t p Ht Hp) as (B1 & _ & _ & _).
  assert (MA : mentions_account l (rp_account p)) by (exists t, p; auto).
  assert (NP : forall b x, In b (l_values al) -> ~ claims_payee w x b).
  { intros b x Hb (rx & Hr & _). pose proof (jr_new_accounts _ _ _ _ _ _ _ _ J) as [_ N]. destruct (N b Hb) as [D|(m & _ & _ & ->)].
    - rewrite (pj_payees _ _ P b D) in Hr. destruct Hr.
    - destruct Hr. }
  split; [|split; [|split; [|split]]].
  - rewrite A1. eapply account_found; eauto. destruct (is_unknown w (rp_account p)); [|auto].
    destruct (A4 eq_refl _ Y1) as [X|[_ X]]; auto. exfalso. eapply NP; eauto.
  - auto.
  - rewrite B1 in R2. unfold reads_money in R2. destruct (p_balance p'); [contradiction|auto].
  - unfold reads_money in R1. destruct (rp_money p) as [[q c]|] eqn:E, (p_amount p') as [[|q' c']|]; try contradiction; auto.
    destruct R1 as (-> & x & X1 & ->). cbn. unfold meant_money. cbn. f_equal. f_equal. eapply commodity_found; eauto.
    right. exists t, p, q. auto.
  - unfold reads_cost in R3. destruct (rp_cost p) as [[q c]|] eqn:E; auto. destruct R3 as (m & M1 & M2). unfold reads_money in M1.
    destruct m as [|q' c']; [contradiction|]. destruct M1 as (-> & x & X1 & ->).
    assert (Ec : cu_name x = commodity_meant w l c) by (eapply commodity_found; eauto; right; exists t, p, q; auto).
    unfold meant_money. cbn. rewrite <- Ec. destruct (rp_cost_type p) as [[]|]; auto. contradiction.
Qed.
(** The same for all the transactions. *)
Definition plain_txn (w : world) (l : pledger) (t : txn rposting) (t' : txn posting) : Prop :=
  t_date t' = t_date t /\ Forall2 (plain_read w l) (t_postings t) (t_postings t') /\ Forall plain_posting (t_postings t).
Lemma journal_all w l : plain_journal w l -> journal_txns l = pl_txns l /\ rules l = [].
Proof.
  intros P. unfold journal_txns, rules. pose proof (pj_txns _ _ P) as H. induction (pl_txns l) as [|t ts IH]; [split; reflexivity|].
  destruct IH as [I1 I2]; [intros x Hx; apply H; right; auto|]. cbn [filter]. unfold is_real_txn, is_rule.
  rewrite (H t) by (left; auto). split; [f_equal; exact I1|exact I2].
Qed.
Lemma forall2_known {A B} (R Q : A -> B -> Prop) l l' : (forall x y, In x l -> R x y -> Q x y) -> Forall2 R l l' -> Forall2 Q l l'.
Proof.
  intros H F. induction F as [|x y l l' Hr F IH]; constructor; [apply H; [left|]; auto|]. apply IH. intros. apply H; [right|]; auto.
Qed.
Lemma read_all w l al cs pays ts dir costs : plain_journal w l -> journal_read w l al cs pays ts dir costs ->
  Forall2 (plain_txn w l) (pl_txns l) ts.
Proof.
  intros P J. pose proof (jr_txns _ _ _ _ _ _ _ _ J) as F. rewrite (proj1 (journal_all w l P)) in F.
  eapply forall2_known; [|exact F]. intros t t' Ht (R1 & R2 & _). split; [|split].
  - unfold header in R1. injection R1 as E _ _ _ _. auto.
  - eapply forall2_known; [|exact R2]. intros p p' Hp R. eapply read_plain; eauto.
  - apply Forall_forall. intros p Hp. apply (pj_postings _ _ P t); auto.
Qed.

(** ** Values *)
Lemma neg_meant w l m c : money_amt (meant_money w l m) c = written_in w l m c.
Proof. destruct m as [q k]. reflexivity. Qed.
Lemma real_value w l p p' c : plain_read w l p p' -> posting_value Real c p' = if kind_eqb (rp_kind p) Real then written_value w l p c else 0.
Proof.
  intros (_ & K & _ & A & C). unfold posting_value, written_value. rewrite A, K, C. destruct (rp_money p) as [[q k]|]; cbn [option_map].
  2:{ destruct (kind_eqb (rp_kind p) Real); auto. }
  destruct (kind_eqb (rp_kind p) Real) eqn:Er; auto.
  assert (Ev : kind_eqb (rp_kind p) VirtualMustBalance = false) by (destruct (rp_kind p); cbn in *; congruence). rewrite Ev. cbn [andb].
  destruct (rp_cost p) as [x|]; cbn [value_at_cost].
  - destruct (rp_cost_type p) as [[]|]; cbn [value_at_cost m_amount meant_money fst]; rewrite ?neg_meant; auto.
  - apply neg_meant.
Qed.
Lemma real_group w l ps ps' c : Forall2 (plain_read w l) ps ps' ->
  group_value Real ps' c = qsum (map (fun p => if kind_eqb (rp_kind p) Real then written_value w l p c else 0) ps).
Proof.
  unfold group_value. induction 1 as [|p p' ps ps' R F IH]; [reflexivity|]. cbn [map]. rewrite !qsum_cons, IH. f_equal. apply real_value. auto.
Qed.
Lemma bracket_group w l ps ps' c : Forall2 (plain_read w l) ps ps' ->
  virtual_group ps' c = qsum (map (fun p => if kind_eqb (rp_kind p) VirtualMustBalance then written_value w l p c else 0) ps).
Proof.
  unfold virtual_group. induction 1 as [|p p' ps ps' R F IH]; [reflexivity|]. cbn [map]. rewrite !qsum_cons, IH. f_equal.
  destruct R as (_ & K & _ & A & C). unfold written_value. rewrite A, K, C. destruct (rp_money p) as [[q k]|]; cbn [option_map].
  2:{ destruct (kind_eqb (rp_kind p) VirtualMustBalance); auto. }
  destruct (kind_eqb (rp_kind p) VirtualMustBalance) eqn:Er; auto. cbn [andb].
  destruct (rp_cost p) as [x|]; cbn [value_at_cost virtual_value].
  - destruct (rp_cost_type p) as [[]|]; cbn [value_at_cost virtual_value m_amount meant_money fst]; rewrite ?neg_meant; auto.
  - apply neg_meant.
Qed.
Lemma fine_ext v v' : (forall c, v c = v' c) -> fine v -> fine v'.
Proof.
  intros E [B|[(c & C) (d & D)]]; [left; intros c; rewrite <- E; apply B|right; split; [exists c|exists d]; rewrite <- E; auto].
Qed.

(** ** The verdict *)
Lemma steps_plain w l skip ps ps' s : Forall2 (plain_read w l) ps ps' -> Forall plain_posting ps ->
  forall r, spec_steps skip s ps' r -> exists s', r = Some s' /\
    s_elided s' = (s_elided s + length (filter open_posting ps))%nat /\ (forall c, s_sum s' c = s_sum s c + group_value Real ps' c).
Proof.
  intros F. revert s. induction F as [|p p' ps ps' R F IH]; intros s Hp r H.
  - inversion H; subst. exists s. split; auto. split; [cbn; lia|]. intros c. unfold group_value. cbn. change (qsum []) with 0. ring.
  - inversion Hp as [|? ? (B & _ & V & _) Hp']; subst. pose proof R as (_ & K & B' & A & C).
    assert (N : ~ spec_step skip s p' None).
    { intros S. inversion S; congruence. }
    inversion H as [|? ? ? S|? ? s1 ? ? S H']; subst; [contradiction|].
    destruct (IH s1 Hp' _ H') as (s' & -> & E1 & E2). exists s'. split; auto. rewrite E1. cbn [filter].
    assert (G : forall c, group_value Real (p' :: ps') c = posting_value Real c p' + group_value Real ps' c) by (intros c; unfold group_value; cbn [map]; apply qsum_cons).
    assert (Kr : p_kind p' = Real -> kind_eqb (rp_kind p) Real = true) by (rewrite K; intros ->; reflexivity).
    assert (Kv : p_kind p' <> Real -> kind_eqb (rp_kind p) Real = false /\ kind_eqb (p_kind p') Real = false)
      by (rewrite K; destruct (rp_kind p); intros X; split; auto; congruence).
    assert (Kr' : p_kind p' = Real -> kind_eqb (p_kind p') Real = true) by (intros ->; reflexivity).
    unfold open_posting. remember (Some s1) as r1 eqn:Er1. destruct S as [V0|m s2 R0 A0 _ _ S2 S3|? ? ? R0 A0 X0 B0|? ? ? R0 A0 B0|? ? ? R0 A0 B0|s2 R0 A0 _ _ S2 S3]; try discriminate; try congruence; injection Er1 as ->.
    + destruct (Kv V0) as [X1 X2]. rewrite X1. cbn [andb]. split; [lia|]. intros c. rewrite E2, G. unfold posting_value. rewrite X2. destruct (p_amount p'); ring.
    + rewrite (Kr R0). rewrite A in A0. destruct (rp_money p) as [y|] eqn:Ey; [|discriminate]. cbn [andb]. split; [lia|].
      intros c. rewrite E2, G, S2. unfold posting_value. rewrite A, (Kr' R0). cbn [option_map] in *. injection A0 as <-. ring.
    + rewrite (Kr R0). rewrite A in A0. destruct (rp_money p) as [y|] eqn:Ey; [discriminate|]. cbn [andb length]. split; [lia|].
      intros c. rewrite E2, G, S2. unfold posting_value. rewrite A. cbn [option_map]. ring.
Qed.
Lemma verdict_plain w l skip t t' run v : plain_txn w l t t' -> spec_verdict skip t' run v -> (v = Accepted <-> in_order w l t).
Proof.
  intros (_ & F & P) H.
  assert (EV : forall c, virtual_group (t_postings t') c = kind_value w l VirtualMustBalance t c) by (intros c; apply bracket_group; auto).
  assert (EV' : forall c, kind_value w l VirtualMustBalance t c = virtual_group (t_postings t') c) by (intros; auto).
  assert (ER : forall s, spec_steps skip (start run) (t_postings t') (Some s) ->
    s_elided s = length (filter open_posting (t_postings t)) /\ forall c, s_sum s c = kind_value w l Real t c).
  { intros s S. destruct (steps_plain w l skip _ _ _ F P _ S) as (s' & E & E1 & E2). injection E as <-. split; [cbn in E1; auto|].
    intros c. rewrite E2. cbn. rewrite (real_group w l _ _ c F). unfold kind_value. ring. }
  unfold in_order. destruct H as [V|V S|s V S N V2|s V S N V2|s V S N|s n V S N].
  - split; [discriminate|]. intros [X _]. exfalso. apply V. eapply fine_ext; eauto.
  - destruct (steps_plain w l skip _ _ _ F P _ S) as (s' & X & _). discriminate.
  - destruct (ER s S) as [E1 E2]. split; auto. intros _. split; [eapply fine_ext; eauto|].
    destruct (filter open_posting (t_postings t)) as [|x [|y z]]; cbn in E1; try lia. eapply fine_ext; eauto.
  - destruct (ER s S) as [E1 E2]. split; [discriminate|]. intros [_ X]. exfalso.
    destruct (filter open_posting (t_postings t)) as [|x [|y z]]; cbn in E1; try lia. apply V2. eapply fine_ext; [|exact X]. auto.
  - destruct (ER s S) as [E1 E2]. split; auto. intros _. split; [eapply fine_ext; eauto|].
    destruct (filter open_posting (t_postings t)) as [|x [|y z]]; cbn in E1; try lia.
  - destruct (ER s S) as [E1 E2]. split; [discriminate|]. intros [_ X]. exfalso.
    destruct (filter open_posting (t_postings t)) as [|x [|y z]]; cbn in E1; try lia.
Qed.

(** ** What a transaction moves *)
Definition counted (K : kind -> bool) (A : str -> bool) (c : str) (p : posting) : Qc :=
  if K (p_kind p) && A (p_account p) then amount_in c p else 0.
Definition counted_open (v : Qc) (K : kind -> bool) (A : str -> bool) (c : str) (p : posting) : Qc :=
  if K (p_kind p) && A (p_account p) then match p_amount p with Some m => money_amt m c | None => v end else 0.
Definition nonreal (p : posting) : bool := negb (kind_eqb (p_kind p) Real).
Lemma split_sum skip (f : posting -> Qc) ps :
  qsum (map f ps) = qsum (map f (filter (given skip) ps)) + qsum (map f (filter (elided skip) ps)) + qsum (map f (filter nonreal ps)).
Proof.
  induction ps as [|p ps IH]; [cbn; change (qsum []) with 0; ring|]. cbn [filter map]. rewrite qsum_cons, IH.
  assert (E : (given skip p = true /\ elided skip p = false /\ nonreal p = false) \/
              (given skip p = false /\ elided skip p = true /\ nonreal p = false) \/
              (given skip p = false /\ elided skip p = false /\ nonreal p = true)).
  { unfold given, nonreal, elided. destruct (p_kind p); cbn; auto. destruct (p_amount p); cbn; auto. destruct (p_balance p); cbn; auto. destruct skip; cbn; auto. }
  destruct E as [(-> & -> & ->)|[(-> & -> & ->)|(-> & -> & ->)]]; cbn [map]; rewrite ?qsum_cons; ring.
Qed.
Lemma group_given skip ps c : group_value Real ps c = group_value Real (filter (given skip) ps) c.
Proof.
  unfold group_value. rewrite (split_sum skip). rewrite (qsum_zero (map (posting_value Real c) (filter (elided skip) ps))), (qsum_zero (map (posting_value Real c) (filter nonreal ps))); [ring| |].
  - intros x Hx. apply in_map_iff in Hx. destruct Hx as (p & <- & Hx). apply filter_In in Hx. destruct Hx as [_ Hx]. unfold nonreal in Hx. unfold posting_value.
    destruct (kind_eqb (p_kind p) Real); [discriminate|]. destruct (p_amount p); auto.
  - intros x Hx. apply in_map_iff in Hx. destruct Hx as (p & <- & Hx). apply filter_In in Hx. destruct Hx as [_ Hx]. unfold elided in Hx. unfold posting_value.
    destruct (p_kind p), (p_amount p); auto; discriminate.
Qed.
Lemma group_keeps ps kept c : Forall2 keeps ps kept -> (forall p, In p ps -> p_amount p <> None) -> group_value Real kept c = group_value Real ps c.
Proof.
  intros F. unfold group_value. induction F as [|p p' ps ps' (_ & _ & E1 & E2 & _ & _ & _ & _ & E3) F IH]; intros H; [reflexivity|]. cbn [map]. rewrite !qsum_cons, IH by (intros; apply H; right; auto).
  f_equal. unfold posting_value. rewrite E1, E2, E3 by (apply H; left; auto). auto.
Qed.
Lemma counted_keeps K A c v ps kept : Forall2 keeps ps kept -> (forall p, In p ps -> p_amount p <> None) ->
  qsum (map (counted K A c) kept) = qsum (map (counted_open v K A c) ps).
Proof.
  intros F. induction F as [|p p' ps ps' (E1 & _ & _ & E2 & _ & _ & _ & _ & E3) F IH]; intros H; [reflexivity|]. cbn [map]. rewrite !qsum_cons, IH by (intros; apply H; right; auto).
  f_equal. unfold counted, counted_open, amount_in. rewrite E1, E2. assert (X : p_amount p <> None) by (apply H; left; auto). rewrite (E3 X). destruct (p_amount p); congruence.
Qed.
(** The amounts that fill an elided posting sum up to what is left. *)
Lemma fills_sum (v : str -> Qc) c (ams : list (option money)) : NoDup ams -> (forall x, In x ams -> x <> None) ->
  (forall m, In (Some m) ams <-> exists a k, m = M a k /\ a = v k /\ a <> 0) ->
  qsum (map (fun x => match x with Some m => money_amt m c | None => 0 end) ams) = v c.
Proof.
  intros N H I. set (g := fun x : option money => match x with Some m => money_amt m c | None => 0 end).
  assert (Z : forall x, In x ams -> x <> Some (M (v c) c) -> g x = 0).
  { intros x Hx Ne. destruct x as [m|]; [|reflexivity]. apply I in Hx. destruct Hx as (a & k & -> & -> & _). cbn.
    destruct (str_eqb_spec k c) as [->|]; auto. congruence. }
  destruct (qc_eqb_spec (v c) 0) as [E|E].
  - rewrite E. apply qsum_zero. intros x Hx. apply in_map_iff in Hx. destruct Hx as (y & <- & Hy). apply Z; auto. intros ->. apply I in Hy.
    destruct Hy as (a & k & Ey & -> & X). inv Ey. auto.
  - assert (Hc : In (Some (M (v c) c)) ams) by (apply I; exists (v c), c; auto). clear I H.
    induction ams as [|x ams IH]; [destruct Hc|]. inversion N; subst. cbn [map]. rewrite qsum_cons. destruct Hc as [->|Hc].
    + rewrite qsum_zero.
      * cbn. destruct (str_eqb_spec c c); [ring|congruence].
      * intros y Hy. apply in_map_iff in Hy. destruct Hy as (z & <- & Hz). apply Z; [right; auto|]. intros ->. contradiction.
    + rewrite (Z x); [|left; auto|intros ->; contradiction]. rewrite IH; auto; [ring|]. intros y Hy. apply Z. right. auto.
Qed.
Lemma elided_open w l skip ps ps' : Forall2 (plain_read w l) ps ps' -> length (filter (elided skip) ps') = length (filter open_posting ps).
Proof.
  induction 1 as [|p p' ps ps' (_ & K & B & A & _) F IH]; [reflexivity|]. cbn [filter].
  assert (E : elided skip p' = open_posting p).
  { unfold elided, open_posting. rewrite K, B, A. destruct (rp_kind p), (rp_money p); reflexivity. }
  rewrite E. destruct (open_posting p); cbn; auto.
Qed.
Lemma counted_open_raw w l t ps ps' K A c : Forall2 (plain_read w l) ps ps' ->
  qsum (map (counted_open (- kind_value w l Real t c) K A c) ps') =
  qsum (map (fun p => if K (rp_kind p) && A (account_meant w l (rp_account p)) then adds w l t p c else 0) ps).
Proof.
  induction 1 as [|p p' ps ps' (E1 & E2 & _ & E3 & _) F IH]; [reflexivity|]. cbn [map]. rewrite !qsum_cons, IH. f_equal.
  unfold counted_open, adds. rewrite E1, E2, E3. destruct (rp_money p); cbn [option_map]; rewrite ?neg_meant; reflexivity.
Qed.
Lemma txn_moves w l skip run t t1 t2 prs K A c : plain_txn w l t t1 -> ledger_txn skip run t1 t2 prs ->
  qsum (map (counted K A c) (t_postings t2)) =
  qsum (map (fun p => if K (rp_kind p) && A (account_meant w l (rp_account p)) then adds w l t p c else 0) (t_postings t)).
Proof.
  intros PT (V & _ & (kept & fills & E & F2 & HF & HE) & _ & _ & _). pose proof (proj1 (verdict_plain _ _ _ _ _ _ _ PT V) eq_refl) as (_ & IO).
  destruct PT as (_ & F & P).
  rewrite E, !map_app, !qsum_app. rewrite <- (counted_open_raw w l t _ _ K A c F). set (v := - kind_value w l Real t c). rewrite (split_sum skip (counted_open v K A c)).
  assert (GA : forall p, In p (filter (given skip) (t_postings t1)) -> p_amount p <> None).
  { intros p Hp. apply filter_In in Hp. destruct Hp as [Hp G]. assert (B : p_balance p = None).
    { clear -F Hp. induction F as [|x y ps ps' R F IH]; destruct Hp; subst; [apply R|auto]. }
    unfold given, elided in G. rewrite B in G. destruct (p_kind p), (p_amount p); discriminate. }
  assert (NA : forall p, In p (filter nonreal (t_postings t1)) -> p_amount p <> None).
  { intros p Hp. apply filter_In in Hp. destruct Hp as [Hp G]. clear -F P Hp G. induction F as [|x y ps ps' R F IH]; [destruct Hp|]. inversion P as [|? ? (_ & _ & X & _) P']; subst.
    destruct Hp as [->|Hp]; auto. destruct R as (_ & K & _ & A & _). rewrite A. unfold nonreal in G. rewrite K in G.
    destruct (rp_money x); [discriminate|]. exfalso. apply X; auto. intros E. rewrite E in G. discriminate. }
  rewrite (counted_keeps K A c v _ _ F2 GA). rewrite <- Qcplus_assoc. f_equal. f_equal.
  - pose proof (elided_open w l skip _ _ F) as EL. destruct (filter (elided skip) (t_postings t1)) as [|p [|p' r]] eqn:Ef.
    + assert (fills = []) as ->; [|reflexivity]. destruct fills as [|q fs]; auto. destruct (HF q) as (_ & _ & _ & _ & _ & p & X & _); [left; auto|discriminate].
    + destruct (HE ltac:(discriminate)) as [N I]. cbn [map]. rewrite qsum_cons. change (qsum []) with 0. rewrite Qcplus_0_r.
      assert (Kr : p_kind p = Real /\ p_amount p = None).
      { assert (X : In p (filter (elided skip) (t_postings t1))) by (rewrite Ef; left; auto). apply filter_In in X. destruct X as [_ X].
        unfold elided in X. destruct (p_kind p), (p_amount p); try discriminate; auto. }
      destruct Kr as [Kr Ka]. unfold counted_open. rewrite Kr, Ka.
      assert (HQ : forall q, In q fills -> p_kind q = Real /\ p_account q = p_account p).
      { intros q Hq. destruct (HF q Hq) as (Q1 & _ & _ & _ & _ & p0 & X & Q2 & _). injection X as <-. auto. }
      assert (S : qsum (map (amount_in c) fills) = v).
      { assert (EV : group_value Real kept c = kind_value w l Real t c).
        { rewrite (group_keeps _ _ c F2 GA), <- group_given. apply real_group. auto. }
        unfold v. rewrite <- EV. rewrite <- (fills_sum (fun k => - group_value Real kept k) c (map p_amount fills)); auto.
        - rewrite map_map. reflexivity.
        - intros x Hx. apply in_map_iff in Hx. destruct Hx as (q & <- & Hq). apply (HF q Hq). }
      transitivity (if K Real && A (p_account p) then qsum (map (amount_in c) fills) else 0); [|rewrite S; auto].
      clear -HQ. induction fills as [|q fs IH]; [destruct (_ && _); reflexivity|]. cbn [map]. rewrite !qsum_cons, IH by (intros; apply HQ; right; auto).
      unfold counted. destruct (HQ q) as [-> ->]; [left; auto|]. destruct (K Real && A (p_account p)); ring.
    + exfalso. destruct (filter open_posting (t_postings t)) as [|x [|y z]]; cbn in EL; try discriminate. exact IO.
  - clear -NA. fold nonreal. induction (filter nonreal (t_postings t1)) as [|p r IH]; [reflexivity|]. cbn [map]. rewrite !qsum_cons, IH by (intros; apply NA; right; auto).
    f_equal. unfold counted, counted_open, amount_in. assert (X : p_amount p <> None) by (apply NA; left; auto). destruct (p_amount p); congruence.
Qed.

(** ** The whole ledger *)
Definition txn_counted (K : kind -> bool) (A : str -> bool) (c : str) (t : txn posting) : Qc := qsum (map (counted K A c) (t_postings t)).
Definition txn_adds (w : world) (l : pledger) (K : kind -> bool) (A : str -> bool) (c : str) (t : txn rposting) : Qc :=
  qsum (map (fun p => if K (rp_kind p) && A (account_meant w l (rp_account p)) then adds w l t p c else 0) (t_postings t)).
Definition window_of {P} (o : opts) (t : txn P) : bool :=
  match t_date t with
  | Some d => match o_begin o with Some b => (b <=? d)%Z | None => true end && match o_end o with Some e => (d <? e)%Z | None => true end
  | None => false
  end.
Lemma run_txns skip run ts ts' imps : ledger_run skip run ts ts' imps ->
  Forall2 (fun t t' => exists run prs, ledger_txn skip run t t' prs) ts ts'.
Proof. induction 1; constructor; eauto. Qed.
Lemma perm_forall2 {A B} (R : A -> B -> Prop) l ts ts' : Forall2 R l ts -> Permutation ts ts' -> exists l', Permutation l l' /\ Forall2 R l' ts'.
Proof.
  intros F P. revert l F. induction P as [|x ts ts' P IH|x y ts|ts ts' ts'' P1 IH1 P2 IH2]; intros l F.
  - inversion F; subst. exists []. auto.
  - inversion F as [|a ? l0 ? R0 F0]; subst. destruct (IH _ F0) as (l' & P' & F'). exists (a :: l'). auto.
  - inversion F as [|a ? l0 ? R0 F0]; subst. inversion F0 as [|b ? l1 ? R1 F1]; subst. exists (b :: a :: l1). split; [constructor|auto].
  - destruct (IH1 _ F) as (l1 & Q1 & F1). destruct (IH2 _ F1) as (l2 & Q2 & F2). exists l2. split; auto. etransitivity; eauto.
Qed.
Lemma filter_perm {A} (f : A -> bool) l l' : Permutation l l' -> Permutation (filter f l) (filter f l').
Proof.
  induction 1; cbn; auto.
  - destruct (f x); auto.
  - destruct (f x), (f y); auto; constructor.
  - etransitivity; eauto.
Qed.
Lemma ledger_totals w l skip lg o K A c : plain_journal w l -> ledger_built w skip l lg ->
  qsum (map (txn_counted K A c) (filter (window_of o) (lg_txns lg))) = qsum (map (txn_adds w l K A c) (filter (in_window o) (pl_txns l))).
Proof.
  intros P B. destruct (journal_all w l P) as [_ R0]. destruct B as [ts dir costs sorted run imps _ _ JR DS _ LR _|? ? ? ? ? ? ? ? ? ? ? ? ? ? R]; [|congruence].
  pose proof (read_all _ _ _ _ _ _ _ _ P JR) as F. destruct DS as [PM _]. destruct (perm_forall2 _ _ _ _ F PM) as (us & PU & FU).
  transitivity (qsum (map (txn_adds w l K A c) (filter (in_window o) us))).
  2:{ apply qsum_perm, Permutation_map, filter_perm. symmetry. auto. }
  apply run_txns in LR. clear - FU LR. revert us FU. induction LR as [|t1 t2 sorted ts2 (run0 & prs & LT) LR IH]; intros us FU; inversion FU as [|t ? us' ? PT FU']; subst; [reflexivity|].
  cbn [filter].
  assert (E : window_of o t2 = in_window o t).
  { unfold window_of, in_window. destruct LT as (_ & (D & _) & _). destruct PT as (D' & _). rewrite D, D'. auto. }
  rewrite E. destruct (in_window o t); auto. cbn [map]. rewrite !qsum_cons, (IH us') by auto. f_equal. eapply txn_moves; eauto.
Qed.
Lemma selection_filter {A} (R : A -> Prop) (b : A -> bool) xs ys : selection R xs ys -> (forall x, In x xs -> (R x <-> b x = true)) -> ys = filter b xs.
Proof.
  induction 1 as [|x ps l0 H S IH|x ps l0 H S IH]; intros E; cbn; auto.
  - assert (X : b x = true) by (apply E; [left|]; auto). rewrite X. f_equal. apply IH. intros. apply E. right. auto.
  - destruct (b x) eqn:X; [exfalso; apply H, E; [left|]; auto|]. apply IH. intros. apply E. right. auto.
Qed.
Lemma reported_plain w o cs t p : reported w o None cs t p <-> window_of o t && asked_for o (p_kind p) = true.
Proof.
  unfold reported, in_period, wanted_kind, query_holds, window_of, asked_for. split.
  - intros (d & -> & (H1 & H2) & H3 & _). apply andb_true_iff. split; [apply andb_true_iff; split|].
    + destruct (o_begin o); auto. apply Z.leb_le. auto.
    + destruct (o_end o); auto. apply Z.ltb_lt. auto.
    + destruct (o_real o); auto. rewrite H3 by auto. reflexivity.
  - intros H. apply andb_true_iff in H. destruct H as [H1 H2]. destruct (t_date t) as [d|]; [|discriminate]. exists d. split; auto.
    apply andb_true_iff in H1. destruct H1 as [H1 H3]. split; [|split; auto].
    + split; intros x E; rewrite E in *; [apply Z.leb_le in H1|apply Z.ltb_lt in H3]; auto.
    + intros E. rewrite E in H2. destruct (p_kind p); auto; discriminate.
Qed.
Lemma reported_totals w o lg tps A c : reported_postings w o None lg tps ->
  subtotal (map snd tps) A c = qsum (map (txn_counted (asked_for o) A c) (filter (window_of o) (lg_txns lg))).
Proof.
  intros H. unfold reported_postings in H. apply (selection_filter _ (fun x => window_of o (fst x) && asked_for o (p_kind (snd x)))) in H.
  2:{ intros x _. apply reported_plain. }
  subst tps. unfold ledger_postings. induction (lg_txns lg) as [|t ts IH]; [reflexivity|]. cbn [flat_map]. rewrite filter_app, map_app.
  unfold subtotal in *. rewrite filter_app, map_app, qsum_app, IH. cbn [filter].
  assert (E : qsum (map (amount_in c) (filter (fun p => A (p_account p)) (map snd (filter (fun x => window_of o (fst x) && asked_for o (p_kind (snd x))) (map (Datatypes.pair t) (t_postings t)))))) =
              if window_of o t then txn_counted (asked_for o) A c t else 0).
  { unfold txn_counted. induction (t_postings t) as [|p ps IHp]; [destruct (window_of o t); reflexivity|]. cbn [map filter fst snd]. unfold counted at 1.
    destruct (window_of o t); cbn [andb] in *; [|auto]. destruct (asked_for o (p_kind p)); cbn [andb]; cbn [map filter snd].
    - destruct (A (p_account p)); cbn [map]; rewrite !qsum_cons, IHp; auto; ring.
    - rewrite qsum_cons, IHp. ring. }
  rewrite E. destruct (window_of o t); cbn [map]; rewrite ?qsum_cons; auto. ring.
Qed.

(** ** The report does not fail *)
Lemma select_whole w o ts cs : (forall t, In t ts -> exists d, t_date t = Some d) -> exists sel, select_txns w o None ts cs = Ok (sel, cs) /\
  forall p, In p (flat_map snd sel) -> exists t, In t ts /\ In p (t_postings t).
Proof.
  induction ts as [|t ts IH]; intros H; cbn [select_txns]; [exists []; split; auto; intros p []|].
  assert (E : exists ps, select_postings w o None t (t_postings t) cs = Ok (ps, cs) /\ incl ps (t_postings t)).
  { destruct (H t) as (d & D); [left; auto|]. induction (t_postings t) as [|p ps (l0 & El & Il)]; cbn [select_postings]; [exists []; split; auto; intros x []|].
    assert (X : exists b, filter_posting w o None t p cs = Ok (b, cs)).
    { unfold filter_posting. rewrite D. destruct (o_real o && _); [eauto|]. destruct (o_end o) as [e|]; cbn [unwrap bind]; [destruct (e <=? d)%Z; [eauto|]|]; (destruct (o_begin o) as [b|]; cbn [unwrap bind]; [destruct (d <? b)%Z; eauto|eauto]). }
    destruct X as (b & ->). cbn [bind]. rewrite El. cbn [bind]. eexists. split; [reflexivity|]. destruct b.
    - intros x [<-|Hx]; [left; auto|right; auto].
    - intros x Hx. right. auto. }
  destruct E as (ps & -> & I). cbn [bind]. destruct IH as (sel & -> & J); [intros x Hx; apply H; right; auto|]. cbn [bind].
  eexists. split; [reflexivity|]. intros p Hp. cbn [flat_map snd] in Hp. apply in_app_iff in Hp. destruct Hp as [Hp|Hp].
  - exists t. split; [left; auto|auto].
  - destruct (J p Hp) as (x & X1 & X2). exists x. split; [right; auto|auto].
Qed.
Lemma balances_whole ps : (forall p, In p ps -> p_amount p <> None) -> forall bals, exists bals', foldM add_posting bals ps = Ok bals'.
Proof.
  induction ps as [|p ps IH]; intros H bals; cbn [foldM]; [eauto|]. unfold add_posting at 1. destruct (p_amount p) as [m|] eqn:E; [|exfalso; apply (H p); [left|]; auto].
  cbn [unwrap bind]. apply IH. intros. apply H. right. auto.
Qed.
