(** The value of an expression: the evaluator against the rules of SpecWorth. *)
From Coq Require Import Lia.
From Verif Require Import Base BaseFacts Numerals Money Alist Comment Txn Peg Grammar Dates Expr Filter Ledger Spec SpecText SpecList
  AlistFacts LedgerFacts EvalFacts MoneyFacts PropMoney SpecQuery PropQuery SpecExpr ExprFacts PropTagQuery SpecWorth.
Open Scope Qc_scope.

(** ** Money *)
Lemma combined_unique a k b m m' : combined a k b m -> combined a k b m' -> m = m'.
Proof.
  intros [H N] [H' N']. assert (E : forall c, money_amt m c = money_amt m' c) by (intros c; rewrite H, H'; reflexivity).
  destruct m as [|q c], m' as [|q' c']; cbn in *; auto.
  - specialize (E c'). rewrite str_eqb_refl in E. congruence.
  - specialize (E c). rewrite str_eqb_refl in E. congruence.
  - pose proof (E c) as E1. rewrite str_eqb_refl in E1. destruct (str_eqb_spec c' c); [|congruence]. congruence.
Qed.
Lemma scaled_unique k a m m' : scaled k a m -> scaled k a m' -> m = m'.
Proof. destruct a, m, m'; cbn; intros; try contradiction; auto. destruct H, H0. congruence. Qed.
Lemma unscaled_unique k m m' a : k <> 0 -> scaled k m a -> scaled k m' a -> m = m'.
Proof.
  destruct a as [|x c], m as [|y d], m' as [|z e]; cbn; intros K H H'; try contradiction; auto. destruct H as [-> H], H' as [-> H']. f_equal.
  rewrite H in H'. apply (f_equal (fun u => u / k)) in H'. unfold Qcdiv in H'. rewrite !(Qcmult_comm k), <- !Qcmult_assoc, Qcmult_inv_r, !Qcmult_1_r in H'; auto.
Qed.

Lemma to_money_kept b m : to_money b = Ok m -> match m with MZero => True | M q _ => q <> 0 end.
Proof.
  unfold to_money. remember (filter _ _) as f eqn:E. intros H. destruct f as [|x [|? ?]]; try discriminate; injection H as <-; [exact I|].
  assert (X : In x (filter (fun m => negb (m_is_zero m)) (map snd b))) by (rewrite <- E; left; auto). apply filter_In in X. destruct X as [_ X].
  destruct x as [|q c]; auto. cbn in X. destruct (qc_eqb_spec q 0); [discriminate|auto].
Qed.
Lemma to_money_combined b a k x m : wf_bal b -> (forall c, bal_amt b c = money_amt a c + k * money_amt x c) -> to_money b = Ok m <-> combined a k x m.
Proof.
  intros W B. split.
  - intros E. split; [|eapply to_money_kept; eauto]. destruct (to_money_spec b W) as [(m' & E' & H)|[E' _]]; [|congruence]. intros c. rewrite <- B, <- H. congruence.
  - intros C. destruct (to_money_spec b W) as [(m' & E' & H)|(_ & c & c' & N & H1 & H2)].
    + rewrite E'. f_equal. eapply combined_unique; [|exact C]. split; [|eapply to_money_kept; eauto]. intros c. rewrite <- B. auto.
    + exfalso. destruct C as [C _]. rewrite B, <- C in H1, H2. destruct m as [|q d]; cbn in *; [congruence|]. destruct (str_eqb_spec d c), (str_eqb_spec d c'); congruence.
Qed.
Lemma sum_money o k x y m : (o = BAdd /\ k = 1 \/ o = BSub /\ k = -(1)) ->
  to_money (match o with BAdd => money_add x y | _ => money_sub x y end) = Ok m <-> combined x k y m.
Proof.
  intros [[-> ->]|[-> ->]].
  - apply to_money_combined; [apply wf_add; apply wf_of|]. intros c. destruct (C01_money_operations_exact x y c) as (_ & _ & H & _). rewrite H. ring.
  - apply to_money_combined; [apply wf_sub; apply wf_of|]. intros c. destruct (C01_money_operations_exact x y c) as (_ & _ & _ & H & _). rewrite H. ring.
Qed.
Lemma mul_scaled q a m : m_mul a q = m <-> scaled q a m.
Proof.
  destruct a as [|x c], m as [|y d]; cbn; split; intros H; try discriminate; try contradiction; auto.
  - injection H as <- <-. split; ring || auto.
  - destruct H as [-> ->]. f_equal; try ring.
Qed.
Lemma div_scaled q a m : m_div a q = Ok m <-> q <> 0 /\ scaled q m a.
Proof.
  unfold m_div. destruct (qc_eqb_spec q 0) as [E|E].
  - split; [discriminate|tauto].
  - split.
    + intros H. injection H as <-. split; auto. destruct a as [|x c]; cbn; auto. split; auto. rewrite (Qcmult_comm x), Qcmult_assoc, Qcmult_inv_r, Qcmult_1_l; auto.
    + intros [_ H]. f_equal. destruct a as [|x c], m as [|y d]; cbn in *; try contradiction; auto. destruct H as [-> ->]. f_equal. rewrite <- (Qcmult_comm (/ q)), Qcmult_assoc, Qcmult_inv_l, Qcmult_1_l; auto.
Qed.
Lemma neg_scaled a m : m_neg a = m <-> scaled (-(1)) a m.
Proof.
  destruct a as [|x c], m as [|y d]; cbn; split; intros H; try discriminate; try contradiction; auto.
  - injection H as <- <-. split; ring || auto.
  - destruct H as [-> ->]. f_equal; try ring.
Qed.
Lemma abs_value q v : v = qc_abs q <-> exists k, v = k * q /\ (k = 1 /\ 0 <= q \/ k = -(1) /\ q < 0).
Proof.
  unfold qc_abs. destruct (qc_neg_spec q) as [E|E]; split.
  - intros ->. exists (-(1)). split; [ring|auto].
  - intros (k & -> & [[-> H]|[-> H]]); [exfalso; eapply Qclt_not_le; eauto|ring].
  - intros ->. exists 1. split; [ring|]. left. split; auto. apply Qcnot_lt_le. auto.
  - intros (k & -> & [[-> H]|[-> H]]); [ring|contradiction].
Qed.

(** ** Commodities *)
Section Literals.
  Context (w : world).
  Let bld := buildable w cu_name cu_aliases.
  Lemma get_lower {T} x y (l : alist T) : w_lower w x = w_lower w y -> forall c, l_get w x l = Ok c -> l_get w y l = Ok c.
  Proof. intros E c. unfold l_get. rewrite E. destruct (hget _ _ (l_list l)); auto. destruct (hget _ _ (l_aliases l)); auto. discriminate. Qed.
  Lemma literal_unique cs ls x n n' : literal_commodity w cs ls x n -> literal_commodity w cs ls x n' -> n = n'.
  Proof.
    intros [c E|a m b N -> E F] [c' E'|a' m' b' N' E1 E' F']; try congruence; try (exfalso; eapply N; eauto; fail); try (exfalso; eapply N'; eauto; fail).
    revert a' E1 F'. induction a as [|z a IH]; intros [|z' a'] E1 F'; cbn in E1; injection E1 as E1 E2.
    - auto.
    - exfalso. apply (F' z'); [left; auto|congruence].
    - exfalso. apply (F z); [left; auto|congruence].
    - apply (IH (fun y Hy => F y (or_intror Hy)) a'); auto. intros y Hy. apply F'. right. auto.
  Qed.
  Lemma reg1_other cs n x : bld cs -> w_lower w n <> w_lower w x -> (forall c, l_get w x cs <> Ok c) -> forall c, l_get w x (reg1 w cs n) <> Ok c.
  Proof.
    intros B D N c. unfold reg1. destruct (l_get w n cs) eqn:E; auto. unfold cur_insert, l_insert. cbn [cu_name currency_from cu_aliases fold_left].
    destruct (hget str_eqb (w_lower w n) (l_list cs)) eqn:E2; auto.
    destruct (lwf_get_cases w cu_name x cs (buildable_lwf _ _ _ _ B)) as [(y & _ & Ex)|Ex]; [exfalso; eapply N; eauto|].
    unfold l_get in Ex |- *. cbn [l_list l_aliases]. rewrite (hget_hset_other _ str_eqb_spec) by auto.
    destruct (hget str_eqb (w_lower w x) (l_list cs)); try discriminate. destruct (hget str_eqb (w_lower w x) (l_aliases cs)); try discriminate.
    destruct (hget str_eqb s (l_list cs)); discriminate.
  Qed.
  Lemma reg_literal : forall ns cs x, bld cs -> In x ns -> exists c, l_get w x (reg w ns cs) = Ok c /\ literal_commodity w cs ns x (cu_name c).
  Proof.
    induction ns as [|n ns IH]; intros cs x B Hx; [destruct Hx|]. cbn [reg fold_left]. fold (reg w ns (reg1 w cs n)).
    destruct (reg1_ok w cs n B) as (B1 & G1 & c & Ec & Dc). destruct (reg_ok w ns _ B1) as [B2 G2].
    destruct (lwf_get_cases w cu_name x cs (buildable_lwf _ _ _ _ B)) as [(y & _ & Ey)|Ey].
    { exists y. split; [apply G2; apply G1; auto|]. apply lc_known. auto. }
    destruct (str_eqb_spec (w_lower w n) (w_lower w x)) as [E|E].
    - exists c. split; [apply G2; eapply get_lower; eauto|].
      assert (Nn : forall d, l_get w n cs <> Ok d) by (intros d H; apply (get_lower _ _ _ E) in H; congruence).
      destruct (l_get w n cs) eqn:En; [exfalso; eapply Nn; eauto| |]; subst c; apply (lc_new w cs (n :: ns) x [] n ns); auto; try congruence; intros z [].
    - destruct Hx as [->|Hx]; [congruence|]. destruct (IH (reg1 w cs n) x B1 Hx) as (d & Ed & Ld). exists d. split; auto.
      assert (N : forall c, l_get w x cs <> Ok c) by congruence. pose proof (reg1_other cs n x B E N) as N1.
      inversion Ld as [d' Ed' En|a m b Na -> Em Fa En]; [exfalso; eapply N1; eauto|]. subst m. apply (lc_new w cs _ x (n :: a) (cu_name d) b); auto. intros z [->|Hz]; auto.
  Qed.
End Literals.
Lemma literals_lits e : literals e = lits (denotes e).
Proof. induction e; cbn; auto; try congruence. destruct v; reflexivity. Qed.

(** ** Evaluation *)
Section Worth.
  Context (w : world) (t : txn posting) (cs C : alist currency) (ls : list str).
  Let ev (p : posting) (e : cexp) := eval w (denotes e) p t C.
  Let wo := worth w t cs ls.
  Definition known (e : cexp) : Prop := forall x, In x (literals e) -> exists c, l_get w x C = Ok c /\ literal_commodity w cs ls x (cu_name c).

  Lemma ordered_kinds l r c : ordered l r c -> kind_of l = kind_of r /\ kind_of l <> KOther.
  Proof. intros [? ? ? ? ? [] [] _ _| |]; cbn; split; auto; discriminate. Qed.
  Lemma compare_cases l r x : value_cmp l r = Ok x ->
    match x with Some c => ordered l r c | None => kind_of l <> kind_of r \/ kind_of l = KOther end.
  Proof.
    intros E. assert (D : (kind_of l <> kind_of r \/ kind_of l = KOther) \/ (kind_of l = kind_of r /\ kind_of l <> KOther)).
    { destruct l, r; cbn; auto; try (right; split; [reflexivity|discriminate]); left; left; discriminate. }
    destruct D as [D|[K N]].
    - assert (X : value_cmp l r = Ok None) by (destruct l, r; cbn in *; auto; destruct D as [D|D]; try discriminate; exfalso; apply D; auto).
      rewrite X in E. injection E as <-. auto.
    - destruct (str_eqb_spec (match l with VMoney (M _ c) => c | _ => [] end) (match r with VMoney (M _ c) => c | _ => [] end)) as [U|U].
      + destruct (C44_trichotomy l r K N) as (c & Hc & _); [intros a u b v -> ->; exact U|]. destruct (ordered_cmp _ _ _ Hc) as [H _]. rewrite H in E. injection E as <-. auto.
      + assert (S : forall l' r', same_unit l' r' -> l' = l -> r' = r -> kind_of l = kind_of r -> exists c, ordered l r c).
        { intros l' r' S -> -> _. destruct (C44_trichotomy l r K N S) as (c & Hc & _). eauto. }
        assert (D : same_unit l r \/ exists a c b d, l = VMoney (M a c) /\ r = VMoney (M b d) /\ c <> d).
        { destruct l as [|m| | | | | | |]; try (left; intros ? ? ? ? [=]; fail). destruct m as [|a c]; [left; intros ? ? ? ? [=]|].
          destruct r as [|m'| | | | | | |]; try (left; intros ? ? ? ? ? [=]; fail). destruct m' as [|b d]; [left; intros ? ? ? ? ? [=]|].
          right. exists a, c, b, d. cbn in U. auto. }
        destruct D as [D|(a & c & b & d & -> & -> & D)].
        * destruct (S l r D eq_refl eq_refl K) as (c & Hc). destruct (ordered_cmp _ _ _ Hc) as [H _]. rewrite H in E. injection E as <-. auto.
        * cbn in E. destruct (str_eqb_spec c d); [contradiction|discriminate].
  Qed.
  Lemma equal_cases l r x : value_eq l r = Ok x ->
    (exists c, ordered l r c /\ x = match c with Eq => true | _ => false end) \/ (exists a b, l = VBool a /\ r = VBool b /\ x = Bool.eqb a b) \/
    (exists a c b d, l = VMoney (M a c) /\ r = VMoney (M b d) /\ c <> d /\ x = false).
  Proof.
    intros E. assert (D : (exists a b, l = VBool a /\ r = VBool b) \/ (kind_of l = kind_of r /\ kind_of l <> KOther)).
    { destruct l, r; try discriminate E; try (right; split; [reflexivity|discriminate]). left. eauto. }
    destruct D as [(a & b & -> & ->)|[K N]]; [right; left; injection E as <-; eauto|].
    assert (D : same_unit l r \/ exists a c b d, l = VMoney (M a c) /\ r = VMoney (M b d) /\ c <> d).
    { destruct l as [|m| | | | | | |]; try (left; intros ? ? ? ? [=]; fail). destruct m as [|a c]; [left; intros ? ? ? ? [=]|].
      destruct r as [|m'| | | | | | |]; try (left; intros ? ? ? ? ? [=]; fail). destruct m' as [|b d]; [left; intros ? ? ? ? ? [=]|].
      destruct (str_eqb_spec c d); [left; intros ? ? ? ? [= -> ->] [= -> ->]; auto|right; eauto 9]. }
    destruct D as [D|(a & c & b & d & -> & -> & D)].
    - left. destruct (C44_trichotomy l r K N D) as (c & Hc & _). exists c. split; auto. destruct (ordered_cmp _ _ _ Hc) as [_ H]. congruence.
    - right. right. exists a, c, b, d. cbn in E. destruct (str_eqb_spec c d); [contradiction|]. rewrite andb_false_r in E. injection E as <-. auto.
  Qed.
  Lemma match_says v rx x : (textual v /\ (x = true <-> exists s, shows t v s /\ w_rx w rx s = true)) <-> eval_match w t v rx = Ok x.
  Proof.
    assert (U : forall s v0, (forall s', shows t v0 s' <-> s' = s) -> (x = true <-> exists s', shows t v0 s' /\ w_rx w rx s' = true) <-> Ok (w_rx w rx s) = Ok x).
    { intros s v0 H. split.
      - intros I. f_equal. apply eq_true_iff_eq. rewrite I. split; [intros R; exists s; split; auto; apply H; auto|intros (s' & S & R); apply H in S; congruence].
      - intros [= <-]. split; [intros R; exists s; split; auto; apply H; auto|intros (s' & S & R); apply H in S; congruence]. }
    destruct v; cbn [textual eval_match]; try (split; [intros [[] _]|discriminate]).
    - rewrite <- (U n (VAccount n)); [split; [intros [_ ?]; auto|auto]|]. intros s'; split; [intros H; inversion H; auto|intros ->; constructor].
    - rewrite <- (U n (VPayee n)); [split; [intros [_ ?]; auto|auto]|]. intros s'; split; [intros H; inversion H; auto|intros ->; constructor].
    - destruct s as [s|].
      + rewrite <- (U s (VString (Some s))); [split; [intros [_ ?]; auto|auto]|]. intros s'; split; [intros H; inversion H; auto|intros ->; constructor].
      + split.
        * intros [_ I]. f_equal. destruct x; auto. exfalso. destruct (proj1 I eq_refl) as (s & A & _). inversion A.
        * intros [= <-]. split; [exact I|]. split; [discriminate|]. intros (s & A & _). inversion A.
    - split.
      + intros [_ I]. f_equal. apply eq_true_iff_eq. rewrite I. rewrite existsb_exists. split; [intros (s & A & B); exists s; split; auto; constructor; auto|].
        intros (s & A & B). inversion A; subst. eauto.
      + intros [= <-]. split; [exact I|]. rewrite existsb_exists. split; [intros (s & A & B); exists s; split; auto; constructor; auto|].
        intros (s & A & B). inversion A; subst. eauto.
  Qed.

  Lemma eval_list : forall e, known e -> forall p v c, ev p e = Ok (v, c) -> c = C.
  Proof.
    unfold ev. induction e as [x| | | | |f e IH|e IH|e IH|e IH|o a IHa b IHb]; intros K p v c0; cbn [denotes].
    - destruct x; cbn; try (intros [= _ <-]; auto; fail).
      + destruct (p_amount p); [|discriminate]. intros [= _ <-]; auto.
      + destruct (p_payee p); [|discriminate]. intros [= _ <-]; auto.
      + destruct (t_date t); [|discriminate]. intros [= _ <-]; auto.
    - cbn. intros [= _ <-]; auto.
    - cbn. destruct (K cur) as (c & E & _); [left; auto|]. rewrite E. intros [= _ <-]; auto.
    - cbn. intros [= _ <-]; auto.
    - cbn. intros [= _ <-]; auto.
    - intros E. cbn [eval] in E. bind_inv E. destruct a as [v1 c1]. assert (c1 = C) by (eapply IH; eauto). subst c1.
      destruct f; cbn [fun_op] in E; try (bind_inv E; injection E as _ <-; auto; fail).
      bind_inv E. destruct a as [b c1]. injection E as _ <-. eapply (any_loop_list (fun p' cs' => eval w (denotes e) p' t cs')); eauto.
    - intros E. cbn [eval] in E. bind_inv E. destruct a as [v1 c1]. assert (c1 = C) by (eapply IH; eauto). subst c1. bind_inv E. injection E as _ <-; auto.
    - intros E. cbn [eval] in E. bind_inv E. destruct a as [v1 c1]. assert (c1 = C) by (eapply IH; eauto). subst c1. bind_inv E. injection E as _ <-; auto.
    - apply IH. exact K.
    - intros E. cbn [eval] in E. bind_inv E. destruct a0 as [v1 c1]. assert (c1 = C) by (eapply IHa; eauto; intros x Hx; apply K; cbn; apply in_or_app; auto). subst c1.
      bind_inv E. destruct a0 as [v2 c2]. assert (c2 = C) by (eapply IHb; eauto; intros x Hx; apply K; cbn; apply in_or_app; auto). subst c2.
      bind_inv E. injection E as _ <-. auto.
  Qed.

  Lemma number_sum o k a b : (o = OAdd /\ k = 1 \/ o = OSub /\ k = -(1)) -> VNumber (match op_node o with BAdd => a + b | _ => a - b end) = VNumber (a + k * b).
  Proof. intros [[-> ->]|[-> ->]]; cbn; f_equal; ring. Qed.
  Lemma binary_sound p o a b va vb v : wo p a va -> wo p b vb -> eval_binary w t (op_node o) va vb = Ok v -> wo p (CBin o a b) v.
  Proof.
    unfold wo. intros A B E.
    assert (SUM : forall k, (o = OAdd /\ k = 1 \/ o = OSub /\ k = -(1)) -> worth w t cs ls p (CBin o a b) v).
    { intros k Hk. assert (Hb : op_node o = BAdd /\ k = 1 \/ op_node o = BSub /\ k = -(1)) by (destruct Hk as [[-> ->]|[-> ->]]; auto).
      destruct va as [x|x| | | | | | |], vb as [y|y| | | | | | |]; try (destruct Hk as [[-> ->]|[-> ->]]; discriminate E).
      - assert (v = VNumber (x + k * y)) as ->; [|eapply wo_sum_number; eauto].
        rewrite <- (number_sum o k x y Hk). destruct Hk as [[-> ->]|[-> ->]]; cbn in *; congruence.
      - assert (X : exists m, v = VMoney m /\ to_money (match op_node o with BAdd => money_add x y | _ => money_sub x y end) = Ok m).
        { destruct Hk as [[-> ->]|[-> ->]]; cbn [op_node eval_binary] in *; destruct (to_money _) eqn:T; try discriminate; injection E as <-; eauto. }
        destruct X as (m & -> & X). eapply (sum_money (op_node o)) in X; eauto. eapply wo_sum_money; eauto. }
    assert (ORD : forall f, In o [OLt; OGt; OLe; OGe] -> (forall c, says o c = Some (f c)) ->
      (c <- value_cmp va vb ;; Ok (VBool (match c with Some c => f c | None => false end))) = Ok v -> worth w t cs ls p (CBin o a b) v).
    { intros f Ho Hf X. destruct (value_cmp va vb) as [c| |] eqn:EC; try discriminate X. cbn in X. injection X as <-. apply compare_cases in EC.
      destruct c as [c|]; [eapply wo_compare; eauto|eapply wo_no_order; eauto]. }
    assert (EQ : o = OEq \/ o = OMatch -> worth w t cs ls p (CBin o a b) v).
    { intros Ho. assert (Y : eval_binary w t BEq va vb = Ok v) by (destruct Ho as [-> | ->]; exact E). clear E SUM ORD. cbn [eval_binary] in Y.
      assert (V : forall x, value_eq va vb = Ok x -> worth w t cs ls p (CBin o a b) (VBool x)).
      { intros x X. destruct (equal_cases _ _ _ X) as [(c & Hc & ->)|[(x1 & x2 & -> & -> & ->)|(x1 & c & x2 & d & -> & -> & N & ->)]].
        - eapply wo_compare; eauto. destruct Ho as [-> | ->], c; reflexivity.
        - eapply wo_same_bool; eauto.
        - eapply wo_other_commodity; eauto. }
      destruct vb; try (destruct (value_eq va _) eqn:X; try discriminate Y; injection Y as <-; auto; fail).
      destruct (eval_match w t va rx) as [x| |] eqn:X; try discriminate Y. injection Y as <-. apply match_says in X. destruct X. eapply wo_match; eauto. }
    destruct o; cbn [op_node] in E.
    - apply (SUM 1); auto.
    - apply (SUM (-(1))); auto.
    - destruct va as [x|x| | | | | | |]; try discriminate E; destruct vb as [y|y| | | | | | |]; try discriminate E; cbn in E; injection E as <-.
      + eapply wo_times; eauto.
      + eapply wo_times_money; eauto. apply mul_scaled. auto.
      + eapply wo_money_times; eauto. apply mul_scaled. auto.
    - destruct va as [x|x| | | | | | |]; try discriminate E; destruct vb as [y|y| | | | | | |]; try discriminate E; cbn in E.
      + destruct (qc_eqb_spec y 0); try discriminate E. injection E as <-. eapply wo_divided; eauto. unfold Qcdiv. rewrite <- Qcmult_assoc, Qcmult_inv_l, Qcmult_1_r; auto.
      + destruct (m_div x y) as [m| |] eqn:X; try discriminate E. injection E as <-. apply div_scaled in X. destruct X. eapply wo_money_divided; eauto.
    - destruct va as [| |x| | | | | |]; try discriminate E. destruct x; [destruct vb as [| |y| | | | | |]; try discriminate E|]; injection E as <-; [apply (wo_and w t cs ls p OAnd a b true y)|eapply wo_and_false]; eauto.
    - destruct va as [| |x| | | | | |]; try discriminate E. destruct x; [destruct vb as [| |y| | | | | |]; try discriminate E|]; injection E as <-; [apply (wo_and w t cs ls p OAmp a b true y)|eapply wo_and_false]; eauto.
    - destruct va as [| |x| | | | | |]; try discriminate E. destruct x; [|destruct vb as [| |y| | | | | |]; try discriminate E]; injection E as <-; [eapply wo_or_true|apply (wo_or w t cs ls p OOr a b false y)]; eauto.
    - destruct va as [| |x| | | | | |]; try discriminate E. destruct x; [|destruct vb as [| |y| | | | | |]; try discriminate E]; injection E as <-; [eapply wo_or_true|apply (wo_or w t cs ls p OBar a b false y)]; eauto.
    - auto.
    - auto.
    - eapply ORD; [cbn; auto| |exact E]. intros []; reflexivity.
    - eapply ORD; [cbn; auto| |exact E]. intros []; reflexivity.
    - eapply ORD; [cbn; auto| |exact E]. intros []; reflexivity.
    - eapply ORD; [cbn; auto| |exact E]. intros []; reflexivity.
  Qed.
  Lemma order_complete o l r c x : ordered l r c -> says o c = Some x -> eval_binary w t (op_node o) l r = Ok (VBool x).
  Proof.
    intros H S. destruct (C44_order w t _ _ _ H) as (H1 & H2 & H3 & H4 & H5).
    destruct o; cbn [op_node]; try (destruct c; discriminate S); rewrite ?H1, ?H2, ?H3, ?H4, ?H5; destruct c; injection S as <-; reflexivity.
  Qed.
  Lemma binary_complete p o a b v : wo p (CBin o a b) v -> exists va vb, wo p a va /\ wo p b vb /\ eval_binary w t (op_node o) va vb = Ok v.
  Proof.
    unfold wo. intros H.
    inversion H as [| | | | | | | | | | | | | | | | | | | | | |p0 o0 k a0 b0 x y Ho Ha Hb|p0 o0 k a0 b0 x y m Ho Ha Hb Hm|p0 a0 b0 x y Ha Hb|p0 a0 b0 x y m Ha Hb Hm|p0 a0 b0 x y m Ha Hb Hm|p0 a0 b0 x y q Ha Hb Hn Hq
      |p0 a0 b0 x y m Ha Hb Hn Hm|p0 o0 a0 b0 x y Ho Ha Hb|p0 o0 a0 b0 v0 Ho Ha Hb|p0 o0 a0 b0 x y Ho Ha Hb|p0 o0 a0 b0 v0 Ho Ha Hb|p0 o0 a0 b0 v0 rx x Ho Ha Hv Hb Hx
      |p0 o0 a0 b0 l r c x Ha Hb Hc Hx|p0 o0 a0 b0 x y Ho Ha Hb|p0 o0 a0 b0 x c y d Ho Ha Hb Hn|p0 o0 a0 b0 l r Ho Ha Hb Hk]; subst;
      do 2 eexists; (split; [exact Ha|split; [exact Hb|]]).
    - cbn. rewrite <- (number_sum o k x y) by auto. destruct Ho as [[-> _]|[-> _]]; reflexivity.
    - assert (T : to_money (match op_node o with BAdd => money_add x y | _ => money_sub x y end) = Ok m).
      { eapply (sum_money (op_node o) k); eauto. destruct Ho as [[-> ->]|[-> ->]]; auto. }
      destruct Ho as [[-> _]|[-> _]]; cbn [op_node eval_binary] in *; rewrite T; reflexivity.
    - reflexivity.
    - cbn. apply mul_scaled in Hm. rewrite Hm. reflexivity.
    - cbn. apply mul_scaled in Hm. rewrite Hm. reflexivity.
    - cbn. destruct (qc_eqb_spec y 0); [contradiction|]. f_equal. f_equal. unfold Qcdiv. rewrite <- Qcmult_assoc, Qcmult_inv_r, Qcmult_1_r; auto.
    - cbn. rewrite (proj2 (div_scaled y x m)); auto.
    - destruct Ho as [-> | ->]; cbn; destruct x; reflexivity.
    - destruct Ho as [-> | ->]; cbn; reflexivity.
    - destruct Ho as [-> | ->]; cbn; destruct x; reflexivity.
    - destruct Ho as [-> | ->]; cbn; reflexivity.
    - assert (X : eval_match w t v0 rx = Ok x) by (apply match_says; auto). destruct Ho as [-> | ->]; cbn; rewrite X; reflexivity.
    - eapply order_complete; eauto.
    - destruct Ho as [-> | ->]; cbn; reflexivity.
    - destruct (C44_different_commodities w t x c y d BLt) as [X _]; auto. destruct Ho as [-> | ->]; exact X.
    - apply (C44_different_kinds w t _ _ (op_node o)); auto. destruct Ho as [<-|[<-|[<-|[<-|[]]]]]; cbn; auto.
  Qed.

  (** Functions of one argument other than [any]. *)
  Lemma unary_sound p f e x v : f <> FAny -> wo p e x -> eval_unary w p (fun_op f) x = Ok v -> wo p (CFun f e) v.
  Proof.
    unfold wo. intros N A E. destruct f; cbn [fun_op] in E.
    - destruct x as [q|m| | | | | | |]; try discriminate E.
      + cbn in E. injection E as <-. destruct (proj1 (abs_value q (qc_abs q)) eq_refl) as (k & -> & Hk). eapply wo_abs_number; eauto.
      + assert (X : exists k m', v = VMoney m' /\ (k = 1 /\ 0 <= m_amount m \/ k = -(1) /\ m_amount m < 0) /\ scaled k m m').
        { destruct m as [|q c]; cbn in E; injection E as <-.
          - exists 1, MZero. split; auto. split; [left; split; [reflexivity|apply Qcle_refl]|exact I].
          - destruct (proj1 (abs_value q (qc_abs q)) eq_refl) as (k & Ek & Hk). exists k, (M (qc_abs q) c). split; auto. split; [auto|]. split; auto. }
        destruct X as (k & m' & -> & Hk & Hs). eapply wo_abs_money; eauto.
    - congruence.
    - destruct x as [| | | | |rx| | |]; try discriminate E. cbn in E. injection E as <-. eapply wo_has_tag; eauto. unfold has_tag. rewrite existsb_exists. reflexivity.
    - destruct x as [| | | | |rx|s| |]; try discriminate E.
      + cbn in E. injection E as <-. eapply wo_tag_pattern; eauto. unfold get_tag. apply first_value_find. tauto.
      + destruct s as [s|]; [|discriminate E]. cbn in E. injection E as <-. eapply wo_tag_name; eauto. unfold get_exact_tag. apply first_value_find. intros n. destruct (str_eqb_spec s n); intuition congruence.
    - destruct x as [| | | | | |s| |]; try discriminate E. destruct s as [s|]; [|discriminate E]. cbn in E. destruct (date_parser w s) as [d| |] eqn:D; try discriminate E. cbn in E.
      destruct d as [d|]; [|discriminate E]. cbn in E. injection E as <-. eapply wo_to_date; eauto.
  Qed.
  Lemma unary_complete p f e v : f <> FAny -> wo p (CFun f e) v -> exists x, wo p e x /\ eval_unary w p (fun_op f) x = Ok v.
  Proof.
    unfold wo. intros N H. inversion H as [| | | | | | | | | | | | | |p0 e0 q k He Hk|p0 e0 m k m' He Hk Hs| | |p0 e0 rx b He Hb|p0 e0 rx s He Hs|p0 e0 n s He Hs|p0 e0 s d He Hd| | | | | | | | | | | | | | | |]; subst; try congruence;
      (eexists; split; [exact He|]); cbn [fun_op].
    - cbn. f_equal. f_equal. symmetry. apply abs_value. eauto.
    - destruct m as [|q c], m' as [|q' c']; try contradiction; [reflexivity|]. destruct Hs as [-> ->]. cbn. f_equal. f_equal. f_equal. symmetry. apply abs_value. eauto.
    - cbn. f_equal. f_equal. apply eq_true_iff_eq. rewrite Hb. unfold has_tag. apply existsb_exists.
    - cbn. f_equal. f_equal. eapply first_value_unique; [|exact Hs]. apply first_value_find. tauto.
    - cbn. f_equal. f_equal. eapply first_value_unique; [|exact Hs]. apply first_value_find. intros m. destruct (str_eqb_spec n m); intuition congruence.
    - cbn. rewrite Hd. reflexivity.
  Qed.

  Lemma any_iff e : (forall p v, ev p e = Ok (v, C) <-> wo p e v) -> (forall p v c, ev p e = Ok (v, c) -> c = C) -> forall ps b,
    any_loop (fun p' cs' => eval w (denotes e) p' t cs') ps C = Ok (b, C) <->
    match b with
    | true => exists a q r, ps = a ++ q :: r /\ (forall x, In x a -> wo x e (VBool false)) /\ wo q e (VBool true)
    | false => forall x, In x ps -> wo x e (VBool false)
    end.
  Proof.
    intros IH LC. induction ps as [|p ps IHp]; intros b; cbn [any_loop].
    - split; [intros [= <-]; intros x []|]. destruct b; auto. intros (a & q & r & E & _). destruct a; discriminate.
    - change (eval w (denotes e) p t C) with (ev p e). split.
      + intros H. bind_inv H. destruct a as [v c]. assert (c = C) by eauto. subst c. apply IH in Hb. destruct v as [| |[]| | | | | |]; try discriminate H.
        * injection H as <-. exists [], p, ps. split; auto. split; auto. intros x [].
        * apply IHp in H. destruct b.
          -- destruct H as (a & q & r & -> & Ha & Hq). exists (p :: a), q, r. split; auto. split; auto. intros x [<-|Hx]; auto.
          -- intros x [<-|Hx]; auto.
      + intros H. destruct b.
        * destruct H as (a & q & r & E & Ha & Hq). destruct a as [|p' a]; cbn in E; injection E as <- ->.
          -- apply IH in Hq. rewrite Hq. reflexivity.
          -- rewrite (proj2 (IH p (VBool false))) by (apply Ha; left; auto). cbn [bind]. apply IHp. exists a, q, r. split; auto. split; auto. intros x Hx. apply Ha. right. auto.
        * rewrite (proj2 (IH p (VBool false))) by (apply H; left; auto). cbn [bind]. apply IHp. intros x Hx. apply H. right. auto.
  Qed.

  Lemma worth_iff : forall e, known e -> forall p v, ev p e = Ok (v, C) <-> wo p e v.
  Proof.
    induction e as [x|ip fp|ip fp cur|s|s|f e IH|e IH|e IH|e IH|o a IHa b IHb]; intros K p v; unfold ev, wo; cbn [denotes].
    - split.
      + destruct x; cbn [var_node eval]; intros E; try (injection E as <-; constructor).
        * destruct (p_amount p) eqn:X; try discriminate E. injection E as <-. constructor. auto.
        * destruct (p_payee p) eqn:X; try discriminate E. injection E as <-. constructor. auto.
        * destruct (t_date t) eqn:X; try discriminate E. injection E as <-. constructor. auto.
      + intros H. inversion H as [|p0 m Hm|p0 n Hn| |p0 d Hd| | | | | | | | | | | | | | | | | | | | | | | | | | | | | | | | |]; subst; cbn; auto; [rewrite Hm|rewrite Hn|rewrite Hd]; reflexivity.
    - split; [intros [= <-]; constructor|]. intros H. inversion H; subst. reflexivity.
    - destruct (K cur) as (c & E & D); [left; auto|]. cbn [eval]. rewrite E. split; [intros [= <-]; constructor; auto|].
      intros H. inversion H as [| | | | | |p0 ip0 fp0 x n Hn| | | | | | | | | | | | | | | | | | | | | | | | | | | | | | |]; subst. f_equal. f_equal. f_equal. f_equal. eapply literal_unique; eauto.
    - split; [intros [= <-]; constructor|]. intros H. inversion H; subst. reflexivity.
    - split; [intros [= <-]; constructor|]. intros H. inversion H; subst. reflexivity.
    - assert (Ke : known e) by exact K. assert (LC : forall p v c, ev p e = Ok (v, c) -> c = C) by (exact (eval_list e Ke)). specialize (IH Ke).
      assert (D : f = FAny \/ f <> FAny) by (destruct f; auto; right; discriminate). destruct D as [-> |N].
      + cbn [eval fun_op]. change (eval w (denotes e) p t C) with (ev p e). split.
        * intros H. bind_inv H. destruct a as [x c]. assert (c = C) by eauto. subst c. apply IH in Hb. bind_inv H. destruct a as [b c]. injection H as <- ->.
          apply (any_iff e IH LC) in Hb0. destruct b.
          -- destruct Hb0 as (a & q & r & E & Ha & Hq). eapply wo_any_true; eauto.
          -- eapply wo_any_false; eauto.
        * intros H. inversion H as [| | | | | | | | | | | | | | | |p0 e0 x a q r Hx E Ha Hq|p0 e0 x Hx Ha| | | | | | | | | | | | | | | | | | | |]; subst;
            (apply IH in Hx; rewrite Hx; cbn [bind]).
          -- assert (X : any_loop (fun p' cs' => eval w (denotes e) p' t cs') (t_postings t) C = Ok (true, C)) by (apply (any_iff e IH LC (t_postings t) true); exists a, q, r; auto). rewrite X. reflexivity.
          -- assert (X : any_loop (fun p' cs' => eval w (denotes e) p' t cs') (t_postings t) C = Ok (false, C)) by (apply (any_iff e IH LC (t_postings t) false); auto). rewrite X. reflexivity.
      + assert (U : forall r, eval w (NUnary (fun_op f) (denotes e)) p t C = Ok (r, C) <-> exists x, ev p e = Ok (x, C) /\ eval_unary w p (fun_op f) x = Ok r).
        { intros r. cbn [eval]. change (eval w (denotes e) p t C) with (ev p e). split.
          - intros H. bind_inv H. destruct a as [x c]. assert (c = C) by eauto. subst c. exists x. split; auto. destruct f; try congruence; cbn [fun_op] in *; bind_inv H; congruence.
          - intros (x & E & X). rewrite E. cbn [bind]. destruct f; try congruence; cbn [fun_op] in *; rewrite X; reflexivity. }
        rewrite U. split.
        * intros (x & E & X). eapply unary_sound; eauto. apply IH. auto.
        * intros H. apply unary_complete in H; auto. destruct H as (x & A & B). exists x. split; auto. apply IH. auto.
    - assert (Ke : known e) by exact K. assert (LC : forall p v c, ev p e = Ok (v, c) -> c = C) by (exact (eval_list e Ke)). specialize (IH Ke).
      cbn [eval]. change (eval w (denotes e) p t C) with (ev p e). split.
      + intros H. bind_inv H. destruct a as [x c]. assert (c = C) by eauto. subst c. apply IH in Hb. bind_inv H. injection H as <-. destruct x; try discriminate Hb0. injection Hb0 as <-. constructor. auto.
      + intros H. inversion H as [| | | | | | | | | |p0 e0 b He| | | | | | | | | | | | | | | | | | | | | | | | | | |]; subst. apply IH in He. rewrite He. reflexivity.
    - assert (Ke : known e) by exact K. assert (LC : forall p v c, ev p e = Ok (v, c) -> c = C) by (exact (eval_list e Ke)). specialize (IH Ke).
      cbn [eval]. change (eval w (denotes e) p t C) with (ev p e). split.
      + intros H. bind_inv H. destruct a as [x c]. assert (c = C) by eauto. subst c. apply IH in Hb. bind_inv H. injection H as <-. destruct x; try discriminate Hb0; injection Hb0 as <-.
        * constructor. auto.
        * eapply wo_minus_money; eauto. apply neg_scaled. auto.
        * constructor. auto.
      + intros H. inversion H as [| | | | | | | | | | |p0 e0 q He|p0 e0 m m' He Hm|p0 e0 b He| | | | | | | | | | | | | | | | | | | | | | | |]; subst; apply IH in He; rewrite He; try reflexivity.
        apply neg_scaled in Hm. cbn. rewrite Hm. reflexivity.
    - change (eval w (denotes e) p t C) with (ev p e). rewrite (IH K p v). unfold wo. split; [intros H; constructor; auto|intros H; inversion H; auto].
    - assert (Ka : known a) by (intros x Hx; apply K; cbn; apply in_or_app; auto). assert (Kb : known b) by (intros x Hx; apply K; cbn; apply in_or_app; auto).
      specialize (IHa Ka). specialize (IHb Kb). cbn [eval]. change (eval w (denotes a) p t C) with (ev p a). split.
      + intros H. bind_inv H. destruct a0 as [x c]. assert (c = C) by exact (eval_list a Ka _ _ _ Hb). subst c. bind_inv H. destruct a0 as [y c]. assert (c = C) by exact (eval_list b Kb _ _ _ Hb0). subst c.
        bind_inv H. injection H as <-. eapply binary_sound; eauto; [apply IHa|apply IHb]; auto.
      + intros H. apply binary_complete in H. destruct H as (x & y & A & B & E). apply IHa in A. apply IHb in B. rewrite A. cbn [bind].
        change (eval w (denotes b) p t C) with (ev p b). rewrite B. cbn [bind]. rewrite E. reflexivity.
  Qed.
End Worth.
