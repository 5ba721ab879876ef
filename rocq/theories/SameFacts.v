(** Facts for C79: what the order of hash tables does not change. *)
From Coq Require Import Lia.
From Verif Require Import Base BaseFacts Numerals Money Alist Comment Txn Expr Filter Price Tokens Ledger Reports Spec MoneyFacts SpecList SpecTxn TxnFacts SpecLedger AlistFacts JournalFacts
  LedgerFacts LedgerFacts2 SpecQuery SpecReports SpecBook SpecSame.
Open Scope Qc_scope.

(** ** Failures *)
Lemma agree_bind {A B} (R : A -> A -> Prop) (Q : B -> B -> Prop) r r' f f' :
  agree R r r' -> (forall a b, R a b -> agree Q (f a) (f' b)) -> agree Q (bind r f) (bind r' f').
Proof. destruct r, r'; cbn; auto; contradiction. Qed.
Lemma agree_eq {A} (r r' : res A) : agree eq r r' <-> r = r'.
Proof. destruct r, r'; cbn; split; intros H; try congruence; contradiction. Qed.
Lemma agree_mono {A} (R Q : A -> A -> Prop) r r' : (forall a b, R a b -> Q a b) -> agree R r r' -> agree Q r r'.
Proof. destruct r, r'; cbn; auto. Qed.
Lemma agree_foldM {A S} (R : S -> S -> Prop) (f f' : S -> A -> res S) l : (forall s s' x, In x l -> R s s' -> agree R (f s x) (f' s' x)) ->
  forall s s', R s s' -> agree R (foldM f s l) (foldM f' s' l).
Proof.
  induction l as [|x l IH]; intros H s s' HR; cbn [foldM]; [auto|]. eapply agree_bind; [apply H; [left|]; auto|].
  intros a b HR'. apply IH; auto. intros. apply H; [right|]; auto.
Qed.

(** ** Balances *)
Definition bsame (b b' : balance) : Prop := wf_bal b /\ Permutation b b'.
Lemma bsame_wf b b' : bsame b b' -> wf_bal b'.
Proof. intros [H P]. eapply wf_perm; eauto. Qed.
Lemma bsame_refl b : wf_bal b -> bsame b b.
Proof. split; auto. Qed.
Lemma bsame_trans a b c : bsame a b -> bsame b c -> bsame a c.
Proof. intros [H P] [_ Q]. split; auto. etransitivity; eauto. Qed.
Lemma bsame_sym a b : bsame a b -> bsame b a.
Proof. intros H. split; [eapply bsame_wf; eauto|symmetry; apply H]. Qed.
Lemma bsame_add a a' b b' : bsame a a' -> bsame b b' -> bsame (bal_add a b) (bal_add a' b').
Proof. intros [H P] [K Q]. split; [apply wf_add; auto|apply bal_add_perm; auto]. Qed.
Lemma bsame_neg a a' : bsame a a' -> bsame (bal_neg a) (bal_neg a').
Proof. intros [H P]. split; [apply wf_neg; auto|apply Permutation_map; auto]. Qed.
Lemma bsame_amt a a' c : bsame a a' -> bal_amt a c = bal_amt a' c.
Proof. intros [_ P]. apply bal_amt_perm. auto. Qed.
Lemma nz_permuted a b : nz_bal a -> Permutation a b -> nz_bal b.
Proof. unfold nz_bal. intros H P. eapply Permutation_Forall; eauto. Qed.
Lemma bsame_eqb m a a' : bsame a a' -> bal_eqb (bal_of m) a = bal_eqb (bal_of m) a'.
Proof.
  intros H. pose proof (bsame_wf _ _ H) as W. destruct H as [K P]. destruct m as [|q c]; [rewrite !bal_eqb_zero; auto|].
  apply Bool.eq_iff_eq_true. rewrite !bal_eqb_of by auto. rewrite (bal_amt_perm a a' c P). tauto.
Qed.
Lemma perm_filter {A} (f : A -> bool) l l' : Permutation l l' -> Permutation (filter f l) (filter f l').
Proof.
  induction 1 as [|x l l' P IH|x y l|l1 l2 l3 P1 IH1 P2 IH2]; cbn; auto.
  - destruct (f x); auto.
  - destruct (f x), (f y); auto. constructor.
  - etransitivity; eauto.
Qed.
Lemma bsame_to_money a a' : Permutation a a' -> to_money a = to_money a'.
Proof.
  intros P. unfold to_money. pose proof (perm_filter (fun m => negb (m_is_zero m)) _ _ (Permutation_map snd P)) as Q.
  destruct (filter _ (map snd a)) as [|x [|y r]].
  - apply Permutation_nil in Q. rewrite Q. auto.
  - apply Permutation_length_1_inv in Q. rewrite Q. auto.
  - pose proof (Permutation_length Q) as E. destruct (filter _ (map snd a')) as [|x' [|y' r']]; cbn in E; try discriminate. auto.
Qed.
Lemma bsame_zero a a' : Permutation a a' -> bal_is_zero a = bal_is_zero a'.
Proof.
  intros P. unfold bal_is_zero. apply Bool.eq_iff_eq_true. rewrite !forallb_forall. split; intros H x Hx; apply H; [eapply Permutation_in; [symmetry; exact P|auto]|eapply Permutation_in; [exact P|auto]].
Qed.
Lemma bsame_can a a' : bsame a a' -> nz_bal a -> can_be_zero a = can_be_zero a'.
Proof.
  intros H Z. pose proof (bsame_wf _ _ H) as W. destruct H as [K P]. apply Bool.eq_iff_eq_true. rewrite !can_be_zero_iff; auto; [|eapply nz_permuted; eauto].
  assert (E : forall c, bal_amt a c = bal_amt a' c) by (intros; apply bal_amt_perm; auto).
  split; (intros [X|[(c & X) (d & Y)]]; [left; intros c; first [rewrite E|rewrite <- E]; auto|right; split; [exists c|exists d]; first [rewrite E; assumption|rewrite <- E; assumption]]).
Qed.
(** Running balances. *)
Definition balsame (bals bals' : balances) : Prop :=
  forall acc, match hget str_eqb acc bals, hget str_eqb acc bals' with
              | Some b, Some b' => bsame b b'
              | None, None => True
              | _, _ => False
              end.
Lemma balsame_set bals bals' a b b' : balsame bals bals' -> bsame b b' -> balsame (hset str_eqb a b bals) (hset str_eqb a b' bals').
Proof.
  intros H K acc. rewrite !hget_hset by apply str_eqb_spec. destruct (str_eqb acc a); auto. apply H.
Qed.

(** ** One transaction *)
Definition stsame (s s' : bstate) : Prop :=
  balsame (bs_bals s) (bs_bals s') /\ bsame (bs_tb s) (bs_tb s') /\ nz_bal (bs_tb s) /\ bs_out s' = bs_out s /\ bs_fill s' = bs_fill s.
Lemma post_value_wf m k v : post_value m k = Ok v -> wf_bal v.
Proof.
  intros H. destruct k as [[a|[|a c]]|]; try discriminate; injection H as <-; try destruct (m_is_negative m); try apply wf_of; apply (wf_of (M _ c)).
Qed.
Lemma step_same skip s s' p : stsame s s' -> agree stsame (bal_step skip s p) (bal_step skip s' p).
Proof.
  intros (B & T & Z & O & F). unfold bal_step. destruct (negb (kind_eqb (p_kind p) Real)); [repeat (split; auto)|].
  pose proof (B (p_account p)) as Ba. destruct (p_amount p) as [m|].
  - destruct (hget str_eqb (p_account p) (bs_bals s)) as [b|], (hget str_eqb (p_account p) (bs_bals s')) as [b'|]; try contradiction; cbn [unwrap bind]; [|reflexivity].
    assert (K : bsame (bal_add b (bal_of m)) (bal_add b' (bal_of m))) by (apply bsame_add; auto; apply bsame_refl, wf_of).
    assert (E : match p_balance p with Some x => negb (bal_eqb (bal_of x) (bal_add b (bal_of m))) | None => false end =
                match p_balance p with Some x => negb (bal_eqb (bal_of x) (bal_add b' (bal_of m))) | None => false end).
    { destruct (p_balance p); auto. rewrite (bsame_eqb _ _ _ K). auto. }
    rewrite E. destruct (negb skip && _); [reflexivity|]. destruct (post_value m (p_cost p)) as [v|e|e] eqn:Ev; cbn [bind]; [|reflexivity|reflexivity].
    apply post_value_wf in Ev. split; [|split; [|split; [|split]]]; cbn; auto.
    + apply balsame_set; auto.
    + apply bsame_add; auto. apply bsame_refl. auto.
    + apply nz_add.
    + rewrite O. auto.
  - destruct (p_balance p) as [x|]; [|repeat (split; auto)]. destruct skip; [repeat (split; auto)|].
    destruct (hget str_eqb (p_account p) (bs_bals s)) as [b|], (hget str_eqb (p_account p) (bs_bals s')) as [b'|]; try contradiction; cbn [unwrap bind]; [|reflexivity].
    assert (K : bsame (bal_sub (bal_of x) b) (bal_sub (bal_of x) b')) by (apply bsame_add; [apply bsame_refl, wf_of|apply bsame_neg; auto]).
    rewrite (bsame_to_money _ _ (proj2 K)). destruct (to_money (bal_sub (bal_of x) b')) as [m|e|e]; cbn [bind]; [|reflexivity|reflexivity].
    split; [|split; [|split; [|split]]]; cbn; auto.
    + apply balsame_set; auto. apply bsame_refl, wf_of.
    + apply bsame_add; auto. apply bsame_refl, wf_of.
    + apply nz_add.
    + rewrite O. auto.
Qed.
(** The lines that fill a posting. *)
Lemma add_swap b x y : wf_bal b -> wf_bal x -> wf_bal y -> bsame (bal_add (bal_add b x) y) (bal_add (bal_add b y) x).
Proof.
  intros B X Y. split; [auto using wf_add|]. apply nz_perm; auto using wf_add, nz_add. intros c. rewrite !bal_amt_add by auto using wf_add. ring.
Qed.
Definition fold_fill (es : balance) (b : balance) : balance := fold_left (fun b e => bal_add b (bal_of (snd e))) es b.
Lemma fold_fill_wf es : forall b, wf_bal b -> wf_bal (fold_fill es b).
Proof. induction es as [|e es IH]; intros b H; cbn; auto. apply IH. apply wf_add; auto. apply wf_of. Qed.
Lemma fold_fill_same es : forall b b', bsame b b' -> bsame (fold_fill es b) (fold_fill es b').
Proof. induction es as [|e es IH]; intros b b' H; cbn; auto. apply IH. apply bsame_add; auto. apply bsame_refl, wf_of. Qed.
Lemma fold_fill_perm es es' : Permutation es es' -> forall b b', bsame b b' -> bsame (fold_fill es b) (fold_fill es' b').
Proof.
  induction 1 as [|x l l' P IH|x y l|l1 l2 l3 P1 IH1 P2 IH2]; intros b b' H; cbn; auto.
  - apply IH. apply bsame_add; auto. apply bsame_refl, wf_of.
  - apply fold_fill_same. apply (bsame_trans _ (bal_add (bal_add b (bal_of (snd x))) (bal_of (snd y)))).
    + apply add_swap; try apply wf_of. apply H.
    + repeat (apply bsame_add; try (apply bsame_refl, wf_of)). auto.
  - eapply bsame_trans; [apply IH1; apply bsame_refl; apply H|]. apply IH2. auto.
Qed.
Lemma fill_loop_is t acc pay (es : balance) : forall (bals : balances) (out : list posting) old, hget str_eqb acc bals = Some old -> exists bals' : balances,
  fill_loop t acc pay es (bals, out) = Ok (bals', out ++ map (fun e => fill_posting t acc pay (snd e)) es) /\
  forall a, hget str_eqb a bals' = if str_eqb a acc then Some (fold_fill es old) else hget str_eqb a bals.
Proof.
  unfold fill_loop. induction es as [|e es IH]; intros bals out old H; cbn [foldM].
  - exists bals. rewrite app_nil_r. split; auto. intros a. destruct (str_eqb_spec a acc) as [->|]; auto.
  - rewrite H. cbn [unwrap bind]. destruct (IH (hset str_eqb acc (bal_add old (bal_of (snd e))) bals) (out ++ [fill_posting t acc pay (snd e)]) (bal_add old (bal_of (snd e)))) as (bals' & E & G).
    { rewrite hget_hset by apply str_eqb_spec. destruct (str_eqb_spec acc acc); congruence. }
    exists bals'. split; [eapply eq_trans; [exact E|]; cbn [map]; rewrite <- app_assoc; reflexivity|]. intros a. rewrite G. destruct (str_eqb_spec a acc) as [->|N]; auto.
    rewrite hget_hset by apply str_eqb_spec. destruct (str_eqb_spec a acc); congruence.
Qed.
Lemma fill_same t acc pay (es es' : balance) (bals bals' : balances) (out : list posting) : Permutation es es' -> balsame bals bals' ->
  agree (fun x y => balsame (fst x) (fst y) /\ snd x = out ++ map (fun e => fill_posting t acc pay (snd e)) es /\
                    snd y = out ++ map (fun e => fill_posting t acc pay (snd e)) es')
    (fill_loop t acc pay es (bals, out)) (fill_loop t acc pay es' (bals', out)).
Proof.
  intros P B. pose proof (B acc) as Ba. destruct (hget str_eqb acc bals) as [b|] eqn:E, (hget str_eqb acc bals') as [b'|] eqn:E'; try contradiction.
  - destruct (fill_loop_is t acc pay es bals out b E) as (x & -> & Gx). destruct (fill_loop_is t acc pay es' bals' out b' E') as (y & -> & Gy). cbn. split; auto.
    intros a. rewrite Gx, Gy. destruct (str_eqb a acc); [apply fold_fill_perm; auto|apply B].
  - destruct es as [|e es]; [apply Permutation_nil in P; subst es'; cbn; rewrite app_nil_r; auto|].
    destruct es' as [|e' es']; [symmetry in P; apply Permutation_nil in P; discriminate|]. unfold fill_loop. cbn [foldM]. rewrite E, E'. reflexivity.
Qed.

Definition ressame (x y : balance * txn posting * balances) : Prop :=
  bsame (fst (fst x)) (fst (fst y)) /\ nz_bal (fst (fst x)) /\ same_txn (snd (fst x)) (snd (fst y)) /\ balsame (snd x) (snd y).
Definition commodity_of (p : posting) : option str := match p_amount p with Some m => m_commodity m | None => None end.
Lemma amounts_nodup t acc pay (es : balance) : wf_bal es -> NoDup (map commodity_of (map (fun e => fill_posting t acc pay (snd e)) es)).
Proof.
  intros [N F]. rewrite map_map. cbn. unfold hkeys in N. replace (map (fun x : bkey * money => m_commodity (snd x)) es) with (map fst es); auto.
  apply map_ext_in. intros e He. rewrite Forall_forall in F. apply F. auto.
Qed.
Lemma txn_same ord ord' skip t bals bals' : (forall b, Permutation (ord b) b) -> (forall b, Permutation (ord' b) b) -> balsame bals bals' ->
  agree ressame (txn_balance ord skip t bals) (txn_balance ord' skip t bals').
Proof.
  intros O O' B. unfold txn_balance. eapply agree_bind; [apply agree_eq; reflexivity|]. intros vb ? <-. destruct (negb (can_be_zero vb)); [reflexivity|].
  eapply agree_bind.
  { apply (agree_foldM stsame (bal_step skip) (bal_step skip)); [intros; apply step_same; auto|].
    split; [|split; [|split; [|split]]]; cbn; auto; [apply bsame_refl, wf_nil|constructor]. }
  intros s s' (B1 & T & Z & EO & EF). rewrite EO, EF. destruct (length (real (t_postings t)) - length (bs_out s))%nat as [|[|n]]; [| |reflexivity].
  - rewrite <- (bsame_can _ _ T Z). destruct (can_be_zero (bs_tb s)); [|reflexivity]. split; [|split; [|split]]; cbn; auto. split; auto. cbn.
    exists (bs_out s), [], [], (non_real (t_postings t)), []. repeat (split; auto). constructor.
  - assert (P : Permutation (ord (bal_neg (bs_tb s))) (ord' (bal_neg (bs_tb s')))).
    { rewrite O, O'. apply Permutation_map. apply T. }
    eapply agree_bind; [apply (fill_same t _ _ _ _ _ _ (bs_out s) P B1)|]. intros [b1 o1] [b2 o2] (X1 & X2 & X3). cbn [fst snd] in *. subst o1 o2.
    split; [|split; [|split]]; cbn [fst snd]; auto; [apply bsame_refl, wf_nil|constructor|]. split; auto. cbn.
    exists (bs_out s), (map (fun e => fill_posting t (fst (bs_fill s)) (snd (bs_fill s)) (snd e)) (ord (bal_neg (bs_tb s)))),
      (map (fun e => fill_posting t (fst (bs_fill s)) (snd (bs_fill s)) (snd e)) (ord' (bal_neg (bs_tb s')))), (non_real (t_postings t)), (fst (bs_fill s)).
    split; [symmetry; apply app_assoc|]. split; [symmetry; apply app_assoc|].
    split; [apply Permutation_map; exact P|]. split.
    + apply Forall_forall. intros p Hp. apply in_map_iff in Hp. destruct Hp as (e & <- & _). cbn. repeat (split; auto). discriminate.
    + apply amounts_nodup. eapply wf_perm; [|symmetry; apply O]. apply wf_neg. apply T.
Qed.

(** ** All transactions *)
Lemma qc_abs_nz m : m_is_zero m = false -> exists q c, m_abs m = M q c /\ q <> 0 /\ m_commodity m = Some c.
Proof.
  destruct m as [|q c]; [discriminate|]. unfold m_is_zero, m_abs. destruct (qc_eqb_spec q 0) as [|N]; [discriminate|]. intros _.
  destruct (m_is_negative (M q c)); cbn; [|exists q, c; auto]. exists (- q), c. split; auto. split; auto. intros E. apply N. rewrite <- (Qcopp_involutive q), E. reflexivity.
Qed.
Lemma price_same date b b' : nz_bal b -> Permutation b b' -> agree (Forall2 same_price) (implicit_price date b) (implicit_price date b').
Proof.
  intros Z P. pose proof (Permutation_length P) as E.
  assert (T : forall (x : balance), length x <> 2%nat -> implicit_price date x = Ok []).
  { intros [|[? ?] [|[? ?] [|[? ?] ?]]] H; auto. cbn in H. congruence. }
  destruct (Nat.eq_dec (length b) 2) as [E2|N]; [|rewrite !T by congruence; cbn; auto].
  destruct b as [|[k x] [|[k' y] [|? ?]]]; try discriminate. apply Permutation_length_2_inv in P.
  inversion Z as [|? ? Zx Z1]; subst. inversion Z1 as [|? ? Zy Z2]; subst. cbn [snd] in *.
  destruct (qc_abs_nz _ Zx) as (q & c & Ex & Nq & _). destruct (qc_abs_nz _ Zy) as (r & d & Ey & Nr & _).
  assert (X1 : implicit_price date [(k, x); (k', y)] = Ok [{| pr_date := date; pr_com := c; pr_amount := r / q; pr_cur := d |}]).
  { cbn. rewrite Ex, Ey. cbn. destruct (qc_eqb_spec q 0); [contradiction|auto]. }
  assert (X2 : implicit_price date [(k', y); (k, x)] = Ok [{| pr_date := date; pr_com := d; pr_amount := q / r; pr_cur := c |}]).
  { cbn. rewrite Ex, Ey. cbn. destruct (qc_eqb_spec r 0); [contradiction|auto]. }
  destruct P as [-> | ->]; rewrite ?X1, ?X2; cbn; constructor; auto; [left; auto|].
  right. cbn. repeat (split; auto). field. auto.
Qed.
Definition allsame (x y : list (txn posting) * balances * list price) : Prop :=
  Forall2 same_txn (fst (fst x)) (fst (fst y)) /\ balsame (snd (fst x)) (snd (fst y)) /\ Forall2 same_price (snd x) (snd y).
Lemma all_same w w' skip ts : world_ok w -> world_ok w' -> forall site site' bals bals' prices prices', balsame bals bals' -> Forall2 same_price prices prices' ->
  agree allsame (balance_all w site skip ts bals prices) (balance_all w' site' skip ts bals' prices').
Proof.
  intros [O _] [O' _]. induction ts as [|t ts IH]; intros site site' bals bals' prices prices' B Pr; cbn [balance_all]; [repeat (split; cbn; auto)|].
  eapply agree_bind; [apply agree_eq; reflexivity|]. intros d ? <-.
  eapply agree_bind; [apply (txn_same (w_ord w site _) (w_ord w' site' _)); auto|].
  intros [[b t1] b1] [[b' t1'] b1'] (X1 & X2 & X3 & X4). cbn [fst snd] in *.
  eapply agree_bind.
  { eapply price_same; [eapply nz_permuted; [exact X2|symmetry; apply O]|]. rewrite O, O'. apply X1. }
  intros prs prs' X5. eapply agree_bind; [apply IH; [exact X4|apply Forall2_app; eauto]|]. intros [[r b2] pr] [[r' b2'] pr'] (Y1 & Y2 & Y3). cbn in *. repeat (split; cbn; auto).
Qed.

(** ** Names *)
Lemma buildable_order {T} w o (name : T -> str) aliases l : buildable w name aliases l <-> buildable (with_order w o) name aliases l.
Proof.
  split; induction 1 as [|e l B IH|a e l l' B IH Hi H|l l' B IH B' IH'|rx l r l' B IH H].
  all: try (constructor; fail).
  - apply (buildable_insert (with_order w o) name aliases e l IH).
  - apply (buildable_alias (with_order w o) name aliases a e l l' IH Hi H).
  - apply (buildable_append (with_order w o) name aliases l l' IH IH').
  - apply (buildable_regex (with_order w o) name aliases rx l r l' IH H).
  - apply (buildable_insert w name aliases e l IH).
  - apply (buildable_alias w name aliases a e l l' IH Hi H).
  - apply (buildable_append w name aliases l l' IH IH').
  - apply (buildable_regex w name aliases rx l r l' IH H).
Qed.
Lemma journal_order w o l : journal_ok w l -> journal_ok (with_order w o) l.
Proof. intros [A B C D]. constructor; auto; apply (proj1 (buildable_order _ _ _ _ _)); auto. Qed.
Lemma names_order w o l cs al pays : names_ok (with_order w o) l cs al pays -> names_ok w l cs al pays.
Proof. intros [A B C D1 D2 D3 D4 D5 D6 D7 D8 D9]. constructor; auto; apply (proj2 (buildable_order w o _ _ _)); auto. Qed.

Lemma values_nodup {T} w (name : T -> str) l : lwf w name l -> NoDup (l_values l).
Proof.
  intros W. apply (NoDup_map_inv (fun e => w_lower w (name e))). pose proof (lwf_nd _ _ _ W) as N. pose proof (lwf_key _ _ _ W) as K. unfold hkeys in N. unfold l_values.
  replace (map (fun e => w_lower w (name e)) (map snd (l_list l))) with (map fst (l_list l)); auto. rewrite map_map. apply map_ext_in. intros [k e] H. apply K. auto.
Qed.
Lemma values_same {T} w (name : T -> str) aliases l l' : buildable w name aliases l -> buildable w name aliases l' ->
  (forall k, l_get w k l' = l_get w k l) -> same_names w l l'.
Proof.
  intros B B' H. split; auto. apply NoDup_Permutation.
  - apply (values_nodup w name). eapply buildable_lwf; eauto.
  - apply (values_nodup w name). eapply buildable_lwf; eauto.
  - intros e. split; intros Hi.
    + eapply get_value; [exact B'|]. rewrite H. eapply values_get; eauto.
    + eapply get_value; [exact B|]. rewrite <- H. eapply values_get; eauto.
Qed.
Lemma gets_same {T} w (name : T -> str) aliases l l1 l2 (used : str -> Prop) :
  buildable w name aliases l -> buildable w name aliases l1 -> buildable w name aliases l2 -> grows w l l1 -> grows w l l2 ->
  (forall n, used n -> resolves w l1 n) -> (forall n, used n -> resolves w l2 n) ->
  (forall k e, l_get w k l1 = Ok e -> l_get w k l = Ok e \/ exists m, used m /\ w_lower w m = w_lower w k) ->
  (forall k e, l_get w k l2 = Ok e -> l_get w k l = Ok e \/ exists m, used m /\ w_lower w m = w_lower w k) ->
  (forall k e e', (forall x, l_get w k l <> Ok x) -> l_get w k l1 = Ok e -> l_get w k l2 = Ok e' -> e = e') ->
  same_names w l1 l2.
Proof.
  intros B B1 B2 [G1 _] [G2 _] R1 R2 A1 A2 U. apply (values_same w name aliases); auto. intros k.
  destruct (lwf_get_cases w name k l (buildable_lwf _ _ _ _ B)) as [(e & _ & E)|E]; [rewrite (G1 _ _ E), (G2 _ _ E); auto|].
  assert (N : forall x, l_get w k l <> Ok x) by (intros; congruence).
  destruct (lwf_get_cases w name k l1 (buildable_lwf _ _ _ _ B1)) as [(e1 & _ & E1)|E1], (lwf_get_cases w name k l2 (buildable_lwf _ _ _ _ B2)) as [(e2 & _ & E2)|E2].
  - rewrite E1, E2. f_equal. symmetry. eauto.
  - exfalso. destruct (A1 _ _ E1) as [X|(m & Hm & Lm)]; [eapply N; eauto|]. destruct (R2 m Hm) as (x & Ex & _). apply (get_lower w m k l2 x Lm) in Ex. congruence.
  - exfalso. destruct (A2 _ _ E2) as [X|(m & Hm & Lm)]; [eapply N; eauto|]. destruct (R1 m Hm) as (x & Ex & _). apply (get_lower w m k l1 x Lm) in Ex. congruence.
  - congruence.
Qed.
Lemma mentioned_account l n : In n (account_names l) <-> mentions_account l n.
Proof.
  rewrite account_names_iff. unfold mentions_account, all_postings. split.
  - intros (p & Hp & ->). apply in_flat_map in Hp. destruct Hp as (t & Ht & Hp). eauto.
  - intros (t & p & Ht & Hp & E). exists p. split; auto. apply in_flat_map. eauto.
Qed.
Lemma mentioned_payee l n : In n (payee_names l) <-> mentions_payee l n.
Proof.
  rewrite payee_names_iff. unfold mentions_payee, all_postings. split.
  - intros (p & Hp & E). apply in_flat_map in Hp. destruct Hp as (t & Ht & Hp). eauto.
  - intros (t & p & Ht & Hp & E). exists p. split; auto. apply in_flat_map. eauto.
Qed.
Lemma mentioned_commodity l n : In n (commodity_names l) -> mentions_commodity l n.
Proof.
  rewrite commodity_names_iff. unfold mentions_commodity, all_postings. intros [(p & Hp & H)|(p & q & Hp & H)].
  - left. exists p. tauto.
  - right. apply in_flat_map in Hp. destruct Hp as (t & Ht & Hp). exists t, p, q. tauto.
Qed.
Lemma not_got {T} w n m (l : alist T) : w_lower w n = w_lower w m -> (forall x, l_get w n l <> Ok x) -> forall x, l_get w m l <> Ok x.
Proof. intros E N x H. apply (get_lower w m n l x (eq_sym E)) in H. eapply N; eauto. Qed.
Lemma names_same w l cs al pays cs' al' pays' : journal_ok w l -> clear_names w l -> names_ok w l cs al pays -> names_ok w l cs' al' pays' ->
  same_names w cs cs' /\ same_names w al al' /\ same_names w pays pays'.
Proof.
  intros J C N N'. split; [|split].
  - apply (gets_same w cu_name cu_aliases (pl_commodities l) cs cs' (fun n => In n (commodity_names l))); try apply J; try apply N; try apply N'.
    + intros k e H. destruct (proj1 (no_acs _ _ _ _ _ N) k e H) as [X|(_ & m & Hm & Lm & _)]; eauto.
    + intros k e H. destruct (proj1 (no_acs _ _ _ _ _ N') k e H) as [X|(_ & m & Hm & Lm & _)]; eauto.
    + intros k e e' X H H'. destruct (proj1 (no_acs _ _ _ _ _ N) k e H) as [Y|(_ & m & Hm & Lm & ->)]; [edestruct X; eauto|].
      destruct (proj1 (no_acs _ _ _ _ _ N') k e' H') as [Y|(_ & m' & Hm' & Lm' & ->)]; [edestruct X; eauto|].
      pose proof (cn_commodities _ _ C m m' (mentioned_commodity _ _ Hm) (mentioned_commodity _ _ Hm') ltac:(congruence)) as E. unfold commodity_meant in E.
      pose proof (not_got w k m _ (eq_sym Lm) X) as X1. pose proof (not_got w k m' _ (eq_sym Lm') X) as X2.
      destruct (l_get w m (pl_commodities l)); [edestruct X1; eauto| |]; (destruct (l_get w m' (pl_commodities l)); [edestruct X2; eauto| |]); congruence.
  - apply (gets_same w ac_name ac_aliases (pl_accounts l) al al' (fun n => In n (account_names l))); try apply J; try apply N; try apply N'.
    + intros k e H. destruct (proj1 (no_aal _ _ _ _ _ N) k e H) as [X|(_ & m & Hm & Lm & _)]; eauto.
    + intros k e H. destruct (proj1 (no_aal _ _ _ _ _ N') k e H) as [X|(_ & m & Hm & Lm & _)]; eauto.
    + intros k e e' X H H'. destruct (proj1 (no_aal _ _ _ _ _ N) k e H) as [Y|(_ & m & Hm & Lm & ->)]; [edestruct X; eauto|].
      destruct (proj1 (no_aal _ _ _ _ _ N') k e' H') as [Y|(_ & m' & Hm' & Lm' & ->)]; [edestruct X; eauto|].
      pose proof (cn_accounts _ _ C m m' (proj1 (mentioned_account _ _) Hm) (proj1 (mentioned_account _ _) Hm') ltac:(congruence)) as E. unfold account_meant in E.
      pose proof (not_got w k m _ (eq_sym Lm) X) as X1. pose proof (not_got w k m' _ (eq_sym Lm') X) as X2.
      destruct (l_get w m (pl_accounts l)); [edestruct X1; eauto| |]; (destruct (l_get w m' (pl_accounts l)); [edestruct X2; eauto| |]); congruence.
  - apply (gets_same w py_name py_aliases (pl_payees l) pays pays' (fun n => In n (payee_names l))); try apply J; try apply N; try apply N'.
    + intros k e H. destruct (proj1 (no_apays _ _ _ _ _ N) k e H) as [X|(_ & m & Hm & Lm & _)]; eauto.
    + intros k e H. destruct (proj1 (no_apays _ _ _ _ _ N') k e H) as [X|(_ & m & Hm & Lm & _)]; eauto.
    + intros k e e' X H H'. destruct (proj1 (no_apays _ _ _ _ _ N) k e H) as [Y|(_ & m & Hm & Lm & Z)]; [edestruct X; eauto|].
      destruct (proj1 (no_apays _ _ _ _ _ N') k e' H') as [Y|(_ & m' & Hm' & Lm' & Z')]; [edestruct X; eauto|].
      pose proof (not_got w k m _ (eq_sym Lm) X) as X1. apply mentioned_payee in Hm. apply mentioned_payee in Hm'.
      destruct (cn_payees _ _ C m m' Hm Hm' ltac:(congruence)) as [<-|(y & E)]; [|edestruct X1; eauto].
      destruct Z as [[Z1 Z2]|[Z1 ->]], Z' as [[Z1' Z2']|[Z1' ->]]; auto; [|edestruct Z1'; eauto|edestruct Z1; eauto].
      eapply (cn_patterns _ _ C m); eauto.
Qed.

(** ** Reading *)
Lemma same_get {T} (w : world) (l l' : alist T) k : same_names w l l' -> l_get w k l' = l_get w k l.
Proof. intros [H _]. auto. Qed.
Lemma same_unwrap {T} (w : world) (l l' : alist T) k : same_names w l l' -> get_unwrap w k l' = get_unwrap w k l.
Proof. intros [H _]. unfold get_unwrap. rewrite H. auto. Qed.
Lemma last_match_perm {A} (f : A -> bool) l l' : Permutation l l' -> (forall a b, In a l -> In b l -> f a = true -> f b = true -> a = b) ->
  fold_left (fun r a => if f a then Some a else r) l None = fold_left (fun r a => if f a then Some a else r) l' None.
Proof.
  intros P U. destruct (fold_left _ l None) as [a|] eqn:E, (fold_left _ l' None) as [b|] eqn:E'; auto.
  - destruct (last_match_in _ _ _ _ E) as [[H1 H2]|]; [|discriminate]. destruct (last_match_in _ _ _ _ E') as [[H3 H4]|]; [|discriminate].
    f_equal. apply U; auto. eapply Permutation_in; [symmetry; exact P|auto].
  - destruct (last_match_in _ _ _ _ E) as [[H1 H2]|]; [|discriminate]. rewrite (last_match_none _ _ _ E' a) in H2; [discriminate|]. eapply Permutation_in; eauto.
  - destruct (last_match_in _ _ _ _ E') as [[H1 H2]|]; [|discriminate]. rewrite (last_match_none _ _ _ E b) in H2; [discriminate|]. eapply Permutation_in; [symmetry; exact P|auto].
Qed.
Lemma claims_once w l cs al pays n a b : names_ok w l cs al pays -> clear_names w l -> In a (l_values al) -> In b (l_values al) ->
  claims_payee w n a -> claims_payee w n b -> a = b.
Proof.
  intros N C Ha Hb Ka Kb.
  assert (D : forall x, In x (l_values al) -> claims_payee w n x -> In x (l_values (pl_accounts l))).
  { intros x Hx (rx & Hrx & _). destruct (proj2 (no_aal _ _ _ _ _ N) x Hx) as [|(m & _ & _ & ->)]; auto. destruct Hrx. }
  eapply (cn_claims _ _ C); eauto.
Qed.
Lemma posting_account_same w l cs al pays al' accs accs' n pay : names_ok w l cs al pays -> clear_names w l -> same_names w al al' ->
  Permutation accs (l_values al) -> Permutation accs' (l_values al') -> posting_account w accs al n pay = posting_account w accs' al' n pay.
Proof.
  intros N C S P P'. unfold posting_account. rewrite (same_get _ _ _ _ S). destruct (ends_with _ _); auto.
  rewrite (last_match_perm (fun a => existsb (fun rx => w_rx w rx pay) (ac_payees a)) accs accs').
  - auto.
  - rewrite P, P'. apply S.
  - intros a b Ha Hb Ka Kb. apply existsb_exists in Ka. apply existsb_exists in Kb. eapply (claims_once w l cs al pays pay); eauto.
    + eapply Permutation_in; eauto.
    + eapply Permutation_in; eauto.
Qed.
Lemma bind_ext {A B} (r : res A) (f g : A -> res B) : (forall a, f a = g a) -> bind r f = bind r g.
Proof. destruct r; cbn; auto. Qed.
Lemma mapM_ext {A B} (f g : A -> res B) l : (forall x, f x = g x) -> mapM f l = mapM g l.
Proof. intros H. induction l as [|x l IH]; cbn; auto. rewrite H. apply bind_ext. intros. rewrite IH. auto. Qed.
Lemma txn_of_raw_same w l cs al pays cs' al' pays' accs accs' t : names_ok w l cs al pays -> clear_names w l ->
  same_names w cs cs' -> same_names w al al' -> same_names w pays pays' -> Permutation accs (l_values al) -> Permutation accs' (l_values al') ->
  txn_of_raw w accs al pays cs t = txn_of_raw w accs' al' pays' cs' t.
Proof.
  intros N C Sc Sa Sp P P'. unfold txn_of_raw. destruct (t_type t); auto. apply bind_ext. intros d.
  rewrite (mapM_ext (posting_of_raw w accs al pays cs d (t_desc t) (flat_map get_tags (t_comments t))) (posting_of_raw w accs' al' pays' cs' d (t_desc t) (flat_map get_tags (t_comments t)))); auto.
  intros p. unfold posting_of_raw. rewrite (same_get _ _ _ _ Sp).
  assert (E1 : match rp_payee p with None => match l_get w (t_desc t) pays with Ok x => Ok x | Err _ => Panic PExplicit | Panic e => Panic e end | Some x => get_unwrap w x pays end =
               match rp_payee p with None => match l_get w (t_desc t) pays with Ok x => Ok x | Err _ => Panic PExplicit | Panic e => Panic e end | Some x => get_unwrap w x pays' end).
  { destruct (rp_payee p); auto. rewrite (same_unwrap _ _ _ _ Sp). auto. }
  rewrite E1. apply bind_ext. intros y. rewrite (posting_account_same w l cs al pays al' accs accs'); auto. apply bind_ext. intros a.
  assert (E2 : forall m, money_of_raw w cs m = money_of_raw w cs' m). { intros m. unfold money_of_raw. rewrite (same_unwrap _ _ _ _ Sc). auto. }
  assert (E3 : forall o : option (Qc * str), match o with Some m => x <- money_of_raw w cs m ;; Ok (Some x) | None => Ok None end =
               match o with Some m => x <- money_of_raw w cs' m ;; Ok (Some x) | None => Ok None end). { intros [m|]; auto. rewrite E2. auto. }
  rewrite E3. apply bind_ext. intros am.
  assert (E4 : forall c, cost_of_raw w cs d p c = cost_of_raw w cs' d p c).
  { intros c. unfold cost_of_raw. apply bind_ext. intros mc. rewrite !(same_unwrap _ _ _ _ Sc). auto. }
  assert (E5 : match rp_cost p with Some c => '(k, pr) <- cost_of_raw w cs d p c ;; Ok (Some k, [pr]) | None => Ok (None, []) end =
               match rp_cost p with Some c => '(k, pr) <- cost_of_raw w cs' d p c ;; Ok (Some k, [pr]) | None => Ok (None, []) end).
  { destruct (rp_cost p); auto. rewrite E4. auto. }
  rewrite E5. apply bind_ext. intros [k pr]. rewrite E3. auto.
Qed.
Lemma price_of_same w cs cs' p : same_names w cs cs' -> price_of w cs p = price_of w cs' p.
Proof. intros S. unfold price_of. rewrite !(same_unwrap _ _ _ _ S). auto. Qed.
Lemma fresh_same (l l' : list account) acc : Permutation l l' ->
  hget str_eqb acc (map (fun a => (ac_name a, bal_new)) l) = hget str_eqb acc (map (fun a => (ac_name a, bal_new)) l').
Proof.
  assert (X : forall l, hget str_eqb acc (map (fun a => (ac_name a, bal_new)) l) = if existsb (fun a => str_eqb acc (ac_name a)) l then Some bal_new else None).
  { induction l0 as [|a l0 IH]; cbn; auto. rewrite IH. destruct (str_eqb acc (ac_name a)); auto. }
  intros P. rewrite !X. replace (existsb (fun a => str_eqb acc (ac_name a)) l') with (existsb (fun a => str_eqb acc (ac_name a)) l); auto.
  apply Bool.eq_iff_eq_true. rewrite !existsb_exists. split; intros (a & H & E); exists a; split; auto; [|symmetry in P]; eapply Permutation_in; eauto.
Qed.
Lemma balsame_fresh w al al' : same_names w al al' -> balsame (fresh_balances al) (fresh_balances al').
Proof.
  intros [_ P] acc. unfold fresh_balances. rewrite <- (fresh_same _ _ acc P). destruct (hget str_eqb acc _) as [b|] eqn:E; auto. apply bsame_refl.
  apply hget_str in E. apply in_map_iff in E. destruct E as (a & E & _). injection E as _ <-. apply wf_nil.
Qed.
Lemma read_same w o l : world_ok w -> world_ok (with_order w o) -> journal_ok w l -> clear_names w l ->
  exists cs al pays cs' al' pays', names_ok w l cs al pays /\ names_ok w l cs' al' pays' /\ same_names w cs cs' /\ same_names w al al' /\ same_names w pays pays' /\
    ((exists prices raw, read_phase w l = Ok (cs, al, pays, prices, raw) /\ read_phase (with_order w o) l = Ok (cs', al', pays', prices, raw) /\ read_ok w l cs al pays prices raw) \/
     (exists x, read_phase w l = Panic x /\ read_phase (with_order w o) l = Panic x)).
Proof.
  intros W W' J C. pose proof (read_phase_spec w l W J) as RS. destruct (names_exist w l W J) as (cs & al & pays & E1 & E2 & E3 & N).
  destruct (names_exist (with_order w o) l W' (journal_order _ _ _ J)) as (cs' & al' & pays' & E1' & E2' & E3' & N').
  apply names_order in N'. destruct (names_same _ _ _ _ _ _ _ _ J C N N') as (Sc & Sa & Sp).
  exists cs, al, pays, cs', al', pays'. repeat (split; auto).
  assert (R : read_phase w l = (prices1 <- mapM (price_of w cs) (pl_prices l) ;; raw <- mapM (txn_of_raw w (w_ord w 4 _ (l_values al)) al pays cs) (pl_txns l) ;; Ok (cs, al, pays, prices1, raw))).
  { unfold read_phase. rewrite E1. cbn [bind]. rewrite E2. cbn [bind]. rewrite E3. reflexivity. }
  assert (R' : read_phase (with_order w o) l = (prices1 <- mapM (price_of w cs) (pl_prices l) ;; raw <- mapM (txn_of_raw w (w_ord w 4 _ (l_values al)) al pays cs) (pl_txns l) ;; Ok (cs', al', pays', prices1, raw))).
  { unfold read_phase. rewrite E1'. cbn [bind]. rewrite E2'. cbn [bind]. rewrite E3'. cbn [bind].
    rewrite (mapM_ext (price_of w cs) (price_of (with_order w o) cs')) by (intros p; exact (price_of_same w cs cs' p Sc)).
    rewrite (mapM_ext (txn_of_raw w (w_ord w 4 _ (l_values al)) al pays cs) (txn_of_raw (with_order w o) (w_ord (with_order w o) 4 _ (l_values al')) al' pays' cs')); auto.
    intros t. exact (txn_of_raw_same w l cs al pays cs' al' pays' _ (w_ord (with_order w o) 4 _ (l_values al')) t N C Sc Sa Sp (proj1 W 4%nat _ _) (proj1 W' 4%nat _ _)). }
  rewrite R in RS |- *. rewrite R'. destruct (mapM (price_of w cs) (pl_prices l)) as [prices|e|e]; cbn [bind] in *.
  - destruct (mapM _ (pl_txns l)) as [raw|e|e]; cbn [bind] in *.
    + left. exists prices, raw. split; auto. split; auto. destruct RS as [(? & ? & ? & ? & ? & H & K)|[H _]]; [injection H as <- <- <- <- <-; auto|discriminate].
    + destruct RS as [(? & ? & ? & ? & ? & H & K)|[H _]]; discriminate.
    + right. eauto.
  - destruct RS as [(? & ? & ? & ? & ? & H & K)|[H _]]; discriminate.
  - right. eauto.
Qed.
(** ** The ledger *)
Lemma no_autos w al pays cs ts (raw : list raw_result) : Forall2 (raw_ok w al pays cs) ts raw -> filter is_rule ts = [] -> flat_map (fun x : raw_result => snd (fst x)) raw = [].
Proof.
  induction 1 as [|t r ts raw H F IH]; cbn; auto. unfold raw_ok in H. intros E. unfold is_rule at 1 in E. destruct (t_type t) eqn:T.
  - destruct H as (t' & prs & d & -> & _). cbn. apply IH. exact E.
  - discriminate.
  - contradiction.
Qed.
Lemma ledger_same w o skip l : world_ok w -> world_ok (with_order w o) -> journal_ok w l -> clear_names w l -> rules l = [] ->
  agree (same_ledger w) (to_ledger w skip l) (to_ledger (with_order w o) skip l).
Proof.
  intros W W' J C R. destruct (read_same w o l W W' J C) as (cs & al & pays & cs' & al' & pays' & N & N' & Sc & Sa & Sp & [(prices & raw & E & E' & RO)|(x & E & E')]).
  - rewrite !to_ledger_phases, E, E'. cbn [bind]. unfold balance_phase. rewrite (no_autos _ _ _ _ _ _ (ro_raw _ _ _ _ _ _ _ RO) R).
    eapply agree_bind; [apply all_same; [exact W|exact W'|eapply balsame_fresh; eauto|]|].
    + generalize (prices ++ flat_map snd raw). induction l0; constructor; auto. left. auto.
    + intros [[ts b] pr] [[ts' b'] pr'] (X1 & X2 & X3). cbn in *. constructor; auto.
  - rewrite !to_ledger_phases, E, E'. reflexivity.
Qed.
