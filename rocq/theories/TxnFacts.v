(** Facts about balancing transactions. *)
From Verif Require Import Base Money Txn BaseFacts Spec MoneyFacts SpecTxn.
From Coq Require Import Lia Lqa.
Open Scope Qc_scope.

Lemma kind_eqb_spec a b : reflect (a = b) (kind_eqb a b).
Proof. destruct a, b; simpl; constructor; congruence. Qed.

(** ** Sums *)
Lemma group_value_app k l1 l2 c : group_value k (l1 ++ l2) c = group_value k l1 c + group_value k l2 c.
Proof. unfold group_value. rewrite map_app. apply qsum_app. Qed.
Lemma group_value_cons k p l c : group_value k (p :: l) c = posting_value k c p + group_value k l c.
Proof. reflexivity. Qed.
Lemma account_sum_app l1 l2 acc c : account_sum (l1 ++ l2) acc c = account_sum l1 acc c + account_sum l2 acc c.
Proof. unfold account_sum. rewrite map_app. apply qsum_app. Qed.
Lemma account_sum_cons p l acc c : account_sum (p :: l) acc c = posting_to acc c p + account_sum l acc c.
Proof. reflexivity. Qed.
Lemma qsum_zero l : (forall x, In x l -> x = 0) -> qsum l = 0.
Proof.
  induction l as [|x l IH]; intros H; [reflexivity|]. rewrite qsum_cons, IH, (H x); [ring|left; auto|].
  intros; apply H; right; auto.
Qed.
Lemma group_value_non_real ps c : group_value Real (non_real ps) c = 0.
Proof.
  apply qsum_zero. intros x Hx. apply in_map_iff in Hx. destruct Hx as (p & <- & Hp).
  unfold non_real in Hp. apply filter_In in Hp. destruct Hp as [_ Hp]. unfold posting_value.
  destruct (p_amount p); auto. destruct (kind_eqb (p_kind p) Real); auto; discriminate.
Qed.
Lemma account_sum_non_real ps acc c : account_sum (non_real ps) acc c = 0.
Proof.
  apply qsum_zero. intros x Hx. apply in_map_iff in Hx. destruct Hx as (p & <- & Hp).
  unfold non_real in Hp. apply filter_In in Hp. destruct Hp as [_ Hp]. unfold posting_to.
  destruct (p_amount p); auto. destruct (kind_eqb (p_kind p) Real); auto; discriminate.
Qed.

(** ** Values *)
Lemma post_value_spec m k v : post_value m k = Ok v ->
  match k with None => True | Some _ => has_commodity m end ->
  built v /\ forall c, bal_amt v c = value_at_cost m k c.
Proof.
  unfold post_value. destruct k as [[a|a]|]; simpl; intros H Hc.
  - inv H. destruct m as [|q cur]; [destruct Hc|]. simpl. destruct (qc_neg q).
    + split; [constructor|]. intros. rewrite bal_amt_of. destruct a; simpl; [ring|].
      destruct (str_eqb c0 c); ring.
    + split; [constructor|]. intros. apply bal_amt_of.
  - destruct a as [|q cur]; [discriminate|]. inv H. split; [exact (built_of (M (q * m_amount m) cur))|].
    intros. pose proof (bal_amt_of (M (q * m_amount m) cur) c) as K. simpl in K. rewrite K. simpl.
    destruct (str_eqb cur c); ring.
  - inv H. split; [constructor|]. intros. apply bal_amt_of.
Qed.
Lemma post_value_total m k : 
  match k with None => True | Some k' => has_commodity (cost_money k') end -> exists v, post_value m k = Ok v.
Proof.
  unfold post_value. destruct k as [[a|a]|]; simpl; eauto. destruct a; simpl; [tauto|eauto].
Qed.

(** ** Running balances *)
Lemma run_amt_hset bals a b acc c : 
  run_amt (hset str_eqb a b bals) acc c = if str_eqb acc a then bal_amt b c else run_amt bals acc c.
Proof. unfold run_amt. rewrite hget_hset by apply str_eqb_spec. destruct (str_eqb acc a); auto. Qed.
Lemma good_bals_hset bals a b : good_bals bals -> built b -> good_bals (hset str_eqb a b bals).
Proof.
  intros Hg Hb acc x. rewrite hget_hset by apply str_eqb_spec. destruct (str_eqb acc a); intros H; [inv H|]; eauto.
Qed.
Lemma known_hset bals a b acc : known bals acc -> known (hset str_eqb a b bals) acc.
Proof. unfold known. rewrite hget_hset by apply str_eqb_spec. destruct (str_eqb acc a); auto. congruence. Qed.
Lemma known_hset_iff bals a b acc : known bals a -> (known (hset str_eqb a b bals) acc <-> known bals acc).
Proof.
  unfold known. intros Ha. rewrite hget_hset by apply str_eqb_spec. destruct (str_eqb_spec acc a); [subst|tauto].
  split; intros; congruence.
Qed.

(** ** The loop *)
Definition init_state (bals : balances) : bstate :=
  {| bs_bals := bals; bs_tb := bal_new; bs_out := []; bs_fill := (L "this will never be used", None) |}.

Definition last_elided (skip : bool) (ps : list posting) (d : str * option str) : str * option str :=
  fold_left (fun d p => if elided skip p then (p_account p, p_payee p) else d) ps d.

(** The assertions that hold among the postings kept, in order. *)
Definition asserted (bals : balances) (out : list posting) : Prop :=
  forall k1 p k2 a c, out = k1 ++ p :: k2 -> p_balance p = Some (M a c) ->
    run_amt bals (p_account p) c + account_sum (k1 ++ [p]) (p_account p) c = a.

Record loop_inv (skip : bool) (bals : balances) (pre : list posting) (s : bstate) : Prop := {
  li_good : good_bals (bs_bals s);
  li_known : forall acc, known (bs_bals s) acc <-> known bals acc;
  li_run : forall acc c, run_amt (bs_bals s) acc c = run_amt bals acc c + account_sum (bs_out s) acc c;
  li_tb_built : is_sum (bs_tb s) \/ bs_tb s = bal_new;
  li_tb : forall c, bal_amt (bs_tb s) c = group_value Real (bs_out s) c;
  li_keeps : Forall2 keeps (filter (given skip) pre) (bs_out s);
  li_count : length (real pre) = (length (bs_out s) + length (filter (elided skip) pre))%nat;
  li_fill : bs_fill s = last_elided skip pre (L "this will never be used", None);
  li_assert : skip = false -> asserted bals (bs_out s);
}.

Lemma snoc_split {A} (out k1 k2 : list A) x p :
  out ++ [x] = k1 ++ p :: k2 -> (k2 = [] /\ k1 = out /\ p = x) \/ exists k2', k2 = k2' ++ [x] /\ out = k1 ++ p :: k2'.
Proof.
  intros H. destruct k2 as [|y k2] using rev_ind.
  - left. apply app_inj_tail in H. destruct H. auto.
  - right. clear IHk2. rewrite app_comm_cons, app_assoc in H. apply app_inj_tail in H. destruct H as [-> ->]. eauto.
Qed.

Lemma asserted_snoc bals out p : asserted bals out ->
  (forall a c, p_balance p = Some (M a c) ->
     run_amt bals (p_account p) c + account_sum (out ++ [p]) (p_account p) c = a) ->
  asserted bals (out ++ [p]).
Proof.
  intros Ho Hp k1 q k2 a c E Hb. apply snoc_split in E. destruct E as [(-> & -> & ->)|(k2' & -> & E)].
  - auto.
  - eapply Ho; eauto.
Qed.

Lemma is_sum_or_new_built b : is_sum b \/ b = bal_new -> built b.
Proof. intros [H| ->]; [apply is_sum_built; auto|constructor]. Qed.

Lemma loop_step skip bals pre s p s' :
  loop_inv skip bals pre s -> good_posting p -> bal_step skip s p = Ok s' ->
  loop_inv skip bals (pre ++ [p]) s'.
Proof.
  intros I Hgp H. destruct I as [Ig Ik Ir Ib Itb Ikp Ic If Ia].
  unfold bal_step in H. destruct (kind_eqb_spec (p_kind p) Real) as [Hk|Hk]; simpl negb in H.
  2: { inv H. assert (G : given skip p = false) by (unfold given; destruct (kind_eqb_spec (p_kind p) Real); [contradiction|auto]).
       assert (E : elided skip p = false) by (unfold elided; destruct (p_kind p); congruence).
       constructor; auto.
       - rewrite filter_app. simpl. rewrite G, app_nil_r. auto.
       - unfold real. rewrite !filter_app. simpl. rewrite E. destruct (kind_eqb_spec (p_kind p) Real); [contradiction|].
         rewrite !app_nil_r. exact Ic.
       - unfold last_elided. rewrite fold_left_app. simpl. rewrite E. exact If. }
  assert (HR : real (pre ++ [p]) = real pre ++ [p]).
  { unfold real. rewrite filter_app. simpl. rewrite Hk. reflexivity. }
  destruct (p_amount p) as [m|] eqn:Em.
  - (* an amount *)
    assert (E : elided skip p = false) by (unfold elided; rewrite Hk, Em; auto).
    assert (G : given skip p = true) by (unfold given; rewrite Hk, E; auto).
    bind_inv H. destruct (hget str_eqb (p_account p) (bs_bals s)) as [old|] eqn:Eo; simpl in Hb; inv Hb.
    rename a into old. destruct (negb skip && _) eqn:Ech; [discriminate|].
    bind_inv H. rename a into v. inv H. simpl.
    assert (Hbo : built old) by (eapply Ig; eauto).
    assert (Hexp : built (bal_add old (bal_of m))) by (repeat constructor; auto).
    destruct (post_value_spec _ _ _ Hb) as [Hbv Hv].
    { unfold good_posting in Hgp. destruct (p_cost p); auto. rewrite Em in Hgp. tauto. }
    assert (Hexpa : forall c, bal_amt (bal_add old (bal_of m)) c = run_amt (bs_bals s) (p_account p) c + money_amt m c).
    { intros. rewrite bal_amt_add by (apply built_wf; auto; constructor). rewrite bal_amt_of. unfold run_amt. rewrite Eo. auto. }
    assert (Hsum : forall acc c, account_sum (bs_out s ++ [pushed p m]) acc c =
              account_sum (bs_out s) acc c + (if str_eqb (p_account p) acc then money_amt m c else 0)).
    { intros. rewrite account_sum_app, account_sum_cons. unfold account_sum at 2. simpl.
      unfold posting_to. simpl. destruct (str_eqb (p_account p) acc); ring. }
    constructor; simpl; auto.
    + apply good_bals_hset; auto.
    + intros acc. rewrite known_hset_iff; auto. unfold known. congruence.
    + intros acc c. rewrite run_amt_hset, Hsum, str_eqb_sym. destruct (str_eqb_spec (p_account p) acc).
      * subst acc. rewrite Hexpa, Ir. ring.
      * rewrite Ir. ring.
    + left. exists (bs_tb s), v. repeat split; auto. apply is_sum_or_new_built; auto.
    + intros c. rewrite bal_amt_add by (apply built_wf; auto; apply is_sum_or_new_built; auto).
      rewrite Itb, Hv, group_value_app, group_value_cons. unfold group_value at 3. simpl.
      unfold posting_value. simpl. ring.
    + rewrite filter_app. simpl. rewrite G. apply Forall2_app; auto. constructor; auto.
      unfold keeps, pushed. simpl. repeat split; auto; congruence.
    + rewrite HR. rewrite filter_app, !app_length. simpl. rewrite E. simpl. lia.
    + unfold last_elided. rewrite fold_left_app. simpl. rewrite E. exact If.
    + intros ->. apply asserted_snoc; auto. intros a c Hbal. simpl in Hbal. rewrite Hbal in Ech. simpl in Ech.
      apply negb_false_iff in Ech. apply (bal_eqb_of a c) in Ech; [|apply built_wf; auto].
      simpl p_account. rewrite Hsum, str_eqb_refl, <- Ech, Hexpa, Ir. ring.
  - destruct (p_balance p) as [b|] eqn:Eb; [destruct skip|].
    + (* assertion ignored: elided *)
      inv H. assert (E : elided true p = true) by (unfold elided; rewrite Hk, Em, Eb; auto).
      assert (G : given true p = false) by (unfold given; rewrite Hk, E; auto).
      constructor; simpl; auto; try discriminate.
      * rewrite filter_app. simpl. rewrite G, app_nil_r. auto.
      * rewrite HR, filter_app, !app_length. simpl. rewrite E. simpl. lia.
      * unfold last_elided. rewrite fold_left_app. simpl. rewrite E. auto.
    + (* assignment *)
      assert (E : elided false p = false) by (unfold elided; rewrite Hk, Em, Eb; auto).
      assert (G : given false p = true) by (unfold given; rewrite Hk, E; auto).
      assert (Hnc : p_cost p = None).
      { unfold good_posting in Hgp. destruct (p_cost p); auto. rewrite Em in Hgp. tauto. }
      bind_inv H. destruct (hget str_eqb (p_account p) (bs_bals s)) as [old|] eqn:Eo; simpl in Hb; inv Hb.
      rename a into old. bind_inv H. rename a into m. inv H. simpl.
      assert (Hbo : built old) by (eapply Ig; eauto).
      assert (Hm : forall c, money_amt m c = money_amt b c - run_amt (bs_bals s) (p_account p) c).
      { intros c. destruct (to_money_spec (bal_sub (bal_of b) old)) as [(m' & Hm1 & Hm2)|[Hx _]].
        - apply wf_sub; [apply wf_of|apply built_wf; auto].
        - rewrite Hb in Hm1. inv Hm1. rewrite Hm2. rewrite bal_amt_sub by (try apply wf_of; apply built_wf; auto).
          rewrite bal_amt_of. unfold run_amt. rewrite Eo. auto.
        - congruence. }
      assert (Hsum : forall acc c, account_sum (bs_out s ++ [pushed p m]) acc c =
                account_sum (bs_out s) acc c + (if str_eqb (p_account p) acc then money_amt m c else 0)).
      { intros. rewrite account_sum_app, account_sum_cons. unfold account_sum at 2. simpl.
        unfold posting_to. simpl. destruct (str_eqb (p_account p) acc); ring. }
      constructor; simpl; auto.
      * apply good_bals_hset; auto. constructor.
      * intros acc. rewrite known_hset_iff; auto. unfold known. congruence.
      * intros acc c. rewrite run_amt_hset, Hsum, str_eqb_sym. destruct (str_eqb_spec (p_account p) acc).
        -- subst acc. rewrite bal_amt_of, Hm, Ir. ring.
        -- rewrite Ir. ring.
      * left. exists (bs_tb s), (bal_of m). repeat split; try constructor; auto. apply is_sum_or_new_built; auto.
      * intros c. rewrite bal_amt_add by (try apply wf_of; apply built_wf; apply is_sum_or_new_built; auto).
        rewrite Itb, bal_amt_of, group_value_app, group_value_cons. unfold group_value at 3. simpl.
        unfold posting_value. simpl. rewrite Hnc. simpl. ring.
      * rewrite filter_app. simpl. rewrite G. apply Forall2_app; auto. constructor; auto.
        unfold keeps, pushed. simpl. repeat split; auto; congruence.
      * rewrite HR, filter_app, !app_length. simpl. rewrite E. simpl. lia.
      * unfold last_elided. rewrite fold_left_app. simpl. rewrite E. exact If.
      * intros _. apply asserted_snoc; auto. intros a c Hbal. simpl in Hbal. rewrite Hbal in Eb. inv Eb.
        simpl p_account. rewrite Hsum, str_eqb_refl, Hm, Ir. simpl. rewrite str_eqb_refl. ring.
    + (* elided *)
      inv H. assert (E : elided skip p = true) by (unfold elided; rewrite Hk, Em, Eb; auto).
      assert (G : given skip p = false) by (unfold given; rewrite Hk, E; auto).
      constructor; simpl; auto.
      * rewrite filter_app. simpl. rewrite G, app_nil_r. auto.
      * rewrite HR, filter_app, !app_length. simpl. rewrite E. simpl. lia.
      * unfold last_elided. rewrite fold_left_app. simpl. rewrite E. auto.
Qed.

Lemma loop_init skip bals : good_bals bals -> loop_inv skip bals [] (init_state bals).
Proof.
  intros Hg. constructor; simpl; auto.
  - tauto.
  - intros. unfold account_sum. simpl. ring.
  - intros _ k1 p k2 a c E. destruct k1; discriminate.
Qed.

Lemma loop_inv_holds skip bals ps s :
  good_bals bals -> Forall good_posting ps ->
  foldM (bal_step skip) (init_state bals) ps = Ok s -> loop_inv skip bals ps s.
Proof.
  intros Hg Hps H. assert (K : forall l s, foldM (bal_step skip) (init_state bals) l = Ok s ->
     (Forall good_posting l -> loop_inv skip bals l s)).
  { apply (foldM_ind _ (fun l s => Forall good_posting l -> loop_inv skip bals l s)).
    - intros _. apply loop_init; auto.
    - intros pre x s0 s' IH Hs HF. apply Forall_app in HF. destruct HF as [HF1 HF2]. inv HF2.
      eapply loop_step; eauto. }
  auto.
Qed.

(** ** Filling *)
Lemma fill_loop_spec t acc pay es bals out bals' out' :
  good_bals bals -> Forall wf_entry es ->
  fill_loop t acc pay es (bals, out) = Ok (bals', out') ->
  good_bals bals' /\ out' = out ++ map (fun e => fill_posting t acc pay (snd e)) es /\
  (forall a, known bals' a <-> known bals a) /\
  (forall a c, run_amt bals' a c = run_amt bals a c + (if str_eqb acc a then bal_amt es c else 0)).
Proof.
  unfold fill_loop. intros Hg Hw. revert bals out Hg Hw. induction es as [|e es IH]; intros bals out Hg Hw H; simpl in H.
  - inv H. rewrite app_nil_r. repeat split; auto. intros. rewrite bal_amt_nil. destruct (str_eqb acc a); ring.
  - inv Hw. bind_inv H. bind_inv Hb. destruct (hget str_eqb acc bals) as [old|] eqn:Eo; simpl in Hb0; inv Hb0.
    rename a0 into old. inv Hb. apply IH in H; auto.
    + destruct H as (G & -> & K & R). split; auto. split; [rewrite <- app_assoc; auto|]. split.
      * intros a. rewrite K. apply known_hset_iff. unfold known. congruence.
      * intros a c. rewrite R, run_amt_hset, bal_amt_cons, str_eqb_sym. destruct (str_eqb_spec acc a); auto.
        subst a. rewrite bal_amt_add by (try apply wf_of; apply built_wf; eauto). rewrite bal_amt_of.
        unfold run_amt. rewrite Eo. ring.
    + apply good_bals_hset; auto. constructor; [eauto|constructor].
Qed.

Lemma fill_values t acc pay es c :
  group_value Real (map (fun e => fill_posting t acc pay (snd e)) es) c = bal_amt es c.
Proof.
  unfold group_value, bal_amt. rewrite map_map. f_equal.
Qed.
Lemma fill_sums t acc pay es a c :
  account_sum (map (fun e => fill_posting t acc pay (snd e)) es) a c = if str_eqb acc a then bal_amt es c else 0.
Proof.
  unfold account_sum, bal_amt. rewrite map_map. unfold posting_to, fill_posting. simpl.
  destruct (str_eqb acc a); [reflexivity|]. apply qsum_zero. intros x Hx. apply in_map_iff in Hx.
  destruct Hx as (y & <- & _). auto.
Qed.

(** ** The whole function *)
Definition order_ok (ord : balance -> balance) : Prop := forall b, Permutation (ord b) b.

Lemma last_elided_in skip ps d :
  (exists p, In p ps /\ elided skip p = true /\ last_elided skip ps d = (p_account p, p_payee p)) \/
  (last_elided skip ps d = d /\ forall p, In p ps -> elided skip p = false).
Proof.
  unfold last_elided. revert d. induction ps as [|p ps IH]; intros d; simpl.
  - right. split; auto. intros ? [].
  - destruct (elided skip p) eqn:E.
    + destruct (IH (p_account p, p_payee p)) as [(q & Hq & He & Hl)|(Hl & Hn)].
      * left. exists q. auto.
      * left. exists p. auto.
    + destruct (IH d) as [(q & Hq & He & Hl)|(Hl & Hn)].
      * left. exists q. auto.
      * right. split; auto. intros q [->|Hq]; auto.
Qed.

Record accepted (ord : balance -> balance) (skip : bool) (t : txn posting) (bals : balances)
       (b : balance) (t' : txn posting) (bals' : balances) : Prop := {
  ac_header : same_header t t';
  ac_kept : exists kept fills,
      t_postings t' = kept ++ fills ++ non_real (t_postings t) /\
      Forall2 keeps (filter (given skip) (t_postings t)) kept /\
      (skip = false -> asserted bals (kept ++ fills)) /\
      match filter (elided skip) (t_postings t) with
      | [] => fills = [] /\ (balanced (group_value Real kept) \/ exchange (group_value Real kept)) /\
              (forall c, bal_amt b c = group_value Real kept c) /\ (is_sum b \/ b = bal_new)
      | [p] => b = bal_new /\
          exists amounts : list (Qc * str),
            fills = map (fun ac => fill_posting t (p_account p) (p_payee p) (M (fst ac) (snd ac))) amounts /\
            NoDup (map snd amounts) /\
            (forall q c, In (q, c) amounts <-> q = - group_value Real kept c /\ q <> 0)
      | _ => False
      end;
  ac_good : good_bals bals';
  ac_known : forall acc, known bals' acc <-> known bals acc;
  ac_run : forall acc c, run_amt bals' acc c = run_amt bals acc c + account_sum (t_postings t') acc c;
  ac_virtual : exists vb, total_balance (t_postings t) VirtualMustBalance = Ok vb /\ can_be_zero vb = true;
}.

Lemma same_header_set t ps : same_header t (set_postings t ps).
Proof. repeat split. Qed.

Lemma neg_nz b : nz_bal b -> nz_bal (bal_neg b).
Proof.
  unfold nz_bal, bal_neg. intros H. rewrite Forall_map. eapply Forall_impl; [|exact H].
  intros [k [|q c]]; simpl; auto. intros E. destruct (qc_eqb_spec q 0), (qc_eqb_spec (- q) 0); auto.
  exfalso. apply n. rewrite <- (Qcopp_involutive q), e. reflexivity.
Qed.

Lemma txn_balance_accepted ord skip t bals b t' bals' :
  order_ok ord -> good_bals bals -> good_txn t ->
  txn_balance ord skip t bals = Ok (b, t', bals') -> accepted ord skip t bals b t' bals'.
Proof.
  intros Ho Hg Ht H. unfold txn_balance in H. bind_inv H. rename a into vb.
  destruct (can_be_zero vb) eqn:Ev; simpl negb in H; [|discriminate]. bind_inv H. rename a into s.
  fold (init_state bals) in Hb0. apply loop_inv_holds in Hb0; auto; [|apply Forall_forall; exact Ht].
  destruct Hb0 as [Ig Ik Ir Ib Itb Ikp Ic If Ia].
  assert (Hbuilt := is_sum_or_new_built _ Ib).
  assert (Hnz : nz_bal (bs_tb s)).
  { destruct Ib as [Hx|Hx]; [apply is_sum_wf in Hx; tauto|rewrite Hx; constructor]. }
  replace (length (real (t_postings t)) - length (bs_out s))%nat
    with (length (filter (elided skip) (t_postings t))) in H by lia.
  destruct (filter (elided skip) (t_postings t)) as [|p [|p2 r]] eqn:Ef; simpl in H; [| |discriminate].
  - destruct (can_be_zero (bs_tb s)) eqn:Ez; inv H. constructor; auto.
    + apply same_header_set.
    + exists (bs_out s), []. simpl. rewrite Ef. repeat (split; auto).
      * rewrite app_nil_r. auto.
      * apply built_can_be_zero in Ez; auto. unfold balanced, exchange. destruct Ez as [Ez|[(c & Hc) (c' & Hc')]].
        -- left. intros c. rewrite <- Itb. auto.
        -- right. rewrite Itb in Hc, Hc'. eauto.
    + intros. simpl. rewrite Ir, account_sum_app, account_sum_non_real. ring.
    + eauto.
  - bind_inv H. destruct a as [bals2 out2]. inv H.
    assert (Hp : bs_fill s = (p_account p, p_payee p)).
    { rewrite If. destruct (last_elided_in skip (t_postings t) (L "this will never be used", None)) as [(q & Hq & He & Hl)|(_ & Hn)].
      - assert (Hi : In q (filter (elided skip) (t_postings t))) by (apply filter_In; auto).
        rewrite Ef in Hi. destruct Hi as [<-|[]]. exact Hl.
      - assert (Hi : In p (filter (elided skip) (t_postings t))) by (rewrite Ef; left; auto).
        apply filter_In in Hi. destruct Hi as [Hi He]. rewrite Hn in He; [discriminate|auto]. }
    rewrite Hp in Hb0. simpl in Hb0.
    set (es := ord (bal_neg (bs_tb s))) in *.
    assert (Pes : Permutation es (bal_neg (bs_tb s))) by apply Ho.
    assert (Wes : wf_bal es). { eapply wf_perm; [|symmetry; exact Pes]. apply wf_neg. apply built_wf. auto. }
    assert (Nes : nz_bal es). { unfold nz_bal. rewrite Pes. apply neg_nz. auto. }
    apply fill_loop_spec in Hb0; auto; [|apply wf_bal_entries; auto].
    destruct Hb0 as (G & -> & K & R).
    assert (Aes : forall c, bal_amt es c = - group_value Real (bs_out s) c).
    { intros c. rewrite (bal_amt_perm _ _ _ Pes), bal_amt_neg, Itb. auto. }
    constructor; auto.
    + apply same_header_set.
    + exists (bs_out s), (map (fun e => fill_posting t (p_account p) (p_payee p) (snd e)) es).
      simpl. rewrite Ef. split; [rewrite <- app_assoc; auto|]. split; auto. split.
      * intros Hs. intros k1 q k2 a c E Hq.
        assert (Hi : forall x, In x (map (fun e => fill_posting t (p_account p) (p_payee p) (snd e)) es) -> p_balance x = None).
        { intros x Hx. apply in_map_iff in Hx. destruct Hx as (y & <- & _). auto. }
        revert E Hq Hi. generalize (map (fun e => fill_posting t (p_account p) (p_payee p) (snd e)) es).
        intros fl. revert k2. induction fl as [|x fl IHf] using rev_ind; intros k2 E Hq Hi.
        -- rewrite app_nil_r in E. eapply (Ia Hs); eauto.
        -- rewrite app_assoc in E. apply snoc_split in E. destruct E as [(-> & -> & ->)|(k2' & -> & E)].
           ++ rewrite Hi in Hq; [discriminate|]. apply in_app_iff. right. left. auto.
           ++ eapply IHf; eauto. intros y Hy. apply Hi. apply in_app_iff. auto.
      * split; auto.
        exists (map (fun e => (m_amount (snd e), match fst e with Some c => c | None => [] end)) es).
        split; [|split].
        -- rewrite map_map. apply map_ext_in. intros e He.
           destruct (nz_entry_shape _ _ Wes Nes He) as (c & q & ->). reflexivity.
        -- rewrite map_map. simpl. destruct Wes as [Hn Hw2].
           assert (Hs : hkeys es = map Some (map (fun e => match fst e with Some c => c | None => [] end) es)).
           { unfold hkeys. rewrite map_map. apply map_ext_in. intros e He.
             destruct (nz_entry_shape _ _ (conj Hn Hw2) Nes He) as (c & q & ->). reflexivity. }
           rewrite Hs in Hn. apply NoDup_map_inv in Hn. exact Hn.
        -- intros q c. rewrite <- Aes. rewrite in_map_iff. split.
           ++ intros (e & E & He). destruct (nz_entry_shape _ _ Wes Nes He) as (c' & q' & ->). simpl in E. inv E.
              apply nz_entry_iff in He; auto. destruct He. auto.
           ++ intros [Hq Hn]. exists (Some c, M q c). split; auto. apply nz_entry_iff; auto.
    + intros acc. rewrite K. auto.
    + intros acc c. rewrite R, Ir. simpl. rewrite !account_sum_app, account_sum_non_real, fill_sums. ring.
    + eauto.
Qed.
