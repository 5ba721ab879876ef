(** More facts about balancing transactions: the verdict, idempotence, irrelevance of parenthesised
    postings and of assertions that are not checked, sequences of transactions. *)
From Verif Require Import Base Money Txn Price Ledger BaseFacts Spec MoneyFacts SpecTxn TxnFacts.
From Coq Require Import Lia Lqa.
Open Scope Qc_scope.

(** ** The virtual group *)
Lemma total_value_spec m k v : total_value m k = Ok v ->
  match k with None => True | Some _ => has_commodity m end ->
  built v /\ forall c, bal_amt v c = virtual_value m k c.
Proof.
  unfold total_value. destruct k as [[a|a]|]; intros H Hc.
  - apply (post_value_spec m (Some (CTotal a)) v); auto.
  - destruct a as [|q cur]; [discriminate|]. destruct m as [|qm cm]; [destruct Hc|].
    injection H as <-. split; [apply (built_of (M (q * qm * (if qc_neg qm then - (1) else 1)) cur))|].
    intros c. pose proof (bal_amt_of (M (q * qm * (if qc_neg qm then - (1) else 1)) cur) c) as Ha. simpl in *.
    rewrite Ha. destruct (qc_neg qm), (str_eqb cur c); ring.
  - apply (post_value_spec m None v); auto.
Qed.
Lemma total_value_total m k :
  match k with None => True | Some k' => has_commodity (cost_money k') end -> exists v, total_value m k = Ok v.
Proof. unfold total_value. destruct k as [[a|a]|]; simpl; eauto. destruct a; simpl; [tauto|eauto]. Qed.

Lemma virtual_total ps : Forall good_posting ps ->
  exists vb, total_balance ps VirtualMustBalance = Ok vb /\ built vb /\
             forall c, bal_amt vb c = virtual_group ps c.
Proof.
  intros H. unfold total_balance.
  assert (K : forall l acc, Forall good_posting l -> built acc -> exists vb,
     foldM (fun acc p => match p_amount p with
           | Some m => if kind_eqb (p_kind p) VirtualMustBalance then
                         v <- total_value m (p_cost p) ;; Ok (bal_add acc v)
                       else Ok acc
           | None => Ok acc
           end) acc l = Ok vb /\ built vb /\ forall c, bal_amt vb c = bal_amt acc c + virtual_group l c).
  { induction l as [|p l IH]; intros acc Hl Ha; simpl.
    - exists acc. repeat split; auto. intros. unfold virtual_group. simpl. ring.
    - inv Hl. 
      assert (Hc : forall c, virtual_group (p :: l) c = match p_amount p with
            | Some m => if kind_eqb (p_kind p) VirtualMustBalance then virtual_value m (p_cost p) c else 0
            | None => 0 end + virtual_group l c) by reflexivity.
      destruct (p_amount p) as [m|] eqn:Em; [destruct (kind_eqb (p_kind p) VirtualMustBalance)|].
      + destruct (total_value_total m (p_cost p)) as (v & Hv).
        { unfold good_posting in H2. destruct (p_cost p); tauto. }
        rewrite Hv. simpl. apply total_value_spec in Hv.
        2: { unfold good_posting in H2. rewrite Em in H2. destruct (p_cost p); tauto. }
        destruct Hv as [Hbv Hv]. destruct (IH (bal_add acc v)) as (vb & H4 & H5 & H6); auto; [constructor; auto|].
        exists vb. repeat split; auto. intros c. rewrite H6, Hc, bal_amt_add by (apply built_wf; auto). rewrite Hv. ring.
      + simpl. destruct (IH acc) as (vb & H4 & H5 & H6); auto. exists vb. repeat split; auto.
        intros c. rewrite H6, Hc. ring.
      + simpl. destruct (IH acc) as (vb & H4 & H5 & H6); auto. exists vb. repeat split; auto.
        intros c. rewrite H6, Hc. ring. }
  destruct (K ps bal_new H built_new) as (vb & H1 & H2 & H3). exists vb. repeat split; auto.
  intros c. rewrite H3. unfold bal_amt. simpl. ring.
Qed.

Lemma fine_ext v v' : (forall c, v c = v' c) -> (fine v <-> fine v').
Proof.
  intros H. unfold fine, balanced, exchange. setoid_rewrite H. tauto.
Qed.
Lemma can_be_zero_fine b v : built b -> (forall c, bal_amt b c = v c) -> (can_be_zero b = true <-> fine v).
Proof.
  intros Hb Hv. rewrite built_can_be_zero by auto. rewrite <- (fine_ext _ _ Hv). reflexivity.
Qed.

(** ** The verdict *)
Record sim (n0 : nat) (bs : bstate) (s : srun) : Prop := {
  sm_good : good_bals (bs_bals bs);
  sm_run : forall acc c, s_run s acc c = run_amt (bs_bals bs) acc c;
  sm_tb : built (bs_tb bs);
  sm_sum : forall c, s_sum s c = bal_amt (bs_tb bs) c;
  sm_elided : n0 = (length (bs_out bs) + s_elided s)%nat;
}.

Lemma bal_eqb_assert b x : built x -> 
  (bal_eqb (bal_of b) x = true <-> forall a c, b = M a c -> bal_amt x c = a).
Proof.
  intros Hx. destruct b as [|a c].
  - rewrite bal_eqb_zero by (apply built_wf; auto). split; [intros; discriminate|auto].
  - rewrite bal_eqb_of by (apply built_wf; auto). split; [intros <- ? ? E; inv E; auto|intros H; auto].
Qed.

Lemma run_of bals acc old c : hget str_eqb acc bals = Some old -> run_amt bals acc c = bal_amt old c.
Proof. unfold run_amt. intros ->. auto. Qed.

(** The code follows the specification. *)
Lemma sim_step skip n0 bs s p r :
  sim n0 bs s -> good_posting p -> known (bs_bals bs) (p_account p) -> spec_step skip s p r ->
  match r with
  | None => bal_step skip bs p = Err (ELedger TransactionIsNotBalanced)
  | Some s' => exists bs', bal_step skip bs p = Ok bs' /\
       (p_kind p <> Real -> sim n0 bs' s') /\ (p_kind p = Real -> sim (S n0) bs' s') /\
       (forall acc, known (bs_bals bs') acc <-> known (bs_bals bs) acc)
  end.
Proof.
  intros [Sg Sr St Ss Se] Hg Hk H. unfold known in Hk.
  destruct (hget str_eqb (p_account p) (bs_bals bs)) as [old|] eqn:Eo; [|congruence].
  assert (Hbo : built old) by (eapply Sg; eauto).
  assert (Hrun : forall c, s_run s (p_account p) c = bal_amt old c) by (intros; rewrite Sr; apply run_of; auto).
  unfold bal_step. destruct H as [Hk'|m s' Hk' Em Hass Hr Hs He|m a c Hk' Em Hsk Eb Hne|m b s' Hk' Em Eb Hsk Hm Hr Hs He|b c c' Hk' Em Eb Hsk Hcc Hc Hc'|s' Hk' Em Eb Hr Hs He].
  - destruct (kind_eqb_spec (p_kind p) Real); [contradiction|]. simpl. eexists. split; [reflexivity|].
    split; [intros; constructor; auto|]. split; [contradiction|tauto].
  - rewrite Hk'. simpl negb. cbv iota. rewrite Em, Eo. simpl unwrap. cbn [bind].
    assert (Hexp : built (bal_add old (bal_of m))) by (repeat constructor; auto).
    assert (Hexpa : forall c, bal_amt (bal_add old (bal_of m)) c = s_run s (p_account p) c + money_amt m c).
    { intros. rewrite bal_amt_add by (try apply wf_of; apply built_wf; auto). rewrite bal_amt_of, Hrun. auto. }
    destruct (post_value_total m (p_cost p)) as (v & Hv).
    { unfold good_posting in Hg. destruct (p_cost p); tauto. }
    assert (Hch : negb skip && match p_balance p with
                | Some b => negb (bal_eqb (bal_of b) (bal_add old (bal_of m))) | None => false end = false).
    { destruct skip; auto. simpl. destruct (p_balance p) as [b|] eqn:Eb; auto. apply negb_false_iff.
      apply bal_eqb_assert; auto. intros a c ->. rewrite Hexpa. auto. }
    rewrite Hch, Hv. cbn [bind]. eexists. split; [reflexivity|].
    split; [congruence|]. split.
    + intros _. apply post_value_spec in Hv.
      2: { unfold good_posting in Hg. rewrite Em in Hg. destruct (p_cost p); tauto. }
      destruct Hv as [Hbv Hv]. constructor; simpl.
      * apply good_bals_hset; auto.
      * intros acc c. rewrite Hr, run_amt_hset. destruct (str_eqb_spec acc (p_account p)); [subst; auto|].
        rewrite Sr. ring.
      * constructor; auto.
      * intros c. rewrite Hs, Ss, bal_amt_add by (apply built_wf; auto). rewrite Hv. auto.
      * rewrite app_length, He. simpl. lia.
    + intros acc. simpl. apply known_hset_iff. unfold known. congruence.
  - rewrite Hk'. simpl negb. cbv iota. rewrite Em, Eo. simpl unwrap. cbn [bind]. rewrite Hsk, Eb.
    assert (Hexp : built (bal_add old (bal_of m))) by (repeat constructor; auto).
    assert (Hf : bal_eqb (bal_of (M a c)) (bal_add old (bal_of m)) = false).
    { destruct (bal_eqb (bal_of (M a c)) (bal_add old (bal_of m))) eqn:E; auto. exfalso. apply Hne.
      apply bal_eqb_of in E; [|apply built_wf; auto]. rewrite <- E.
      rewrite bal_amt_add by (try apply wf_of; apply built_wf; auto). rewrite bal_amt_of, Hrun. auto. }
    rewrite Hf. reflexivity.
  - rewrite Hk'. simpl negb. cbv iota. rewrite Em, Eb, Hsk, Eo. simpl unwrap. cbn [bind].
    destruct (to_money_spec (bal_sub (bal_of b) old)) as [(m' & Hm1 & Hm2)|[_ (c & c' & Hcc & Hc & Hc')]].
    { apply wf_sub; [apply wf_of|apply built_wf; auto]. }
    2: { exfalso. rewrite bal_amt_sub, bal_amt_of, <- Hrun, <- Hm in Hc, Hc' by (try apply wf_of; apply built_wf; auto).
         destruct m as [|q cm]; simpl in *; [congruence|].
         destruct (str_eqb_spec cm c), (str_eqb_spec cm c'); congruence. }
    rewrite Hm1. cbn [bind].
    assert (Hmm : forall c, money_amt m' c = money_amt m c).
    { intros. rewrite Hm2, bal_amt_sub, bal_amt_of, <- Hrun, <- Hm by (try apply wf_of; apply built_wf; auto). auto. }
    eexists. split; [reflexivity|]. split; [congruence|]. split.
    + intros _. constructor; simpl.
      * apply good_bals_hset; auto. constructor.
      * intros acc c. rewrite Hr, run_amt_hset, bal_amt_of. destruct (str_eqb_spec acc (p_account p)); [subst|].
        -- rewrite Hm. ring.
        -- rewrite Sr. ring.
      * repeat constructor; auto.
      * intros c. rewrite Hs, Ss, bal_amt_add by (try apply wf_of; apply built_wf; auto). rewrite bal_amt_of, Hmm. auto.
      * rewrite app_length, He. simpl. lia.
    + intros acc. simpl. apply known_hset_iff. unfold known. congruence.
  - rewrite Hk'. simpl negb. cbv iota. rewrite Em, Eb, Hsk, Eo. simpl unwrap. cbn [bind].
    destruct (to_money_spec (bal_sub (bal_of b) old)) as [(m' & Hm1 & Hm2)|[-> _]]; auto.
    { apply wf_sub; [apply wf_of|apply built_wf; auto]. }
    exfalso. assert (K : forall c, money_amt m' c = money_amt b c - s_run s (p_account p) c).
    { intros. rewrite Hm2, bal_amt_sub, bal_amt_of, <- Hrun by (try apply wf_of; apply built_wf; auto). auto. }
    assert (K1 : money_amt m' c <> 0). { rewrite K. intros E. apply Hc. qlra. }
    assert (K2 : money_amt m' c' <> 0). { rewrite K. intros E. apply Hc'. qlra. }
    destruct m' as [|q cm]; simpl in *; [congruence|].
    destruct (str_eqb_spec cm c), (str_eqb_spec cm c'); congruence.
  - rewrite Hk'. simpl negb. cbv iota. rewrite Em.
    assert (Hx : forall bs', bs' = {| bs_bals := bs_bals bs; bs_tb := bs_tb bs; bs_out := bs_out bs; bs_fill := (p_account p, p_payee p) |} -> sim (S n0) bs' s').
    { intros bs' ->. constructor; simpl; auto.
      - intros. rewrite Hr, Sr. auto.
      - intros. rewrite Hs, Ss. auto.
      - rewrite He. lia. }
    destruct Eb as [Eb| ->].
    + rewrite Eb. eexists. split; [reflexivity|]. split; [congruence|]. split; [intros _; apply Hx; auto|tauto].
    + destruct (p_balance p); (eexists; split; [reflexivity|]; split; [congruence|]; split; [intros _; apply Hx; auto|tauto]).
Qed.

(** The specification always has an answer. *)
Lemma spec_step_exists skip n0 bs s p :
  sim n0 bs s -> good_posting p -> known (bs_bals bs) (p_account p) -> exists r, spec_step skip s p r.
Proof.
  intros [Sg Sr St Ss Se] Hg Hk. unfold known in Hk.
  destruct (hget str_eqb (p_account p) (bs_bals bs)) as [old|] eqn:Eo; [|congruence].
  assert (Hbo : built old) by (eapply Sg; eauto).
  assert (Hrun : forall c, s_run s (p_account p) c = bal_amt old c) by (intros; rewrite Sr; apply run_of; auto).
  destruct (kind_eqb_spec (p_kind p) Real) as [Hr|Hr]; [|eexists; apply ss_virtual; auto].
  destruct (p_amount p) as [m|] eqn:Em.
  - assert (K : (skip = false -> forall a c, p_balance p = Some (M a c) -> s_run s (p_account p) c + money_amt m c = a) \/
                (skip = false /\ exists a c, p_balance p = Some (M a c) /\ s_run s (p_account p) c + money_amt m c <> a)).
    { destruct skip; [left; discriminate|]. destruct (p_balance p) as [[|a c]|]; try (left; intros; discriminate).
      destruct (qc_eqb_spec (s_run s (p_account p) c + money_amt m c) a).
      - left. intros _ a' c' E. inv E. auto.
      - right. split; auto. exists a, c. auto. }
    destruct K as [K|(Hs & a & c & Eb & K)].
    + eexists. eapply (ss_amount skip s p m {| s_run := fun acc c => s_run s acc c + (if str_eqb acc (p_account p) then money_amt m c else 0);
          s_sum := fun c => s_sum s c + value_at_cost m (p_cost p) c; s_elided := s_elided s |}); auto.
    + eexists. eapply ss_violated; eauto.
  - destruct (p_balance p) as [b|] eqn:Eb.
    + destruct skip eqn:Es.
      * eexists. eapply (ss_elided_posting true s p {| s_run := s_run s; s_sum := s_sum s; s_elided := S (s_elided s) |}); auto.
      * destruct (to_money_spec (bal_sub (bal_of b) old)) as [(m & Hm1 & Hm2)|[_ (c & c' & Hcc & Hc & Hc')]].
        { apply wf_sub; [apply wf_of|apply built_wf; auto]. }
        -- eexists. eapply (ss_assign false s p m b {| s_run := fun acc c => s_run s acc c + (if str_eqb acc (p_account p) then money_amt m c else 0);
              s_sum := fun c => s_sum s c + money_amt m c; s_elided := s_elided s |}); auto.
           intros. rewrite Hm2, bal_amt_sub, bal_amt_of, <- Hrun by (try apply wf_of; apply built_wf; auto). auto.
        -- rewrite bal_amt_sub, bal_amt_of, <- Hrun in Hc, Hc' by (try apply wf_of; apply built_wf; auto).
           eexists. eapply ss_unassignable; eauto.
           ++ intros E. apply Hc. rewrite E. ring.
           ++ intros E. apply Hc'. rewrite E. ring.
    + eexists. eapply (ss_elided_posting skip s p {| s_run := s_run s; s_sum := s_sum s; s_elided := S (s_elided s) |}); auto.
Qed.

Lemma real_cons_length p ps : length (real (p :: ps)) = 
  (if kind_eqb (p_kind p) Real then S (length (real ps)) else length (real ps)).
Proof. unfold real. simpl. destruct (kind_eqb (p_kind p) Real); auto. Qed.

Lemma sim_steps skip ps : forall n0 bs s,
  sim n0 bs s -> Forall good_posting ps -> (forall p, In p ps -> known (bs_bals bs) (p_account p)) ->
  (exists r, spec_steps skip s ps r) /\
  forall r, spec_steps skip s ps r ->
  match r with
  | None => foldM (bal_step skip) bs ps = Err (ELedger TransactionIsNotBalanced)
  | Some s' => exists bs', foldM (bal_step skip) bs ps = Ok bs' /\ sim (n0 + length (real ps)) bs' s' /\
                 (forall acc, known (bs_bals bs') acc <-> known (bs_bals bs) acc)
  end.
Proof.
  induction ps as [|p ps IH]; intros n0 bs s Hs Hg Hk.
  - split; [eexists; constructor|]. intros r H. inv H. exists bs. simpl. rewrite Nat.add_0_r. repeat split; auto; apply Hs.
  - inv Hg. assert (Kp : known (bs_bals bs) (p_account p)) by (apply Hk; left; auto).
    assert (Hnext : forall s1, spec_step skip s p (Some s1) -> exists bs' n1, bal_step skip bs p = Ok bs' /\
        sim n1 bs' s1 /\ (n0 + length (real (p :: ps)) = n1 + length (real ps))%nat /\
        (forall acc, known (bs_bals bs') acc <-> known (bs_bals bs) acc)).
    { intros s1 Hs1. pose proof (sim_step skip n0 bs s p (Some s1) Hs ltac:(assumption) Kp Hs1) as (bs' & Hb & Hv & Hr & Hkn).
      rewrite real_cons_length. destruct (kind_eqb_spec (p_kind p) Real).
      - exists bs', (S n0). repeat split; auto; try apply Hr; auto; try lia; apply Hkn.
      - exists bs', n0. repeat split; auto; try apply Hv; auto; try lia; apply Hkn. }
    split.
    + destruct (spec_step_exists skip n0 bs s p Hs ltac:(assumption) Kp) as (r & Hr). destruct r as [s1|].
      * destruct (Hnext _ Hr) as (bs' & n1 & Hb & Hsim & Hn & Hkn).
        destruct (IH n1 bs' s1 Hsim) as [(r & Hrr) _]; auto.
        { intros q Hq. apply Hkn. apply Hk. right. auto. }
        exists r. eapply sr_cons; eauto.
      * exists None. apply sr_stop. auto.
    + intros r H. inv H.
      * simpl. pose proof (sim_step skip n0 bs s p None Hs ltac:(assumption) Kp ltac:(assumption)) as ->. reflexivity.
      * destruct (Hnext _ ltac:(eassumption)) as (bs' & n1 & Hb & Hsim & Hn & Hkn).
        destruct (IH n1 bs' s1 Hsim) as [_ Hall]; auto.
        { intros q Hq. apply Hkn. apply Hk. right. auto. }
        specialize (Hall r ltac:(assumption)). cbn [foldM]. rewrite Hb. cbn [bind]. destruct r as [s'|]; auto.
        destruct Hall as (bs2 & Hb2 & Hsim2 & Hkn2). exists bs2. rewrite Hn. split; auto. split; auto. 
        intros acc. rewrite Hkn2. apply Hkn.
Qed.

Lemma fill_loop_total t acc pay es bals out :
  known bals acc -> exists r, fill_loop t acc pay es (bals, out) = Ok r.
Proof.
  unfold fill_loop. revert bals out. induction es as [|e es IH]; intros bals out Hk; simpl; [eauto|].
  unfold known in Hk. destruct (hget str_eqb acc bals) eqn:E; [|congruence]. simpl. apply IH.
  unfold known. rewrite hget_hset by apply str_eqb_spec. rewrite str_eqb_refl. discriminate.
Qed.

Lemma verdict_correct ord skip t bals :
  good_bals bals -> good_txn t -> (forall p, In p (t_postings t) -> known bals (p_account p)) ->
  (exists v, spec_verdict skip t (run_amt bals) v) /\
  forall v, spec_verdict skip t (run_amt bals) v -> outcome (txn_balance ord skip t bals) v.
Proof.
  intros Hg Ht Hk. assert (HF : Forall good_posting (t_postings t)) by (apply Forall_forall; exact Ht).
  destruct (virtual_total _ HF) as (vb & Hv & Hvb & Hva).
  pose proof (can_be_zero_fine _ _ Hvb Hva) as Hz.
  assert (S0 : sim 0 (init_state bals) (start (run_amt bals))).
  { constructor; simpl; auto. constructor. }
  destruct (sim_steps skip (t_postings t) 0 (init_state bals) (start (run_amt bals)) S0 HF Hk) as [Hex Hall].
  assert (Helided : forall bs s, foldM (bal_step skip) (init_state bals) (t_postings t) = Ok bs -> 
     sim (0 + length (real (t_postings t))) bs s -> (length (real (t_postings t)) - length (bs_out bs) = s_elided s)%nat).
  { intros bs s _ H. destruct H. simpl in sm_elided0. lia. }
  assert (Hfine : forall bs s, sim (0 + length (real (t_postings t))) bs s -> (can_be_zero (bs_tb bs) = true <-> fine (s_sum s))).
  { intros bs s H. destruct H. apply can_be_zero_fine; auto. }
  split.
  - destruct (can_be_zero vb) eqn:Ez.
    + assert (F : fine (virtual_group (t_postings t))) by tauto.
      destruct Hex as ([s|] & Hr).
      * destruct (Hall _ Hr) as (bs & Hb & Hsim & _).
        destruct (s_elided s) as [|[|n]] eqn:Ee.
        -- destruct (can_be_zero (bs_tb bs)) eqn:E2.
           ++ exists Accepted. eapply sv_balanced; eauto. apply (Hfine bs); auto.
           ++ exists NotBalanced. eapply sv_unbalanced; eauto. intros Hx. apply (Hfine bs) in Hx; auto. congruence.
        -- exists Accepted. eapply sv_filled; eauto.
        -- exists (TooManyElided (S (S n))). eapply sv_many; eauto.
      * exists NotBalanced. apply sv_assertion; auto.
    + exists NotBalanced. apply sv_virtual. intros F. apply Hz in F. congruence.
  - intros v H. unfold txn_balance. rewrite Hv. cbn [bind]. fold (init_state bals). destruct H as [Hn|Hf Hr|s Hf Hr He Hs|s Hf Hr He Hs|s Hf Hr He|s n Hf Hr He].
    + destruct (can_be_zero vb) eqn:Ez; [exfalso; tauto|]. reflexivity.
    + apply Hz in Hf. rewrite Hf. simpl negb. cbv iota. rewrite (Hall _ Hr). reflexivity.
    + apply Hz in Hf. rewrite Hf. simpl negb. cbv iota. destruct (Hall _ Hr) as (bs & Hb & Hsim & _).
      rewrite Hb. cbn [bind]. rewrite (Helided bs s Hb Hsim), He. apply (Hfine bs s Hsim) in Hs. rewrite Hs. simpl. eauto.
    + apply Hz in Hf. rewrite Hf. simpl negb. cbv iota. destruct (Hall _ Hr) as (bs & Hb & Hsim & _).
      rewrite Hb. cbn [bind]. rewrite (Helided bs s Hb Hsim), He.
      destruct (can_be_zero (bs_tb bs)) eqn:E; [|reflexivity]. apply (Hfine bs s Hsim) in E. contradiction.
    + apply Hz in Hf. rewrite Hf. simpl negb. cbv iota. destruct (Hall _ Hr) as (bs & Hb & Hsim & Hkn).
      rewrite Hb. cbn [bind]. rewrite (Helided bs s Hb Hsim), He.
      destruct (fill_loop_total t (fst (bs_fill bs)) (snd (bs_fill bs)) (ord (bal_neg (bs_tb bs))) (bs_bals bs) (bs_out bs)) as ((b2 & o2) & Hfl).
      { apply Hkn. simpl. pose proof (loop_inv_holds skip bals (t_postings t) bs Hg HF Hb) as I. destruct I as [_ _ _ _ _ _ Ic If _].
        rewrite If. destruct (last_elided_in skip (t_postings t) (L "this will never be used", None)) as [(q & Hq & Heq & Hl)|(_ & Hno)].
        - rewrite Hl. simpl. apply Hk; auto.
        - exfalso. assert (length (filter (elided skip) (t_postings t)) = 0%nat).
          { assert (filter (elided skip) (t_postings t) = []) as ->; auto. 
            clear -Hno. induction (t_postings t) as [|q l IH]; simpl; auto. rewrite Hno by (left; auto). apply IH. intros; apply Hno; right; auto. }
          pose proof (Helided bs s Hb Hsim) as Hx. rewrite He in Hx. lia. }
      rewrite Hfl. simpl. eauto.
    + apply Hz in Hf. rewrite Hf. simpl negb. cbv iota. destruct (Hall _ Hr) as (bs & Hb & Hsim & _).
      rewrite Hb. cbn [bind]. rewrite (Helided bs s Hb Hsim), He. reflexivity.
Qed.

(** ** Ignored information *)
Lemma foldM_filter {A S} (f : S -> A -> res S) (g : A -> bool) l s :
  (forall s x, g x = false -> f s x = Ok s) -> foldM f s (filter g l) = foldM f s l.
Proof.
  intros H. revert s. induction l as [|x l IH]; intros s; simpl; auto.
  destruct (g x) eqn:E; simpl.
  - destruct (f s x); simpl; auto.
  - rewrite H by auto. simpl. auto.
Qed.
Definition not_paren (p : posting) : bool := negb (kind_eqb (p_kind p) Virtual).
Lemma filter_comm {A} (f g : A -> bool) l : filter f (filter g l) = filter g (filter f l).
Proof.
  induction l as [|x l IH]; simpl; auto. destruct (g x) eqn:G, (f x) eqn:F; simpl; rewrite ?F, ?G, IH; auto.
Qed.
Lemma filter_id {A} (f : A -> bool) l : (forall x, In x l -> f x = true) -> filter f l = l.
Proof. induction l as [|x l IH]; simpl; intros H; auto. rewrite H by auto. f_equal. auto. Qed.
Lemma filter_none {A} (f : A -> bool) l : (forall x, In x l -> f x = false) -> filter f l = [].
Proof. induction l as [|x l IH]; simpl; intros H; auto. rewrite H by auto. auto. Qed.

Lemma real_not_paren ps : real (filter not_paren ps) = real ps.
Proof.
  unfold real. rewrite filter_comm. apply filter_id. intros x Hx. apply filter_In in Hx. destruct Hx as [_ Hx].
  unfold not_paren. destruct (p_kind x); auto; discriminate.
Qed.

Lemma out_real skip bals ps s :
  foldM (bal_step skip) (init_state bals) ps = Ok s -> forall p, In p (bs_out s) -> p_kind p = Real.
Proof.
  revert ps s. apply (foldM_ind _ (fun _ s => forall p, In p (bs_out s) -> p_kind p = Real)).
  - intros p [].
  - intros pre x s s' IH H p Hp. unfold bal_step in H. destruct (kind_eqb (p_kind x) Real); simpl negb in H; [|inv H; auto].
    assert (K : bs_out s' = bs_out s \/ exists m, bs_out s' = bs_out s ++ [pushed x m]).
    { destruct (p_amount x) as [m|].
      - bind_inv H. destruct (_ && _); [discriminate|]. bind_inv H. inv H. simpl. eauto.
      - destruct (p_balance x); [destruct skip|]; try (inv H; auto; fail).
        bind_inv H. bind_inv H. inv H. simpl. eauto. }
    destruct K as [K|(m & K)]; rewrite K in Hp; auto. apply in_app_iff in Hp. destruct Hp as [Hp|[<-|[]]]; auto.
Qed.
Lemma fill_out t acc pay es bals out bals' out' : fill_loop t acc pay es (bals, out) = Ok (bals', out') ->
  out' = out ++ map (fun e => fill_posting t acc pay (snd e)) es.
Proof.
  unfold fill_loop. revert bals out. induction es as [|e es IH]; intros bals out H; simpl in H.
  - inv H. rewrite app_nil_r. auto.
  - bind_inv H. bind_inv Hb. inv Hb. apply IH in H. rewrite H, <- app_assoc. auto.
Qed.

Definition paren_free (t : txn posting) : txn posting := set_postings t (filter not_paren (t_postings t)).
Lemma paren_irrelevant ord skip t bals :
  txn_balance ord skip (paren_free t) bals =
  match txn_balance ord skip t bals with
  | Ok (b, t', bals') => Ok (b, paren_free t', bals')
  | Err e => Err e
  | Panic e => Panic e
  end.
Proof.
  unfold txn_balance. simpl t_postings.
  replace (total_balance (filter not_paren (t_postings t)) VirtualMustBalance)
    with (total_balance (t_postings t) VirtualMustBalance).
  2: { unfold total_balance. symmetry. apply foldM_filter. intros s x Hx. unfold not_paren in Hx.
       destruct (p_amount x); auto. destruct (p_kind x); simpl in *; auto; discriminate. }
  destruct (total_balance (t_postings t) VirtualMustBalance) as [vb|e|e]; simpl; auto.
  destruct (can_be_zero vb); simpl; auto.
  rewrite (foldM_filter (bal_step skip) not_paren).
  2: { intros s x Hx. unfold not_paren in Hx. unfold bal_step. destruct (p_kind x); simpl in *; auto; discriminate. }
  fold (init_state bals). destruct (foldM (bal_step skip) (init_state bals) (t_postings t)) as [s|e|e] eqn:Es; simpl; auto.
  rewrite real_not_paren.
  assert (Hf : filter not_paren (bs_out s) = bs_out s).
  { apply filter_id. intros x Hx. unfold not_paren. rewrite (out_real _ _ _ _ Es x Hx). auto. }
  assert (Hn : non_real (filter not_paren (t_postings t)) = filter not_paren (non_real (t_postings t))).
  { unfold non_real. apply filter_comm. }
  destruct (length (real (t_postings t)) - length (bs_out s))%nat as [|[|n]]; auto.
  - destruct (can_be_zero (bs_tb s)); auto. f_equal. f_equal. f_equal. unfold paren_free, set_postings. simpl.
    rewrite Hn, filter_app, Hf. auto.
  - set (es := ord (bal_neg (bs_tb s))). unfold fill_loop. simpl t_comments. simpl t_tags.
    change (fill_posting (paren_free t)) with (fill_posting t).
    match goal with |- context [foldM ?f ?a es] => destruct (foldM f a es) as [[b2 o2]|e|e] eqn:Ef end; simpl; auto.
    apply fill_out in Ef. f_equal. f_equal. f_equal. unfold paren_free, set_postings. simpl.
    rewrite Hn, filter_app. f_equal. f_equal. subst o2. rewrite filter_app, Hf. f_equal.
    symmetry. apply filter_id. intros x Hx. apply in_map_iff in Hx. destruct Hx as (e & <- & _). auto.
Qed.

(** Assertions erased. *)
Definition unassert (p : posting) : posting :=
  {| p_account := p_account p; p_amount := p_amount p; p_balance := None; p_cost := p_cost p;
     p_kind := p_kind p; p_comments := p_comments p; p_tags := p_tags p; p_payee := p_payee p;
     p_origin := p_origin p |}.
Definition unassert_txn (t : txn posting) : txn posting := set_postings t (map unassert (t_postings t)).
Definition unassert_state (s : bstate) : bstate :=
  {| bs_bals := bs_bals s; bs_tb := bs_tb s; bs_out := map unassert (bs_out s); bs_fill := bs_fill s |}.

Lemma filter_map_comm {A B} (f : B -> bool) (h : A -> B) l : filter f (map h l) = map h (filter (fun x => f (h x)) l).
Proof. induction l as [|x l IH]; simpl; auto. destruct (f (h x)); simpl; f_equal; auto. Qed.

Lemma unassert_step s p :
  bal_step true (unassert_state s) (unassert p) =
  match bal_step true s p with Ok s' => Ok (unassert_state s') | Err e => Err e | Panic e => Panic e end.
Proof.
  unfold bal_step. simpl. destruct (kind_eqb (p_kind p) Real); simpl; auto.
  destruct (p_amount p) as [m|]; simpl.
  - destruct (hget str_eqb (p_account p) (bs_bals s)); simpl; auto.
    destruct (post_value m (p_cost p)); simpl; auto. unfold unassert_state. simpl. rewrite map_app. auto.
  - destruct (p_balance p); simpl; auto.
Qed.
Lemma unassert_steps ps : forall s,
  foldM (bal_step true) (unassert_state s) (map unassert ps) =
  match foldM (bal_step true) s ps with Ok s' => Ok (unassert_state s') | Err e => Err e | Panic e => Panic e end.
Proof.
  induction ps as [|p ps IH]; intros s; simpl; auto. rewrite unassert_step.
  destruct (bal_step true s p); simpl; auto.
Qed.
Lemma unassert_irrelevant ord t bals :
  txn_balance ord true (unassert_txn t) bals =
  match txn_balance ord true t bals with
  | Ok (b, t', bals') => Ok (b, unassert_txn t', bals')
  | Err e => Err e
  | Panic e => Panic e
  end.
Proof.
  unfold txn_balance. simpl t_postings.
  replace (total_balance (map unassert (t_postings t)) VirtualMustBalance)
    with (total_balance (t_postings t) VirtualMustBalance).
  2: { unfold total_balance. generalize bal_new. induction (t_postings t) as [|p l IH]; intros b; simpl; auto.
       destruct (p_amount p); [|simpl; apply IH]. destruct (kind_eqb (p_kind p) VirtualMustBalance); [|simpl; apply IH].
       destruct (total_value m (p_cost p)); simpl; auto. }
  destruct (total_balance (t_postings t) VirtualMustBalance) as [vb|e|e]; simpl; auto.
  destruct (can_be_zero vb); simpl; auto.
  fold (init_state bals). change (init_state bals) with (unassert_state (init_state bals)) at 1. rewrite unassert_steps.
  destruct (foldM (bal_step true) (init_state bals) (t_postings t)) as [s|e|e]; simpl; auto.
  assert (Hr : length (real (map unassert (t_postings t))) = length (real (t_postings t))).
  { unfold real. rewrite filter_map_comm, map_length. auto. }
  assert (Hn : non_real (map unassert (t_postings t)) = map unassert (non_real (t_postings t))).
  { unfold non_real. rewrite filter_map_comm. auto. }
  rewrite Hr, map_length, Hn.
  destruct (length (real (t_postings t)) - length (bs_out s))%nat as [|[|n]]; auto.
  - destruct (can_be_zero (bs_tb s)); auto. f_equal. f_equal. f_equal. unfold unassert_txn, set_postings. simpl.
    rewrite map_app. auto.
  - set (es := ord (bal_neg (bs_tb s))).
    assert (K : fill_loop (unassert_txn t) (fst (bs_fill s)) (snd (bs_fill s)) es (bs_bals s, map unassert (bs_out s)) =
        match fill_loop t (fst (bs_fill s)) (snd (bs_fill s)) es (bs_bals s, bs_out s) with
        | Ok (b, o) => Ok (b, map unassert o) | Err e => Err e | Panic e => Panic e end).
    { unfold fill_loop. generalize (bs_out s) (bs_bals s). clear. induction es as [|e es IH]; intros out bals; simpl; auto.
      destruct (hget str_eqb (fst (bs_fill s)) bals); simpl; auto.
      rewrite <- IH. rewrite map_app. reflexivity. }
    rewrite K. destruct (fill_loop t _ _ es _) as [[b2 o2]|e|e]; simpl; auto.
    f_equal. f_equal. f_equal. unfold unassert_txn, set_postings. simpl. rewrite map_app. auto.
Qed.

(** ** Balancing twice *)
Lemma total_balance_filter ps k : total_balance (filter (fun p => kind_eqb (p_kind p) k) ps) k = total_balance ps k.
Proof.
  unfold total_balance. apply foldM_filter. intros s x Hx. destruct (p_amount x); auto. rewrite Hx. auto.
Qed.

Lemma bal_step_amount skip s p m old v :
  p_kind p = Real -> p_amount p = Some m -> hget str_eqb (p_account p) (bs_bals s) = Some old ->
  (skip = false -> forall b, p_balance p = Some b -> bal_eqb (bal_of b) (bal_add old (bal_of m)) = true) ->
  post_value m (p_cost p) = Ok v ->
  bal_step skip s p = Ok {| bs_bals := hset str_eqb (p_account p) (bal_add old (bal_of m)) (bs_bals s);
              bs_tb := bal_add (bs_tb s) v; bs_out := bs_out s ++ [pushed p m]; bs_fill := bs_fill s |}.
Proof.
  intros Hk Em Eo Hb Hv. unfold bal_step. rewrite Hk, Em, Eo, Hv. simpl.
  replace (negb skip && _) with false; auto. destruct skip; auto. simpl.
  destruct (p_balance p) as [b|]; auto. rewrite Hb; auto.
Qed.

Definition replayed (skip : bool) (bals : balances) (s : bstate) : Prop :=
  exists s2, foldM (bal_step skip) (init_state bals) (bs_out s) = Ok s2 /\ bs_out s2 = bs_out s /\
    bs_tb s2 = bs_tb s /\ good_bals (bs_bals s2) /\
    (forall acc, known (bs_bals s2) acc <-> known (bs_bals s) acc) /\
    (forall acc c, run_amt (bs_bals s2) acc c = run_amt (bs_bals s) acc c).

Lemma replay_step skip bals pre s p s' :
  loop_inv skip bals pre s -> good_posting p -> bal_step skip s p = Ok s' ->
  replayed skip bals s -> replayed skip bals s'.
Proof.
  intros I Hgp H (s2 & Hf & Ho & Htb & Hg2 & Hk2 & Hr2). destruct I as [Ig Ik Ir Ib Itb Ikp Ic If Ia].
  unfold bal_step in H. destruct (kind_eqb_spec (p_kind p) Real) as [Hk|Hk]; simpl negb in H.
  2: { inv H. exists s2. auto 10. }
  assert (Hnew : forall m old old2 v bals',
     hget str_eqb (p_account p) (bs_bals s) = Some old ->
     hget str_eqb (p_account p) (bs_bals s2) = Some old2 ->
     post_value m (p_cost p) = Ok v ->
     (skip = false -> forall b, p_balance p = Some b -> bal_eqb (bal_of b) (bal_add old2 (bal_of m)) = true) ->
     good_bals bals' -> (forall acc, known bals' acc <-> known (bs_bals s) acc) ->
     (forall acc c, run_amt bals' acc c = run_amt (bs_bals s) acc c + if str_eqb acc (p_account p) then money_amt m c else 0) ->
     forall f, replayed skip bals {| bs_bals := bals'; bs_tb := bal_add (bs_tb s) v; bs_out := bs_out s ++ [pushed p m]; bs_fill := f |}).
  { intros m old old2 v bals' Eo Eo2 Hv Hch Hgb Hkb Hrb f.
    eexists. split; [|split; [|split; [|split; [|split]]]].
    - simpl. rewrite foldM_app, Hf. simpl. 
      rewrite (bal_step_amount skip s2 (pushed p m) m old2 v); simpl; auto.
    - simpl. rewrite Ho. reflexivity.
    - simpl. rewrite Htb. auto.
    - simpl. apply good_bals_hset; auto. constructor; [eapply Hg2; eauto|constructor].
    - simpl. intros acc. rewrite known_hset_iff by (unfold known; congruence). rewrite Hk2. symmetry. apply Hkb.
    - simpl. intros acc c. rewrite run_amt_hset, Hrb. destruct (str_eqb_spec acc (p_account p)).
      + subst. rewrite bal_amt_add by (try apply wf_of; apply built_wf; eapply Hg2; eauto). rewrite bal_amt_of.
        rewrite <- Hr2. unfold run_amt. rewrite Eo2. auto.
      + rewrite Hr2. ring. }
  assert (Hold2 : forall old, hget str_eqb (p_account p) (bs_bals s) = Some old ->
     exists old2, hget str_eqb (p_account p) (bs_bals s2) = Some old2 /\ built old2 /\ forall c, bal_amt old2 c = bal_amt old c).
  { intros old Eo. assert (K : known (bs_bals s2) (p_account p)) by (apply Hk2; unfold known; congruence).
    unfold known in K. destruct (hget str_eqb (p_account p) (bs_bals s2)) as [old2|] eqn:E2; [|congruence].
    exists old2. split; auto. split; [eapply Hg2; eauto|]. intros c. specialize (Hr2 (p_account p) c).
    unfold run_amt in Hr2. rewrite Eo, E2 in Hr2. auto. }
  destruct (p_amount p) as [m|] eqn:Em.
  - bind_inv H. destruct (hget str_eqb (p_account p) (bs_bals s)) as [old|] eqn:Eo; simpl in Hb; inv Hb. rename a into old.
    destruct (negb skip && _) eqn:Ech; [discriminate|]. bind_inv H. rename a into v. inv H.
    destruct (Hold2 _ eq_refl) as (old2 & E2 & B2 & A2).
    assert (Bo : built old) by (eapply Ig; eauto).
    eapply (Hnew m old old2 v); auto.
    + intros Hs b Eb. subst skip. rewrite Eb in Ech. simpl in Ech. apply negb_false_iff in Ech.
      apply bal_eqb_assert; [repeat constructor; auto|]. intros a c ->.
      rewrite bal_eqb_assert in Ech by (repeat constructor; auto). rewrite <- (Ech a c eq_refl).
      rewrite !bal_amt_add by (try apply wf_of; apply built_wf; auto). rewrite A2. auto.
    + apply good_bals_hset; auto. repeat constructor; auto.
    + intros acc. apply known_hset_iff. unfold known. congruence.
    + intros acc c. rewrite run_amt_hset. destruct (str_eqb_spec acc (p_account p)).
      * subst. rewrite bal_amt_add by (try apply wf_of; apply built_wf; auto). rewrite bal_amt_of. unfold run_amt. rewrite Eo. auto.
      * ring.
  - destruct (p_balance p) as [b|] eqn:Eb; [destruct skip|].
    + inv H. exists s2. auto 10.
    + assert (Hnc : p_cost p = None).
      { unfold good_posting in Hgp. destruct (p_cost p); auto. rewrite Em in Hgp. tauto. }
      bind_inv H. destruct (hget str_eqb (p_account p) (bs_bals s)) as [old|] eqn:Eo; simpl in Hb; inv Hb.
      rename a into old. bind_inv H. rename a into m. inv H.
      destruct (Hold2 _ eq_refl) as (old2 & E2 & B2 & A2).
      assert (Bo : built old) by (eapply Ig; eauto).
      assert (Hm : forall c, money_amt m c = money_amt b c - bal_amt old c).
      { intros c. destruct (to_money_spec (bal_sub (bal_of b) old)) as [(m' & Hm1 & Hm2)|[Hx _]].
        - apply wf_sub; [apply wf_of|apply built_wf; auto].
        - rewrite Hb in Hm1. inv Hm1. rewrite Hm2. rewrite bal_amt_sub by (try apply wf_of; apply built_wf; auto).
          rewrite bal_amt_of. auto.
        - congruence. }
      eapply (Hnew m old old2 (bal_of m)); auto.
      * rewrite Hnc. reflexivity.
      * intros _ b' Eb'. inv Eb'. apply bal_eqb_assert; [repeat constructor; auto|]. intros a c ->.
        rewrite bal_amt_add by (try apply wf_of; apply built_wf; auto). rewrite bal_amt_of, Hm, A2. simpl.
        rewrite str_eqb_refl. ring.
      * apply good_bals_hset; auto. constructor.
      * intros acc. apply known_hset_iff. unfold known. congruence.
      * intros acc c. rewrite run_amt_hset. destruct (str_eqb_spec acc (p_account p)).
        -- subst. rewrite bal_amt_of, Hm. unfold run_amt. rewrite Eo. ring.
        -- ring.
    + inv H. exists s2. auto 10.
Qed.

Lemma replay_fills skip t acc pay es : forall s,
  (es <> [] -> known (bs_bals s) acc) -> good_bals (bs_bals s) -> built (bs_tb s) ->
  exists s2, foldM (bal_step skip) s (map (fun e => fill_posting t acc pay (snd e)) es) = Ok s2 /\
    bs_out s2 = bs_out s ++ map (fun e => fill_posting t acc pay (snd e)) es /\
    good_bals (bs_bals s2) /\ built (bs_tb s2) /\
    (forall c, bal_amt (bs_tb s2) c = bal_amt (bs_tb s) c + bal_amt es c) /\
    (forall a, known (bs_bals s2) a <-> known (bs_bals s) a) /\
    (forall a c, run_amt (bs_bals s2) a c = run_amt (bs_bals s) a c + if str_eqb acc a then bal_amt es c else 0).
Proof.
  induction es as [|e es IH]; intros s Hk Hg Hb.
  - exists s. simpl. rewrite app_nil_r. repeat split; auto; try tauto.
    + intros. rewrite bal_amt_nil. ring.
    + intros. rewrite bal_amt_nil. destruct (str_eqb acc a); ring.
  - assert (Hkn : known (bs_bals s) acc) by (apply Hk; discriminate).
    cbn [map foldM]. pose proof Hkn as Hk'. unfold known in Hk'. destruct (hget str_eqb acc (bs_bals s)) as [old|] eqn:Eo; [|congruence].
    assert (Bo : built old) by (eapply Hg; eauto).
    rewrite (bal_step_amount skip s _ (snd e) old (bal_of (snd e))); simpl; auto; [|discriminate].
    match goal with |- context [foldM _ ?s1 _] => destruct (IH s1) as (s2 & H1 & H2 & H3 & H4 & H5 & H8 & H9) end.
    + intros _. simpl. apply known_hset. auto.
    + simpl. apply good_bals_hset; auto. repeat constructor; auto.
    + simpl. repeat constructor; auto.
    + exists s2. simpl in *. split; auto. split; [rewrite H2, <- app_assoc; reflexivity|]. split; auto. split; auto.
      split; [|split].
      * intros c. rewrite H5, bal_amt_cons, bal_amt_add by (try apply wf_of; apply built_wf; auto). rewrite bal_amt_of. ring.
      * intros a. rewrite H8. apply known_hset_iff. auto.
      * intros a c. rewrite H9, run_amt_hset, bal_amt_cons, str_eqb_sym. destruct (str_eqb_spec acc a); auto. subst a.
        rewrite bal_amt_add by (try apply wf_of; apply built_wf; auto). rewrite bal_amt_of. unfold run_amt. rewrite Eo. ring.
Qed.

Lemma fill_loop_known t acc pay es bals out r : es <> [] ->
  fill_loop t acc pay es (bals, out) = Ok r -> known bals acc.
Proof.
  unfold fill_loop, known. destruct es as [|e es]; [congruence|]. intros _ H. simpl in H.
  destruct (hget str_eqb acc bals); [discriminate|]. simpl in H. discriminate.
Qed.

Lemma balance_twice ord ord' skip t bals b t' bals' :
  order_ok ord -> good_bals bals -> good_txn t ->
  txn_balance ord skip t bals = Ok (b, t', bals') ->
  exists b2 bals2, txn_balance ord' skip t' bals = Ok (b2, t', bals2) /\
    (forall c, bal_amt b2 c = bal_amt b c) /\ (forall acc c, run_amt bals2 acc c = run_amt bals' acc c) /\
    (forall acc, known bals2 acc <-> known bals' acc) /\ good_bals bals2.
Proof.
  intros Ho Hg Ht H. assert (HF : Forall good_posting (t_postings t)) by (apply Forall_forall; exact Ht).
  unfold txn_balance in H. bind_inv H. rename a into vb.
  destruct (can_be_zero vb) eqn:Ev; simpl negb in H; [|discriminate]. bind_inv H. rename a into s.
  fold (init_state bals) in Hb0.
  pose proof (loop_inv_holds _ _ _ _ Hg HF Hb0) as I.
  assert (R : replayed skip bals s).
  { assert (K : forall l s, foldM (bal_step skip) (init_state bals) l = Ok s ->
       (Forall good_posting l -> loop_inv skip bals l s /\ replayed skip bals s)).
    { apply (foldM_ind _ (fun l s => Forall good_posting l -> loop_inv skip bals l s /\ replayed skip bals s)).
      - intros _. split; [apply loop_init; auto|]. exists (init_state bals). simpl. repeat split; auto.
      - intros pre x s0 s' IH Hs HF'. apply Forall_app in HF'. destruct HF' as [HF1 HF2]. inv HF2.
        destruct (IH HF1) as [I0 R0]. split; [eapply loop_step; eauto|eapply replay_step; eauto]. }
    destruct (K _ _ Hb0 HF). auto. }
  destruct R as (s2 & Hf & Hout & Htb & Hg2 & Hk2 & Hr2).
  pose proof (out_real _ _ _ _ Hb0) as Hreal.
  destruct I as [Ig Ik Ir Ib Itb Ikp Ic If Ia].
  assert (Hbuilt := is_sum_or_new_built _ Ib).
  assert (Hnrr : forall l, (forall p, In p l -> p_kind p = Real) -> non_real (l ++ non_real (t_postings t)) = non_real (t_postings t)).
  { intros l Hl. unfold non_real. rewrite filter_app. rewrite (filter_none _ l), (filter_id _ (filter _ _)); auto.
    - intros x Hx. apply filter_In in Hx. tauto.
    - intros x Hx. rewrite (Hl x Hx). auto. }
  assert (Hrr : forall l, (forall p, In p l -> p_kind p = Real) -> real (l ++ non_real (t_postings t)) = l).
  { intros l Hl. unfold real, non_real. rewrite filter_app. rewrite (filter_id _ l), (filter_none _ (filter _ _)).
    - apply app_nil_r.
    - intros x Hx. apply filter_In in Hx. destruct Hx as [_ Hx]. destruct (kind_eqb (p_kind x) Real); auto; discriminate.
    - intros x Hx. rewrite (Hl x Hx). auto. }
  assert (Hvirt : forall l, (forall p, In p l -> p_kind p = Real) ->
      total_balance (l ++ non_real (t_postings t)) VirtualMustBalance = Ok vb).
  { intros l Hl. rewrite <- Hb, <- total_balance_filter, <- (total_balance_filter (t_postings t)). f_equal.
    rewrite filter_app, (filter_none _ l) by (intros x Hx; rewrite (Hl x Hx); auto). simpl.
    unfold non_real. rewrite filter_comm. apply filter_id. intros x Hx. apply filter_In in Hx. destruct Hx as [_ Hx].
    destruct (p_kind x); auto; discriminate. }
  assert (Hloop : forall l s0 s3, foldM (bal_step skip) s0 l = Ok s3 ->
     foldM (bal_step skip) s0 (l ++ non_real (t_postings t)) = Ok s3).
  { intros l s0 s3 Hl. rewrite foldM_app, Hl. simpl. unfold non_real. clear. induction (t_postings t) as [|p l IH]; simpl; auto.
    destruct (kind_eqb (p_kind p) Real) eqn:E; simpl; auto. unfold bal_step. rewrite E. simpl. auto. }
  destruct (length (real (t_postings t)) - length (bs_out s))%nat as [|[|n]] eqn:En; [| |discriminate].
  - destruct (can_be_zero (bs_tb s)) eqn:Ez; inv H.
    exists (bs_tb s), (bs_bals s2). split; [|auto].
    unfold txn_balance. cbn [set_postings t_postings]. rewrite Hvirt by auto. cbn [bind]. rewrite Ev. simpl negb. cbv iota.
    fold (init_state bals). rewrite (Hloop _ _ _ Hf). cbn [bind]. rewrite Hrr by auto. rewrite Hout, Nat.sub_diag, Htb, Ez.
    rewrite Hnrr by auto. reflexivity.
  - bind_inv H. destruct a as [bals3 out3]. inv H.
    set (es := ord (bal_neg (bs_tb s))) in *.
    assert (Pes : Permutation es (bal_neg (bs_tb s))) by apply Ho.
    assert (Wes : wf_bal es). { eapply wf_perm; [|symmetry; exact Pes]. apply wf_neg. apply built_wf. auto. }
    pose proof (fill_out _ _ _ _ _ _ _ _ Hb1) as Hout3.
    assert (Kfill : es <> [] -> known (bs_bals s2) (fst (bs_fill s))).
    { intros Hne. apply Hk2. eapply fill_loop_known; eauto. }
    apply fill_loop_spec in Hb1; auto; [|apply wf_bal_entries; auto]. destruct Hb1 as (G3 & _ & K3 & R3).
    set (fills := map (fun e => fill_posting t (fst (bs_fill s)) (snd (bs_fill s)) (snd e)) es) in *.
    assert (Hreal3 : forall p, In p out3 -> p_kind p = Real).
    { intros p Hp. rewrite Hout3 in Hp. apply in_app_iff in Hp. destruct Hp as [Hp|Hp]; auto.
      unfold fills in Hp. apply in_map_iff in Hp. destruct Hp as (e & <- & _). auto. }
    destruct (replay_fills skip t (fst (bs_fill s)) (snd (bs_fill s)) es s2) as (s3 & F1 & F2 & F3 & F4 & F5 & F6 & F7); auto.
    { rewrite Htb. auto. }
    fold fills in F1, F2.
    assert (Hz : forall c, bal_amt (bs_tb s3) c = 0).
    { intros c. rewrite F5, Htb, (bal_amt_perm _ _ _ Pes), bal_amt_neg. ring. }
    exists (bs_tb s3), (bs_bals s3). split; [|split; [|split; [|split]]]; auto.
    + unfold txn_balance. cbn [set_postings t_postings]. rewrite Hvirt by auto. cbn [bind]. rewrite Ev. simpl negb. cbv iota.
      fold (init_state bals). rewrite (Hloop out3 _ s3).
      2: { rewrite Hout3, foldM_app, Hf. exact F1. }
      cbn [bind]. rewrite Hrr by auto. rewrite F2, Hout, <- Hout3, Nat.sub_diag.
      replace (can_be_zero (bs_tb s3)) with true.
      2: { symmetry. apply built_can_be_zero; auto. }
      rewrite Hnrr by auto. reflexivity.
    + intros acc c. rewrite F7, R3, Hr2. auto.
    + intros acc. rewrite F6, K3. auto.
Qed.
