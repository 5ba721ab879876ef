(** Facts about money and balances. *)
From Verif Require Import Base Money BaseFacts Spec.
From Coq Require Import Lia Lqa.
Open Scope Qc_scope.

(** ** Sums *)
Lemma qsum_app l1 l2 : qsum (l1 ++ l2) = qsum l1 + qsum l2.
Proof. induction l1; simpl; [ring|]. fold (qsum l1). rewrite IHl1 || (unfold qsum in *; rewrite IHl1). ring. Qed.
Lemma qsum_perm l1 l2 : Permutation l1 l2 -> qsum l1 = qsum l2.
Proof. induction 1; simpl; unfold qsum in *; simpl; try congruence. ring. Qed.
Lemma qsum_cons x l : qsum (x :: l) = x + qsum l.
Proof. reflexivity. Qed.

Lemma bal_amt_perm a b c : Permutation a b -> bal_amt a c = bal_amt b c.
Proof. intros. unfold bal_amt. apply qsum_perm. apply Permutation_map. auto. Qed.
Lemma bal_amt_cons e b c : bal_amt (e :: b) c = money_amt (snd e) c + bal_amt b c.
Proof. reflexivity. Qed.
Lemma bal_amt_nil c : bal_amt [] c = 0.
Proof. reflexivity. Qed.
Lemma bal_amt_app a b c : bal_amt (a ++ b) c = bal_amt a c + bal_amt b c.
Proof. unfold bal_amt. rewrite map_app. apply qsum_app. Qed.

(** ** Well-formed balances *)
Definition wf_entry (e : bkey * money) : Prop := fst e = m_commodity (snd e).
Definition wf_bal (b : balance) : Prop := NoDup (hkeys b) /\ Forall wf_entry b.
Definition nz_bal (b : balance) : Prop := Forall (fun e => m_is_zero (snd e) = false) b.

Lemma hget_str {V} k (m : list (str * V)) v :
  hget str_eqb k m = Some v -> In (k, v) m.
Proof. apply hget_In. apply str_eqb_spec. Qed.

Lemma wf_hget b k m : wf_bal b -> hget bkey_eqb k b = Some m -> k = m_commodity m.
Proof.
  intros [_ H] Hg. apply (hget_In _ bkey_eqb_spec) in Hg. rewrite Forall_forall in H.
  apply H in Hg. exact Hg.
Qed.

Lemma bal_amt_hget b c : wf_bal b ->
  bal_amt b c = match hget bkey_eqb (Some c) b with Some m => m_amount m | None => 0 end.
Proof.
  intros [Hn Hf]. induction b as [|[k m] b IH]; [reflexivity|].
  inv Hn. inv Hf. rewrite bal_amt_cons. cbn [hget snd].
  unfold wf_entry in H3. simpl in H3. subst k.
  destruct m as [|a c']; simpl m_commodity in *.
  - simpl. rewrite IH; auto. ring.
  - cbn [bkey_eqb opt_eqb money_amt]. simpl. destruct (str_eqb_spec c c').
    + subst. rewrite str_eqb_refl. rewrite IH; auto.
      replace (hget bkey_eqb (Some c') b) with (@None money). { simpl. ring. }
      symmetry. apply hget_None; [apply bkey_eqb_spec|exact H1].
    + rewrite str_eqb_sym. destruct (str_eqb_spec c c'); try contradiction. rewrite IH; auto. ring.
Qed.

Lemma wf_nil : wf_bal [].
Proof. split; constructor. Qed.
Lemma wf_of m : wf_bal (bal_of m).
Proof.
  destruct m; split; simpl; try (constructor; [intros []|constructor]); constructor; try constructor; reflexivity.
Qed.
Lemma wf_neg b : wf_bal b -> wf_bal (bal_neg b).
Proof.
  intros [Hn Hf]. split.
  - unfold hkeys, bal_neg. rewrite map_map. simpl. exact Hn.
  - unfold bal_neg. rewrite Forall_map. eapply Forall_impl; [|exact Hf]. intros [k m] H.
    unfold wf_entry in *. simpl in *. subst. destruct m; reflexivity.
Qed.
Lemma wf_perm a b : wf_bal a -> Permutation a b -> wf_bal b.
Proof.
  intros [Hn Hf] Hp. split.
  - eapply Permutation_NoDup; [|exact Hn]. apply Permutation_map. auto.
  - rewrite <- Hp. exact Hf.
Qed.
Lemma wf_hset b k m : wf_bal b -> k = m_commodity m -> wf_bal (hset bkey_eqb k m b).
Proof.
  intros [Hn Hf] Hk. split; [apply NoDup_hset; auto; apply bkey_eqb_spec|].
  rewrite Forall_forall in *. intros e He. apply In_hset_inv in He; [|apply bkey_eqb_spec].
  destruct He as [->|He]; auto.
Qed.
Lemma wf_filter f b : wf_bal b -> wf_bal (filter f b).
Proof.
  intros [Hn Hf]. split.
  - clear Hf. induction b as [|[k m] b IH]; simpl; auto. inv Hn.
    destruct (f (k, m)); simpl; auto. constructor; auto. intros Hi. apply H1.
    unfold hkeys in *. apply in_map_iff in Hi. destruct Hi as (x & <- & Hx).
    apply filter_In in Hx. destruct Hx. apply in_map. auto.
  - apply Forall_forall. intros e He. apply filter_In in He. destruct He.
    rewrite Forall_forall in Hf. auto.
Qed.

Lemma bal_amt_hset b k m c : wf_bal b -> k = m_commodity m ->
  bal_amt (hset bkey_eqb k m b) c =
  match k with
  | Some c' => if str_eqb c' c then m_amount m else bal_amt b c
  | None => bal_amt b c
  end.
Proof.
  intros Hw Hk. rewrite bal_amt_hget by (apply wf_hset; auto).
  rewrite hget_hset by apply bkey_eqb_spec. rewrite (bal_amt_hget b) by auto.
  destruct k as [c'|]; simpl; auto. rewrite (str_eqb_sym c c').
  destruct (str_eqb c' c); auto.
Qed.

Lemma wf_add_step t e : wf_bal t -> wf_entry e -> wf_bal (bal_add_step t e).
Proof.
  intros Ht He. destruct e as [k m]. unfold wf_entry in He. simpl in He. subst k.
  unfold bal_add_step. destruct (hget bkey_eqb (m_commodity m) t) as [[|a c0]|] eqn:E.
  - apply wf_hset; auto.
  - destruct m; auto. apply wf_hset; auto.
  - apply wf_hset; auto.
Qed.
Lemma bal_amt_add_step t e c : wf_bal t -> wf_entry e ->
  bal_amt (bal_add_step t e) c = bal_amt t c + money_amt (snd e) c.
Proof.
  intros Ht He. destruct e as [k m]. unfold wf_entry in He. simpl in He. subst k. simpl snd.
  unfold bal_add_step. destruct (hget bkey_eqb (m_commodity m) t) as [[|a0 c0]|] eqn:E.
  - pose proof (wf_hget _ _ _ Ht E) as K. simpl in K.
    rewrite bal_amt_hset; auto. rewrite K. destruct m; simpl in *; try discriminate. ring.
  - pose proof (wf_hget _ _ _ Ht E) as K. simpl in K. destruct m as [|a c1]; simpl in *; try discriminate.
    inv K. rewrite bal_amt_hset; auto.
    destruct (str_eqb_spec c0 c); [|ring]. subst. rewrite (bal_amt_hget t) by auto.
    rewrite E. simpl. ring.
  - rewrite bal_amt_hset; auto. destruct m as [|a c1]; simpl; [ring|].
    destruct (str_eqb_spec c1 c); [|ring]. subst. rewrite (bal_amt_hget t) by auto.
    simpl in E. rewrite E. ring.
Qed.
Lemma add_fold l : Forall wf_entry l -> forall t, wf_bal t ->
  wf_bal (fold_left bal_add_step l t) /\
  forall c, bal_amt (fold_left bal_add_step l t) c = bal_amt t c + bal_amt l c.
Proof.
  induction 1 as [|e l He Hl IH]; intros t Ht; simpl.
  - split; auto. intros. rewrite bal_amt_nil. ring.
  - destruct (IH (bal_add_step t e)) as [Hw Ha]; [apply wf_add_step; auto|]. split; auto.
    intros c. rewrite Ha, bal_amt_add_step, bal_amt_cons; auto. ring.
Qed.
Lemma bal_amt_filter_nz b c : bal_amt (filter (fun e => negb (m_is_zero (snd e))) b) c = bal_amt b c.
Proof.
  induction b as [|[k m] b IH]; simpl; auto. rewrite bal_amt_cons.
  destruct (m_is_zero m) eqn:E; simpl.
  - rewrite IH. destruct m; simpl in *; [ring|].
    destruct (qc_eqb_spec a 0); try discriminate. subst. destruct (str_eqb c0 c); ring.
  - rewrite bal_amt_cons. rewrite IH. auto.
Qed.

Lemma wf_bal_entries b : wf_bal b -> Forall wf_entry b.
Proof. intros []; auto. Qed.
Lemma wf_add a b : wf_bal a -> wf_bal b -> wf_bal (bal_add a b).
Proof.
  intros Ha Hb. unfold bal_add. apply wf_filter. apply add_fold; [apply wf_bal_entries; auto|].
  apply add_fold; [apply wf_bal_entries; auto|]. apply wf_nil.
Qed.
Lemma nz_add a b : nz_bal (bal_add a b).
Proof.
  unfold nz_bal, bal_add. apply Forall_forall. intros e He. apply filter_In in He.
  destruct He as [_ He]. destruct (m_is_zero (snd e)); auto; discriminate.
Qed.
Lemma bal_amt_add a b c : wf_bal a -> wf_bal b -> bal_amt (bal_add a b) c = bal_amt a c + bal_amt b c.
Proof.
  intros Ha Hb. unfold bal_add. rewrite bal_amt_filter_nz.
  pose proof (add_fold a (wf_bal_entries _ Ha) [] wf_nil) as [W1 A1].
  destruct (add_fold b (wf_bal_entries _ Hb) _ W1) as [W2 A2].
  rewrite A2, A1, bal_amt_nil. ring.
Qed.
Lemma bal_amt_neg b c : bal_amt (bal_neg b) c = - bal_amt b c.
Proof.
  induction b as [|[k m] b IH]; [reflexivity|]. simpl bal_neg. rewrite !bal_amt_cons.
  fold (bal_neg b). simpl snd. rewrite IH. destruct m; simpl; [ring|]. destruct (str_eqb c0 c); ring.
Qed.
Lemma wf_sub a b : wf_bal a -> wf_bal b -> wf_bal (bal_sub a b).
Proof. intros. apply wf_add; auto. apply wf_neg; auto. Qed.
Lemma bal_amt_sub a b c : wf_bal a -> wf_bal b -> bal_amt (bal_sub a b) c = bal_amt a c - bal_amt b c.
Proof. intros. unfold bal_sub. rewrite bal_amt_add; auto; [|apply wf_neg; auto]. rewrite bal_amt_neg. ring. Qed.
Lemma bal_amt_of m c : bal_amt (bal_of m) c = money_amt m c.
Proof. destruct m; simpl; unfold bal_amt; simpl; ring. Qed.

Lemma built_wf b : built b -> wf_bal b.
Proof.
  induction 1; auto using wf_nil, wf_of, wf_add, wf_sub, wf_neg. eapply wf_perm; eauto.
Qed.
Lemma is_sum_wf b : is_sum b -> wf_bal b /\ nz_bal b.
Proof.
  intros (x & y & Hx & Hy & Hp). split.
  - eapply wf_perm; eauto. apply wf_add; apply built_wf; auto.
  - unfold nz_bal. rewrite <- Hp. apply nz_add.
Qed.
Lemma is_sum_built b : is_sum b -> built b.
Proof. intros (x & y & Hx & Hy & Hp). eapply built_perm; [|exact Hp]. constructor; auto. Qed.

(** The explicit unwrap of balance.rs:111 never fails. *)
Lemma bal_add_step_res_ok t e : wf_bal t -> wf_entry e ->
  bal_add_step_res t e = Ok (bal_add_step t e).
Proof.
  intros Ht He. unfold bal_add_step_res.
  destruct (hget bkey_eqb (fst e) t) as [[|a c]|] eqn:E; auto. destruct (snd e) eqn:E2; auto.
  destruct (fst e) eqn:E3; auto.
  unfold wf_entry in He. rewrite E2, E3 in He. discriminate.
Qed.
Lemma bal_add_ok a b : wf_bal a -> wf_bal b -> bal_add_res a b = Ok (bal_add a b).
Proof.
  intros Ha Hb. unfold bal_add_res, bal_add. rewrite <- fold_left_app.
  assert (H : forall l t, Forall wf_entry l -> wf_bal t ->
            foldM bal_add_step_res t l = Ok (fold_left bal_add_step l t)).
  { induction l as [|e l IH]; intros t Hl Ht; simpl; auto. inv Hl.
    rewrite bal_add_step_res_ok by auto. simpl. apply IH; auto. apply wf_add_step; auto. }
  rewrite H; auto using wf_nil. apply Forall_app. split; apply wf_bal_entries; auto.
Qed.

(** Entries of a well-formed balance without zeros are determined by the amounts. *)
Lemma nz_entry_iff b c a : wf_bal b -> nz_bal b ->
  (In (Some c, M a c) b <-> bal_amt b c = a /\ a <> 0).
Proof.
  intros Hw Hz. rewrite bal_amt_hget by auto. split.
  - intros Hi. rewrite (In_hget _ bkey_eqb_spec _ _ _ (proj1 Hw) Hi). simpl. split; auto.
    unfold nz_bal in Hz. rewrite Forall_forall in Hz. apply Hz in Hi. simpl in Hi.
    destruct (qc_eqb_spec a 0); congruence.
  - destruct (hget bkey_eqb (Some c) b) as [m|] eqn:E.
    + pose proof (wf_hget _ _ _ Hw E) as K. destruct m; simpl in *; inv K. intros [-> _].
      apply (hget_In _ bkey_eqb_spec). auto.
    + intros [<- H]. congruence.
Qed.
Lemma nz_entry_shape b e : wf_bal b -> nz_bal b -> In e b -> exists c a, e = (Some c, M a c).
Proof.
  intros [_ Hw] Hz Hi. unfold nz_bal in Hz. rewrite Forall_forall in *.
  pose proof (Hw _ Hi) as H1. pose proof (Hz _ Hi) as H2. destruct e as [k m]. unfold wf_entry in H1.
  simpl in *. subst. destruct m; simpl in *; [discriminate|]. eauto.
Qed.
Lemma nz_perm a b : wf_bal a -> nz_bal a -> wf_bal b -> nz_bal b -> same_amounts a b -> Permutation a b.
Proof.
  intros Ha Za Hb Zb Hs. apply NoDup_Permutation.
  - eapply NoDup_map_inv. exact (proj1 Ha).
  - eapply NoDup_map_inv. exact (proj1 Hb).
  - intros e. split; intros Hi.
    + destruct (nz_entry_shape _ _ Ha Za Hi) as (c & x & ->).
      apply nz_entry_iff in Hi; auto. apply nz_entry_iff; auto. rewrite <- Hs. auto.
    + destruct (nz_entry_shape _ _ Hb Zb Hi) as (c & x & ->).
      apply nz_entry_iff in Hi; auto. apply nz_entry_iff; auto. rewrite Hs. auto.
Qed.
Lemma nz_nil b : wf_bal b -> nz_bal b -> (forall c, bal_amt b c = 0) -> b = [].
Proof.
  intros Hw Hz H. apply Permutation_nil. apply nz_perm; auto using wf_nil; [constructor|].
  intros c. rewrite H. reflexivity.
Qed.
Lemma bal_add_perm a a' b b' : wf_bal a -> wf_bal b -> Permutation a a' -> Permutation b b' ->
  Permutation (bal_add a b) (bal_add a' b').
Proof.
  intros Ha Hb Pa Pb. assert (wf_bal a') by (apply (wf_perm a); auto). assert (wf_bal b') by (apply (wf_perm b); auto).
  apply nz_perm; auto using wf_add, nz_add. intros c. rewrite !bal_amt_add; auto.
  rewrite (bal_amt_perm a a'), (bal_amt_perm b b'); auto.
Qed.

(** ** Zero tests *)
Lemma wf_cons_amt k m b : wf_bal ((k, m) :: b) ->
  (forall c, m_commodity m = Some c -> bal_amt b c = 0) /\ wf_bal b.
Proof.
  intros [Hn Hf]. inv Hn. inv Hf. assert (wf_bal b) by (split; auto). split; auto.
  intros c Hc. unfold wf_entry in *. simpl in *. subst k. rewrite bal_amt_hget by auto.
  replace (hget bkey_eqb (Some c) b) with (@None money); auto. symmetry.
  apply hget_None; [apply bkey_eqb_spec|]. rewrite <- Hc. auto.
Qed.
Lemma bal_is_zero_iff b : wf_bal b -> (bal_is_zero b = true <-> forall c, bal_amt b c = 0).
Proof.
  intros Hw. unfold bal_is_zero. rewrite forallb_forall. split.
  - intros H c. rewrite bal_amt_hget by auto. destruct (hget bkey_eqb (Some c) b) as [m|] eqn:E; auto.
    apply (hget_In _ bkey_eqb_spec) in E. apply H in E. simpl in E. destruct m; simpl in *; auto.
    destruct (qc_eqb_spec a 0); auto; discriminate.
  - intros H e He. destruct e as [k m]. simpl. destruct m as [|a c]; auto. simpl.
    destruct (qc_eqb_spec a 0); auto. exfalso. apply n. rewrite <- (H c).
    rewrite bal_amt_hget by auto. assert (k = Some c).
    { destruct Hw as [_ Hf]. rewrite Forall_forall in Hf. apply Hf in He. exact He. }
    subst. rewrite (In_hget _ bkey_eqb_spec _ _ _ (proj1 Hw) He). reflexivity.
Qed.
Lemma scan_spec b p n : can_be_zero_scan b p n = true <->
  b <> [] /\ ((p = true \/ exists e, In e b /\ m_is_positive (snd e) = true) /\
              (n = true \/ exists e, In e b /\ m_is_negative (snd e) = true)).
Proof.
  revert p n. induction b as [|[k m] b IH]; intros p n; simpl.
  - split; [discriminate|]. intros [H _]. congruence.
  - destruct (m_is_positive m) eqn:Ep, (m_is_negative m) eqn:En; simpl.
    + split; auto. intros _. split; [congruence|]. split; right; exists (k, m); auto.
    + destruct n; simpl.
      * split; auto. intros _. split; [congruence|]. split; auto. right. exists (k, m). auto.
      * rewrite IH. split.
        -- intros (Hb & _ & [Hn|(e & He & Hn)]); [discriminate|]. split; [congruence|].
           split; right; [exists (k, m); auto|exists e; auto].
        -- intros (_ & _ & [Hn|(e & [He|He] & Hn)]); try discriminate.
           ++ subst e. simpl in Hn. congruence.
           ++ split; [destruct b; [destruct He|discriminate]|]. split; auto. right. eauto.
    + destruct p; simpl.
      * split; auto. intros _. split; [congruence|]. split; auto. right. exists (k, m). auto.
      * rewrite IH. split.
        -- intros (Hb & [Hn|(e & He & Hn)] & _); [discriminate|]. split; [congruence|].
           split; right; [exists e; auto|exists (k, m); auto].
        -- intros (_ & [Hn|(e & [He|He] & Hn)] & _); try discriminate.
           ++ subst e. simpl in Hn. congruence.
           ++ split; [destruct b; [destruct He|discriminate]|]. split; auto. right. eauto.
    + destruct (p && n) eqn:Epn.
      * apply andb_true_iff in Epn. destruct Epn; subst. split; auto. intros _. split; [congruence|]. auto.
      * rewrite IH. split.
        -- intros (Hb & Hp & Hn). split; [congruence|]. split.
           ++ destruct Hp as [|(e & ? & ?)]; auto. right. exists e. auto.
           ++ destruct Hn as [|(e & ? & ?)]; auto. right. exists e. auto.
        -- intros (_ & Hp & Hn).
           assert (Hp' : p = true \/ exists e, In e b /\ m_is_positive (snd e) = true).
           { destruct Hp as [|(e & [He|He] & H)]; auto; [subst; simpl in *; congruence|right; eauto]. }
           assert (Hn' : n = true \/ exists e, In e b /\ m_is_negative (snd e) = true).
           { destruct Hn as [|(e & [He|He] & H)]; auto; [subst; simpl in *; congruence|right; eauto]. }
           split; auto.
           destruct Hp' as [->|(e & He & _)]; [|destruct b; [destruct He|discriminate]].
           destruct Hn' as [->|(e & He & _)]; [discriminate Epn|destruct b; [destruct He|discriminate]].
Qed.
Lemma can_be_zero_iff b : wf_bal b -> nz_bal b ->
  (can_be_zero b = true <->
   (forall c, bal_amt b c = 0) \/ (exists c, 0 < bal_amt b c) /\ (exists c, bal_amt b c < 0)).
Proof.
  intros Hw Hz. unfold can_be_zero. destruct (bal_is_zero b) eqn:E.
  - rewrite bal_is_zero_iff in E by auto. tauto.
  - rewrite scan_spec. assert (E' : ~ forall c, bal_amt b c = 0).
    { rewrite <- bal_is_zero_iff by auto. congruence. }
    split.
    + intros (_ & [Hp|(e & He & Hp)] & [Hn|(e' & He' & Hn)]); try discriminate. right.
      destruct (nz_entry_shape _ _ Hw Hz He) as (c & a & ->).
      destruct (nz_entry_shape _ _ Hw Hz He') as (c' & a' & ->). simpl in *.
      apply nz_entry_iff in He, He'; auto. destruct He as [He _], He' as [He' _].
      split; [exists c; rewrite He; destruct (qc_pos_spec a); auto; discriminate|].
      exists c'. rewrite He'. destruct (qc_neg_spec a'); auto; discriminate.
    + intros [H|[(c & Hc) (c' & Hc')]]; [contradiction|].
      assert (H1 : In (Some c, M (bal_amt b c) c) b).
      { apply nz_entry_iff; auto. split; auto. intros E0. rewrite E0 in Hc. exact (Qclt_not_le _ _ Hc (Qcle_refl _)). }
      assert (H2 : In (Some c', M (bal_amt b c') c') b).
      { apply nz_entry_iff; auto. split; auto. intros E0. rewrite E0 in Hc'. exact (Qclt_not_le _ _ Hc' (Qcle_refl _)). }
      split; [destruct b; [destruct H1|discriminate]|]. split; right.
      * eexists. split; [exact H1|]. simpl. destruct (qc_pos_spec (bal_amt b c)); auto; contradiction.
      * eexists. split; [exact H2|]. simpl. destruct (qc_neg_spec (bal_amt b c')); auto; contradiction.
Qed.

Lemma built_shape b : built b -> nz_bal b \/ exists m, b = bal_of m.
Proof.
  induction 1 as [| |a b _ _ _ _|a b _ _ _ _|a _ IH|a b _ IH Hp].
  - left. constructor.
  - right. eauto.
  - left. apply nz_add.
  - left. apply nz_add.
  - destruct IH as [Hz|(m & ->)].
    + left. unfold nz_bal, bal_neg in *. rewrite Forall_map. eapply Forall_impl; [|exact Hz].
      intros [k [|q c]]; simpl; auto. intros E. destruct (qc_eqb_spec q 0), (qc_eqb_spec (- q) 0); auto.
      exfalso. apply n. rewrite <- (Qcopp_involutive q), e. reflexivity.
    + right. exists (m_neg m). destruct m; reflexivity.
  - destruct IH as [Hz|(m & ->)].
    + left. unfold nz_bal. rewrite <- Hp. auto.
    + right. exists m. destruct m; simpl in *; apply Permutation_length_1_inv in Hp; auto.
Qed.
Lemma built_can_be_zero b : built b ->
  (can_be_zero b = true <->
   (forall c, bal_amt b c = 0) \/ (exists c, 0 < bal_amt b c) /\ (exists c, bal_amt b c < 0)).
Proof.
  intros Hb. destruct (built_shape _ Hb) as [Hz|(m & ->)].
  - apply can_be_zero_iff; auto. apply built_wf; auto.
  - destruct m as [|a c].
    + split; [|reflexivity]. intros _. left. intros. reflexivity.
    + unfold can_be_zero. rewrite <- (bal_is_zero_iff _ (wf_of _)).
      destruct (bal_is_zero (bal_of (M a c))) eqn:E; [tauto|]. split.
      * simpl. destruct (qc_pos_spec a), (qc_neg_spec a); simpl; try discriminate. intros _. exfalso. qlra.
      * intros [H|[(c1 & H1) (c2 & H2)]]; [discriminate|]. rewrite bal_amt_of in H1, H2. simpl in H1, H2.
        exfalso. destruct (str_eqb c c1), (str_eqb c c2); qlra.
Qed.

(** ** Collapsing to one amount *)
Lemma to_money_spec b : wf_bal b ->
  (exists m, to_money b = Ok m /\ (forall c, money_amt m c = bal_amt b c)) \/
  (to_money b = Err (ELedger TransactionIsNotBalanced) /\
   exists c c', c <> c' /\ bal_amt b c <> 0 /\ bal_amt b c' <> 0).
Proof.
  intros Hw. set (f := filter (fun e => negb (m_is_zero (snd e))) b).
  assert (Hm : map snd f = filter (fun m => negb (m_is_zero m)) (map snd b)).
  { unfold f. clear. induction b as [|[k m] b IH]; simpl; auto. destruct (m_is_zero m); simpl; auto. f_equal. auto. }
  assert (Hf : wf_bal f) by (apply wf_filter; auto).
  assert (Zf : nz_bal f).
  { apply Forall_forall. intros e He. apply filter_In in He. destruct He as [_ He]. destruct (m_is_zero (snd e)); auto; discriminate. }
  assert (Ha : forall c, bal_amt f c = bal_amt b c) by (intros; apply bal_amt_filter_nz).
  unfold to_money. rewrite <- Hm. clearbody f. destruct f as [|e1 [|e2 r]]; simpl.
  - left. exists MZero. split; auto.
  - left. exists (snd e1). split; auto. intros c. rewrite <- Ha. unfold bal_amt. simpl. ring.
  - right. split; auto.
    destruct (nz_entry_shape _ e1 Hf Zf) as (c1 & a1 & E1); [left; auto|].
    destruct (nz_entry_shape _ e2 Hf Zf) as (c2 & a2 & E2); [right; left; auto|]. subst.
    assert (H1 : In (Some c1, M a1 c1) ((Some c1, M a1 c1) :: (Some c2, M a2 c2) :: r)) by (left; auto).
    assert (H2 : In (Some c2, M a2 c2) ((Some c1, M a1 c1) :: (Some c2, M a2 c2) :: r)) by (right; left; auto).
    apply nz_entry_iff in H1; auto. apply nz_entry_iff in H2; auto. rewrite Ha in H1, H2.
    exists c1, c2. split; [|split].
    + intros <-. destruct Hf as [Hn _]. simpl in Hn. inv Hn. apply H3. left. auto.
    + destruct H1. congruence.
    + destruct H2. congruence.
Qed.

(** ** Comparison of balances *)
Lemma bal_eqb_of a c b : wf_bal b -> (bal_eqb (bal_of (M a c)) b = true <-> bal_amt b c = a).
Proof.
  intros Hw. simpl. unfold bal_eqb. cbn [forallb fst snd]. rewrite andb_true_r. rewrite bal_amt_hget by auto.
  destruct (hget bkey_eqb (Some c) b) as [m|] eqn:E.
  - pose proof (wf_hget _ _ _ Hw E) as K. destruct m; simpl in *; inv K.
    rewrite str_eqb_refl, andb_true_r. destruct (qc_eqb_spec a0 a); split; congruence.
  - simpl. destruct (qc_eqb_spec a 0); split; intros; congruence.
Qed.
Lemma bal_eqb_zero b : wf_bal b -> bal_eqb (bal_of MZero) b = true.
Proof.
  intros Hw. unfold bal_eqb. simpl. destruct (hget bkey_eqb None b) as [m|] eqn:E; auto.
  pose proof (wf_hget _ _ _ Hw E) as K. destruct m; simpl in *; auto; discriminate.
Qed.
Lemma money_eqb_refl m : money_eqb m m = true.
Proof. destruct m; simpl; auto. rewrite str_eqb_refl. destruct (qc_eqb_spec a a); auto. Qed.
Lemma bal_eqb_refl b : wf_bal b -> bal_eqb b b = true.
Proof.
  intros Hw. unfold bal_eqb. apply forallb_forall. intros [k m] He. simpl.
  rewrite (In_hget _ bkey_eqb_spec _ _ _ (proj1 Hw) He). apply money_eqb_refl.
Qed.
Lemma bal_eqb_iff b1 b2 : wf_bal b1 -> wf_bal b2 ->
  (bal_eqb b1 b2 = true <->
   forall c, In (Some c) (hkeys b1) -> bal_amt b1 c = bal_amt b2 c).
Proof.
  intros H1 H2. unfold bal_eqb. rewrite forallb_forall. split.
  - intros H c Hc. apply (hget_Some_key _ bkey_eqb_spec) in Hc. destruct Hc as (m & Hm).
    rewrite (bal_amt_hget b1), (bal_amt_hget b2) by auto. rewrite Hm.
    pose proof (wf_hget _ _ _ H1 Hm) as K. apply (hget_In _ bkey_eqb_spec) in Hm. apply H in Hm.
    simpl in Hm. destruct (hget bkey_eqb (Some c) b2) as [m2|] eqn:E.
    + pose proof (wf_hget _ _ _ H2 E) as K2. destruct m, m2; simpl in *; try discriminate.
      destruct (qc_eqb_spec a0 a); simpl in *; congruence.
    + destruct m; simpl in *; auto. destruct (qc_eqb_spec a 0); congruence.
  - intros H [k m] He. simpl.
    assert (K : k = m_commodity m).
    { destruct H1 as [_ Hf]. rewrite Forall_forall in Hf. apply Hf in He. exact He. }
    destruct m as [|a c]; simpl in K; subst k.
    + destruct (hget bkey_eqb None b2) as [m2|] eqn:E; auto.
      pose proof (wf_hget _ _ _ H2 E) as K2. destruct m2; simpl in *; auto; discriminate.
    + assert (Hi : In (Some c) (hkeys b1)).
      { unfold hkeys. change (Some c) with (fst (Some c, M a c)). apply in_map. auto. }
      apply H in Hi. rewrite (bal_amt_hget b1), (bal_amt_hget b2) in Hi by auto.
      rewrite (In_hget _ bkey_eqb_spec _ _ _ (proj1 H1) He) in Hi. simpl in Hi.
      destruct (hget bkey_eqb (Some c) b2) as [m2|] eqn:E.
      * pose proof (wf_hget _ _ _ H2 E) as K2. destruct m2; simpl in *; inv K2.
        rewrite str_eqb_refl. destruct (qc_eqb_spec a0 a0); auto.
      * simpl. destruct (qc_eqb_spec a 0); auto.
Qed.

(** ** Money *)
Lemma qc_cmp_spec a b : CompareSpec (a = b) (a < b) (b < a) (qc_cmp a b).
Proof.
  unfold qc_cmp. destruct (a ?= b) eqn:E; constructor.
  - apply Qceq_alt; auto.
  - apply Qclt_alt; auto.
  - apply Qcgt_alt; auto.
Qed.
