(** Facts about the base vocabulary: strings, association lists, sorting, results, rationals. *)
From Verif Require Import Base Money.
From Coq Require Import Lia Lqa Sorted ZifyBool ZifyNat ZifyN.
Open Scope nat_scope.

(** ** Results *)
Lemma bind_ok {A B} (m : res A) (f : A -> res B) b :
  bind m f = Ok b -> exists a, m = Ok a /\ f a = Ok b.
Proof. destruct m; simpl; intros H; try discriminate. eauto. Qed.

Ltac inv H := inversion H; subst; clear H.
Ltac bind_inv H :=
  let a := fresh "a" in let H1 := fresh "Hb" in
  apply bind_ok in H; destruct H as (a & H1 & H).

Lemma foldM_app {A S} (f : S -> A -> res S) l1 l2 s :
  foldM f s (l1 ++ l2) = (s' <- foldM f s l1 ;; foldM f s' l2).
Proof.
  revert s. induction l1 as [|x l1 IH]; intros s; simpl; [reflexivity|].
  destruct (f s x); simpl; auto.
Qed.

Lemma foldM_ind {A S} (f : S -> A -> res S) (P : list A -> S -> Prop) s0 :
  P [] s0 ->
  (forall pre x s s', P pre s -> f s x = Ok s' -> P (pre ++ [x]) s') ->
  forall l s, foldM f s0 l = Ok s -> P l s.
Proof.
  intros H0 Hs l. rewrite <- (rev_involutive l). induction (rev l) as [|x r IH]; simpl; intros s H.
  - inv H. exact H0.
  - rewrite foldM_app in H. bind_inv H. simpl in H. bind_inv H. inv H. eapply Hs; eauto.
Qed.

Lemma foldM_total {A S} (f : S -> A -> res S) (I : S -> Prop) l s :
  I s -> (forall s x, In x l -> I s -> exists s', f s x = Ok s' /\ I s') ->
  exists s', foldM f s l = Ok s' /\ I s'.
Proof.
  revert s. induction l as [|x l IH]; intros s Hs Hf; simpl.
  - eauto.
  - destruct (Hf s x (or_introl eq_refl) Hs) as (s1 & -> & H1). simpl.
    apply IH; auto. intros; apply Hf; auto. right; auto.
Qed.

Lemma mapM_ok_Forall2 {A B} (f : A -> res B) l ys :
  mapM f l = Ok ys -> Forall2 (fun x y => f x = Ok y) l ys.
Proof.
  revert ys. induction l as [|x l IH]; simpl; intros ys H.
  - inv H. constructor.
  - bind_inv H. bind_inv H. inv H. constructor; auto.
Qed.

Lemma mapM_total {A B} (f : A -> res B) l :
  (forall x, In x l -> exists y, f x = Ok y) -> exists ys, mapM f l = Ok ys.
Proof.
  induction l as [|x l IH]; simpl; intros H; [eauto|].
  destruct (H x (or_introl eq_refl)) as (y & ->).
  destruct IH as (ys & ->); [intros; apply H; auto|]. simpl. eauto.
Qed.

(** ** Strings *)
Lemma str_eqb_eq a b : str_eqb a b = true <-> a = b.
Proof.
  revert b. induction a as [|x a IH]; intros [|y b]; simpl; split; intros H; try discriminate; auto.
  - apply andb_true_iff in H. destruct H as [H1 H2]. apply N.eqb_eq in H1. apply IH in H2. congruence.
  - inv H. rewrite N.eqb_refl. simpl. apply IH. reflexivity.
Qed.
Lemma str_eqb_refl a : str_eqb a a = true.
Proof. apply str_eqb_eq. reflexivity. Qed.
Lemma str_eqb_neq a b : str_eqb a b = false <-> a <> b.
Proof.
  split; intros H.
  - intros E. subst. rewrite str_eqb_refl in H. discriminate.
  - destruct (str_eqb a b) eqn:E; auto. apply str_eqb_eq in E. contradiction.
Qed.
Lemma str_eqb_spec a b : reflect (a = b) (str_eqb a b).
Proof. destruct (str_eqb a b) eqn:E; constructor; [apply str_eqb_eq|apply str_eqb_neq]; auto. Qed.
Lemma str_eqb_sym a b : str_eqb a b = str_eqb b a.
Proof. destruct (str_eqb_spec a b), (str_eqb_spec b a); congruence. Qed.
Lemma str_eq_dec (a b : str) : {a = b} + {a <> b}.
Proof. destruct (str_eqb_spec a b); auto. Qed.

Lemma str_cmp_refl a : str_cmp a a = Eq.
Proof. induction a; simpl; auto. rewrite N.compare_refl. auto. Qed.
Lemma str_cmp_eq a b : str_cmp a b = Eq <-> a = b.
Proof.
  split; [|intros ->; apply str_cmp_refl].
  revert b. induction a as [|x a IH]; intros [|y b]; simpl; try discriminate; auto.
  destruct (N.compare_spec x y); try discriminate. intros. f_equal; auto.
Qed.
Lemma str_cmp_antisym a b : str_cmp b a = CompOpp (str_cmp a b).
Proof.
  revert b. induction a as [|x a IH]; intros [|y b]; simpl; auto.
  rewrite (N.compare_antisym x y). destruct (x ?= y)%N; simpl; auto.
Qed.
Lemma str_cmp_lt_trans a b c : str_cmp a b = Lt -> str_cmp b c = Lt -> str_cmp a c = Lt.
Proof.
  revert b c. induction a as [|x a IH]; intros [|y b] [|z c]; simpl; try discriminate; auto.
  destruct (N.compare_spec x y), (N.compare_spec y z); try discriminate; subst; intros; auto.
  - rewrite N.compare_refl. eauto.
  - replace (y ?= z)%N with Lt by (symmetry; apply N.compare_lt_iff; auto). auto.
  - replace (x ?= z)%N with Lt by (symmetry; apply N.compare_lt_iff; auto). auto.
  - replace (x ?= z)%N with Lt by (symmetry; apply N.compare_lt_iff; lia). auto.
Qed.
Lemma str_leb_refl a : str_leb a a = true.
Proof. unfold str_leb. rewrite str_cmp_refl. auto. Qed.
Lemma str_leb_total a b : str_leb a b = true \/ str_leb b a = true.
Proof. unfold str_leb. rewrite (str_cmp_antisym a b). destruct (str_cmp a b); auto. Qed.
Lemma str_leb_antisym a b : str_leb a b = true -> str_leb b a = true -> a = b.
Proof.
  unfold str_leb. rewrite (str_cmp_antisym a b). destruct (str_cmp a b) eqn:E; simpl; try discriminate.
  intros; apply str_cmp_eq; auto.
Qed.
Lemma str_leb_trans a b c : str_leb a b = true -> str_leb b c = true -> str_leb a c = true.
Proof.
  unfold str_leb. intros H1 H2.
  destruct (str_cmp a b) eqn:E1; try discriminate; destruct (str_cmp b c) eqn:E2; try discriminate.
  - apply str_cmp_eq in E1. subst. rewrite E2. auto.
  - apply str_cmp_eq in E1. subst. rewrite E2. auto.
  - apply str_cmp_eq in E2. subst. rewrite E1. auto.
  - rewrite (str_cmp_lt_trans _ _ _ E1 E2). auto.
Qed.

Lemma starts_with_app p s : starts_with p s = true <-> exists r, s = p ++ r.
Proof.
  revert s. induction p as [|x p IH]; intros s; simpl.
  - split; eauto.
  - destruct s as [|y s].
    + split; [discriminate|]. intros (r & H). discriminate.
    + rewrite andb_true_iff, N.eqb_eq, IH. split.
      * intros (-> & r & ->). eauto.
      * intros (r & H). inv H. eauto.
Qed.

(** ** Association lists *)
Section HMapFacts.
  Context {K V : Type} (eqb : K -> K -> bool).
  Hypothesis eqb_spec : forall a b, reflect (a = b) (eqb a b).

  Lemma eqb_refl' k : eqb k k = true.
  Proof. destruct (eqb_spec k k); auto. Qed.
  Lemma eqb_neq' k k' : k <> k' -> eqb k k' = false.
  Proof. destruct (eqb_spec k k'); auto; contradiction. Qed.

  Lemma hget_hset k k' (v : V) m :
    hget eqb k (hset eqb k' v m) = if eqb k k' then Some v else hget eqb k m.
  Proof.
    induction m as [|[k0 v0] m IH]; simpl.
    - reflexivity.
    - destruct (eqb_spec k' k0); simpl.
      + subst. destruct (eqb_spec k k0); auto.
      + rewrite IH. destruct (eqb_spec k k0); auto. subst.
        rewrite eqb_neq'; auto.
  Qed.
  Lemma hget_hset_same k (v : V) m : hget eqb k (hset eqb k v m) = Some v.
  Proof. rewrite hget_hset, eqb_refl'. auto. Qed.
  Lemma hget_hset_other k k' (v : V) m : k <> k' -> hget eqb k (hset eqb k' v m) = hget eqb k m.
  Proof. intros. rewrite hget_hset, eqb_neq'; auto. Qed.
  Lemma hget_In k (v : V) m : hget eqb k m = Some v -> In (k, v) m.
  Proof.
    induction m as [|[k0 v0] m IH]; simpl; [discriminate|].
    destruct (eqb_spec k k0); intros H; [inv H; auto|auto].
  Qed.
  Lemma hget_None k (m : list (K * V)) : hget eqb k m = None <-> ~ In k (hkeys m).
  Proof.
    induction m as [|[k0 v0] m IH]; simpl; [tauto|].
    destruct (eqb_spec k k0).
    - subst. split; [discriminate|]. intros H. exfalso. apply H. auto.
    - rewrite IH. split; intros H; [intros [E|E]; [congruence|tauto]|tauto].
  Qed.
  Lemma hget_Some_key k (m : list (K * V)) : In k (hkeys m) <-> exists v, hget eqb k m = Some v.
  Proof.
    destruct (hget eqb k m) eqn:E.
    - split; eauto. intros _. destruct (in_dec (fun a b => Bool.reflect_dec _ _ (eqb_spec a b)) k (hkeys m)); auto.
      apply hget_None in n. congruence.
    - apply hget_None in E. split; [tauto|]. intros (v & H). discriminate.
  Qed.
  Lemma In_hget k (v : V) m : NoDup (hkeys m) -> In (k, v) m -> hget eqb k m = Some v.
  Proof.
    induction m as [|[k0 v0] m IH]; simpl; intros Hn Hi; [tauto|]. inv Hn.
    destruct Hi as [E|Hi].
    - inv E. rewrite eqb_refl'. auto.
    - rewrite eqb_neq'; auto. intros ->. apply H1. unfold hkeys. change k0 with (fst (k0, v)).
      apply in_map. auto.
  Qed.
  Lemma hget_perm k (m m' : list (K * V)) :
    NoDup (hkeys m) -> Permutation m m' -> hget eqb k m = hget eqb k m'.
  Proof.
    intros Hn Hp. assert (Hn' : NoDup (hkeys m')).
    { eapply Permutation_NoDup; [apply Permutation_map; exact Hp|exact Hn]. }
    destruct (hget eqb k m) eqn:E.
    - symmetry. apply In_hget; auto. eapply Permutation_in; eauto. apply hget_In; auto.
    - symmetry. apply hget_None. apply hget_None in E. intros H. apply E.
      eapply Permutation_in; [|exact H]. apply Permutation_map. symmetry. auto.
  Qed.
  Lemma hkeys_hset k (v : V) m :
    hkeys (hset eqb k v m) = if existsb (eqb k) (hkeys m) then hkeys m else hkeys m ++ [k].
  Proof.
    induction m as [|[k0 v0] m IH]; simpl; auto.
    destruct (eqb_spec k k0); simpl; auto. rewrite IH. destruct (existsb (eqb k) (hkeys m)); auto.
  Qed.
  Lemma existsb_eqb_In k l : existsb (eqb k) l = true <-> In k l.
  Proof.
    rewrite existsb_exists. split.
    - intros (x & Hi & He). destruct (eqb_spec k x); [subst; auto|discriminate].
    - intros H. exists k. split; auto. apply eqb_refl'.
  Qed.
  Lemma NoDup_hset k (v : V) m : NoDup (hkeys m) -> NoDup (hkeys (hset eqb k v m)).
  Proof.
    intros H. rewrite hkeys_hset. destruct (existsb (eqb k) (hkeys m)) eqn:E; auto.
    apply Permutation_NoDup with (k :: hkeys m); [apply Permutation_cons_append|].
    constructor; auto. intros Hi. apply existsb_eqb_In in Hi. congruence.
  Qed.
  Lemma In_hkeys_hset k k' (v : V) m : In k (hkeys (hset eqb k' v m)) <-> k = k' \/ In k (hkeys m).
  Proof.
    rewrite hkeys_hset. destruct (existsb (eqb k') (hkeys m)) eqn:E.
    - apply existsb_eqb_In in E. split; auto. intros [->|]; auto.
    - rewrite in_app_iff. simpl. intuition.
  Qed.
  Lemma In_hset_inv e k (v : V) m : In e (hset eqb k v m) -> e = (k, v) \/ In e m.
  Proof.
    induction m as [|[k0 v0] m IH]; simpl; [intuition|].
    destruct (eqb_spec k k0); simpl; intros [H|H]; auto.
    - subst k0. left. auto.
    - apply IH in H. tauto.
  Qed.
  Lemma sadd_In k k' l : In k (sadd eqb k' l) <-> k = k' \/ In k l.
  Proof.
    unfold sadd. destruct (existsb (eqb k') l) eqn:E.
    - apply existsb_eqb_In in E. split; auto. intros [->|]; auto.
    - rewrite in_app_iff. simpl. intuition.
  Qed.
  Lemma sadd_NoDup k l : NoDup l -> NoDup (sadd eqb k l).
  Proof.
    unfold sadd. intros H. destruct (existsb (eqb k) l) eqn:E; auto.
    apply Permutation_NoDup with (k :: l); [apply Permutation_cons_append|].
    constructor; auto. intros Hi. apply existsb_eqb_In in Hi. congruence.
  Qed.
End HMapFacts.

Lemma opt_eqb_spec {A} (eqb : A -> A -> bool) :
  (forall a b, reflect (a = b) (eqb a b)) -> forall a b, reflect (a = b) (opt_eqb eqb a b).
Proof.
  intros H [a|] [b|]; simpl; try (constructor; congruence).
  destruct (H a b); constructor; congruence.
Qed.
Lemma bkey_eqb_spec a b : reflect (a = b) (bkey_eqb a b).
Proof. apply opt_eqb_spec. apply str_eqb_spec. Qed.

(** ** Sorting *)
Section SortFacts.
  Context {A : Type} (le : A -> A -> bool).
  Lemma insert_sorted_perm x l : Permutation (insert_sorted le x l) (x :: l).
  Proof.
    induction l as [|y l IH]; simpl; auto. destruct (le x y); auto.
    rewrite IH. apply perm_swap.
  Qed.
  Lemma stable_sort_perm l : Permutation (stable_sort le l) l.
  Proof.
    induction l as [|x l IH]; simpl; auto. fold (stable_sort le l).
    rewrite insert_sorted_perm. auto.
  Qed.
  Hypothesis le_total : forall a b, le a b = true \/ le b a = true.
  Hypothesis le_trans : forall a b c, le a b = true -> le b c = true -> le a c = true.
  Let R a b := le a b = true.
  Lemma insert_sorted_sorted x l : StronglySorted R l -> StronglySorted R (insert_sorted le x l).
  Proof.
    induction l as [|y l IH]; simpl; intros H.
    - repeat constructor.
    - inv H. destruct (le x y) eqn:E.
      + constructor; [constructor; auto|]. constructor; auto.
        eapply Forall_impl; [|exact H3]. intros z Hz. eapply le_trans; eauto.
      + constructor; auto. rewrite insert_sorted_perm. constructor; auto.
        destruct (le_total x y); auto. congruence.
  Qed.
  Lemma stable_sort_sorted l : StronglySorted R (stable_sort le l).
  Proof. induction l; simpl; [constructor|]. apply insert_sorted_sorted; auto. Qed.

  (** Stability: elements equivalent to [z] keep their relative order. *)
  Let eqv a b := le a b && le b a.
  Lemma insert_sorted_stable z x l : 
    filter (eqv z) (insert_sorted le x l) = filter (eqv z) (x :: l).
  Proof.
    induction l as [|y l IH]; simpl; auto.
    destruct (le x y) eqn:E; auto. simpl. rewrite IH. simpl.
    destruct (eqv z x) eqn:Ex; auto. destruct (eqv z y) eqn:Ey; auto. exfalso.
    apply andb_true_iff in Ex, Ey. destruct Ex, Ey.
    assert (le x y = true) by (eapply le_trans; eauto). congruence.
  Qed.
  Lemma stable_sort_stable z l : filter (eqv z) (stable_sort le l) = filter (eqv z) l.
  Proof.
    induction l as [|x l IH]; simpl; auto. rewrite insert_sorted_stable. simpl.
    fold (stable_sort le l). rewrite IH. auto.
  Qed.
End SortFacts.

Lemma sorted_perm_eq {A} (R : A -> A -> Prop) (l l' : list A) :
  (forall a b, In a l -> In b l -> R a b -> R b a -> a = b) ->
  StronglySorted R l -> StronglySorted R l' -> Permutation l l' -> l = l'.
Proof.
  revert l'. induction l as [|x l IH]; intros l' Ha Hs Hs' Hp.
  - apply Permutation_nil in Hp. auto.
  - destruct l' as [|y l']; [symmetry in Hp; apply Permutation_nil_cons in Hp; contradiction|].
    inv Hs. inv Hs'. assert (x = y).
    { assert (In y (x :: l)) by (eapply Permutation_in; [symmetry; eauto|left; auto]).
      assert (In x (y :: l')) by (eapply Permutation_in; [eauto|left; auto]).
      destruct H; auto. destruct H0; auto.
      apply Ha; [left; auto|right; auto| |].
      - eapply Forall_forall in H2; eauto.
      - eapply Forall_forall in H4; eauto. }
    subst y. f_equal. apply IH; auto.
    + intros; apply Ha; auto; right; auto.
    + eapply Permutation_cons_inv; eauto.
Qed.

(** ** Rationals *)
Lemma this_add a b : (this (a + b)%Qc == this a + this b)%Q.
Proof. apply Qred_correct. Qed.
Lemma this_mul a b : (this (a * b)%Qc == this a * this b)%Q.
Proof. apply Qred_correct. Qed.
Lemma this_opp a : (this (- a)%Qc == - this a)%Q.
Proof. apply Qred_correct. Qed.
Lemma this_sub a b : (this (a - b)%Qc == this a - this b)%Q.
Proof. unfold Qcminus. rewrite this_add, this_opp. reflexivity. Qed.
Lemma this_inv a : (this (/ a)%Qc == / this a)%Q.
Proof. apply Qred_correct. Qed.
Lemma qc_eq_iff a b : a = b <-> (this a == this b)%Q.
Proof. split; [intros ->; reflexivity|apply Qc_is_canon]. Qed.
Lemma qc_neq_iff a b : a <> b <-> ~ (this a == this b)%Q.
Proof. rewrite qc_eq_iff. tauto. Qed.

Lemma qc_eqb_spec a b : reflect (a = b) (qc_eqb a b).
Proof. unfold qc_eqb. destruct (Qc_eq_dec a b); constructor; auto. Qed.
Lemma qc_pos_spec a : reflect (0 < a)%Qc (qc_pos a).
Proof.
  unfold qc_pos, qc_cmp. destruct (0 ?= a)%Qc eqn:E; constructor.
  - apply Qceq_alt in E. subst. apply Qclt_not_eq in E || idtac. intros H. exact (Qclt_not_eq _ _ H eq_refl).
  - apply Qclt_alt in E. auto.
  - apply Qcgt_alt in E. intros H. exact (Qclt_not_le _ _ H (Qclt_le_weak _ _ E)).
Qed.
Lemma qc_neg_spec a : reflect (a < 0)%Qc (qc_neg a).
Proof.
  unfold qc_neg, qc_cmp. destruct (a ?= 0)%Qc eqn:E; constructor.
  - apply Qceq_alt in E. subst. intros H. exact (Qclt_not_eq _ _ H eq_refl).
  - apply Qclt_alt in E. auto.
  - apply Qcgt_alt in E. intros H. exact (Qclt_not_le _ _ H (Qclt_le_weak _ _ E)).
Qed.

(** Linear arithmetic over [Qc] by transport to [Q]. *)
Ltac qc_to_q :=
  unfold Qclt, Qcle in *;
  repeat match goal with
         | H : @eq Qc _ _ |- _ => rewrite qc_eq_iff in H
         | H : ~ @eq Qc _ _ |- _ => rewrite qc_neq_iff in H
         | |- @eq Qc _ _ => apply qc_eq_iff
         | |- ~ @eq Qc _ _ => apply qc_neq_iff
         end;
  repeat match goal with
         | |- context [this (?a + ?b)%Qc] => rewrite (this_add a b)
         | |- context [this (?a * ?b)%Qc] => rewrite (this_mul a b)
         | |- context [this (?a - ?b)%Qc] => rewrite (this_sub a b)
         | |- context [this (- ?a)%Qc] => rewrite (this_opp a)
         | H : context [this (?a + ?b)%Qc] |- _ => rewrite (this_add a b) in H
         | H : context [this (?a * ?b)%Qc] |- _ => rewrite (this_mul a b) in H
         | H : context [this (?a - ?b)%Qc] |- _ => rewrite (this_sub a b) in H
         | H : context [this (- ?a)%Qc] |- _ => rewrite (this_opp a) in H
         end;
  change (this 0%Qc) with 0%Q in *; change (this 1%Qc) with 1%Q in *.
Ltac qlra := qc_to_q; lra.

Lemma qc_trichotomy a b : {(a < b)%Qc} + {a = b} + {(b < a)%Qc}.
Proof.
  destruct (Qc_dec a b) as [[H|H]|H]; auto.
Qed.
