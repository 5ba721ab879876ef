(** The grammar interpreter: more fuel never changes an answer, matches are prefixes, and the fuel
    used by [gparse] is always enough. *)
From Coq Require Import Lia.
From Verif Require Import Base BaseFacts Peg Grammar.

Section PegFacts.
  Context {rule : Type} (g : rule -> bool * pexp rule).
  Notation peg := (peg g).

  Lemma peg_mono f : forall e s r, peg f e s = r -> r <> PFuel -> peg (S f) e s = r.
  Proof.
    induction f as [|f IH]; intros e s r H Hr; [simpl in H; congruence|].
    assert (IH' : forall e s, peg f e s <> PFuel -> peg (S f) e s = peg f e s).
    { intros. apply IH; auto. }
    remember (S f) as f1 eqn:Ef.
    rewrite Ef in H. cbn [Peg.peg] in H. cbn [Peg.peg].
    destruct e as [|p|c| |a b|a b|a|a|rl]; auto.
    - destruct (peg f a s) as [k1 r1| |] eqn:E1; try (subst; contradiction).
      + rewrite IH' by congruence. rewrite E1.
        destruct (peg f b r1) as [k2 r2| |] eqn:E2; try (subst; contradiction);
          rewrite IH' by congruence; rewrite E2; auto.
      + rewrite IH' by congruence. rewrite E1. auto.
    - destruct (peg f a s) as [k1 r1| |] eqn:E1; try (subst; contradiction).
      + rewrite IH' by congruence. rewrite E1. auto.
      + rewrite IH' by congruence. rewrite E1. apply IH; auto.
    - destruct (peg f a s) as [k1 r1| |] eqn:E1; try (subst; contradiction).
      + rewrite IH' by congruence. rewrite E1.
        destruct (peg f (EStar a) r1) as [k2 r2| |] eqn:E2; try (subst; contradiction);
          rewrite IH' by congruence; rewrite E2; auto.
      + rewrite IH' by congruence. rewrite E1. auto.
    - destruct (peg f a s) as [k1 r1| |] eqn:E1; try (subst; contradiction);
        rewrite IH' by congruence; rewrite E1; auto.
    - destruct (g rl) as [si body].
      destruct (peg f body s) as [k1 r1| |] eqn:E1; try (subst; contradiction);
        rewrite IH' by congruence; rewrite E1; auto.
  Qed.
  Lemma peg_mono_le f f' e s r : (f <= f')%nat -> peg f e s = r -> r <> PFuel -> peg f' e s = r.
  Proof. induction 1; auto. intros. apply peg_mono; auto. Qed.

  (** The answer, whatever the fuel. *)
  Definition pegs (e : pexp rule) (s : str) (r : pres rule) : Prop :=
    r <> PFuel /\ exists f, peg f e s = r.
  Lemma pegs_det e s r r' : pegs e s r -> pegs e s r' -> r = r'.
  Proof.
    intros [H (f & E)] [H' (f' & E')].
    apply (peg_mono_le _ (Nat.max f f')) in E; [|lia|auto].
    apply (peg_mono_le _ (Nat.max f f')) in E'; [|lia|auto]. congruence.
  Qed.

  Lemma strip_prefix_spec p s r : strip_prefix p s = Some r <-> s = p ++ r.
  Proof.
    revert s. induction p as [|x p IH]; intros s; simpl; [split; congruence|].
    destruct s as [|y s]; [split; discriminate|].
    destruct (N.eqb_spec x y); [subst; rewrite IH; split; congruence|split; congruence].
  Qed.
  Lemma strip_prefix_app p r : strip_prefix p (p ++ r) = Some r.
  Proof. apply strip_prefix_spec. auto. Qed.
  Lemma taken_app p r : taken (p ++ r) r = p.
  Proof.
    unfold taken. rewrite app_length. replace (length p + length r - length r)%nat with (length p) by lia.
    rewrite firstn_app, Nat.sub_diag, firstn_all. simpl. apply app_nil_r.
  Qed.

  (** Matches are prefixes. *)
  Lemma peg_prefix f : forall e s k r, peg f e s = POk k r -> exists p, s = p ++ r.
  Proof.
    induction f as [|f IH]; intros e s k r H; [discriminate|]. cbn [Peg.peg] in H.
    destruct e as [|p|c| |a b|a b|a|a|rl].
    - inv H. exists []. auto.
    - destruct (strip_prefix p s) eqn:E; inv H. apply strip_prefix_spec in E. eauto.
    - destruct s as [|x s]; [discriminate|]. destruct (c x); inv H. exists [x]. auto.
    - destruct s; inv H. exists []. auto.
    - destruct (peg f a s) as [k1 r1| |] eqn:E1; try discriminate.
      destruct (peg f b r1) as [k2 r2| |] eqn:E2; inv H.
      apply IH in E1. apply IH in E2. destruct E1 as (p1 & ->), E2 as (p2 & ->).
      exists (p1 ++ p2). rewrite app_assoc. auto.
    - destruct (peg f a s) as [k1 r1| |] eqn:E1; inv H; eauto.
    - destruct (peg f a s) as [k1 r1| |] eqn:E1; try discriminate.
      + destruct (peg f (EStar a) r1) as [k2 r2| |] eqn:E2; inv H.
        apply IH in E1. apply IH in E2. destruct E1 as (p1 & ->), E2 as (p2 & ->).
        exists (p1 ++ p2). rewrite app_assoc. auto.
      + inv H. exists []. auto.
    - destruct (peg f a s) as [k1 r1| |] eqn:E1; inv H. exists []. auto.
    - destruct (g rl) as [si body]. destruct (peg f body s) as [k1 r1| |] eqn:E1; try discriminate.
      destruct si; inv H; eauto.
  Qed.

  (** Big-step rules for computing with [pegs]. *)
  Ltac fuel2 f1 f2 := exists (S (Nat.max f1 f2)); cbn [Peg.peg].
  Lemma s_empty s : pegs EEmpty s (POk [] s).
  Proof. split; [discriminate|]. exists 1%nat. auto. Qed.
  Lemma s_str p r : pegs (EStr p) (p ++ r) (POk [] r).
  Proof. split; [discriminate|]. exists 1%nat. simpl. rewrite strip_prefix_app. auto. Qed.
  Lemma s_str_fail p s : strip_prefix p s = None -> pegs (EStr p) s PFail.
  Proof. intros H. split; [discriminate|]. exists 1%nat. simpl. rewrite H. auto. Qed.
  Lemma s_class c x r : c x = true -> pegs (EClass c) (x :: r) (POk [] r).
  Proof. intros H. split; [discriminate|]. exists 1%nat. simpl. rewrite H. auto. Qed.
  Lemma s_class_fail c s : match s with x :: _ => c x | [] => false end = false -> pegs (EClass c) s PFail.
  Proof.
    intros H. split; [discriminate|]. exists 1%nat. simpl. destruct s; auto. rewrite H. auto.
  Qed.
  Lemma s_eoi : pegs EEoi [] (POk [] []).
  Proof. split; [discriminate|]. exists 1%nat. auto. Qed.
  Lemma s_eoi_fail s : s <> [] -> pegs EEoi s PFail.
  Proof. intros H. split; [discriminate|]. exists 1%nat. destruct s; [congruence|]. auto. Qed.
  Lemma s_seq a b s k1 r1 r : pegs a s (POk k1 r1) -> pegs b r1 r ->
    pegs (ESeq a b) s (match r with POk k2 r2 => POk (k1 ++ k2) r2 | x => x end).
  Proof.
    intros [_ (f1 & E1)] [Hr (f2 & E2)]. split; [destruct r; congruence|].
    fuel2 f1 f2. rewrite (peg_mono_le f1 (Nat.max f1 f2) a s (POk k1 r1) (ltac:(lia)) ltac:(eassumption) ltac:(congruence)).
    rewrite (peg_mono_le f2 (Nat.max f1 f2) b r1 r (ltac:(lia)) ltac:(eassumption) ltac:(congruence)). destruct r; auto.
  Qed.
  Lemma s_seq_ok a b s k1 r1 k2 r2 : pegs a s (POk k1 r1) -> pegs b r1 (POk k2 r2) ->
    pegs (ESeq a b) s (POk (k1 ++ k2) r2).
  Proof. intros H1 H2. exact (s_seq _ _ _ _ _ _ H1 H2). Qed.
  Lemma s_seq_fail1 a b s : pegs a s PFail -> pegs (ESeq a b) s PFail.
  Proof.
    intros [_ (f1 & E1)]. split; [discriminate|]. exists (S f1). cbn [Peg.peg]. rewrite E1. auto.
  Qed.
  Lemma s_seq_fail2 a b s k1 r1 : pegs a s (POk k1 r1) -> pegs b r1 PFail -> pegs (ESeq a b) s PFail.
  Proof. intros H1 H2. exact (s_seq _ _ _ _ _ _ H1 H2). Qed.
  Lemma s_alt1 a b s k r : pegs a s (POk k r) -> pegs (EAlt a b) s (POk k r).
  Proof.
    intros [_ (f1 & E1)]. split; [discriminate|]. exists (S f1). cbn [Peg.peg]. rewrite E1. auto.
  Qed.
  Lemma s_alt2 a b s r : pegs a s PFail -> pegs b s r -> pegs (EAlt a b) s r.
  Proof.
    intros [_ (f1 & E1)] [Hr (f2 & E2)]. split; auto.
    fuel2 f1 f2. rewrite (peg_mono_le f1 (Nat.max f1 f2) a s PFail (ltac:(lia)) ltac:(eassumption) ltac:(congruence)).
    apply (peg_mono_le f2); auto. lia.
  Qed.
  Lemma s_star0 a s : pegs a s PFail -> pegs (EStar a) s (POk [] s).
  Proof.
    intros [_ (f1 & E1)]. split; [discriminate|]. exists (S f1). cbn [Peg.peg]. rewrite E1. auto.
  Qed.
  Lemma s_star1 a s k1 r1 k2 r2 : pegs a s (POk k1 r1) -> pegs (EStar a) r1 (POk k2 r2) ->
    pegs (EStar a) s (POk (k1 ++ k2) r2).
  Proof.
    intros [_ (f1 & E1)] [Hr (f2 & E2)]. split; [congruence|].
    fuel2 f1 f2. rewrite (peg_mono_le f1 (Nat.max f1 f2) a s (POk k1 r1) (ltac:(lia)) ltac:(eassumption) ltac:(congruence)).
    rewrite (peg_mono_le f2 (Nat.max f1 f2) (EStar a) r1 (POk k2 r2) (ltac:(lia)) ltac:(eassumption) ltac:(congruence)). auto.
  Qed.
  Lemma s_not a s : pegs a s PFail -> pegs (ENot a) s (POk [] s).
  Proof.
    intros [_ (f1 & E1)]. split; [discriminate|]. exists (S f1). cbn [Peg.peg]. rewrite E1. auto.
  Qed.
  Lemma s_not_fail a s k r : pegs a s (POk k r) -> pegs (ENot a) s PFail.
  Proof.
    intros [_ (f1 & E1)]. split; [discriminate|]. exists (S f1). cbn [Peg.peg]. rewrite E1. auto.
  Qed.
  Lemma s_rule rl body p r k : g rl = (false, body) -> pegs body (p ++ r) (POk k r) ->
    pegs (ERule rl) (p ++ r) (POk [Pair rl p k] r).
  Proof.
    intros Hg [_ (f1 & E1)]. split; [discriminate|]. exists (S f1). cbn [Peg.peg]. rewrite Hg, E1.
    rewrite taken_app. auto.
  Qed.
  Lemma s_rule_silent rl body s r : g rl = (true, body) -> pegs body s r -> pegs (ERule rl) s r.
  Proof.
    intros Hg [Hr (f1 & E1)]. split; auto. exists (S f1). cbn [Peg.peg]. rewrite Hg, E1.
    destruct r; auto.
  Qed.
  Lemma s_rule_fail rl si body s : g rl = (si, body) -> pegs body s PFail -> pegs (ERule rl) s PFail.
  Proof.
    intros Hg [_ (f1 & E1)]. split; [discriminate|]. exists (S f1). cbn [Peg.peg]. rewrite Hg, E1. auto.
  Qed.
  (** The greatest prefix of characters of a class. *)
  Lemma s_class_star c p r : forallb c p = true ->
    match r with x :: _ => c x | [] => false end = false ->
    pegs (EStar (EClass c)) (p ++ r) (POk [] r).
  Proof.
    induction p as [|x p IH]; simpl; intros H Hr.
    - apply s_star0. apply s_class_fail. auto.
    - apply andb_true_iff in H. destruct H as [Hx Hp].
      change (@nil (pair rule)) with (@nil (pair rule) ++ []).
      eapply s_star1; [apply s_class; auto|apply IH; auto].
  Qed.

  (** Inversion rules. *)
  Ltac pinv H := let f := fresh "f" in let E := fresh "E" in let N := fresh "N" in
    destruct H as [N (f & E)]; destruct f as [|f]; [simpl in E; congruence|]; cbn [Peg.peg] in E.
  Lemma i_str p s k r : pegs (EStr p) s (POk k r) -> k = [] /\ s = p ++ r.
  Proof.
    intros H. pinv H. destruct (strip_prefix p s) eqn:E1; inv E. apply strip_prefix_spec in E1. auto.
  Qed.
  Lemma i_class c s k r : pegs (EClass c) s (POk k r) -> k = [] /\ exists x, c x = true /\ s = x :: r.
  Proof. intros H. pinv H. destruct s; [discriminate|]. destruct (c n) eqn:E1; inv E. eauto. Qed.
  Lemma i_empty s k r : pegs EEmpty s (POk k r) -> k = [] /\ r = s.
  Proof. intros H. pinv H. inv E. auto. Qed.
  Lemma i_eoi s k r : pegs EEoi s (POk k r) -> k = [] /\ s = [] /\ r = [].
  Proof. intros H. pinv H. destruct s; inv E. auto. Qed.
  Lemma i_seq a b s k r : pegs (ESeq a b) s (POk k r) ->
    exists k1 r1 k2, pegs a s (POk k1 r1) /\ pegs b r1 (POk k2 r) /\ k = k1 ++ k2.
  Proof.
    intros H. pinv H. destruct (peg f a s) as [k1 r1| |] eqn:E1; try discriminate.
    destruct (peg f b r1) as [k2 r2| |] eqn:E2; inv E. exists k1, r1, k2.
    repeat split; try discriminate; eauto.
  Qed.
  Lemma i_alt a b s k r : pegs (EAlt a b) s (POk k r) ->
    pegs a s (POk k r) \/ (pegs a s PFail /\ pegs b s (POk k r)).
  Proof.
    intros H. pinv H. destruct (peg f a s) as [k1 r1| |] eqn:E1; try discriminate.
    - inv E. left. split; [discriminate|eauto].
    - right. split; (split; [discriminate|eauto]).
  Qed.
  Lemma i_star a s k r : pegs (EStar a) s (POk k r) ->
    (pegs a s PFail /\ k = [] /\ r = s) \/
    (exists k1 r1 k2, pegs a s (POk k1 r1) /\ pegs (EStar a) r1 (POk k2 r) /\ k = k1 ++ k2).
  Proof.
    intros H. pinv H. destruct (peg f a s) as [k1 r1| |] eqn:E1; try discriminate.
    - destruct (peg f (EStar a) r1) as [k2 r2| |] eqn:E2; inv E. right. exists k1, r1, k2.
      repeat split; try discriminate; eauto.
    - inv E. left. repeat split; try discriminate; eauto.
  Qed.
  Lemma i_not a s k r : pegs (ENot a) s (POk k r) -> pegs a s PFail /\ k = [] /\ r = s.
  Proof.
    intros H. pinv H. destruct (peg f a s) as [k1 r1| |] eqn:E1; inv E.
    repeat split; try discriminate; eauto.
  Qed.
  Lemma i_rule rl body s k r : g rl = (false, body) -> pegs (ERule rl) s (POk k r) ->
    exists p kids, s = p ++ r /\ pegs body s (POk kids r) /\ k = [Pair rl p kids].
  Proof.
    intros Hg H. pinv H. rewrite Hg in E.
    destruct (peg f body s) as [k1 r1| |] eqn:E1; inv E.
    destruct (peg_prefix _ _ _ _ _ E1) as (p & ->). rewrite taken_app. exists p, k1.
    repeat split; try discriminate; eauto.
  Qed.
  Lemma i_rule_silent rl body s r : g rl = (true, body) -> pegs (ERule rl) s r -> pegs body s r.
  Proof.
    intros Hg H. pinv H. rewrite Hg in E. split; auto. exists f.
    destruct (peg f body s) as [k1 r1| |] eqn:E1; auto.
  Qed.
  Lemma i_class_star c s : forall k r, pegs (EStar (EClass c)) s (POk k r) ->
    k = [] /\ exists p, s = p ++ r /\ forallb c p = true /\
    match r with x :: _ => c x | [] => false end = false.
  Proof.
    induction s as [|x s IH]; intros k r H; apply i_star in H.
    - destruct H as [(_ & -> & ->)|(k1 & r1 & k2 & H & _)]; [split; auto; exists []; auto|].
      apply i_class in H. destruct H as (_ & x & _ & H). discriminate.
    - destruct H as [(H & -> & ->)|(k1 & r1 & k2 & H & H2 & ->)].
      + split; auto. exists []. repeat split; auto. destruct (c x) eqn:E; auto.
        pose proof (pegs_det _ _ _ _ H (s_class c x s E)). discriminate.
      + apply i_class in H. destruct H as (-> & y & Hy & E). inv E. apply IH in H2.
        destruct H2 as (-> & p & -> & Hp & Hr). split; auto. exists (y :: p). simpl. rewrite Hy. auto.
  Qed.

  (** ** Enough fuel *)
  Variable nullr : rule -> bool.     (* may this rule match without consuming? *)
  Variable rank : rule -> nat.       (* call depth of this rule before anything is consumed *)
  Variable M : nat.
  Fixpoint nullable (e : pexp rule) : bool :=
    match e with
    | EEmpty | EEoi | EStar _ | ENot _ => true
    | EStr p => match p with [] => true | _ => false end
    | EClass _ => false
    | ESeq a b => nullable a && nullable b
    | EAlt a b => nullable a || nullable b
    | ERule r => nullr r
    end.
  Fixpoint dep (e : pexp rule) : nat :=
    match e with
    | EEmpty | EStr _ | EClass _ | EEoi => 1
    | ESeq a b => S (Nat.max (dep a) (if nullable a then dep b else dep b - M))
    | EAlt a b => S (Nat.max (dep a) (dep b))
    | EStar a => S (dep a)
    | ENot a => S (dep a)
    | ERule r => S (rank r)
    end.
  Fixpoint okexp (e : pexp rule) : bool :=     (* no repetition of something that may be empty *)
    match e with
    | EEmpty | EStr _ | EClass _ | EEoi | ERule _ => true
    | ESeq a b | EAlt a b => okexp a && okexp b
    | EStar a => okexp a && negb (nullable a)
    | ENot a => okexp a
    end.
  Hypothesis M_pos : (1 <= M)%nat.
  Hypothesis g_ok : forall r, okexp (snd (g r)) = true /\
    (nullable (snd (g r)) = true -> nullr r = true) /\ (dep (snd (g r)) <= rank r)%nat.

  Lemma peg_shorter f : forall e s k r, peg f e s = POk k r ->
    (length r <= length s)%nat /\ (nullable e = false -> (length r < length s)%nat).
  Proof.
    induction f as [|f IH]; intros e s k r H; [discriminate|].
    split. { apply peg_prefix in H. destruct H as (p & ->). rewrite app_length. lia. }
    cbn [Peg.peg] in H.
    destruct e as [|p|c| |a b|a b|a|a|rl]; simpl; try discriminate.
    - destruct p; [discriminate|]. intros _. destruct (strip_prefix (n :: p) s) eqn:E; inv H.
      apply strip_prefix_spec in E. subst. simpl. rewrite app_length. lia.
    - intros _. destruct s as [|x s]; [discriminate|]. destruct (c x); inv H. simpl. lia.
    - destruct (peg f a s) as [k1 r1| |] eqn:E1; try discriminate.
      destruct (peg f b r1) as [k2 r2| |] eqn:E2; inv H.
      apply IH in E1. apply IH in E2. intros Hn. apply andb_false_iff in Hn. destruct E1, E2.
      destruct Hn as [Hn|Hn]; [specialize (H0 Hn)|specialize (H2 Hn)]; lia.
    - intros Hn. apply orb_false_iff in Hn. destruct Hn as [Ha Hb].
      destruct (peg f a s) as [k1 r1| |] eqn:E1; inv H.
      + apply IH in E1. apply E1. auto.
      + apply IH in H1. apply H1. auto.
    - intros Hn. destruct (g_ok rl) as (_ & G2 & _). destruct (g rl) as [si body]. simpl in *.
      destruct (peg f body s) as [k1 r1| |] eqn:E1; try discriminate.
      apply IH in E1. destruct E1 as [_ E1]. assert (nullable body = false).
      { destruct (nullable body); auto. specialize (G2 eq_refl). congruence. }
      specialize (E1 H0). destruct si; inv H; auto.
  Qed.

  Lemma peg_enough f : forall e s, okexp e = true -> (M * length s + dep e <= f)%nat -> peg f e s <> PFuel.
  Proof.
    induction f as [|f IH]; intros e s Ho Hf.
    { destruct e; simpl in Hf; lia. }
    cbn [Peg.peg].
    destruct e as [|p|c| |a b|a b|a|a|rl]; simpl in Ho, Hf.
    - discriminate.
    - destruct (strip_prefix p s); discriminate.
    - destruct s; [discriminate|]. destruct (c n); discriminate.
    - destruct s; discriminate.
    - apply andb_true_iff in Ho. destruct Ho as [Ha Hb].
      assert (Na : peg f a s <> PFuel) by (apply IH; auto; lia).
      destruct (peg f a s) as [k1 r1| |] eqn:E1; try congruence.
      pose proof (peg_shorter _ _ _ _ _ E1) as [L1 L2].
      assert (Nb : peg f b r1 <> PFuel).
      { apply IH; auto. destruct (nullable a).
        - assert (M * length r1 <= M * length s)%nat by (apply Nat.mul_le_mono_l; auto). lia.
        - specialize (L2 eq_refl).
          assert (M * S (length r1) <= M * length s)%nat by (apply Nat.mul_le_mono_l; lia). lia. }
      destruct (peg f b r1); congruence.
    - apply andb_true_iff in Ho. destruct Ho as [Ha Hb].
      assert (Na : peg f a s <> PFuel) by (apply IH; auto; lia).
      destruct (peg f a s) as [k1 r1| |] eqn:E1; try congruence. apply IH; auto; lia.
    - apply andb_true_iff in Ho. destruct Ho as [Ha Hb]. apply negb_true_iff in Hb.
      assert (Na : peg f a s <> PFuel) by (apply IH; auto; lia).
      destruct (peg f a s) as [k1 r1| |] eqn:E1; try congruence.
      pose proof (peg_shorter _ _ _ _ _ E1) as [L1 L2]. specialize (L2 Hb).
      assert (Nb : peg f (EStar a) r1 <> PFuel).
      { apply IH; [simpl; rewrite Ha, Hb; auto|]. simpl.
        assert (M * S (length r1) <= M * length s)%nat by (apply Nat.mul_le_mono_l; lia). lia. }
      destruct (peg f (EStar a) r1); congruence.
    - assert (Na : peg f a s <> PFuel) by (apply IH; auto; lia).
      destruct (peg f a s) as [k1 r1| |] eqn:E1; try congruence.
    - destruct (g_ok rl) as (G1 & _ & G3). destruct (g rl) as [si body]. simpl in *.
      assert (Na : peg f body s <> PFuel) by (apply IH; auto; lia).
      destruct (peg f body s) as [k1 r1| |] eqn:E1; try congruence. destruct si; congruence.
  Qed.
End PegFacts.

(** ** The grammar of this program *)
Definition g_null (r : rule) : bool :=
  match r with Rpayee | Rdescription | Rend | REOI => true | _ => false end.
(** Call depth of each rule before anything is consumed (the fixed point of [dep]). *)
Definition g_rank (r : rule) : nat :=
  match r with
  | Rprice => 2 | Rcommodity => 2 | Rtransaction => 8 | Rcode => 2 | Rstatus => 2 | Rpayee => 11
  | Rdescription => 11 | Rcomment => 2 | Rdate => 6 | Rtime => 6 | Rdate_sep => 3 | Ryear => 4
  | Rmonth => 4 | Rday => 5 | Rhour => 4 | Rminute => 7 | Rsecond => 7 | Rvalue_expr => 2
  | Rexpr => 45 | Ror_expr => 44 | Rand_expr => 42 | Rcomparison_expr => 40
  | Radditive_expr => 38 | Rmultiplicative_expr => 36 | Rprimary => 34 | Rterm => 30
  | Rmoney => 26 | Rcurrency => 23 | Rregex => 2 | Rstring => 3 | Rreserved => 13
  | Runquoted => 21 | Rvariable => 28 | Rnumber => 5 | Rbigint => 2 | Rws => 1 | Rend => 4
  | REOI => 1 | Radd => 2 | Rmult => 2 | Rand => 2 | Ror => 2 | Runary => 3 | Rfunction => 5
  | Rcomparison => 7 | Req => 2 | Rne => 1 | Rgt => 1 | Rge => 1 | Rle => 1 | Rlt => 1
  end%nat.
Lemma grammar_ok r : okexp g_null (snd (grammar r)) = true /\
  (nullable g_null (snd (grammar r)) = true -> g_null r = true) /\
  (dep g_null g_rank 60 (snd (grammar r)) <= g_rank r)%nat.
Proof.
  destruct r; split; try reflexivity; (split; [try reflexivity; vm_compute; congruence|apply Nat.leb_le; reflexivity]).
Qed.
Lemma g_rank_bound r : (S (g_rank r) <= 60)%nat.
Proof. apply Nat.leb_le. destruct r; reflexivity. Qed.

(** [gparse] never runs out of fuel. *)
Lemma peg_fuel_enough r s : peg grammar (peg_fuel s) (R r) s <> PFuel.
Proof.
  apply (peg_enough grammar g_null g_rank 60); [lia|apply grammar_ok|reflexivity|].
  unfold R, peg_fuel. cbn [dep]. pose proof (g_rank_bound r). lia.
Qed.
Lemma gparse_fuel r s : gparse r s <> Panic OutOfFuel.
Proof.
  unfold gparse. pose proof (peg_fuel_enough r s).
  destruct (peg grammar (peg_fuel s) (R r) s); congruence.
Qed.
Lemma gparse_pegs_ok r s k rest : pegs grammar (R r) s (POk k rest) -> gparse r s = Ok k.
Proof.
  intros H. unfold gparse. pose proof (peg_fuel_enough r s) as E.
  assert (pegs grammar (R r) s (peg grammar (peg_fuel s) (R r) s)) by (split; eauto).
  rewrite (pegs_det _ _ _ _ _ H0 H). auto.
Qed.
Lemma gparse_pegs_fail r s : pegs grammar (R r) s PFail -> gparse r s = Panic PUnwrap.
Proof.
  intros H. unfold gparse. pose proof (peg_fuel_enough r s) as E.
  assert (pegs grammar (R r) s (peg grammar (peg_fuel s) (R r) s)) by (split; eauto).
  rewrite (pegs_det _ _ _ _ _ H0 H). auto.
Qed.
