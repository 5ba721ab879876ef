(** Lemmas about currency conversion. *)
From Coq Require Import Lia Sorting.Sorted.
From Verif Require Import Base BaseFacts Money Price SpecPrice.
Open Scope Z_scope.

Lemma gnode_eqb_spec a b : reflect (a = b) (gnode_eqb a b).
Proof.
  destruct a as [c d], b as [c' d']. unfold gnode_eqb. cbn. destruct (str_eqb_spec c c'); cbn.
  - subst. destruct (Z.eqb_spec d d'); constructor; congruence.
  - constructor. congruence.
Qed.
Lemma key_eqb_spec a b : reflect (a = b) (key_eqb a b).
Proof.
  destruct a as [c d], b as [c' d']. unfold key_eqb. cbn. destruct (str_eqb_spec c c'); cbn.
  - subst. destruct (str_eqb_spec d d'); constructor; congruence.
  - constructor. congruence.
Qed.

(** ** Dijkstra *)
Section Dijkstra.
  Variables (es : list edge) (ns : list gnode) (d0 : list (gnode * option Z)).
  Hypothesis ends_in : forall e, In e es -> In (e_from e) ns /\ In (e_to e) ns.
  Hypothesis nodup : NoDup ns.

  Lemma neighbours_iff v u e : In (u, e) (neighbours es v) <->
    In e es /\ ((e_from e = v /\ u = e_to e) \/ (e_from e <> v /\ e_to e = v /\ u = e_from e)).
  Proof.
    clear ends_in. induction es as [|x l IH]; cbn; [tauto|].
    destruct (gnode_eqb_spec (e_from x) v) as [E|E]; [|destruct (gnode_eqb_spec (e_to x) v) as [E'|E']]; cbn; rewrite ?IH.
    - split.
      + intros [H|[H1 H2]]; [inv H; tauto|tauto].
      + intros [[<-|H1] H2]; [left|tauto]. destruct H2 as [[_ ->]|[H2 _]]; congruence.
    - split.
      + intros [H|[H1 H2]]; [inv H; tauto|tauto].
      + intros [[<-|H1] H2]; [left|tauto]. destruct H2 as [[H2 _]|[_ [_ ->]]]; congruence.
    - split; [tauto|]. intros [[<-|H1] H2]; [|tauto]. destruct H2 as [[H2 _]|[_ [H2 _]]]; congruence.
  Qed.

  (** Walks from the start points: node, length, edges. *)
  Inductive reach : gnode -> Z -> list edge -> Prop :=
  | re_start u k : dist d0 u = Some k -> reach u k []
  | re_step v k path u e : reach v k path -> In (u, e) (neighbours es v) -> reach u (k + e_length e) (path ++ [e]).

  Definition dle (a b : option Z) : Prop := match b with None => True | Some y => exists x, a = Some x /\ x <= y end.
  Lemma dle_refl a : dle a a.
  Proof. destruct a; cbn; auto. exists z. split; auto. lia. Qed.
  Lemma dle_trans a b c : dle a b -> dle b c -> dle a c.
  Proof.
    unfold dle. destruct c as [z|]; auto. intros H (y & -> & Hy). destruct H as (x & -> & Hx). exists x. split; auto. lia.
  Qed.
  Lemma e_length_nonneg e : 0 <= e_length e.
  Proof. unfold e_length. lia. Qed.

  Definition hp (s : dstate) u := hget gnode_eqb u (ds_paths s).
  Lemma dist_hset u k d v : dist (hset gnode_eqb u (Some k) d) v = if gnode_eqb v u then Some k else dist d v.
  Proof. unfold dist. rewrite (hget_hset _ gnode_eqb_spec). destruct (gnode_eqb v u); auto. Qed.

  Definition changed (dv : Z) (path : list edge) (nbs : list (gnode * edge)) (s s' : dstate) (u : gnode) : Prop :=
    exists e, In (u, e) nbs /\ dist (ds_dist s') u = Some (dv + e_length e) /\ hp s' u = Some (path ++ [e]) /\
      forall k, dist (ds_dist s) u = Some k -> dv + e_length e < k.
  Lemma relax_one dv path s u0 e0 :
    let s' := relax dv path s (u0, e0) in
    (forall u, dle (dist (ds_dist s') u) (dist (ds_dist s) u)) /\
    dle (dist (ds_dist s') u0) (Some (dv + e_length e0)) /\
    (forall u, (dist (ds_dist s') u = dist (ds_dist s) u /\ hp s' u = hp s u) \/ changed dv path [(u0, e0)] s s' u).
  Proof.
    cbn. unfold relax. destruct (match dist (ds_dist s) u0 with None => true | Some d => dv + e_length e0 <? d end) eqn:E.
    - assert (L : forall k, dist (ds_dist s) u0 = Some k -> dv + e_length e0 < k).
      { intros k Hk. rewrite Hk in E. apply Z.ltb_lt in E. auto. }
      cbn. split; [|split].
      + intros u. rewrite dist_hset. destruct (gnode_eqb_spec u u0); [|apply dle_refl]. subst.
        destruct (dist (ds_dist s) u0) as [k|]; cbn; auto. eexists. split; [reflexivity|]. specialize (L _ eq_refl). lia.
      + rewrite dist_hset. rewrite (eqb_refl' _ gnode_eqb_spec). eexists. split; [reflexivity|lia].
      + intros u. rewrite dist_hset. unfold hp. cbn. rewrite (hget_hset _ gnode_eqb_spec).
        destruct (gnode_eqb_spec u u0); [|left; auto]. subst. right. exists e0. cbn. rewrite dist_hset, (eqb_refl' _ gnode_eqb_spec).
        split; auto. split; auto. unfold hp. cbn. rewrite (hget_hset_same _ gnode_eqb_spec). auto.
    - split; [|split].
      + intros; apply dle_refl.
      + destruct (dist (ds_dist s) u0) as [k|] eqn:Ek; [|discriminate]. cbn. exists k. split; auto. apply Z.ltb_ge in E. auto.
      + auto.
  Qed.
  Lemma relax_all dv path nbs : forall s, let s' := fold_left (relax dv path) nbs s in
    (forall u, dle (dist (ds_dist s') u) (dist (ds_dist s) u)) /\
    (forall u e, In (u, e) nbs -> dle (dist (ds_dist s') u) (Some (dv + e_length e))) /\
    (forall u, (dist (ds_dist s') u = dist (ds_dist s) u /\ hp s' u = hp s u) \/ changed dv path nbs s s' u).
  Proof.
    induction nbs as [|[u0 e0] nbs IH]; intros s; cbn [fold_left].
    - cbn. split; [|split]; auto.
      + intros; apply dle_refl.
      + intros u e [].
    - destruct (relax_one dv path s u0 e0) as (A1 & A2 & A3). destruct (IH (relax dv path s (u0, e0))) as (B1 & B2 & B3).
      cbn zeta in *. set (s1 := relax dv path s (u0, e0)) in *. set (s' := fold_left (relax dv path) nbs s1) in *.
      split; [|split].
      + intros u. eapply dle_trans; eauto.
      + intros u e [H|H]; [inv H; eapply dle_trans; eauto|auto].
      + intros u. destruct (B3 u) as [[E1 E2]|(e & Hi & D & P & L)].
        * destruct (A3 u) as [[E3 E4]|(e & Hi & D & P & L)]; [left; split; congruence|].
          right. destruct Hi as [Hi|[]]. inv Hi. exists e. rewrite E1, E2. cbn. auto.
        * right. exists e. cbn. split; auto. split; auto. split; auto. intros k Hk.
          specialize (A1 u). rewrite Hk in A1. destruct A1 as (x & Ex & Hx). specialize (L _ Ex). lia.
  Qed.

  Lemma NoDup_paths dv path nbs : forall s, NoDup (hkeys (ds_paths s)) -> NoDup (hkeys (ds_paths (fold_left (relax dv path) nbs s))).
  Proof.
    induction nbs as [|[u e] nbs IH]; intros s H; cbn [fold_left]; auto. apply IH. unfold relax.
    destruct (match dist (ds_dist s) u with None => true | Some d => dv + e_length e <? d end); cbn; auto.
    apply (NoDup_hset _ gnode_eqb_spec). auto.
  Qed.

  Record dinv (q : list gnode) (s : dstate) : Prop := {
    di_nd : NoDup (hkeys (ds_paths s));
    di_q : incl q ns;
    di_qnd : NoDup q;
    di_path : forall u, match hp s u with
                        | Some path => exists k, dist (ds_dist s) u = Some k /\ reach u k path /\ (forall k0, dist d0 u = Some k0 -> k < k0)
                        | None => dist (ds_dist s) u = dist d0 u
                        end;
    di_closed : forall v, In v ns -> ~ In v q -> exists k, dist (ds_dist s) v = Some k /\
                  forall u e, In (u, e) (neighbours es v) -> dle (dist (ds_dist s) u) (Some (k + e_length e));
    di_start : forall u, dle (dist (ds_dist s) u) (dist d0 u);
    di_order : forall v u, In v ns -> ~ In v q -> In u q -> dle (dist (ds_dist s) v) (dist (ds_dist s) u);
  }.

  Lemma dist_cmp_dle d a b : (match dist_cmp (dist d b) (dist d a) with Gt => false | _ => true end) = true <-> dle (dist d b) (dist d a).
  Proof.
    unfold dist_cmp, dle. destruct (dist d b) as [x|], (dist d a) as [y|]; cbn.
    - destruct (Z.compare_spec x y); split; intros H0; try discriminate; auto; try (exists x; split; auto; lia).
      destruct H0 as (z & E & L). inv E. lia.
    - tauto.
    - split; [discriminate|]. intros (z & E & _). discriminate.
    - tauto.
  Qed.
  Lemma take_last d q v q' : rev (sort_queue d q) = v :: q' ->
    Permutation (v :: rev q') q /\ forall u, In u q -> dle (dist d v) (dist d u).
  Proof.
    intros H. assert (E : sort_queue d q = rev q' ++ [v]) by (rewrite <- (rev_involutive (sort_queue d q)), H; auto).
    assert (P : Permutation (rev q' ++ [v]) q) by (rewrite <- E; apply stable_sort_perm).
    split.
    - eapply Permutation_trans; [apply Permutation_cons_append|]. auto.
    - intros u Hu.
      assert (S : StronglySorted (fun a b => dle (dist d b) (dist d a)) (rev q' ++ [v])).
      { rewrite <- E. unfold sort_queue.
        pose proof (stable_sort_sorted (fun a b => match dist_cmp (dist d b) (dist d a) with Gt => false | _ => true end)) as SS.
        assert (X : forall (l : list gnode) (R R' : gnode -> gnode -> Prop), StronglySorted R l -> (forall a b, R a b -> R' a b) -> StronglySorted R' l).
        { intros l R R' Sl Hr. induction Sl as [|x l Sl IHl Hl]; constructor; auto. eapply Forall_impl; [|exact Hl]. auto. }
        eapply X; [apply SS|].
        - intros a b. rewrite !dist_cmp_dle. unfold dle. destruct (dist d a) as [x|], (dist d b) as [y|]; auto.
          destruct (Z.le_ge_cases x y); [right; exists x|left; exists y]; split; auto; lia.
        - intros a b c. rewrite !dist_cmp_dle. intros H1 H2. eapply dle_trans; eauto.
        - intros a b. rewrite dist_cmp_dle. auto. }
      assert (Hin : In u (rev q' ++ [v])) by (eapply Permutation_in; [symmetry; exact P|auto]).
      clear -S Hin. induction (rev q') as [|x l IH]; cbn in *.
      + destruct Hin as [<-|[]]. apply dle_refl.
      + inv S. destruct Hin as [<-|Hin]; auto. rewrite Forall_forall in H2. apply H2. apply in_app_iff. right. left. auto.
  Qed.

  Lemma dijkstra_step q s v q' dv : dinv q s -> rev (sort_queue (ds_dist s) q) = v :: q' -> dist (ds_dist s) v = Some dv ->
    dinv (rev q') (fold_left (relax dv (match hget gnode_eqb v (ds_paths s) with Some p => p | None => [] end)) (neighbours es v) s).
  Proof.
    intros [I1 I2 I3 I4 I5 I6 I7] T Dv. destruct (take_last _ _ _ _ T) as [P M].
    set (path := match hget gnode_eqb v (ds_paths s) with Some p => p | None => [] end).
    assert (RV : reach v dv path).
    { specialize (I4 v). unfold path. unfold hp in I4. destruct (hget gnode_eqb v (ds_paths s)).
      - destruct I4 as (k & E & R & _). congruence.
      - constructor. congruence. }
    assert (ND : NoDup (v :: rev q')) by (eapply Permutation_NoDup; [symmetry; exact P|auto]).
    assert (Hv : In v q) by (eapply Permutation_in; [exact P|left; auto]).
    assert (Hq : forall u, In u (rev q') -> In u q) by (intros u Hu; eapply Permutation_in; [exact P|right; auto]).
    assert (Hd : forall u, ~ In u (rev q') -> u = v \/ ~ In u q).
    { intros u Hu. destruct (gnode_eqb_spec u v); auto. right. intros X. apply Hu.
      eapply Permutation_in in X; [|symmetry; exact P]. destruct X; congruence. }
    destruct (relax_all dv path (neighbours es v) s) as (A1 & A2 & A3). cbn zeta in *.
    set (s' := fold_left (relax dv path) (neighbours es v) s) in *.
    (* nodes that are done, and v, do not change *)
    assert (Fix : forall u, In u ns -> ~ In u (rev q') -> dist (ds_dist s') u = dist (ds_dist s) u /\ dle (dist (ds_dist s) u) (Some dv)).
    { intros u Hn Hu.
      assert (L : dle (dist (ds_dist s) u) (Some dv)).
      { destruct (Hd u Hu) as [->|H]; [rewrite Dv; apply dle_refl|]. rewrite <- Dv. apply I7; auto. }
      split; auto. destruct (A3 u) as [[E _]|(e & Hi & D & Pa & Lt)]; auto.
      destruct L as (x & Ex & Hx). specialize (Lt _ Ex). pose proof (e_length_nonneg e). lia. }
    constructor.
    - apply NoDup_paths. auto.
    - intros u Hu. auto.
    - inv ND. auto.
    - intros u. specialize (I4 u). destruct (A3 u) as [[E1 E2]|(e & Hi & D & Pa & Lt)].
      + rewrite E1, E2. auto.
      + rewrite Pa. exists (dv + e_length e). split; auto. split; [econstructor; eauto|]. intros k0 Ek0.
        destruct (hp s u) as [pa|].
        * destruct I4 as (k & Ek & _ & Lk). specialize (Lt _ Ek). specialize (Lk _ Ek0). lia.
        * apply Lt. congruence.
    - intros u Hn Hu. destruct (Fix u Hn Hu) as [E L]. destruct (Hd u Hu) as [->|H].
      + exists dv. split; [congruence|]. intros x e Hx. auto.
      + destruct (I5 u Hn H) as (k & Ek & C). exists k. split; [congruence|]. intros x e Hx. eapply dle_trans; eauto.
    - intros u. eapply dle_trans; eauto.
    - intros u x Hn Hu Hx. destruct (Fix u Hn Hu) as [E L]. rewrite E. eapply dle_trans; [exact L|].
      destruct (A3 x) as [[E1 _]|(e & Hi & D & Pa & Lt)].
      + rewrite E1. rewrite <- Dv. apply M. auto.
      + rewrite D. cbn. exists dv. split; auto. pose proof (e_length_nonneg e). lia.
  Qed.
  Lemma dijkstra_done fuel : forall q s, (length q <= fuel)%nat -> dinv q s ->
    exists q', dinv q' (dijkstra fuel es q s) /\ forall u, In u q' -> dist (ds_dist (dijkstra fuel es q s)) u = None.
  Proof.
    induction fuel as [|fuel IH]; intros q s L I; cbn [dijkstra].
    - destruct q; [|cbn in L; lia]. exists []. split; auto. intros u [].
    - destruct (rev (sort_queue (ds_dist s) q)) as [|v q'] eqn:T.
      + exists q. split; auto. intros u Hu.
        assert (E : sort_queue (ds_dist s) q = []) by (rewrite <- (rev_involutive (sort_queue (ds_dist s) q)), T; auto).
        pose proof (stable_sort_perm (fun a b => match dist_cmp (dist (ds_dist s) b) (dist (ds_dist s) a) with Gt => false | _ => true end) q) as P.
        unfold sort_queue in E. rewrite E in P. apply Permutation_nil in P. subst. destruct Hu.
      + destruct (dist (ds_dist s) v) as [dv|] eqn:Dv.
        * apply IH; [|eapply dijkstra_step; eauto]. destruct (take_last _ _ _ _ T) as [P _].
          apply Permutation_length in P. cbn in P. lia.
        * exists q. split; auto. intros u Hu. destruct (take_last _ _ _ _ T) as [_ M]. specialize (M u Hu).
          rewrite Dv in M. destruct (dist (ds_dist s) u); auto. destruct M as (x & E & _). discriminate.
  Qed.
  (** More fuel changes nothing. *)
  Lemma dijkstra_more fuel : forall q s fuel', (length q <= fuel)%nat -> (fuel <= fuel')%nat -> dijkstra fuel' es q s = dijkstra fuel es q s.
  Proof.
    assert (Z : forall f q s, (length q <= 0)%nat -> dijkstra f es q s = s).
    { intros f q s L. destruct q; [|cbn in L; lia]. destruct f; auto. }
    induction fuel as [|fuel IH]; intros q s fuel' L Lf; [rewrite Z; auto|].
    destruct fuel' as [|fuel']; [lia|]. cbn [dijkstra].
    destruct (rev (sort_queue (ds_dist s) q)) as [|v q'] eqn:T; auto. destruct (dist (ds_dist s) v); auto.
    apply IH; [|lia]. destruct (take_last _ _ _ _ T) as [P _]. apply Permutation_length in P. cbn in P. lia.
  Qed.
  Lemma dinv_start : dinv ns {| ds_dist := d0; ds_paths := [] |}.
  Proof.
    constructor; cbn; auto.
    - constructor.
    - apply incl_refl.
    - tauto.
    - intros. apply dle_refl.
    - tauto.
  Qed.
  (** The final state: recorded paths are walks, and distances can not be improved by any edge. *)
  Lemma dijkstra_final : let s := dijkstra (length ns) es ns {| ds_dist := d0; ds_paths := [] |} in
    NoDup (hkeys (ds_paths s)) /\
    (forall u, match hp s u with
               | Some path => exists k, dist (ds_dist s) u = Some k /\ reach u k path /\ (forall k0, dist d0 u = Some k0 -> k < k0)
               | None => dist (ds_dist s) u = dist d0 u
               end) /\
    (forall u, dle (dist (ds_dist s) u) (dist d0 u)) /\
    (forall v k, In v ns -> dist (ds_dist s) v = Some k ->
       forall u e, In (u, e) (neighbours es v) -> dle (dist (ds_dist s) u) (Some (k + e_length e))).
  Proof.
    destruct (dijkstra_done (length ns) ns _ (le_n _) dinv_start) as (q' & [I1 I2 I3 I4 I5 I6 I7] & N). cbn zeta.
    split; auto. split; auto. split; auto. intros v k Hn Hv u e Hu.
    destruct (in_dec (fun a b => Bool.reflect_dec _ _ (gnode_eqb_spec a b)) v q') as [Hq|Hq].
    - apply N in Hq. congruence.
    - destruct (I5 v Hn Hq) as (k' & E & C). assert (k' = k) by congruence. subst. auto.
  Qed.
End Dijkstra.

(** ** The prices used *)
Lemma str_ltb_iff a b : str_ltb a b = true <-> str_cmp a b = Lt.
Proof. unfold str_ltb. destruct (str_cmp a b); split; congruence. Qed.
Lemma pair_key_iff p q : pair_key p = pair_key q <-> same_pair p q.
Proof.
  unfold pair_key, same_pair. destruct (str_ltb (pr_cur p) (pr_com p)) eqn:E1, (str_ltb (pr_cur q) (pr_com q)) eqn:E2.
  - split; [intros H; inv H; auto|]. intros [[-> ->]|[H1 H2]]; auto.
    rewrite H1, H2 in E1. apply str_ltb_iff in E1, E2. rewrite str_cmp_antisym, E1 in E2. discriminate.
  - split; [intros H; inv H; auto|]. intros [[H1 H2]|[-> ->]]; auto. rewrite H1, H2 in E1. congruence.
  - split; [intros H; inv H; auto|]. intros [[H1 H2]|[-> ->]]; auto. rewrite H1, H2 in E1. congruence.
  - split; [intros H; inv H; auto|]. intros [[-> ->]|[H1 H2]]; auto.
    rewrite H1, H2 in *. destruct (str_cmp (pr_com q) (pr_cur q)) eqn:E3.
    + apply str_cmp_eq in E3. rewrite E3. auto.
    + apply str_ltb_iff in E3. congruence.
    + rewrite str_cmp_antisym in E3. destruct (str_cmp (pr_cur q) (pr_com q)) eqn:E4; cbn in E3; try discriminate.
      apply str_ltb_iff in E4. congruence.
Qed.
Lemma same_pair_refl p : same_pair p p.
Proof. left. auto. Qed.
Lemma same_pair_sym p q : same_pair p q -> same_pair q p.
Proof. rewrite <- !pair_key_iff. auto. Qed.

Lemma usable_snoc date ps x p : usable date (ps ++ [x]) p <->
  (usable date ps p /\ (same_pair x p -> pr_date x <= date -> pr_date x <= pr_date p)) \/
  (p = x /\ pr_date x <= date /\ forall q, In q ps -> same_pair q x -> pr_date q <= date -> pr_date q < pr_date x).
Proof.
  split.
  - intros (pre & post & E & D & H1 & H2). destruct post as [|y post] using rev_ind.
    + apply app_inj_tail in E. destruct E as [-> ->]. right. auto.
    + clear IHpost. rewrite app_comm_cons, app_assoc in E. apply app_inj_tail in E. destruct E as [-> <-]. left. split.
      * exists pre, post. split; auto. split; auto. split; auto. intros q Hq. apply H2. apply in_app_iff. auto.
      * apply H2. apply in_app_iff. right. left. auto.
  - intros [((pre & post & -> & D & H1 & H2) & Hx)|(-> & D & H)].
    + exists pre, (post ++ [x]). rewrite <- app_assoc. split; auto. split; auto. split; auto.
      intros q Hq. apply in_app_iff in Hq. destruct Hq as [Hq|[<-|[]]]; auto.
    + exists ps, []. split; auto. split; auto. split; auto. intros q [].
Qed.
Lemma prices_nodup_spec date ps :
  NoDup (hkeys (prices_nodup date ps)) /\
  (forall k p, hget key_eqb k (prices_nodup date ps) = Some p <-> pair_key p = k /\ usable date ps p) /\
  (forall q, In q ps -> pr_date q <= date -> exists p, hget key_eqb (pair_key q) (prices_nodup date ps) = Some p /\ pr_date q <= pr_date p).
Proof.
  induction ps as [|x ps (I1 & I2 & I3)] using rev_ind.
  - cbn. split; [constructor|]. split.
    + intros k p. split; [discriminate|]. intros (_ & pre & post & E & _). destruct pre; discriminate.
    + intros q [].
  - unfold prices_nodup in *. rewrite fold_left_app. cbn [fold_left]. set (m := fold_left (nodup_step date) ps []) in *.
    unfold nodup_step. destruct (Z.ltb_spec date (pr_date x)).
    + split; auto. split.
      * intros k p. rewrite I2, usable_snoc. split.
        -- intros [E U]. split; auto. left. split; auto. intros; lia.
        -- intros [E [[U _]|(_ & D & _)]]; auto. lia.
      * intros q Hq D. apply in_app_iff in Hq. destruct Hq as [Hq|[<-|[]]]; [auto|lia].
    + destruct (hget key_eqb (pair_key x) m) as [y|] eqn:Ey.
      * pose proof (proj1 (I2 _ _) Ey) as [Ky Uy].
        destruct (Z.ltb_spec (pr_date y) (pr_date x)).
        -- split; [apply (NoDup_hset _ key_eqb_spec); auto|]. split.
           ++ intros k p. rewrite (hget_hset _ key_eqb_spec), usable_snoc. destruct (key_eqb_spec k (pair_key x)).
              ** subst k. split.
                 --- intros E. inv E. split; auto. right. split; auto. split; auto. intros q Hq Sq Dq.
                     destruct (I3 q Hq Dq) as (p' & Ep & Lp). apply pair_key_iff in Sq. rewrite Sq in Ep. rewrite Ey in Ep. inv Ep. lia.
                 --- intros [Ek [[U Hx]|(-> & _)]]; auto.
                     assert (Ep : hget key_eqb (pair_key x) m = Some p) by (apply I2; auto). rewrite Ey in Ep. inv Ep.
                     specialize (Hx (proj1 (pair_key_iff _ _) (eq_sym Ek))). lia.
              ** rewrite I2. split.
                 --- intros [Ek U]. split; auto. left. split; auto. intros Sx. apply pair_key_iff in Sx. congruence.
                 --- intros [Ek [[U _]|(-> & _)]]; auto. congruence.
           ++ intros q Hq D. rewrite (hget_hset _ key_eqb_spec). destruct (key_eqb_spec (pair_key q) (pair_key x)).
              ** exists x. split; auto. apply in_app_iff in Hq. destruct Hq as [Hq|[<-|[]]]; [|lia].
                 destruct (I3 q Hq D) as (p' & Ep & Lp). rewrite e, Ey in Ep. inv Ep. lia.
              ** apply in_app_iff in Hq. destruct Hq as [Hq|[<-|[]]]; auto. congruence.
        -- split; auto. split.
           ++ intros k p. rewrite I2, usable_snoc. split.
              ** intros [Ek U]. split; auto. left. split; auto. intros Sx _. apply pair_key_iff in Sx.
                 assert (Ep : hget key_eqb k m = Some p) by (apply I2; auto). rewrite <- Ek, <- Sx, Ey in Ep. inv Ep. lia.
              ** intros [Ek [[U _]|(-> & D & Hx)]]; auto. exfalso.
                 destruct Uy as (pre & post & -> & Dy & _). specialize (Hx y). apply pair_key_iff in Ky.
                 specialize (Hx (in_elt _ _ _) Ky Dy). lia.
           ++ intros q Hq D. apply in_app_iff in Hq. destruct Hq as [Hq|[<-|[]]]; auto. exists y. split; auto.
      * split; [apply (NoDup_hset _ key_eqb_spec); auto|]. split.
        -- intros k p. rewrite (hget_hset _ key_eqb_spec), usable_snoc. destruct (key_eqb_spec k (pair_key x)).
           ++ subst k. split.
              ** intros E. inv E. split; auto. right. split; auto. split; auto. intros q Hq Sq Dq.
                 destruct (I3 q Hq Dq) as (p' & Ep & Lp). apply pair_key_iff in Sq. rewrite Sq in Ep. congruence.
              ** intros [Ek [[U Hx]|(-> & _)]]; auto.
                 assert (Ep : hget key_eqb (pair_key x) m = Some p) by (apply I2; auto). congruence.
           ++ rewrite I2. split.
              ** intros [Ek U]. split; auto. left. split; auto. intros Sx. apply pair_key_iff in Sx. congruence.
              ** intros [Ek [[U _]|(-> & _)]]; auto. congruence.
        -- intros q Hq D. rewrite (hget_hset _ key_eqb_spec). destruct (key_eqb_spec (pair_key q) (pair_key x)).
           ++ exists x. split; auto. apply in_app_iff in Hq. destruct Hq as [Hq|[<-|[]]]; [|lia].
              destruct (I3 q Hq D) as (p' & Ep & Lp). rewrite e in Ep. congruence.
           ++ apply in_app_iff in Hq. destruct Hq as [Hq|[<-|[]]]; auto. congruence.
Qed.
Lemma usable_iff date ps p : In p (map snd (prices_nodup date ps)) <-> usable date ps p.
Proof.
  destruct (prices_nodup_spec date ps) as (I1 & I2 & _). rewrite in_map_iff. split.
  - intros ([k x] & E & H). cbn in E. subst x. apply (In_hget _ key_eqb_spec) in H; auto. apply I2 in H. tauto.
  - intros U. assert (H : hget key_eqb (pair_key p) (prices_nodup date ps) = Some p) by (apply I2; auto).
    apply (hget_In _ key_eqb_spec) in H. exists (pair_key p, p). auto.
Qed.
Lemma usable_NoDup date ps : NoDup (map snd (prices_nodup date ps)).
Proof.
  destruct (prices_nodup_spec date ps) as (I1 & I2 & _).
  assert (K : forall k p, In (k, p) (prices_nodup date ps) -> k = pair_key p).
  { intros k p H. apply (In_hget _ key_eqb_spec) in H; auto. apply I2 in H. symmetry. tauto. }
  revert I1 K. generalize (prices_nodup date ps). intros m I1 K. clear I2. induction m as [|[k p] m IH]; cbn; [constructor|].
  cbn in I1. inv I1. constructor; auto.
  - intros H. apply H1. apply in_map_iff in H. destruct H as ([k' p'] & E & H). cbn in E. subst p'.
    rewrite (K k p (or_introl eq_refl)). rewrite <- (K k' p (or_intror H)). apply in_map_iff. exists (k', p). auto.
  - apply IH; auto. intros k' p' H. apply K. right. auto.
Qed.

(** ** The graph *)
Lemma graph_nodes_iff src pl n : In n (graph_nodes src pl) <->
  n = src \/ exists p, In p pl /\ (n = (pr_com p, pr_date p) \/ n = (pr_cur p, pr_date p)).
Proof.
  assert (G : forall l s, In n (fold_left (fun s p => let k := pair_key p in sadd gnode_eqb (snd k, pr_date p) (sadd gnode_eqb (fst k, pr_date p) s)) l s) <->
                In n s \/ exists p, In p l /\ (n = (pr_com p, pr_date p) \/ n = (pr_cur p, pr_date p))).
  { induction l as [|p l IH]; intros s; cbn [fold_left].
    - split; auto. intros [H|(p & [] & _)]. auto.
    - rewrite IH. cbn zeta. rewrite !(sadd_In _ gnode_eqb_spec). unfold pair_key. split.
      + intros [H|(q & Hq & H)]; [|right; exists q; split; auto; right; auto].
        destruct (str_ltb (pr_cur p) (pr_com p)); cbn in H; destruct H as [H|[H|H]]; auto; right; exists p; split; auto; left; auto.
      + intros [H|(q & [<-|Hq] & H)]; auto; [|right; exists q; auto].
        left. destruct (str_ltb (pr_cur p) (pr_com p)); cbn; destruct H; auto. }
  unfold graph_nodes. rewrite G. cbn. split; intros [H|H]; auto. destruct H as [H|[]]; auto.
Qed.
Lemma graph_nodes_NoDup src pl : NoDup (graph_nodes src pl).
Proof.
  assert (G : forall l s, NoDup s -> NoDup (fold_left (fun s p => let k := pair_key p in sadd gnode_eqb (snd k, pr_date p) (sadd gnode_eqb (fst k, pr_date p) s)) l s)).
  { induction l as [|p l IH]; intros s H; cbn [fold_left]; auto. apply IH. cbn zeta. apply (sadd_NoDup _ gnode_eqb_spec). apply (sadd_NoDup _ gnode_eqb_spec). auto. }
  apply G. constructor; auto. constructor.
Qed.
Lemma same_edges_in ns e : In e (same_edges ns) ->
  e_price e = None /\ In (e_from e) ns /\ In (e_to e) ns /\ fst (e_from e) = fst (e_to e).
Proof.
  induction ns as [|n ns IH]; cbn [same_edges]; [intros []|]. rewrite in_app_iff. intros [H|H].
  - apply in_map_iff in H. destruct H as (m & <- & H). apply filter_In in H. destruct H as [H E]. cbn.
    split; auto. split; [left; auto|]. split; auto. destruct (str_eqb_spec (fst n) (fst m)); auto. discriminate.
  - apply IH in H. destruct H as (H1 & H2 & H3 & H4). split; auto. split; [right; auto|]. split; [right; auto|auto].
Qed.
Lemma same_edges_all ns n m : In n ns -> In m ns -> fst n = fst m ->
  In {| e_price := None; e_from := n; e_to := m |} (same_edges ns) \/ In {| e_price := None; e_from := m; e_to := n |} (same_edges ns).
Proof.
  induction ns as [|x ns IH]; cbn [same_edges]; [intros []|]. intros Hn Hm E. rewrite !in_app_iff, !in_map_iff.
  assert (K : forall a, In a (x :: ns) -> fst x = fst a -> In a (filter (fun m0 => str_eqb (fst x) (fst m0)) (x :: ns))).
  { intros a Ha Ea. apply filter_In. split; auto. rewrite Ea. apply str_eqb_refl. }
  destruct (gnode_eqb_spec x n) as [->|Nn].
  - left. left. exists m. split; auto.
  - destruct (gnode_eqb_spec x m) as [->|Nm].
    + right. left. exists n. split; auto.
    + destruct Hn as [Hn|Hn]; [congruence|]. destruct Hm as [Hm|Hm]; [congruence|].
      destruct (IH Hn Hm E); auto.
Qed.

Section Graph.
  Variables (cur : str) (date : Z) (U : price -> Prop) (pl : list price) (ns : list gnode).
  Hypothesis Upl : forall p, In p pl <-> U p.
  Hypothesis Udate : forall p, U p -> pr_date p <= date.
  Hypothesis Hns : forall n, In n ns <-> n = (cur, date) \/ exists p, In p pl /\ (n = (pr_com p, pr_date p) \/ n = (pr_cur p, pr_date p)).
  Let es := price_edges pl ++ same_edges ns.
  Let d0 := init_dist cur date ns.

  Lemma node_com p : U p -> In (pr_com p, pr_date p) ns.
  Proof. intros H. apply Hns. right. exists p. rewrite Upl. auto. Qed.
  Lemma node_cur p : U p -> In (pr_cur p, pr_date p) ns.
  Proof. intros H. apply Hns. right. exists p. rewrite Upl. auto. Qed.
  Lemma node_date n : In n ns -> snd n <= date.
  Proof.
    intros H. apply Hns in H. destruct H as [->|(p & Hp & H)]; [cbn; lia|]. apply Upl, Udate in Hp. destruct H as [->| ->]; auto.
  Qed.
  Lemma edge_ends e : In e es -> In (e_from e) ns /\ In (e_to e) ns.
  Proof.
    unfold es. rewrite in_app_iff. intros [H|H].
    - unfold price_edges in H. apply in_map_iff in H. destruct H as (p & <- & H). apply Upl in H. cbn. split; [apply node_com|apply node_cur]; auto.
    - apply same_edges_in in H. tauto.
  Qed.
  Lemma init_dist_spec u : dist d0 u = if existsb (gnode_eqb u) ns then (if str_eqb (fst u) cur then Some (date - snd u) else None) else None.
  Proof.
    unfold d0, init_dist, dist. clear. induction ns as [|n l IH]; cbn; auto.
    destruct (gnode_eqb_spec u n) as [->|N]; cbn; [|exact IH]. auto.
  Qed.
  Lemma start_in u k : dist d0 u = Some k -> In u ns /\ fst u = cur /\ k = date - snd u.
  Proof.
    rewrite init_dist_spec. destruct (existsb (gnode_eqb u) ns) eqn:E; [|discriminate].
    apply (existsb_eqb_In _ gnode_eqb_spec) in E. destruct (str_eqb_spec (fst u) cur); [|discriminate]. intros H. inv H. auto.
  Qed.
  Lemma start_has d : In (cur, d) ns -> dist d0 (cur, d) = Some (date - d).
  Proof.
    intros H. rewrite init_dist_spec. apply (existsb_eqb_In _ gnode_eqb_spec) in H. rewrite H. cbn. rewrite str_eqb_refl. auto.
  Qed.
  Lemma step_cases v u e : In (u, e) (neighbours es v) ->
    In u ns /\ In v ns /\ e_length e = Z.abs (snd v - snd u) /\
    ((e_price e = None /\ fst u = fst v) \/
     (exists p, U p /\ e_price e = Some p /\ e_from e = (pr_com p, pr_date p) /\ e_to e = (pr_cur p, pr_date p) /\
        ((u = e_from e /\ v = e_to e) \/ (u = e_to e /\ v = e_from e)))).
  Proof.
    intros H. apply neighbours_iff in H. destruct H as [He H]. pose proof (edge_ends e He) as [F T].
    assert (D : (u = e_from e /\ v = e_to e) \/ (u = e_to e /\ v = e_from e)) by (destruct H as [[H1 H2]|[_ [H1 H2]]]; auto).
    split; [destruct D as [[-> _]|[-> _]]; auto|]. split; [destruct D as [[_ ->]|[_ ->]]; auto|].
    split; [unfold e_length; destruct D as [[-> ->]|[-> ->]]; lia|].
    unfold es in He. rewrite in_app_iff in He. destruct He as [He|He].
    - unfold price_edges in He. apply in_map_iff in He. destruct He as (p & <- & Hp). apply Upl in Hp. right. exists p. cbn in *. auto.
    - apply same_edges_in in He. destruct He as (H1 & _ & _ & H2). left. split; auto. destruct D as [[-> ->]|[-> ->]]; auto.
  Qed.
  Lemma step_same v u : In v ns -> In u ns -> fst v = fst u -> exists e, In (u, e) (neighbours es v) /\ e_length e = Z.abs (snd v - snd u).
  Proof.
    intros Hv Hu E. destruct (gnode_eqb_spec v u) as [->|N].
    - destruct (same_edges_all ns u u Hu Hu eq_refl) as [H|H]; exists {| e_price := None; e_from := u; e_to := u |};
        (split; [apply neighbours_iff; split; [unfold es; apply in_app_iff; auto|left; auto]|reflexivity]).
    - destruct (same_edges_all ns v u Hv Hu E) as [H|H].
      + exists {| e_price := None; e_from := v; e_to := u |}. split; [|reflexivity].
        apply neighbours_iff. split; [unfold es; apply in_app_iff; auto|left; auto].
      + exists {| e_price := None; e_from := u; e_to := v |}. split; [|unfold e_length; cbn; lia].
        apply neighbours_iff. split; [unfold es; apply in_app_iff; auto|right; cbn; auto].
  Qed.
  Lemma step_price p : U p -> exists e e',
    (In ((pr_cur p, pr_date p), e) (neighbours es (pr_com p, pr_date p)) /\ e_length e = 0) /\
    (In ((pr_com p, pr_date p), e') (neighbours es (pr_cur p, pr_date p)) /\ e_length e' = 0).
  Proof.
    intros Hp. set (e0 := {| e_price := Some p; e_from := (pr_com p, pr_date p); e_to := (pr_cur p, pr_date p) |}).
    assert (He : In e0 es). { unfold es. apply in_app_iff. left. unfold price_edges. apply in_map_iff. exists p. rewrite Upl. auto. }
    assert (L : e_length e0 = 0) by (unfold e_length; cbn; lia).
    exists e0. destruct (gnode_eqb_spec (pr_com p, pr_date p) (pr_cur p, pr_date p)) as [E|N].
    - exists e0. split; split; auto; apply neighbours_iff; split; auto.
    - exists e0. split; split; auto; apply neighbours_iff; split; auto.
  Qed.

  Lemma reach_node u k path : reach es d0 u k path -> In u ns /\ date - snd u <= k.
  Proof.
    induction 1 as [u k H|v k path u e R [IH1 IH2] H].
    - apply start_in in H. destruct H as (H & _ & ->). split; auto. lia.
    - apply step_cases in H. destruct H as (H1 & H2 & H3 & _). split; auto. rewrite H3. lia.
  Qed.
  Lemma walk_reach u k path : reach es d0 u k path -> forall m0,
    (foldM walk_step (fst u, m0) (rev path) = Panic PDivZero /\ exists p, U p /\ pr_amount p = 0%Qc) \/
    (exists r, foldM walk_step (fst u, m0) (rev path) = Ok (cur, (m0 * r)%Qc) /\ timed U cur date (fst u) (snd u) k r /\ chain U cur (fst u) r).
  Proof.
    induction 1 as [u k H|v k path u e R IH H]; intros m0.
    - right. exists 1%Qc. apply start_in in H. destruct H as (Hn & E & ->). cbn. rewrite E. split; [f_equal; f_equal; ring|]. split; [|constructor].
      apply node_date in Hn. pose proof (ti_wait U cur date cur date (snd u) 0 1 (ti_here _ _ _)) as T.
      replace (0 + Z.abs (date - snd u)) with (date - snd u) in T by lia. auto.
    - rewrite rev_app_distr. cbn [rev app foldM]. apply step_cases in H. destruct H as (Hu & Hv & L & H). rewrite L.
      unfold walk_step at 1 3. destruct H as [[E1 E2]|(p & Up & E1 & E2 & E3 & H)]; rewrite E1; cbn [bind].
      + rewrite E2. destruct (IH m0) as [H|(r & H1 & H2 & H3)]; [left; auto|right]. exists r. split; auto. split; auto.
        constructor. auto.
      + rewrite E2, E3. cbn [fst]. destruct (str_eqb_spec (fst u) (pr_com p)) as [E|N]; cbn [bind].
        * assert (Ev : v = (pr_cur p, pr_date p)).
          { destruct H as [[H1 H2]|[H1 H2]]; [congruence|]. rewrite H2, E2. rewrite H1, E3 in E. cbn in E. rewrite E. auto. }
          assert (Eu : u = (pr_com p, pr_date p)).
          { destruct H as [[H1 H2]|[H1 H2]]; [congruence|]. rewrite H1, E3. rewrite H1, E3 in E. cbn in E. rewrite E. auto. }
          rewrite Ev, Eu in *. cbn [fst snd] in *. destruct (IH (m0 * pr_amount p)%Qc) as [H0|(r & H1 & H2 & H3)]; [left; auto|right].
          exists (pr_amount p * r)%Qc. split; [rewrite H1; f_equal; f_equal; ring|]. split; [|constructor; auto].
          replace (k + Z.abs (pr_date p - pr_date p)) with k by lia. constructor; auto.
        * assert (EE : u = (pr_cur p, pr_date p) /\ v = (pr_com p, pr_date p)).
          { destruct H as [[H1 H2]|[H1 H2]]; [|split; congruence]. rewrite H1, E2 in N. cbn in N. congruence. }
          destruct EE as [Eu Ev]. rewrite Ev, Eu in *. cbn [fst snd] in *.
          destruct (qc_eqb_spec (pr_amount p) 0) as [Z|NZ]; cbn [bind]; [left; split; auto; exists p; auto|].
          destruct (IH (m0 / pr_amount p)%Qc) as [H0|(r & H1 & H2 & H3)]; [left; auto|right].
          exists (r / pr_amount p)%Qc. split; [rewrite H1; f_equal; f_equal; field; auto|]. split; [|constructor; auto].
          replace (k + Z.abs (pr_date p - pr_date p)) with k by lia. constructor; auto.
  Qed.

  (** The distances of the final state are the least. *)
  Section Final.
    Variable (s : dstate).
    Hypothesis F1 : forall u, dle (dist (ds_dist s) u) (dist d0 u).
    Hypothesis F2 : forall v k, In v ns -> dist (ds_dist s) v = Some k ->
       forall u e, In (u, e) (neighbours es v) -> dle (dist (ds_dist s) u) (Some (k + e_length e)).
    Lemma timed_least c d k r : timed U cur date c d k r -> forall d', In (c, d') ns -> dle (dist (ds_dist s) (c, d')) (Some (k + Z.abs (d - d'))).
    Proof.
      assert (Same : forall c d d' x, In (c, d) ns -> In (c, d') ns -> dle (dist (ds_dist s) (c, d)) (Some x) ->
                 dle (dist (ds_dist s) (c, d')) (Some (x + Z.abs (d - d')))).
      { intros c0 d1 d2 x H1 H2 (y & Ey & Ly). destruct (step_same (c0, d1) (c0, d2) H1 H2 eq_refl) as (e & He & Le).
        eapply dle_trans; [eapply F2; [exact H1|exact Ey|exact He]|]. cbn in Le. rewrite Le. cbn. eexists. split; [reflexivity|lia]. }
      induction 1 as [|c d d2 k r T IH|p k r Up T IH|p k r Up T IH]; intros d' Hn.
      - eapply dle_trans; [apply F1|]. rewrite (start_has _ Hn). apply node_date in Hn. cbn in Hn. cbn. eexists. split; [reflexivity|lia].
      - eapply dle_trans; [apply IH; auto|]. cbn. eexists. split; [reflexivity|lia].
      - apply (Same (pr_com p) (pr_date p)); auto using node_com.
        destruct (IH (pr_date p) (node_cur p Up)) as (y & Ey & Ly). destruct (step_price p Up) as (e & e' & [A1 A2] & [B1 B2]).
        eapply dle_trans; [eapply F2; [exact (node_cur p Up)|exact Ey|exact B1]|]. rewrite B2. cbn. eexists. split; [reflexivity|lia].
      - apply (Same (pr_cur p) (pr_date p)); auto using node_cur.
        destruct (IH (pr_date p) (node_com p Up)) as (y & Ey & Ly). destruct (step_price p Up) as (e & e' & [A1 A2] & [B1 B2]).
        eapply dle_trans; [eapply F2; [exact (node_com p Up)|exact Ey|exact A1]|]. rewrite A2. cbn. eexists. split; [reflexivity|lia].
    Qed.
  End Final.
  Lemma connected_node c : connected U cur c -> c <> cur -> exists d, In (c, d) ns.
  Proof.
    intros H N. destruct H; [congruence| |]; exists (pr_date p); auto using node_com, node_cur.
  Qed.
  Lemma connected_timed c : connected U cur c -> exists d k r, timed U cur date c d k r.
  Proof.
    induction 1 as [|p Up _ (d & k & r & T)|p Up _ (d & k & r & T)].
    - exists date, 0, 1%Qc. constructor.
    - exists (pr_date p), (k + Z.abs (d - pr_date p)), (pr_amount p * r)%Qc. apply ti_forwards; auto. apply ti_wait. auto.
    - exists (pr_date p), (k + Z.abs (d - pr_date p)), (r / pr_amount p)%Qc. apply ti_backwards; auto. apply ti_wait. auto.
  Qed.
End Graph.

(** ** The multipliers *)
Lemma multipliers_spec paths :
  match multipliers paths with
  | Ok mults => NoDup (hkeys mults) /\
      (forall c m, hget str_eqb c mults = Some m -> exists d path t, In ((c, d), path) paths /\ walk c path = Ok (t, m)) /\
      (forall c d path, In ((c, d), path) paths -> exists m, hget str_eqb c mults = Some m)
  | Err e => exists c d path, In ((c, d), path) paths /\ walk c path = Err e
  | Panic x => exists c d path, In ((c, d), path) paths /\ walk c path = Panic x
  end.
Proof.
  unfold multipliers.
  assert (G : forall l st pre, pre ++ l = paths ->
    (NoDup (hkeys (fst st)) /\ (forall c m, hget str_eqb c (fst st) = Some m -> exists d path t, In ((c, d), path) pre /\ walk c path = Ok (t, m)) /\
       (forall c d path, In ((c, d), path) pre -> exists m, hget str_eqb c (fst st) = Some m) /\
       (forall c d, hget str_eqb c (snd st) = Some d -> exists m, hget str_eqb c (fst st) = Some m)) ->
    match foldM mult_step st l with
    | Ok st' => NoDup (hkeys (fst st')) /\ (forall c m, hget str_eqb c (fst st') = Some m -> exists d path t, In ((c, d), path) paths /\ walk c path = Ok (t, m)) /\
       (forall c d path, In ((c, d), path) paths -> exists m, hget str_eqb c (fst st') = Some m)
    | Err e => exists c d path, In ((c, d), path) paths /\ walk c path = Err e
    | Panic x => exists c d path, In ((c, d), path) paths /\ walk c path = Panic x
    end).
  { induction l as [|[[c d] path] l IH]; intros [mults ins] pre EP (I1 & I2 & I3 & I4); cbn [fst snd] in I1, I2, I3, I4; cbn [foldM].
    - rewrite app_nil_r in EP. subst. auto.
    - assert (Here : In ((c, d), path) paths) by (rewrite <- EP, in_app_iff; right; left; auto).
      assert (Good : forall ins' m t, walk c path = Ok (t, m) ->
         (forall c' d', hget str_eqb c' ins' = Some d' -> (exists m', hget str_eqb c' mults = Some m') \/ c' = c) ->
         let st := (hset str_eqb c m mults, ins' : list (str * Z)) in let pre' := pre ++ [((c, d), path)] in
         NoDup (hkeys (fst st)) /\ (forall c m, hget str_eqb c (fst st) = Some m -> exists d path t, In ((c, d), path) pre' /\ walk c path = Ok (t, m)) /\
         (forall c d path, In ((c, d), path) pre' -> exists m, hget str_eqb c (fst st) = Some m) /\
         (forall c d, hget str_eqb c (snd st) = Some d -> exists m, hget str_eqb c (fst st) = Some m)).
      { intros ins' m t Ew Hi. cbn. split; [apply (NoDup_hset _ str_eqb_spec); auto|]. split; [|split].
        - intros c' m' H. rewrite (hget_hset _ str_eqb_spec) in H. destruct (str_eqb_spec c' c).
          + inv H. exists d, path, t. split; auto. apply in_app_iff. right. left. auto.
          + destruct (I2 _ _ H) as (d1 & p1 & t1 & A & B). exists d1, p1, t1. split; auto. apply in_app_iff. auto.
        - intros c' d' p' H. rewrite (hget_hset _ str_eqb_spec). destruct (str_eqb_spec c' c); eauto.
          apply in_app_iff in H. destruct H as [H|[H|[]]]; [eapply I3; eauto|]. inv H. congruence.
        - intros c' d' H. rewrite (hget_hset _ str_eqb_spec). destruct (str_eqb_spec c' c); eauto.
          destruct (Hi _ _ H); auto. contradiction. }
      unfold mult_step at 1. destruct (hget str_eqb c ins) as [x|] eqn:Ex.
      + destruct (d <? x).
        * cbn [bind]. apply (IH _ (pre ++ [((c, d), path)])). { rewrite <- app_assoc. auto. } cbn. split; auto. split; [|split; auto].
          -- intros c' m' H. destruct (I2 _ _ H) as (d1 & p1 & t1 & A & B). exists d1, p1, t1. split; auto. apply in_app_iff. auto.
          -- intros c' d' p' H. apply in_app_iff in H. destruct H as [H|[H|[]]]; [eapply I3; eauto|]. inv H. eapply I4; eauto.
        * destruct (walk c path) as [[t m]|e|y] eqn:Ew; cbn [bind]; eauto 6. apply (IH _ (pre ++ [((c, d), path)])); [rewrite <- app_assoc; auto|]. eapply Good; eauto.
      + destruct (walk c path) as [[t m]|e|y] eqn:Ew; cbn [bind]; eauto 6. apply (IH _ (pre ++ [((c, d), path)])); [rewrite <- app_assoc; auto|]. eapply Good; eauto.
        intros c' d' H. rewrite (hget_hset _ str_eqb_spec) in H. destruct (str_eqb_spec c' c); auto. left. eapply I4; eauto. }
  specialize (G paths ([], []) []). destruct (foldM mult_step ([], []) paths) as [[m i]|e|x] eqn:E; cbn [bind fst app] in *; (apply G; [reflexivity|]);
    cbn; (split; [constructor|]; split; [discriminate|]; split; [tauto|discriminate]).
Qed.

(** ** The whole conversion *)
Definition priced (U : price -> Prop) (c : str) (d : Z) : Prop := exists p, U p /\ pr_date p = d /\ (pr_com p = c \/ pr_cur p = c).
Lemma conversion_spec w site cur date ps : world_ok w ->
  let U := usable date ps in
  match conversion w site cur date ps with
  | Ok mults => NoDup (hkeys mults) /\
      (forall c m, hget str_eqb c mults = Some m -> c <> cur /\ exists d k, priced U c d /\
         timed U cur date c d k m /\ chain U cur c m /\ forall k' r, timed U cur date c d k' r -> k <= k') /\
      (forall c, connected U cur c -> c <> cur -> exists m, hget str_eqb c mults = Some m)
  | Err _ => False
  | Panic x => x = PDivZero /\ exists p, U p /\ pr_amount p = 0%Qc
  end.
Proof.
  intros [Hp _] U. unfold conversion, conv_paths, conv_nodes.
  set (pl := w_ord w site _ (map snd (prices_nodup date ps))).
  set (ns := w_ord w (S site) _ (graph_nodes (cur, date) pl)).
  assert (Upl : forall p, In p pl <-> U p).
  { intros p. unfold U. rewrite <- usable_iff. unfold pl. split; intros H; (eapply Permutation_in; [|exact H]); [apply Hp|symmetry; apply Hp]. }
  assert (Udate : forall p, U p -> pr_date p <= date) by (intros p (pre & post & _ & D & _); auto).
  assert (Hns : forall n, In n ns <-> n = (cur, date) \/ exists p, In p pl /\ (n = (pr_com p, pr_date p) \/ n = (pr_cur p, pr_date p))).
  { intros n. rewrite <- graph_nodes_iff. unfold ns. split; intros H; (eapply Permutation_in; [|exact H]); [apply Hp|symmetry; apply Hp]. }
  assert (NDns : NoDup ns). { unfold ns. eapply Permutation_NoDup; [symmetry; apply Hp|]. apply graph_nodes_NoDup. }
  set (es := price_edges pl ++ same_edges ns). set (d0 := init_dist cur date ns).
  assert (EE : forall e, In e es -> In (e_from e) ns /\ In (e_to e) ns) by (intros e; eapply edge_ends; eauto).
  pose proof (dijkstra_final es ns d0 EE NDns) as (K1 & K2 & K3 & K4).
  set (s := dijkstra (length ns) es ns {| ds_dist := d0; ds_paths := [] |}) in *. cbn zeta in *.
  pose proof (fun c d k r => timed_least cur date U pl ns Upl Udate Hns s K3 K4 c d k r) as Least.
  assert (Entry : forall u path, In (u, path) (w_ord w (S (S site)) _ (ds_paths s)) ->
            exists k, dist (ds_dist s) u = Some k /\ reach es d0 u k path /\ forall k0, dist d0 u = Some k0 -> k < k0).
  { intros u path H. eapply Permutation_in in H; [|apply Hp]. apply (In_hget _ gnode_eqb_spec) in H; auto.
    specialize (K2 u). unfold PriceFacts.hp in K2. rewrite H in K2. auto. }
  assert (NotCur : forall c d path, In ((c, d), path) (w_ord w (S (S site)) _ (ds_paths s)) -> c <> cur).
  { intros c d path H E. subst c. destruct (Entry _ _ H) as (k & Dk & R & Lt).
    destruct (reach_node cur date U pl ns Upl Hns _ _ _ R) as [Hn Lk].
    specialize (Lt _ (start_has cur date ns d Hn)). cbn in Lk. lia. }
  assert (Walk : forall c d path, In ((c, d), path) (w_ord w (S (S site)) _ (ds_paths s)) ->
            (walk c path = Panic PDivZero /\ exists p, U p /\ pr_amount p = 0%Qc) \/
            exists r, walk c path = Ok (cur, r) /\ exists k, priced U c d /\ timed U cur date c d k r /\ chain U cur c r /\
               forall k' r', timed U cur date c d k' r' -> k <= k').
  { intros c d path H. destruct (Entry _ _ H) as (k & Dk & R & Lt).
    destruct (walk_reach cur date U pl ns Upl Udate Hns _ _ _ R 1%Qc) as [W|(r & W & T & C)]; [left; auto|right].
    cbn [fst snd] in *. exists r. unfold walk. rewrite W. split; [f_equal; f_equal; ring|]. exists k.
    destruct (reach_node cur date U pl ns Upl Hns _ _ _ R) as [Hn _].
    split; [|split; [auto|split; [auto|]]].
    - apply Hns in Hn. destruct Hn as [E|(p & Hpl & Hc)]; [inv E; exfalso; eapply NotCur; eauto|].
      exists p. rewrite <- Upl. split; auto. destruct Hc as [E|E]; inv E; auto.
    - intros k' r' T'. destruct (Least _ _ _ _ T' d Hn) as (y & Ey & Ly). rewrite Dk in Ey. inv Ey. lia. }
  pose proof (multipliers_spec (w_ord w (S (S site)) _ (ds_paths s))) as M.
  destruct (multipliers (w_ord w (S (S site)) _ (ds_paths s))) as [mults|e|x].
  - destruct M as (M1 & M2 & M3). split; auto. split.
    + intros c m H. destruct (M2 _ _ H) as (d & path & t & Hi & Hw). split; [eapply NotCur; eauto|].
      destruct (Walk _ _ _ Hi) as [[W _]|(r & W & k & X)]; [congruence|]. rewrite Hw in W. inv W. exists d, k. auto.
    + intros c Co Nc. destruct (connected_node cur date U pl ns Upl Hns c Co Nc) as (d & Hn).
      destruct (connected_timed cur date U c Co) as (d1 & k & r & T). destruct (Least _ _ _ _ T d Hn) as (y & Ey & _).
      specialize (K2 (c, d)). unfold PriceFacts.hp in K2. destruct (hget gnode_eqb (c, d) (ds_paths s)) as [path|] eqn:Eh.
      * apply (hget_In _ gnode_eqb_spec) in Eh. eapply M3. eapply Permutation_in; [symmetry; apply Hp|exact Eh].
      * rewrite K2 in Ey. eapply start_in in Ey; [|eassumption..]. cbn in Ey. destruct Ey as (_ & E & _). congruence.
  - destruct M as (c & d & path & Hi & Hw). destruct (Walk _ _ _ Hi) as [[W _]|(r & W & _)]; congruence.
  - destruct M as (c & d & path & Hi & Hw). destruct (Walk _ _ _ Hi) as [[W X]|(r & W & _)]; [|congruence].
    rewrite Hw in W. inv W. auto.
Qed.
