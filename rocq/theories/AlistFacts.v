(** Lemmas about the list container. *)
From Verif Require Import Base BaseFacts Alist SpecList.

Section AlistFacts.
  Context {T : Type} (w : world) (name : T -> str) (aliases : T -> list str).
  Notation insert := (l_insert w name aliases).
  Notation add_alias := (l_add_alias w name).
  Notation get := (l_get w (T := T)).
  Notation get_regex := (l_get_regex w name).
  Notation lower := (w_lower w).
  Notation hg := (hget str_eqb).
  Notation key e := (lower (name e)).

  Lemma same_name_spec a b : reflect (lower a = lower b) (same_name w a b).
  Proof. apply str_eqb_spec. Qed.

  Lemma hget_fold_alias k (nm : str) als m :
    hg k (fold_left (fun m a => hset str_eqb (lower a) nm m) als m) =
    if existsb (fun a => str_eqb k (lower a)) als then Some nm else hg k m.
  Proof.
    revert m. induction als as [|a als IH]; intros m; simpl; auto. rewrite IH.
    rewrite (hget_hset _ str_eqb_spec). destruct (existsb _ als); [rewrite orb_true_r; auto|].
    rewrite orb_false_r. destruct (str_eqb k (lower a)); auto.
  Qed.
  Lemma NoDup_fold_alias (nm : str) als : forall m, NoDup (hkeys m) ->
    NoDup (hkeys (fold_left (fun m a => hset str_eqb (lower a) nm m) als m)).
  Proof.
    induction als; simpl; auto. intros. apply IHals. apply (NoDup_hset _ str_eqb_spec). auto.
  Qed.
  Lemma hget_fold_extend {V} k (o : list (str * V)) m : NoDup (hkeys o) ->
    hg k (fold_left (fun m kv => hset str_eqb (fst kv) (snd kv) m) o m) =
    match hg k o with Some v => Some v | None => hg k m end.
  Proof.
    revert m. induction o as [|[k0 v0] o IH]; intros m Hn; simpl; auto. inv Hn.
    rewrite IH by auto. rewrite (hget_hset _ str_eqb_spec).
    destruct (str_eqb_spec k k0); auto. subst.
    destruct (hg k0 o) eqn:E; auto. exfalso. apply H1.
    apply (hget_Some_key _ str_eqb_spec). eauto.
  Qed.
  Lemma NoDup_fold_extend {V} (o : list (str * V)) : forall m, NoDup (hkeys m) ->
    NoDup (hkeys (fold_left (fun m kv => hset str_eqb (fst kv) (snd kv) m) o m)).
  Proof.
    induction o; simpl; auto. intros. apply IHo. apply (NoDup_hset _ str_eqb_spec). auto.
  Qed.

  (** History. *)
  Definition tracks (h : list (op T)) (l : alist T) : Prop :=
    (forall n, hg (lower n) (l_list l) = first_named w name n h) /\
    (forall n, hg (lower n) (l_aliases l) =
               option_map (fun e => key e) (alias_owner w name aliases n [] h)).

  Lemma first_named_app n h h' :
    first_named w name n (h ++ h') =
    match first_named w name n h with Some e => Some e | None => first_named w name n h' end.
  Proof.
    induction h as [|[e|a e] h IH]; simpl; auto. destruct (same_name w n (name e)); auto.
  Qed.
  Lemma alias_owner_snoc n past h o :
    alias_owner w name aliases n past (h ++ [o]) =
    match alias_owner w name aliases n (past ++ h) [o] with
    | Some e => Some e
    | None => alias_owner w name aliases n past h
    end.
  Proof.
    revert past. induction h as [|o' h IH]; intros past.
    - simpl app at 1. rewrite app_nil_r. destruct (alias_owner w name aliases n past [o]) eqn:E; simpl; auto.
    - cbn [app alias_owner]. rewrite IH. rewrite <- app_assoc. cbn [app].
      cbn [alias_owner].
      destruct o as [e|b e]; destruct o' as [e'|b' e']; auto;
        repeat match goal with |- context [match ?x with _ => _ end] =>
          match x with context [alias_owner] => fail 1 | _ => destruct x; auto end end.
  Qed.

  Lemma tracks_step h o l l' :
    tracks h l ->
    match o with Insert e => Ok (insert e l) | AddAlias a e => add_alias a e l end = Ok l' ->
    tracks (h ++ [o]) l'.
  Proof.
    intros [H1 H2] H. split; intros n.
    - rewrite first_named_app, <- H1. destruct o as [e|a e]; simpl.
      + inv H. unfold l_insert. destruct (hg (key e) (l_list l)) eqn:E; simpl.
        * destruct (hg (lower n) (l_list l)) eqn:E2; auto.
          destruct (same_name_spec n (name e)); auto. congruence.
        * rewrite (hget_hset _ str_eqb_spec). fold (same_name w n (name e)).
          destruct (same_name_spec n (name e)); auto.
          -- rewrite e0, E. auto.
          -- destruct (hg (lower n) (l_list l)); auto.
      + unfold l_add_alias in H. destruct (hg (lower a) (l_aliases l)); inv H. simpl.
        destruct (hg (lower n) (l_list l)); auto.
    - rewrite alias_owner_snoc. simpl app. destruct o as [e|a e]; cbn [alias_owner].
      + inv H. unfold l_insert. rewrite <- H1. destruct (hg (key e) (l_list l)) eqn:E; simpl; auto.
        rewrite hget_fold_alias.
        change (existsb (fun a => str_eqb (lower n) (lower a)) (aliases e))
          with (existsb (same_name w n) (aliases e)).
        destruct (existsb (same_name w n) (aliases e)); auto.
      + unfold l_add_alias in H. destruct (hg (lower a) (l_aliases l)); inv H. simpl.
        rewrite (hget_hset _ str_eqb_spec). fold (same_name w n a).
        destruct (same_name w n a); auto.
  Qed.
  Lemma perform_tracks h l : perform w name aliases h = Ok l -> tracks h l.
  Proof.
    unfold perform. revert l. induction h as [|o h IH] using rev_ind; intros l H.
    - inv H. split; auto.
    - rewrite foldM_app in H. bind_inv H. simpl in H. bind_inv H. inv H.
      eapply tracks_step; [apply IH; exact Hb|]. exact Hb0.
  Qed.

  (** Well-formed lists. *)
  Record lwf (l : alist T) : Prop := {
    lwf_nd : NoDup (hkeys (l_list l));
    lwf_nda : NoDup (hkeys (l_aliases l));
    lwf_key : forall k e, In (k, e) (l_list l) -> k = key e;
    lwf_alias : forall a k, In (a, k) (l_aliases l) -> In k (hkeys (l_list l));
    lwf_memo : forall rx k, hg rx (l_matches l) = Some (Some k) -> In k (hkeys (l_list l));
  }.
  Hypothesis lower_idem : forall s, lower (lower s) = lower s.

  Lemma lwf_new : lwf l_new.
  Proof. split; simpl; try (constructor; fail); try tauto. discriminate. Qed.
  Lemma lwf_get k l : lwf l -> In k (hkeys (l_list l)) -> exists e, hg k (l_list l) = Some e /\ k = key e /\ In e (l_values l).
  Proof.
    intros W H. apply (hget_Some_key _ str_eqb_spec) in H. destruct H as (e & H).
    exists e. split; auto. apply (hget_In _ str_eqb_spec) in H. split.
    - apply (lwf_key _ W). auto.
    - unfold l_values. change e with (snd (k, e)). apply in_map. auto.
  Qed.
  Lemma lwf_value l e : lwf l -> In e (l_values l) -> hg (key e) (l_list l) = Some e.
  Proof.
    intros W H. unfold l_values in H. apply in_map_iff in H. destruct H as ([k e'] & E & H). simpl in E. subst e'.
    apply (In_hget _ str_eqb_spec); [apply (lwf_nd _ W)|]. rewrite <- (lwf_key _ W _ _ H). auto.
  Qed.
  Lemma In_fold_alias a (k nm : str) als : forall m,
    In (a, k) (fold_left (fun m a => hset str_eqb (lower a) nm m) als m) -> k = nm \/ In (a, k) m.
  Proof.
    induction als as [|b als IH]; simpl; auto. intros m H. apply IH in H. destruct H; auto.
    apply (In_hset_inv _ str_eqb_spec) in H. destruct H as [E|]; auto. inv E. auto.
  Qed.
  Lemma In_fold_extend {V} e (o : list (str * V)) : forall m,
    In e (fold_left (fun m kv => hset str_eqb (fst kv) (snd kv) m) o m) -> In e o \/ In e m.
  Proof.
    induction o as [|[k v] o IH]; simpl; auto. intros m H. apply IH in H. destruct H; auto.
    apply (In_hset_inv _ str_eqb_spec) in H. simpl in H. intuition.
  Qed.
  Lemma hkeys_fold_extend {V} k (o : list (str * V)) : forall m,
    In k (hkeys (fold_left (fun m kv => hset str_eqb (fst kv) (snd kv) m) o m)) <->
    In k (hkeys o) \/ In k (hkeys m).
  Proof.
    induction o as [|[k0 v] o IH]; simpl; [tauto|]. intros m. rewrite IH.
    rewrite (In_hkeys_hset _ str_eqb_spec). intuition.
  Qed.
  Lemma lwf_insert e l : lwf l -> lwf (insert e l).
  Proof.
    intros W. unfold l_insert. destruct (hg (key e) (l_list l)) eqn:E; auto. split; simpl.
    - apply (NoDup_hset _ str_eqb_spec). apply W.
    - apply NoDup_fold_alias. apply W.
    - intros k e' H. apply (In_hset_inv _ str_eqb_spec) in H. destruct H as [H|H]; [inv H; auto|].
      apply (lwf_key _ W); auto.
    - intros a k H. apply (In_hkeys_hset _ str_eqb_spec). apply In_fold_alias in H. destruct H; auto.
      right. eapply (lwf_alias _ W); eauto.
    - intros rx k H. apply (In_hkeys_hset _ str_eqb_spec). right. eapply (lwf_memo _ W); eauto.
  Qed.
  Lemma lwf_add_alias a e l l' : lwf l -> In e (l_values l) -> add_alias a e l = Ok l' -> lwf l'.
  Proof.
    intros W Hi H. unfold l_add_alias in H. destruct (hg (lower a) (l_aliases l)) eqn:E; inv H.
    split; simpl.
    - apply W.
    - apply (NoDup_hset _ str_eqb_spec). apply W.
    - apply (lwf_key _ W).
    - intros b k H. apply (In_hset_inv _ str_eqb_spec) in H. destruct H as [H|H].
      + inv H. apply (hget_Some_key _ str_eqb_spec). exists e. apply lwf_value; auto.
      + eapply (lwf_alias _ W); eauto.
    - apply (lwf_memo _ W).
  Qed.
  Lemma lwf_append l o : lwf l -> lwf o -> lwf (l_append l o).
  Proof.
    intros W W'. split; simpl.
    - apply NoDup_fold_extend. apply W.
    - apply NoDup_fold_extend. apply W.
    - intros k e H. apply In_fold_extend in H. destruct H; [apply (lwf_key _ W')|apply (lwf_key _ W)]; auto.
    - intros a k H. apply hkeys_fold_extend. apply In_fold_extend in H.
      destruct H; [left; eapply (lwf_alias _ W')|right; eapply (lwf_alias _ W)]; eauto.
    - intros rx k H. apply hkeys_fold_extend. right. eapply (lwf_memo _ W); eauto.
  Qed.
  Lemma find_key {V} (f : str * V -> bool) l k v : find f l = Some (k, v) -> In (k, v) l /\ f (k, v) = true.
  Proof. apply find_some. Qed.
  Lemma lwf_regex rx l r l' : lwf l -> get_regex rx l = Ok (r, l') -> lwf l'.
  Proof.
    intros W. unfold l_get_regex. intros H.
    assert (G : forall v, (forall k, v = Some k -> In k (hkeys (l_list l))) ->
      lwf {| l_aliases := l_aliases l; l_list := l_list l; l_matches := hset str_eqb rx v (l_matches l) |}).
    { intros v Hv. split; simpl; try apply W. intros rx' k Hk.
      rewrite (hget_hset _ str_eqb_spec) in Hk. destruct (str_eqb rx' rx); [inv Hk; auto|].
      eapply (lwf_memo _ W); eauto. }
    destruct (hg rx (l_matches l)) as [[a|]|].
    - destruct (get a l); inv H; auto.
    - inv H; auto.
    - destruct (find _ (l_list l)) as [[k v]|] eqn:E1.
      + inv H. apply G. intros k' E. inv E. apply find_key in E1. destruct E1 as [Hi _].
        unfold hkeys. change k' with (fst (k', v)). apply in_map. auto.
      + destruct (find _ (l_aliases l)) as [[a k]|] eqn:E2; inv H; apply G; [|discriminate].
        intros k' E. inv E. apply find_key in E2. destruct E2 as [Hi _]. eapply (lwf_alias _ W); eauto.
  Qed.
  Lemma buildable_lwf l : buildable w name aliases l -> lwf l.
  Proof.
    induction 1; eauto using lwf_new, lwf_insert, lwf_append, lwf_add_alias, lwf_regex.
  Qed.

  Lemma lwf_get_cases i l : lwf l ->
    (exists e, In e (l_values l) /\ get i l = Ok e) \/ get i l = Err (ELedger (AliasNotInList i)).
  Proof.
    intros W. unfold l_get. destruct (hg (lower i) (l_list l)) eqn:E.
    - left. exists t. split; auto. apply (hget_In _ str_eqb_spec) in E.
      unfold l_values. change t with (snd (lower i, t)). apply in_map. auto.
    - destruct (hg (lower i) (l_aliases l)) eqn:E2; auto. left.
      apply (hget_In _ str_eqb_spec) in E2. apply (lwf_alias _ W) in E2.
      destruct (lwf_get _ _ W E2) as (e & E3 & _ & Hi). exists e. rewrite E3. auto.
  Qed.
  Lemma lwf_get_key k l : lwf l -> In k (hkeys (l_list l)) -> exists e, get k l = Ok e /\ hg k (l_list l) = Some e /\ k = key e /\ In e (l_values l).
  Proof.
    intros W H. destruct (lwf_get _ _ W H) as (e & E & E2 & E3). exists e. split; auto.
    unfold l_get. rewrite E2, lower_idem, <- E2, E. auto.
  Qed.
  Lemma lwf_regex_total rx l : lwf l -> exists r l', get_regex rx l = Ok (r, l').
  Proof.
    intros W. unfold l_get_regex. destruct (hg rx (l_matches l)) as [[a|]|] eqn:E.
    - destruct (lwf_get_key a l W (lwf_memo _ W _ _ E)) as (e & E1 & _). rewrite E1. eauto.
    - eauto.
    - destruct (find _ (l_list l)) as [[k v]|]; eauto.
      destruct (find _ (l_aliases l)) as [[a k]|]; eauto.
  Qed.

  (** One regex lookup: elements are untouched, and the pattern's answer is remembered. *)
  Lemma regex_step rx l r l1 : lwf l -> get_regex rx l = Ok (r, l1) ->
    l_list l1 = l_list l /\ l_aliases l1 = l_aliases l /\
    (forall rx', rx' <> rx -> hg rx' (l_matches l1) = hg rx' (l_matches l)) /\
    get_regex rx l1 = Ok (r, l1) /\ In rx (hkeys (l_matches l1)).
  Proof.
    intros W H. pose proof (lwf_regex _ _ _ _ W H) as W1. unfold l_get_regex in H.
    destruct (hg rx (l_matches l)) as [[a|]|] eqn:E.
    - destruct (get a l) eqn:E2; inv H. repeat split; auto.
      + unfold l_get_regex. rewrite E, E2. auto.
      + apply (hget_Some_key _ str_eqb_spec). eauto.
    - inv H. repeat split; auto.
      + unfold l_get_regex. rewrite E. auto.
      + apply (hget_Some_key _ str_eqb_spec). eauto.
    - assert (G : forall v r', l1 = {| l_aliases := l_aliases l; l_list := l_list l;
                 l_matches := hset str_eqb rx v (l_matches l) |} ->
                 match v with Some k => hg k (l_list l) | None => None end = r' ->
        l_list l1 = l_list l /\ l_aliases l1 = l_aliases l /\
        (forall rx', rx' <> rx -> hg rx' (l_matches l1) = hg rx' (l_matches l)) /\
        get_regex rx l1 = Ok (r', l1) /\ In rx (hkeys (l_matches l1))).
      { intros v r' -> Hr. simpl. repeat split; auto.
        - intros. apply (hget_hset_other _ str_eqb_spec); auto.
        - unfold l_get_regex. simpl. rewrite (hget_hset_same _ str_eqb_spec).
          destruct v as [k|]; [|rewrite <- Hr; auto].
          assert (Hk : In k (hkeys (l_list l))).
          { apply (lwf_memo _ W1 rx). simpl. apply (hget_hset_same _ str_eqb_spec). }
          destruct (lwf_get_key k l W Hk) as (e & E1 & E2 & _).
          unfold l_get in *. simpl. rewrite E1. rewrite <- Hr, E2. auto.
        - apply (In_hkeys_hset _ str_eqb_spec). auto. }
      destruct (find _ (l_list l)) as [[k v]|] eqn:E1.
      + inv H. eapply G; eauto. apply (In_hget _ str_eqb_spec); [apply (lwf_nd _ W)|].
        apply find_key in E1. tauto.
      + destruct (find _ (l_aliases l)) as [[a k]|] eqn:E2; inv H; eapply G; eauto.
  Qed.

  Lemma regex_cong rx l l' : l_list l' = l_list l -> l_aliases l' = l_aliases l ->
    hg rx (l_matches l') = hg rx (l_matches l) ->
    forall r l1, get_regex rx l = Ok (r, l1) -> exists l1', get_regex rx l' = Ok (r, l1').
  Proof.
    intros E1 E2 E3 r l1. unfold l_get_regex, l_get. rewrite E1, E2, E3.
    repeat match goal with |- context [match ?x with _ => _ end] => destruct x end;
      intros H; inv H; eauto.
  Qed.
End AlistFacts.

Lemma is_match_ok w nm memo rx b memo' :
  (forall r x, hget str_eqb r memo = Some x -> x = w_rx w r nm) ->
  is_match w nm memo rx = (b, memo') ->
  b = w_rx w rx nm /\ (forall r x, hget str_eqb r memo' = Some x -> x = w_rx w r nm).
Proof.
  unfold is_match. intros Hm H. destruct (hget str_eqb rx memo) eqn:E; inv H.
  - split; auto.
  - split; auto. intros r x Hx. rewrite (hget_hset _ str_eqb_spec) in Hx.
    destruct (str_eqb_spec r rx); [inv Hx; auto|auto].
Qed.
