(** Lemmas about building the ledger. *)
From Coq Require Import Lia Sorting.Sorted.
From Verif Require Import Base BaseFacts Numerals Money Alist Comment Txn Peg Grammar Dates Expr Filter Tokens Price
  Ledger Spec MoneyFacts SpecTxn TxnFacts TxnFacts2 PropTxn TokenFacts SpecList AlistFacts JournalFacts SpecLedger.
Open Scope Z_scope.

(** ** Registering names *)
Section Names.
  Context {T : Type} (w : world) (name : T -> str) (aliases : T -> list str).

  (** [l'] resolves everything [l] does, to the same elements. *)
  Definition grows (l l' : alist T) : Prop :=
    (forall k e, l_get w k l = Ok e -> l_get w k l' = Ok e) /\ incl (l_values l) (l_values l').
  Lemma grows_refl l : grows l l.
  Proof. split; [auto|apply incl_refl]. Qed.
  Lemma grows_trans a b c : grows a b -> grows b c -> grows a c.
  Proof. intros [A1 A2] [B1 B2]. split; [auto|eapply incl_tran; eauto]. Qed.

  Definition resolves (l : alist T) (k : str) : Prop := exists e, l_get w k l = Ok e /\ In e (l_values l).
  Lemma grows_resolves l l' k : grows l l' -> resolves l k -> resolves l' k.
  Proof. intros [G1 G2] (e & H & Hi). exists e. auto. Qed.

  Let bld := buildable w name aliases.
  Let blwf l (H : bld l) : lwf w name l := buildable_lwf w name aliases l H.

  Lemma insert_new_grows e l : bld l ->
    (forall x, l_get w (name e) l <> Ok x) -> aliases e = [] ->
    grows l (l_insert w name aliases e l) /\ resolves (l_insert w name aliases e l) (name e).
  Proof.
    intros B Hn Ha. pose proof (blwf _ B) as W.
    assert (N1 : hget str_eqb (w_lower w (name e)) (l_list l) = None).
    { destruct (hget str_eqb (w_lower w (name e)) (l_list l)) eqn:E; auto. exfalso. eapply Hn. unfold l_get.
      rewrite E. reflexivity. }
    unfold l_insert. rewrite N1, Ha. cbn [fold_left]. split; [split|].
    - intros k x. unfold l_get. cbn [l_list l_aliases].
      rewrite (hget_hset _ str_eqb_spec). destruct (str_eqb_spec (w_lower w k) (w_lower w (name e))) as [E|E].
      + rewrite E, N1. intros H. exfalso. apply (Hn x). unfold l_get. rewrite N1. rewrite <- E.
        rewrite <- E in H. destruct (hget str_eqb (w_lower w k) (l_aliases l)); [auto|discriminate].
      + destruct (hget str_eqb (w_lower w k) (l_list l)); auto.
        destruct (hget str_eqb (w_lower w k) (l_aliases l)) as [y|]; auto.
        rewrite (hget_hset _ str_eqb_spec). destruct (str_eqb_spec y (w_lower w (name e))); auto. subst y.
        rewrite N1. discriminate.
    - intros x Hx. unfold l_values in *. cbn [l_list]. apply in_map_iff in Hx. destruct Hx as ([k x'] & E & Hx).
      cbn in E. subst x'. change x with (snd (k, x)). apply in_map.
      apply (hget_In _ str_eqb_spec). rewrite (hget_hset _ str_eqb_spec).
      assert (G : hget str_eqb k (l_list l) = Some x).
      { apply (In_hget _ str_eqb_spec); auto. apply (lwf_nd _ _ _ W). }
      destruct (str_eqb_spec k (w_lower w (name e))); [subst; congruence|auto].
    - assert (G : hget str_eqb (w_lower w (name e)) (hset str_eqb (w_lower w (name e)) e (l_list l)) = Some e)
        by apply (hget_hset_same _ str_eqb_spec).
      exists e. unfold l_get, l_values. cbn [l_list l_aliases]. rewrite G. split; auto.
      apply (hget_In _ str_eqb_spec) in G. apply (in_map snd) in G. exact G.
  Qed.

  Context (mk : str -> T) (mk_name : forall n, name (mk n) = n) (mk_aliases : forall n, aliases (mk n) = []).
  Lemma ensure_ok l n : bld l ->
    exists l', ensure w (l_insert w name aliases) mk l n = Ok l' /\ bld l' /\ grows l l' /\ resolves l' n.
  Proof.
    intros B. pose proof (blwf _ B) as W. unfold ensure.
    destruct (lwf_get_cases w name n l W) as [(e & Hi & E)|E]; rewrite E.
    - exists l. split; auto. split; auto. split; [apply grows_refl|]. exists e. auto.
    - exists (l_insert w name aliases (mk n) l). split; auto.
      destruct (insert_new_grows (mk n) l B) as [G R]; auto.
      + rewrite mk_name, E. discriminate.
      + split; [apply buildable_insert; auto|]. rewrite mk_name in R. auto.
  Qed.
  Lemma ensure_all ns : forall l, bld l ->
    exists l', foldM (ensure w (l_insert w name aliases) mk) l ns = Ok l' /\ bld l' /\ grows l l' /\
               forall n, In n ns -> resolves l' n.
  Proof.
    induction ns as [|n ns IH]; intros l B; cbn [foldM].
    - exists l. split; auto. split; auto. split; [apply grows_refl|intros n []].
    - destruct (ensure_ok l n B) as (l1 & -> & B1 & G1 & R1). cbn [bind].
      destruct (IH l1 B1) as (l2 & -> & B2 & G2 & R2). exists l2. split; auto. split; auto.
      split; [eapply grows_trans; eauto|]. intros m [<-|Hm]; auto. eapply grows_resolves; eauto.
  Qed.

  (** Adding an alias that is not taken. *)
  Lemma add_alias_grows a e l : bld l -> In e (l_values l) ->
    (forall x, l_get w a l <> Ok x) ->
    exists l', l_add_alias w name a e l = Ok l' /\ bld l' /\ grows l l' /\ l_get w a l' = Ok e /\ In e (l_values l').
  Proof.
    intros B Hi Hn. pose proof (blwf _ B) as W.
    assert (E : l_get w a l = Err (ELedger (AliasNotInList a))).
    { destruct (lwf_get_cases w name a l W) as [(x & _ & E)|E]; auto. exfalso. eapply Hn; eauto. }
    assert (N1 : hget str_eqb (w_lower w a) (l_list l) = None).
    { unfold l_get in E. destruct (hget str_eqb (w_lower w a) (l_list l)); [discriminate|auto]. }
    assert (N2 : hget str_eqb (w_lower w a) (l_aliases l) = None).
    { unfold l_get in E. rewrite N1 in E. destruct (hget str_eqb (w_lower w a) (l_aliases l)); auto.
      unfold unwrap in E. destruct (hget str_eqb s (l_list l)); discriminate. }
    unfold l_add_alias. rewrite N2. eexists. split; [reflexivity|].
    assert (G : grows l {| l_aliases := hset str_eqb (w_lower w a) (w_lower w (name e)) (l_aliases l);
                           l_list := l_list l; l_matches := l_matches l |}).
    { split; [|apply incl_refl]. intros k x. unfold l_get. cbn [l_list l_aliases].
      destruct (hget str_eqb (w_lower w k) (l_list l)); auto.
      rewrite (hget_hset _ str_eqb_spec). destruct (str_eqb_spec (w_lower w k) (w_lower w a)) as [Ek|Ek]; auto.
      rewrite Ek, N2. discriminate. }
    split; [|split; [exact G|split]].
    - eapply buildable_alias; [exact B|exact Hi|]. unfold l_add_alias. rewrite N2. reflexivity.
    - unfold l_get. cbn [l_list l_aliases]. rewrite N1, (hget_hset_same _ str_eqb_spec).
      rewrite (lwf_value _ _ _ _ W Hi). reflexivity.
    - exact Hi.
  Qed.
  Lemma get_value k e l : bld l -> l_get w k l = Ok e -> In e (l_values l).
  Proof.
    intros B H. destruct (lwf_get_cases w name k l (blwf _ B)) as [(x & Hi & E)|E]; congruence.
  Qed.

  (** Where the elements come from. *)
  Lemma get_lower k k' (l : alist T) e : w_lower w k = w_lower w k' -> l_get w k l = Ok e -> l_get w k' l = Ok e.
  Proof.
    unfold l_get. intros ->. destruct (hget str_eqb (w_lower w k') (l_list l)); auto.
    destruct (hget str_eqb (w_lower w k') (l_aliases l)); auto. discriminate.
  Qed.
  Lemma insert_new_get e l k x : bld l -> (forall x, l_get w (name e) l <> Ok x) -> aliases e = [] ->
    l_get w k (l_insert w name aliases e l) = Ok x -> l_get w k l = Ok x \/ (w_lower w (name e) = w_lower w k /\ x = e).
  Proof.
    intros B Hn Ha. pose proof (blwf _ B) as W.
    assert (N1 : hget str_eqb (w_lower w (name e)) (l_list l) = None).
    { destruct (hget str_eqb (w_lower w (name e)) (l_list l)) eqn:E; auto. exfalso. eapply Hn. unfold l_get. rewrite E. reflexivity. }
    unfold l_insert. rewrite N1, Ha. cbn [fold_left]. unfold l_get. cbn [l_list l_aliases].
    rewrite (hget_hset _ str_eqb_spec). destruct (str_eqb_spec (w_lower w k) (w_lower w (name e))) as [E|E].
    - intros H. inv H. auto.
    - destruct (hget str_eqb (w_lower w k) (l_list l)); auto. destruct (hget str_eqb (w_lower w k) (l_aliases l)) as [y|] eqn:Ea; auto.
      rewrite (hget_hset _ str_eqb_spec). destruct (str_eqb_spec y (w_lower w (name e))) as [Ey|Ey]; auto.
      exfalso. apply (hget_In _ str_eqb_spec) in Ea. apply (lwf_alias _ _ _ W) in Ea. destruct (lwf_get _ _ _ _ W Ea) as (z & Ez & _).
      rewrite Ey in Ez. congruence.
  Qed.
  Lemma add_alias_get a e l l' k x : bld l -> (forall x, l_get w a l <> Ok x) -> In e (l_values l) -> l_add_alias w name a e l = Ok l' ->
    l_get w k l' = Ok x -> l_get w k l = Ok x \/ (w_lower w a = w_lower w k /\ x = e).
  Proof.
    intros B Hn Hi H. pose proof (blwf _ B) as W. unfold l_add_alias in H. destruct (hget str_eqb (w_lower w a) (l_aliases l)); [discriminate|]. inv H.
    unfold l_get. cbn [l_list l_aliases]. destruct (hget str_eqb (w_lower w k) (l_list l)); auto.
    rewrite (hget_hset _ str_eqb_spec). destruct (str_eqb_spec (w_lower w k) (w_lower w a)) as [E|E]; auto.
    pose proof (lwf_value _ _ _ _ W Hi) as V. cbn beta in V. rewrite V. cbn. intros X. inv X. auto.
  Qed.
  Lemma values_get l e : bld l -> In e (l_values l) -> l_get w (name e) l = Ok e.
  Proof.
    intros B Hi. pose proof (lwf_value _ _ _ _ (blwf _ B) Hi) as V. cbn beta in V. unfold l_get. rewrite V. reflexivity.
  Qed.
  Lemma ensure_after (used : str -> Prop) ns : forall l l', bld l -> (forall n, In n ns -> used n) ->
    foldM (ensure w (l_insert w name aliases) mk) l ns = Ok l' -> bld l' -> named_after w mk used l l'.
  Proof.
    intros l l' B Hu H B'.
    assert (X : (forall k e, l_get w k l' = Ok e -> l_get w k l = Ok e \/
      ((forall x, l_get w k l <> Ok x) /\ exists m, used m /\ w_lower w m = w_lower w k /\ e = mk m))).
    { clear B'. revert l l' B Hu H. induction ns as [|n ns IH]; intros l l' B Hu H; cbn [foldM] in H.
      - inv H. intros k e E. auto.
      - destruct (ensure_ok l n B) as (l1 & E1 & B1 & [G1 _] & _). rewrite E1 in H. cbn [bind] in H.
        specialize (IH l1 l' B1 (fun m Hm => Hu m (or_intror Hm)) H). intros k e E.
        assert (S : forall k e, l_get w k l1 = Ok e -> l_get w k l = Ok e \/ ((forall x, l_get w n l <> Ok x) /\ w_lower w n = w_lower w k /\ e = mk n)).
        { clear -E1 B mk_name mk_aliases blwf. intros k e E. unfold ensure in E1. pose proof (blwf _ B) as W.
          destruct (lwf_get_cases w name n l W) as [(x & _ & X)|X]; rewrite X in E1; inv E1; auto.
          apply insert_new_get in E; auto; [|intros x; rewrite mk_name, X; discriminate]. rewrite mk_name in E.
          destruct E as [E|[E ->]]; auto. right. split; auto. intros x. rewrite X. discriminate. }
        destruct (IH k e E) as [X|(X & m & Hm & Em & ->)].
        + destruct (S k e X) as [Y|(Y1 & Y2 & ->)]; auto. right. split.
          * intros x Hx. apply (Y1 x). eapply get_lower; [symmetry; exact Y2|exact Hx].
          * exists n. split; auto. apply Hu. left. auto.
        + right. split; [|eauto]. intros x Hx. apply (X x). auto. }
    split; [exact X|]. intros e Hi. destruct (X _ _ (values_get _ _ B' Hi)) as [Y|(Y & m & Hm & E & ->)].
    - left. destruct (lwf_get_cases w name (name e) l (blwf _ B)) as [(x & I & Z)|Z]; rewrite Z in Y; inv Y; auto.
    - right. exists m. rewrite mk_name in Y. auto.
  Qed.
End Names.
Arguments grows {T}. Arguments resolves {T}.

(** Payees: a name that matches a payee directive's pattern becomes its alias. *)
Lemma payees_ok w copy ns : forall l, buildable w py_name py_aliases l ->
  incl copy (l_values l) ->
  exists l', foldM (payee_step w copy) l ns = Ok l' /\ buildable w py_name py_aliases l' /\ grows w l l' /\
             forall n, In n ns -> resolves w l' n.
Proof.
  induction ns as [|n ns IH]; intros l B Hc; cbn [foldM].
  - exists l. split; auto. split; auto. split; [apply grows_refl|intros n []].
  - assert (S : exists l', payee_step w copy l n = Ok l' /\ buildable w py_name py_aliases l' /\ grows w l l' /\
                           resolves w l' n).
    { unfold payee_step. pose proof (buildable_lwf w py_name py_aliases l B) as W.
      destruct (lwf_get_cases w py_name n l W) as [(e & Hi & E)|E]; rewrite E.
      - exists l. split; auto. split; auto. split; [apply grows_refl|]. exists e. auto.
      - destruct (find _ copy) as [p|] eqn:Ef.
        + apply find_some in Ef. destruct Ef as [Hp _].
          destruct (add_alias_grows w py_name py_aliases n p l B (Hc _ Hp)) as (l' & E' & B' & G' & R' & I').
          { rewrite E. discriminate. }
          exists l'. split; auto. split; auto. split; auto. exists p. auto.
        + eexists. split; [reflexivity|].
          destruct (insert_new_grows w py_name py_aliases (payee_from n) l B) as [G R]; auto.
          * cbn [py_name payee_from]. rewrite E. discriminate.
          * split; [apply buildable_insert; auto|]. auto. }
    destruct S as (l1 & -> & B1 & G1 & R1). cbn [bind].
    destruct (IH l1 B1) as (l2 & -> & B2 & G2 & R2).
    { eapply incl_tran; [exact Hc|apply G1]. }
    exists l2. split; auto. split; auto.
    split; [eapply grows_trans; eauto|]. intros m [<-|Hm]; auto. eapply grows_resolves; eauto.
Qed.

Definition payees_from (w : world) (used : str -> Prop) (l l' : alist payee) : Prop :=
  forall k e, l_get w k l' = Ok e ->
    l_get w k l = Ok e \/
    ((forall x, l_get w k l <> Ok x) /\ exists m, used m /\ w_lower w m = w_lower w k /\
      ((In e (l_values l) /\ claims_name w m e) \/
       ((forall y, In y (l_values l) -> ~ claims_name w m y) /\ e = payee_from m))).
Lemma payees_from_after w used l l' : buildable w py_name py_aliases l -> buildable w py_name py_aliases l' ->
  payees_from w used l l' -> payees_after w used l l'.
Proof.
  intros B B' X. split; [exact X|]. intros e Hi. destruct (X _ _ (values_get w py_name py_aliases _ _ B' Hi)) as [Y|(Y & m & Hm & E & [[Z _]|[Z ->]])]; auto.
  - left. destruct (lwf_get_cases w py_name (py_name e) l (buildable_lwf _ _ _ _ B)) as [(x & I & Z)|Z]; rewrite Z in Y; inv Y; auto.
  - right. exists m. auto.
Qed.
Lemma payees_from_ok w (used : str -> Prop) copy l0 ns : (forall y, In y copy <-> In y (l_values l0)) -> (forall n, In n ns -> used n) ->
  forall l l', buildable w py_name py_aliases l -> grows w l0 l -> payees_from w used l0 l ->
  foldM (payee_step w copy) l ns = Ok l' -> payees_from w used l0 l'.
Proof.
  intros Hc. induction ns as [|n ns IH]; intros Hu l l' B G0 A H; cbn [foldM] in H.
  - inv H. auto.
  - bind_inv H. pose proof (buildable_lwf w py_name py_aliases l B) as W. unfold payee_step in Hb.
    destruct (lwf_get_cases w py_name n l W) as [(x & _ & X)|X]; rewrite X in Hb.
    { inv Hb. eapply IH; eauto. intros m Hm. apply Hu. right. auto. }
    assert (Nx : forall x, l_get w n l <> Ok x) by (intros x; rewrite X; discriminate).
    assert (N0 : forall k, w_lower w n = w_lower w k -> forall x, l_get w k l0 <> Ok x).
    { intros k E x Hx. apply (Nx x). apply (get_lower w k n); [auto|]. apply G0. auto. }
    assert (Un : used n) by (apply Hu; left; auto).
    destruct (find _ copy) as [p|] eqn:Ef.
    + apply find_some in Ef. destruct Ef as [Hp Hm]. assert (Hp0 : In p (l_values l0)) by (apply Hc; auto). assert (Hpl : In p (l_values l)) by (apply G0; auto).
      destruct (add_alias_grows w py_name py_aliases n p l B Hpl Nx) as (l1 & E1 & B1 & G1 & _). rewrite E1 in Hb. inv Hb.
      eapply IH; [intros m I; apply Hu; right; auto|exact B1|eapply grows_trans; eauto| |exact H].
      intros k e E. destruct (add_alias_get w py_name py_aliases n p l a k e B Nx Hpl E1 E) as [Y|[Y ->]]; [auto|]. right. split; [apply N0; auto|].
      exists n. split; auto. split; auto. left. split; auto. apply existsb_exists in Hm. destruct Hm as (rx & R1 & R2). exists rx. auto.
    + inv Hb. destruct (insert_new_grows w py_name py_aliases (payee_from n) l B) as [G R]; auto.
      apply (IH (fun m I => Hu m (or_intror I)) (l_insert w py_name py_aliases (payee_from n) l)); [apply buildable_insert; exact B|eapply grows_trans; [exact G0|exact G]| |exact H].
      intros k e E. apply (insert_new_get w py_name py_aliases) in E; auto. destruct E as [Y|[Y ->]]; [auto|]. cbn in Y. right. split; [apply N0; auto|].
      exists n. split; auto. split; auto. right. split; auto. intros y Hy (rx & R1 & R2). apply Hc in Hy.
      pose proof (find_none _ _ Ef y Hy) as F. cbn beta in F. assert (T : existsb (fun rx => w_rx w rx n) (py_regexes y) = true) by (apply existsb_exists; eauto). congruence.
Qed.

(** ** The names mentioned *)
Lemma sadd_iff x y s : In x (sadd str_eqb y s) <-> x = y \/ In x s.
Proof. rewrite (sadd_In _ str_eqb_spec). tauto. Qed.
Lemma opt_cur_iff x m s : In x (opt_cur m s) <-> (exists q, m = Some (q, x)) \/ In x s.
Proof.
  unfold opt_cur. destruct m as [[q c]|].
  - rewrite sadd_iff. split; intros [H|H]; auto.
    + subst. left. eauto.
    + destruct H as (q' & H). inv H. auto.
  - split; auto. intros [(q & H)|H]; [discriminate|auto].
Qed.
Lemma fold_set_iff {A} (f : list str -> A -> list str) (P : A -> str -> Prop) :
  (forall s a x, In x (f s a) <-> P a x \/ In x s) ->
  forall l s x, In x (fold_left f l s) <-> (exists a, In a l /\ P a x) \/ In x s.
Proof.
  intros Hf l. induction l as [|a l IH]; intros s x; cbn [fold_left].
  - split; auto. intros [(a & [] & _)|H]; auto.
  - rewrite IH, Hf. split.
    + intros [(b & Hb & Hp)|[H|H]]; auto; left; [exists b|exists a]; split; auto; [right|left]; auto.
    + intros [(b & [->|Hb] & Hp)|H]; auto. left. exists b. auto.
Qed.
Lemma commodity_names_iff l x : In x (commodity_names l) <->
  (exists p, In p (pl_prices l) /\ (x = pp_other p \/ x = pp_commodity p)) \/
  (exists p q, In p (all_postings (pl_txns l)) /\
     (rp_balance p = Some (q, x) \/ rp_cost p = Some (q, x) \/ rp_money p = Some (q, x))).
Proof.
  unfold commodity_names.
  rewrite (fold_set_iff _ (fun p x => x = pp_other p \/ x = pp_commodity p)) by (intros; rewrite !sadd_iff; tauto).
  rewrite (fold_set_iff _ (fun p x => exists q, rp_balance p = Some (q, x) \/ rp_cost p = Some (q, x) \/ rp_money p = Some (q, x))).
  - split.
    + intros [H|[(p & Hp & q & H)|[]]]; auto. right. eauto.
    + intros [H|(p & q & Hp & H)]; auto. right. left. eauto.
  - intros s p y. rewrite !opt_cur_iff. split.
    + intros [(q & H)|[(q & H)|[(q & H)|H]]]; auto; left; exists q; auto.
    + intros [(q & [H|[H|H]])|H]; auto.
      * left. eauto.
      * right. left. eauto.
      * right. right. left. eauto.
Qed.
Lemma account_names_iff l x : In x (account_names l) <->
  exists p, In p (all_postings (pl_txns l)) /\ x = rp_account p.
Proof.
  unfold account_names. rewrite (fold_set_iff _ (fun p x => x = rp_account p)) by (intros; rewrite sadd_iff; tauto).
  split; [intros [H|[]]; auto|auto].
Qed.
Lemma payee_names_iff l x : In x (payee_names l) <->
  exists p, In p (all_postings (pl_txns l)) /\ rp_payee p = Some x.
Proof.
  unfold payee_names. rewrite (fold_set_iff _ (fun p x => rp_payee p = Some x)).
  - split; [intros [H|[]]; auto|auto].
  - intros s p y. destruct (rp_payee p).
    + rewrite sadd_iff. split; intros [H|H]; auto; [subst|inv H]; auto.
    + split; auto. intros [H|H]; [discriminate|auto].
Qed.

(** ** Reading postings *)
Record names_ok (w : world) (l : pledger) (cs : alist currency) (al : alist account) (pays : alist payee) : Prop := {
  no_cs : buildable w cu_name cu_aliases cs;
  no_al : buildable w ac_name ac_aliases al;
  no_pays : buildable w py_name py_aliases pays;
  no_gcs : grows w (pl_commodities l) cs;
  no_gal : grows w (pl_accounts l) al;
  no_gpays : grows w (pl_payees l) pays;
  no_rcs : forall n, In n (commodity_names l) -> resolves w cs n;
  no_ral : forall n, In n (account_names l) -> resolves w al n;
  no_rpays : forall n, In n (payee_names l) -> resolves w pays n;
  no_acs : named_after w currency_from (fun n => In n (commodity_names l)) (pl_commodities l) cs;
  no_aal : named_after w account_from (fun n => In n (account_names l)) (pl_accounts l) al;
  no_apays : payees_after w (fun n => In n (payee_names l)) (pl_payees l) pays;
}.
Lemma names_exist w l : world_ok w -> journal_ok w l -> exists cs al pays,
  foldM (ensure_cur w) (pl_commodities l) (w_ord w 0 _ (commodity_names l)) = Ok cs /\
  foldM (ensure_acc w) (pl_accounts l) (w_ord w 1 _ (account_names l)) = Ok al /\
  foldM (payee_step w (w_ord w 3 _ (l_values (pl_payees l)))) (pl_payees l) (w_ord w 2 _ (payee_names l)) = Ok pays /\
  names_ok w l cs al pays.
Proof.
  intros [Hp _] [J1 J2 J3 _].
  destruct (ensure_all w cu_name cu_aliases currency_from (fun _ => eq_refl) (fun _ => eq_refl)
              (w_ord w 0 _ (commodity_names l)) _ J3) as (cs & E1 & B1 & G1 & R1).
  destruct (ensure_all w ac_name ac_aliases account_from (fun _ => eq_refl) (fun _ => eq_refl)
              (w_ord w 1 _ (account_names l)) _ J1) as (al & E2 & B2 & G2 & R2).
  destruct (payees_ok w (w_ord w 3 _ (l_values (pl_payees l))) (w_ord w 2 _ (payee_names l)) _ J2) as (pays & E3 & B3 & G3 & R3).
  { intros x Hx. eapply Permutation_in; [apply Hp|exact Hx]. }
  exists cs, al, pays. split; [exact E1|]. split; [exact E2|]. split; [exact E3|]. constructor; auto.
  - intros n Hn. apply R1. eapply Permutation_in; [symmetry; apply Hp|exact Hn].
  - intros n Hn. apply R2. eapply Permutation_in; [symmetry; apply Hp|exact Hn].
  - intros n Hn. apply R3. eapply Permutation_in; [symmetry; apply Hp|exact Hn].
  - apply (ensure_after w cu_name cu_aliases currency_from (fun _ => eq_refl) (fun _ => eq_refl) _ (w_ord w 0 _ (commodity_names l))); auto.
    intros n. apply Permutation_in. apply Hp.
  - apply (ensure_after w ac_name ac_aliases account_from (fun _ => eq_refl) (fun _ => eq_refl) _ (w_ord w 1 _ (account_names l))); auto.
    intros n. apply Permutation_in. apply Hp.
  - apply payees_from_after; auto. apply (payees_from_ok w _ (w_ord w 3 _ (l_values (pl_payees l))) (pl_payees l) (w_ord w 2 _ (payee_names l))) with (l := pl_payees l); auto.
    + intros y. split; apply Permutation_in; [|apply Permutation_sym]; apply Hp.
    + intros n. apply Permutation_in. apply Hp.
    + apply grows_refl.
    + intros k e E. auto.
Qed.

Lemma get_unwrap_ok {T} w n (l : alist T) e : l_get w n l = Ok e -> get_unwrap w n l = Ok e.
Proof. unfold get_unwrap. intros ->. auto. Qed.
Lemma get_unwrap_inv {T} w n (l : alist T) e : get_unwrap w n l = Ok e -> l_get w n l = Ok e.
Proof. unfold get_unwrap. destruct (l_get w n l); congruence. Qed.

Lemma money_of_raw_ok w cs m : resolves w cs (snd m) ->
  exists x, money_of_raw w cs m = Ok x /\ reads_money w cs (Some m) (Some x) /\ has_commodity x.
Proof.
  intros (e & E & Hi). unfold money_of_raw. rewrite (get_unwrap_ok _ _ _ _ E). cbn.
  eexists. split; [reflexivity|]. destruct m as [q c]. cbn in *. split; auto. split; auto. eauto.
Qed.
Lemma money_opt_ok w cs m : (forall q c, m = Some (q, c) -> resolves w cs c) ->
  exists x, match m with Some m => x <- money_of_raw w cs m ;; Ok (Some x) | None => Ok None end = Ok x /\
            reads_money w cs m x /\ match x with Some x => has_commodity x | None => m = None end.
Proof.
  intros H. destruct m as [[q c]|].
  - destruct (money_of_raw_ok w cs (q, c)) as (x & -> & R & Hx); [eapply H; eauto|]. cbn [bind]. eauto.
  - exists None. cbn. auto.
Qed.

Lemma last_match_in {A} (f : A -> bool) l : forall r x,
  fold_left (fun r a => if f a then Some a else r) l r = Some x -> (In x l /\ f x = true) \/ r = Some x.
Proof.
  induction l as [|a l IH]; cbn; intros r x H; auto. apply IH in H. destruct H as [[H H']|H]; auto.
  destruct (f a) eqn:E; [inv H; auto|auto].
Qed.
Lemma last_match_none {A} (f : A -> bool) l : forall r,
  fold_left (fun r a => if f a then Some a else r) l r = None -> forall x, In x l -> f x = false.
Proof.
  assert (S : forall l r, r <> None -> fold_left (fun r a => if f a then Some a else r) l r <> None).
  { induction l0 as [|a l0 IH]; cbn; intros r Hr; auto. apply IH. destruct (f a); [discriminate|auto]. }
  induction l as [|a l IH]; intros r H x Hx; [destruct Hx|]. cbn in H. destruct Hx as [<-|Hx]; [|eauto]. destruct (f a); auto. exfalso. eapply S; [|exact H]. discriminate.
Qed.
Lemma posting_of_raw_spec w l cs al pays accs date desc ttags pay p :
  world_ok w -> names_ok w l cs al pays -> Permutation accs (l_values al) ->
  In p (all_postings (pl_txns l)) -> rposting_ok (Some pay) p ->
  (exists p' prs, posting_of_raw w accs al pays cs date desc ttags p = Ok (p', prs) /\
     (reads_posting w al pays cs p p' /\ p_tags p' = ttags ++ flat_map get_tags (rp_comments p)) /\ good_posting p' /\ p_origin p' = FromTransaction /\
     match rp_cost p with None => prs = [] | Some _ => exists pr, prs = [pr] /\ implied_price w cs date p pr end) \/
  (posting_of_raw w accs al pays cs date desc ttags p = Panic PDivZero /\ zero_total_cost p).
Proof.
  intros Hw [B1 B2 B3 _ _ _ R1 R2 R3 _ _ _] Hperm Hin (Q1 & Q2 & Q3).
  unfold posting_of_raw. rewrite Q1.
  destruct (R3 pay) as (y & Ey & Iy). { apply payee_names_iff. eauto. }
  rewrite (get_unwrap_ok _ _ _ _ Ey). cbn [bind].
  assert (A : exists a, posting_account w accs al (rp_account p) (py_name y) = Ok a /\ In a (l_values al) /\
     (is_unknown w (rp_account p) = false -> l_get w (rp_account p) al = Ok a) /\
     (is_unknown w (rp_account p) = true -> forall n, Some (py_name y) = Some n ->
        claims_payee w n a \/ ((forall b, In b (l_values al) -> ~ claims_payee w n b) /\ l_get w (rp_account p) al = Ok a))).
  { destruct (R2 (rp_account p)) as (a & Ea & Ia). { apply account_names_iff. eauto. }
    unfold posting_account. fold (is_unknown w (rp_account p)). destruct (is_unknown w (rp_account p)).
    - destruct (fold_left _ accs None) as [a'|] eqn:Ef.
      + exists a'. split; auto. apply last_match_in in Ef. destruct Ef as [[Ef Em]|Ef]; [|discriminate].
        split; [eapply Permutation_in; eauto|]. split; [discriminate|]. intros _ n En. inv En. left.
        apply existsb_exists in Em. destruct Em as (rx & M1 & M2). exists rx. auto.
      + exists a. split; auto. split; auto. split; [discriminate|]. intros _ n En. inv En. right. split; auto.
        intros b Ib (rx & M1 & M2). eapply Permutation_in in Ib; [|symmetry; exact Hperm].
        eapply last_match_none in Ef; [|exact Ib]. cbn beta in Ef.
        assert (T : existsb (fun rx => w_rx w rx (py_name y)) (ac_payees b) = true) by (apply existsb_exists; eauto). congruence.
    - exists a. split; auto. split; auto. split; [auto|discriminate]. }
  destruct A as (a & -> & Ia & Ha & Hu). cbn [bind].
  destruct (money_opt_ok w cs (rp_money p)) as (amt & -> & Ramt & Camt).
  { intros q c E. apply R1. apply commodity_names_iff. right. exists p, q. auto. }
  cbn [bind].
  destruct (money_opt_ok w cs (rp_balance p)) as (bal & Ebal & Rbal & Cbal).
  { intros q c E. apply R1. apply commodity_names_iff. right. exists p, q. auto. }
  destruct (rp_cost p) as [[k kc]|] eqn:Ek.
  - destruct (rp_money p) as [[q c]|] eqn:Em; [|destruct (Q3 eq_refl); discriminate].
    destruct (rp_cost_type p) as [ty|] eqn:Et; [|specialize (Q2 eq_refl); discriminate].
    destruct (R1 c) as (x & Ex & Ix). { apply commodity_names_iff. right. exists p, q. auto. }
    destruct (R1 kc) as (z & Ez & Iz). { apply commodity_names_iff. right. exists p, k. auto. }
    unfold cost_of_raw. rewrite Em, Et. cbn [unwrap bind fst snd].
    rewrite (get_unwrap_ok _ _ _ _ Ex), (get_unwrap_ok _ _ _ _ Ez). cbn [bind].
    assert (Hamt : exists x', amt = Some x' /\ has_commodity x').
    { destruct amt; [eauto|discriminate]. }
    destruct Hamt as (amt' & -> & Hamt').
    destruct ty.
    + destruct (qc_eqb_spec q 0%Qc) as [Eq|Eq].
      * right. cbn. split; auto. exists c, (k, kc). rewrite Em, Et. subst. auto.
      * left. cbn [bind]. rewrite Ebal. cbn [bind]. do 2 eexists. split; [reflexivity|].
        split; [|split; [|split]].
        -- split; [|reflexivity]. unfold reads_posting. cbn [p_amount p_balance p_cost p_kind p_payee p_account]. rewrite Em.
           split; [exact Ramt|]. split; [exact Rbal|]. split.
           { unfold reads_cost. rewrite Ek, Et. exists (M k (cu_name z)). split; auto. cbn. eauto. }
           split; auto. split.
           { exists y. split; auto. split; auto. intros n En. rewrite Q1 in En. inv En. auto. }
           exists a. auto.
        -- unfold good_posting. cbn. auto.
        -- reflexivity.
        -- eexists. split; [reflexivity|]. exists q, c, k, kc, x, z. rewrite Em, Ek, Et. cbn.
           repeat (split; auto). field. auto.
    + left. cbn [bind]. rewrite Ebal. cbn [bind]. do 2 eexists. split; [reflexivity|].
        split; [|split; [|split]].
        -- split; [|reflexivity]. unfold reads_posting. cbn [p_amount p_balance p_cost p_kind p_payee p_account]. rewrite Em.
           split; [exact Ramt|]. split; [exact Rbal|]. split.
           { unfold reads_cost. rewrite Ek, Et. exists (M k (cu_name z)). split; auto. cbn. eauto. }
           split; auto. split.
           { exists y. split; auto. split; auto. intros n En. rewrite Q1 in En. inv En. auto. }
           exists a. auto.
        -- unfold good_posting. cbn. auto.
        -- reflexivity.
        -- eexists. split; [reflexivity|]. exists q, c, k, kc, x, z. rewrite Em, Ek, Et. cbn.
           repeat (split; auto). field. intros E. discriminate.
  - left. cbn [bind]. rewrite Ebal. cbn [bind]. do 2 eexists. split; [reflexivity|].
    split; [|split; [|split]].
    + split; [|reflexivity]. unfold reads_posting. cbn [p_amount p_balance p_cost p_kind p_payee p_account].
      split; [exact Ramt|]. split; [exact Rbal|]. split.
      { unfold reads_cost. rewrite Ek. auto. }
      split; auto. split.
      { exists y. split; auto. split; auto. intros n En. rewrite Q1 in En. inv En. auto. }
      exists a. auto.
    + unfold good_posting. cbn. auto.
    + reflexivity.
    + reflexivity.
Qed.

(** ** Reading transactions *)
Lemma mapM_or {A B} (f : A -> res B) (bad : panic) l :
  (forall x, In x l -> (exists y, f x = Ok y) \/ f x = Panic bad) ->
  (exists ys, mapM f l = Ok ys /\ Forall2 (fun x y => f x = Ok y) l ys) \/
  (mapM f l = Panic bad /\ exists x, In x l /\ f x = Panic bad).
Proof.
  induction l as [|x l IH]; intros H; cbn [mapM].
  - left. exists []. auto.
  - destruct (H x (or_introl eq_refl)) as [(y & E)|E]; rewrite E; cbn [bind].
    + destruct IH as [(ys & E2 & F)|(E2 & z & Hz & Ez)]; [intros; apply H; right; auto| |]; rewrite E2; cbn [bind].
      * left. exists (y :: ys). auto.
      * right. split; auto. exists z. split; auto. right. auto.
    + right. split; auto. exists x. split; auto. left. auto.
Qed.
Lemma is_balanced_total t : good_txn t -> exists b, is_balanced t = Ok b.
Proof.
  intros Ht. unfold is_balanced, total_balance.
  destruct (foldM_total (fun acc p =>
           match p_amount p with
           | Some m => if kind_eqb (p_kind p) Real then
                         v <- total_value m (p_cost p) ;; Ok (bal_add acc v)
                       else Ok acc
           | None => Ok acc
           end) (fun _ => True) (t_postings t) bal_new) as (b & -> & _); auto.
  - intros s p Hp _. destruct (p_amount p) as [m|]; [|eauto]. destruct (kind_eqb (p_kind p) Real); [|eauto].
    destruct (total_value_total m (p_cost p)) as (v & ->); [|cbn; eauto].
    specialize (Ht p Hp). unfold good_posting in Ht. destruct (p_cost p); auto. apply Ht.
  - cbn. eauto.
Qed.

Definition raw_result : Type := list (txn posting) * list (txn rposting) * list price.
(** What [txn_of_raw] gives for a transaction of the journal. *)
Definition raw_ok (w : world) (al : alist account) (pays : alist payee) (cs : alist currency)
           (t : txn rposting) (r : raw_result) : Prop :=
  match t_type t with
  | TReal => exists t' prs d, r = ([t'], [], prs) /\ t_date t = Some d /\ reads_txn w al pays cs t t' /\ t_type t' = TReal /\
      good_txn t' /\ (forall p, In p (t_postings t') -> p_origin p = FromTransaction) /\
      Forall2 (implied_price w cs d) (filter has_cost (t_postings t)) prs
  | TAutomated => r = ([], [t], [])
  | TPeriodic => False
  end.
Lemma in_all_postings t p ts : In t ts -> In p (t_postings t) -> In p (all_postings ts).
Proof. intros H1 H2. unfold all_postings. apply in_flat_map. eauto. Qed.
Lemma txn_of_raw_spec w l cs al pays accs t :
  world_ok w -> names_ok w l cs al pays -> Permutation accs (l_values al) ->
  In t (pl_txns l) -> rtxn_ok t ->
  (exists r, txn_of_raw w accs al pays cs t = Ok r /\ raw_ok w al pays cs t r) \/
  (txn_of_raw w accs al pays cs t = Panic PDivZero /\ exists p, In p (t_postings t) /\ zero_total_cost p).
Proof.
  intros Hw Hn Hperm Hin Hok. unfold txn_of_raw, raw_ok. unfold rtxn_ok in Hok. destruct (t_type t).
  - destruct Hok as [(d & Ed) (pay & Hps)]. rewrite Ed. cbn [unwrap bind].
    set (f := posting_of_raw w accs al pays cs d (t_desc t) (flat_map get_tags (t_comments t))).
    rewrite Forall_forall in Hps.
    assert (F := fun p Hp => posting_of_raw_spec w l cs al pays accs d (t_desc t) (flat_map get_tags (t_comments t)) pay p
                  Hw Hn Hperm (in_all_postings t p _ Hin Hp) (Hps p Hp)).
    fold f in F.
    destruct (mapM_or f PDivZero (t_postings t)) as [(ys & E & F2)|(E & p & Hp & Ep)].
    + intros p Hp. destruct (F p Hp) as [(p' & prs & E & _)|(E & _)]; eauto.
    + left. rewrite E. cbn [bind].
      assert (G : (Forall2 (reads_posting w al pays cs) (t_postings t) (map fst ys) /\
                   Forall2 (fun p p' => p_tags p' = written_tags (t_comments t) p) (t_postings t) (map fst ys)) /\
                  Forall good_posting (map fst ys) /\
                  Forall (fun p => p_origin p = FromTransaction) (map fst ys) /\
                  Forall2 (implied_price w cs d) (filter has_cost (t_postings t)) (flat_map snd ys)).
      { clear E Hps. revert F. induction F2 as [|p [p1 prs1] ps ys E F2 IH]; intros F; cbn.
        - repeat split; constructor.
        - destruct IH as (I1 & I2 & I3 & I4); [intros; apply F; right; auto|].
          destruct (F p (or_introl eq_refl)) as [(p' & prs & E' & (R & Rt) & G & O & P)|(E' & _)]; [|congruence].
          rewrite E in E'. inv E'. destruct I1 as [I1 I1t].
          split; [split; constructor; auto; unfold written_tags; rewrite flat_map_app; exact Rt|]. repeat (split; [constructor; auto|]).
          unfold has_cost at 1. destruct (rp_cost p) as [k|].
          + destruct P as (pr & -> & P). cbn. constructor; auto.
          + rewrite P. cbn. auto. }
      destruct G as ((G1 & G1t) & G2 & G3 & G4).
      match goal with |- context [is_balanced ?t'] => set (t2 := t') end.
      assert (Gt : good_txn t2). { unfold good_txn. apply Forall_forall. exact G2. }
      destruct (is_balanced_total t2 Gt) as (b & ->). cbn [bind].
      eexists. split; [reflexivity|]. exists t2, (flat_map snd ys), d.
      split; auto. split; auto. split; [split; [cbn; unfold header; cbn; rewrite Ed; reflexivity|split; [exact G1|split; [exact G1t|reflexivity]]]|].
      split; auto. split; auto. split; [apply Forall_forall; exact G3|exact G4].
    + right. rewrite E. split; auto. exists p. split; auto. destruct (F p Hp) as [(p' & prs & E' & _)|(_ & Z)]; auto. congruence.
  - left. eauto.
  - contradiction.
Qed.
Lemma price_of_spec w l cs al pays p : names_ok w l cs al pays -> In p (pl_prices l) ->
  exists pr, price_of w cs p = Ok pr /\ directive_price w cs p pr.
Proof.
  intros [_ _ _ _ _ _ R1 _ _] Hp.
  destruct (R1 (pp_commodity p)) as (x & Ex & _). { apply commodity_names_iff. left. eauto. }
  destruct (R1 (pp_other p)) as (y & Ey & _). { apply commodity_names_iff. left. eauto. }
  unfold price_of. rewrite (get_unwrap_ok _ _ _ _ Ex), (get_unwrap_ok _ _ _ _ Ey). cbn.
  eexists. split; [reflexivity|]. exists x, y. auto 10.
Qed.

(** ** The first phases together *)
Record read_ok (w : world) (l : pledger) (cs : alist currency) (al : alist account) (pays : alist payee)
       (prices1 : list price) (raw : list raw_result) : Prop := {
  ro_names : names_ok w l cs al pays;
  ro_prices : Forall2 (directive_price w cs) (pl_prices l) prices1;
  ro_raw : Forall2 (raw_ok w al pays cs) (pl_txns l) raw;
}.
Definition read_phase (w : world) (l : pledger) :=
  cs <- foldM (ensure_cur w) (pl_commodities l) (w_ord w 0 _ (commodity_names l)) ;;
  al <- foldM (ensure_acc w) (pl_accounts l) (w_ord w 1 _ (account_names l)) ;;
  pays <- foldM (payee_step w (w_ord w 3 _ (l_values (pl_payees l)))) (pl_payees l)
                (w_ord w 2 _ (payee_names l)) ;;
  prices1 <- mapM (price_of w cs) (pl_prices l) ;;
  raw <- mapM (txn_of_raw w (w_ord w 4 _ (l_values al)) al pays cs) (pl_txns l) ;;
  Ok (cs, al, pays, prices1, raw).
Definition balance_phase (w : world) (skip : bool) (r : alist currency * alist account * alist payee * list price * list raw_result)
  : res ledger :=
  let '(cs, al, pays, prices1, raw) := r in
  let ts := sort_txns (flat_map (fun x : raw_result => fst (fst x)) raw) in
  let autos := flat_map (fun x : raw_result => snd (fst x)) raw in
  let prices2 := prices1 ++ flat_map snd raw in
  '(ts1, _, prices3) <- balance_all w 8 skip ts (fresh_balances al) prices2 ;;
  match autos with
  | [] => Ok {| lg_accounts := al; lg_commodities := cs; lg_txns := ts1; lg_prices := prices3;
                lg_payees := pays |}
  | _ :: _ =>
      nodes <- mapM (fun a => build_root w (get_filter_query a)) autos ;;
      '(ts2, s) <- auto_all w (combine nodes autos) ts1
                            {| as_accs := al; as_curs := cs; as_pays := pays |} ;;
      '(ts3, _, prices4) <- balance_all w (8 + 2 * length ts) skip ts2 (fresh_balances (as_accs s)) prices3 ;;
      Ok {| lg_accounts := as_accs s; lg_commodities := as_curs s; lg_txns := ts3; lg_prices := prices4;
            lg_payees := as_pays s |}
  end.
Lemma to_ledger_phases w skip l : to_ledger w skip l = (r <- read_phase w l ;; balance_phase w skip r).
Proof.
  unfold to_ledger, read_phase. destruct (foldM (ensure_cur w) _ _); cbn [bind]; auto.
  destruct (foldM (ensure_acc w) _ _); cbn [bind]; auto.
  destruct (foldM (payee_step w _) _ _); cbn [bind]; auto.
  destruct (mapM (price_of w _) _); cbn [bind]; auto.
  destruct (mapM (txn_of_raw w _ _ _ _) _); cbn [bind]; auto.
Qed.
Lemma Forall2_impl_in {A B} (P Q : A -> B -> Prop) l l' :
  Forall2 P l l' -> (forall x y, In x l -> P x y -> Q x y) -> Forall2 Q l l'.
Proof.
  induction 1; intros Hi; constructor; auto.
  - apply Hi; [left|]; auto.
  - apply IHForall2. intros. apply Hi; [right|]; auto.
Qed.
Lemma read_phase_spec w l : world_ok w -> journal_ok w l ->
  (exists cs al pays prices1 raw, read_phase w l = Ok (cs, al, pays, prices1, raw) /\
      read_ok w l cs al pays prices1 raw) \/
  (read_phase w l = Panic PDivZero /\
   exists t p, In t (pl_txns l) /\ In p (t_postings t) /\ zero_total_cost p).
Proof.
  intros Hw J. pose proof (jo_txns _ _ J) as Ht.
  destruct (names_exist w l Hw J) as (cs & al & pays & E1 & E2 & E3 & N).
  unfold read_phase. rewrite E1. cbn [bind]. rewrite E2. cbn [bind]. rewrite E3. cbn [bind].
  assert (P : exists prices1, mapM (price_of w cs) (pl_prices l) = Ok prices1).
  { apply mapM_total. intros p Hp. destruct (price_of_spec _ _ _ _ _ _ N Hp) as (pr & -> & _). eauto. }
  destruct P as (prices1 & EP). rewrite EP. cbn [bind].
  rewrite Forall_forall in Ht.
  assert (F := fun t Hi => txn_of_raw_spec w l cs al pays (w_ord w 4 _ (l_values al)) t Hw N (proj1 Hw _ _ _) Hi (Ht t Hi)).
  destruct (mapM_or (txn_of_raw w (w_ord w 4 _ (l_values al)) al pays cs) PDivZero (pl_txns l)) as [(raw & E & F2)|(E & t & Hi & Et)].
  - intros t Hi. destruct (F t Hi) as [(r & E & _)|(E & _)]; eauto.
  - left. exists cs, al, pays, prices1, raw. rewrite E. cbn [bind]. split; auto. constructor; auto.
    + apply mapM_ok_Forall2 in EP. eapply Forall2_impl_in; [exact EP|]. cbn. intros p pr Hp E'.
      destruct (price_of_spec _ _ _ _ _ _ N Hp) as (pr' & E'' & D). congruence.
    + eapply Forall2_impl_in; [exact F2|]. cbn. intros t r Hi E'.
      destruct (F t Hi) as [(r' & E'' & R)|(E'' & _)]; congruence.
  - right. rewrite E. split; auto. destruct (F t Hi) as [(r & E' & _)|(_ & p & Hp & Z)]; [congruence|]. eauto.
Qed.

(** ** Prices implied by exchanges *)
Lemma qc_div_pos x y : (0 < x -> 0 < y -> 0 < x / y)%Qc.
Proof.
  unfold Qclt. intros Hx Hy. unfold Qcdiv, Qcinv, Qcmult. cbn [this Q2Qc] in *. rewrite !Qred_correct.
  apply Qlt_shift_div_l; [exact Hy|]. rewrite Qmult_0_l. exact Hx.
Qed.
Lemma two_entries_two_left b c1 a1 c2 a2 : wf_bal b -> nz_bal b -> b = [(Some c1, M a1 c1); (Some c2, M a2 c2)] ->
  two_left (bal_amt b) c1 c2 /\ bal_amt b c1 = a1 /\ bal_amt b c2 = a2.
Proof.
  intros W Z E.
  assert (E1 : bal_amt b c1 = a1 /\ a1 <> 0%Qc) by (apply nz_entry_iff; auto; rewrite E; left; auto).
  assert (E2 : bal_amt b c2 = a2 /\ a2 <> 0%Qc) by (apply nz_entry_iff; auto; rewrite E; right; left; auto).
  destruct E1 as [E1 N1], E2 as [E2 N2]. split; [|auto]. split.
  - intros ->. destruct W as [W _]. rewrite E in W. inv W. apply H1. left. auto.
  - rewrite E1, E2. split; auto. split; auto. intros x H1 H2. rewrite E. unfold bal_amt. cbn.
    destruct (str_eqb_spec c1 x); [congruence|]. destruct (str_eqb_spec c2 x); [congruence|]. ring.
Qed.
Lemma two_left_entries b c d : wf_bal b -> nz_bal b -> two_left (bal_amt b) c d -> length b = 2%nat.
Proof.
  intros W Z (Hcd & Hc & Hd & Ho).
  assert (P : Permutation b [(Some c, M (bal_amt b c) c); (Some d, M (bal_amt b d) d)]).
  { apply NoDup_Permutation.
    - destruct W as [W _]. apply NoDup_map_inv in W. auto.
    - constructor; [|constructor; [intros []|constructor]]. intros [E|[]]. inv E. congruence.
    - intros e. split.
      + intros Hi. destruct (nz_entry_shape _ _ W Z Hi) as (x & a & ->). apply (nz_entry_iff _ _ _ W Z) in Hi.
        destruct Hi as [Ha Hn]. destruct (str_eq_dec x c); [subst; left; auto|].
        destruct (str_eq_dec x d); [subst; right; left; auto|]. rewrite Ho in Ha by auto. congruence.
      + intros [<-|[<-|[]]]; apply (nz_entry_iff _ _ _ W Z); auto. }
  apply Permutation_length in P. auto.
Qed.
Lemma implicit_price_spec date b b' :
  (is_sum b \/ b = bal_new) -> can_be_zero b = true -> Permutation b' b ->
  exists prs, implicit_price date b' = Ok prs /\ exchange_price (Some date) (bal_amt b) prs.
Proof.
  intros Hs Hz Hp.
  assert (WZ : wf_bal b /\ nz_bal b). { destruct Hs as [Hs| ->]; [apply is_sum_wf; auto|split; [apply wf_nil|constructor]]. }
  destruct WZ as [W Z].
  assert (W' : wf_bal b') by (eapply wf_perm; [exact W|symmetry; auto]).
  assert (Z' : nz_bal b'). { unfold nz_bal in *. rewrite Forall_forall in *. intros e He. apply Z. eapply Permutation_in; eauto. }
  assert (A : forall c, bal_amt b' c = bal_amt b c) by (intros; apply bal_amt_perm; auto).
  assert (TL : forall c d, two_left (bal_amt b) c d -> length b' = 2%nat).
  { intros c d H. rewrite (Permutation_length Hp). eapply two_left_entries; eauto. }
  unfold implicit_price. destruct b' as [|[k1 m1] [|[k2 m2] [|e3 r]]].
  - exists []. split; auto. left. split; auto. intros c d H. apply TL in H. discriminate.
  - exists []. split; auto. left. split; auto. intros c d H. apply TL in H. discriminate.
  - destruct (nz_entry_shape _ (k1, m1) W' Z' (or_introl eq_refl)) as (c1 & a1 & E1). inv E1.
    destruct (nz_entry_shape _ (k2, m2) W' Z' (or_intror (or_introl eq_refl))) as (c2 & a2 & E2). inv E2.
    destruct (two_entries_two_left _ _ _ _ _ W' Z' eq_refl) as ((H1 & H2 & H3 & H4) & B1 & B2).
    assert (Hfine : fine (bal_amt b)).
    { apply (can_be_zero_fine b); auto. destruct Hs as [Hs| ->]; [apply is_sum_built; auto|constructor]. }
    rewrite A in B1, B2, H2, H3. 
    assert (Opp : (0 < a1 /\ a2 < 0)%Qc \/ (a1 < 0 /\ 0 < a2)%Qc).
    { destruct Hfine as [Hb|((p & Hpos) & (n & Hneg))]; [rewrite Hb in H2; congruence|].
      assert (Kp : p = c1 \/ p = c2).
      { destruct (str_eq_dec p c1); auto. destruct (str_eq_dec p c2); auto. rewrite <- A, H4 in Hpos by auto. exfalso; qlra. }
      assert (Kn : n = c1 \/ n = c2).
      { destruct (str_eq_dec n c1); auto. destruct (str_eq_dec n c2); auto. rewrite <- A, H4 in Hneg by auto. exfalso; qlra. }
      destruct Kp as [->| ->], Kn as [->| ->]; rewrite ?B1, ?B2 in Hpos; rewrite ?B1, ?B2 in Hneg;
        first [left; split; assumption | right; split; assumption | exfalso; clear -Hpos Hneg; qlra]. }
    assert (AB : exists x y, m_abs (M a1 c1) = M x c1 /\ m_abs (M a2 c2) = M y c2 /\ (0 < x)%Qc /\ (0 < y)%Qc /\
               ((x = a1 /\ y = - a2) \/ (x = - a1 /\ y = a2))%Qc).
    { unfold m_abs, m_is_negative. cbn. destruct (qc_neg_spec a1), (qc_neg_spec a2); do 2 eexists; 
        (split; [reflexivity|]; split; [reflexivity|]); destruct Opp as [[O1 O2]|[O1 O2]]; try (exfalso; qlra);
        (split; [qlra|]; split; [qlra|auto]). }
    destruct AB as (x & y & -> & -> & X & Y & XY). cbn [m_commodity unwrap bind m_amount].
    destruct (qc_eqb_spec x 0%Qc) as [E|E]; [exfalso; qlra|].
    eexists. split; [reflexivity|]. right. eexists. split; [reflexivity|]. cbn [pr_com pr_cur pr_date pr_amount].
    split; [|split; [auto|split]].
    + split; auto. split; auto. split; auto. intros z Z1 Z2. rewrite <- A. auto.
    + apply qc_div_pos; auto.
    + rewrite B1, B2. destruct XY as [[-> ->]|[-> ->]]; field; auto.
  - exists []. split; auto. left. split; auto. intros c d H. apply TL in H. discriminate.
Qed.

(** ** Balancing all transactions *)
Lemma exchange_price_ext d v v' prs : (forall c, v c = v' c) -> exchange_price d v prs -> exchange_price d v' prs.
Proof.
  intros E [(H1 & H2)|(pr & H1 & (T1 & T2 & T3 & T4) & H3 & H4 & H5)].
  - left. split; auto. intros c d' (T1 & T2 & T3 & T4). apply (H2 c d'). unfold two_left. rewrite !E.
    split; auto. split; auto. split; auto. intros x X1 X2. rewrite E. auto.
  - right. exists pr. rewrite !E in *. split; auto. split; [|auto]. unfold two_left.
    split; auto. split; auto. split; auto. intros x X1 X2. rewrite <- E. auto.
Qed.
Lemma one_txn ord skip t bals b t' bals' date es :
  order_ok ord -> good_bals bals -> good_txn t -> t_date t = Some date ->
  spec_verdict skip t (run_amt bals) Accepted ->
  txn_balance ord skip t bals = Ok (b, t', bals') -> Permutation es b ->
  exists prs, implicit_price date es = Ok prs /\ ledger_txn skip (run_amt bals) t t' prs.
Proof.
  intros Ho Hg Ht Hd Hv H Hp.
  assert (HA : skip = false -> forall k1 p k2 a c, t_postings t' = k1 ++ p :: k2 -> p_kind p = Real -> p_balance p = Some (M a c) ->
     (run_amt bals (p_account p) c + account_sum (k1 ++ [p]) (p_account p) c = a)%Qc).
  { intros -> k1 p k2 a c. eapply C14_assertions_enforced; eauto. }
  assert (HS : skip = false -> assigned (run_amt bals) t t').
  { intros -> pre p post bal Ep Hr Em Eb. destruct (C15_assignment _ _ _ _ _ _ _ _ _ _ Ho Hg Ht Ep Hr Em Eb H) as (before & p' & after & m & X1 & X2 & X3 & X4 & X5).
    exists before, p', after, m. do 4 (split; [assumption|]). intros c. apply X5. }
  pose proof (txn_balance_accepted _ _ _ _ _ _ _ Ho Hg Ht H) as [Hh (kept & fills & E & Hk & _ & Hm) _ _ _ _].
  assert (V : forall c, group_value Real (t_postings t') c = (group_value Real kept c + group_value Real fills c)%Qc).
  { intros c. rewrite E, !group_value_app, group_value_non_real. ring. }
  destruct (filter (elided skip) (t_postings t)) as [|p [|p2 r]] eqn:Ef; [| |contradiction].
  - destruct Hm as (-> & Hf & Hb & Hs).
    assert (V' : forall c, bal_amt b c = group_value Real (t_postings t') c).
    { intros c. rewrite V, Hb. cbn. ring. }
    assert (Hz : can_be_zero b = true).
    { apply (can_be_zero_fine b (bal_amt b)); auto.
      - destruct Hs as [Hs| ->]; [apply is_sum_built; auto|constructor].
      - apply (fine_ext _ _ Hb). exact Hf. }
    destruct (implicit_price_spec date b es Hs Hz Hp) as (prs & Hi & Hx). exists prs. split; auto.
    split; auto. split; auto. split; [|split; [|split; [auto|split; [|auto]]]].
    + exists kept, []. cbn in E. split; auto. split; auto. split; [intros q []|congruence].
    + apply (fine_ext _ _ V'). apply (fine_ext _ _ Hb). exact Hf.
    + rewrite Hd. eapply exchange_price_ext; [exact V'|exact Hx].
  - destruct Hm as (-> & amounts & -> & Hnd & Ham).
    assert (V0 : forall c, group_value Real (t_postings t') c = 0%Qc).
    { destruct (C11_elided_filled _ _ _ _ _ _ _ _ Ho Hg Ht Ef H) as (? & ? & _ & _ & _ & _ & _ & _ & Hz). exact Hz. }
    assert (es = []) as ->. { apply Permutation_sym in Hp. apply Permutation_nil in Hp. auto. }
    exists []. split; auto. split; auto. split; auto. split; [|split; [|split; [auto|split; [|auto]]]].
    + exists kept, (map (fun ac => fill_posting t (p_account p) (p_payee p) (M (fst ac) (snd ac))) amounts).
      split; auto. split; auto. split.
      { intros q Hq. apply in_map_iff in Hq. destruct Hq as (x & <- & _).
        cbn. repeat (split; [try discriminate; auto|]). exists p. auto 6. }
      intros _. rewrite map_map. cbn [p_amount fill_posting]. split.
      { clear -Hnd. induction amounts as [|[q c] l IH]; [constructor|].
        cbn in *. inv Hnd. constructor; auto. intros Hi. apply in_map_iff in Hi. destruct Hi as ([q' c'] & E & Hi).
        cbn in E. inv E. apply H1. apply in_map_iff. exists (q, c). auto. }
      intros m. rewrite in_map_iff. split.
      { intros ([q c] & X & Hi). cbn in X. inv X. apply Ham in Hi. exists q, c. tauto. }
      intros (q & c & -> & X & Hn). exists (q, c). split; auto. apply Ham. auto.
    + left. exact V0.
    + left. split; auto. intros c d (_ & Hc & _). apply Hc. apply V0.
Qed.

Lemma balance_all_spec w skip : world_ok w -> forall ts site bals prices,
  good_bals bals -> Forall good_txn ts -> Forall (fun t => t_date t <> None) ts ->
  (forall t p, In t ts -> In p (t_postings t) -> known bals (p_account p)) ->
  (exists ts' bals' prs, balance_all w site skip ts bals prices = Ok (ts', bals', prices ++ prs) /\
     ledger_run skip (run_amt bals) ts ts' prs /\ good_bals bals') \/
  (exists e v, balance_all w site skip ts bals prices = Err e /\ verdict_error v e /\ stopped_run skip (run_amt bals) ts v).
Proof.
  intros Hw. induction ts as [|t ts IH]; intros site bals prices Hg HF HD Hk; cbn [balance_all].
  - left. exists [], bals, []. rewrite app_nil_r. split; auto. split; auto. constructor.
  - inv HF. inv HD. destruct (t_date t) as [d|] eqn:Ed; [|congruence]. cbn [unwrap bind].
    assert (Ho : order_ok (w_ord w site (bkey * money)%type)) by (intros x; apply (proj1 Hw)).
    destruct (verdict_correct (w_ord w site (bkey * money)%type) skip t bals Hg H1) as [(v & Hv) Hall].
    { intros p Hp. eapply Hk; eauto. left. auto. }
    specialize (Hall v Hv). destruct v; cbn in Hall.
    + destruct Hall as (r & E). destruct r as [[b t'] bals']. rewrite E. cbn [bind].
      destruct (one_txn _ skip t bals b t' bals' d (w_ord w (S site) (bkey * money)%type b) Ho Hg H1 Ed Hv E (proj1 Hw _ _ _)) as (prs & Ei & LT).
      rewrite Ei. cbn [bind]. pose proof (txn_balance_accepted _ _ _ _ _ _ _ Ho Hg H1 E) as [_ _ G2 K2 R2 _].
      destruct (IH (S (S site)) bals' (prices ++ prs) G2 H2 H4) as [(ts' & bals'' & prs' & E2 & LR & G3)|(e & v & E2 & He & Hs)].
      { intros t0 p Ht0 Hp. apply K2. eapply Hk; eauto. right. auto. }
      * left. rewrite E2. cbn [bind]. exists (t' :: ts'), bals'', (prs ++ prs'). rewrite app_assoc. split; auto.
        split; auto. econstructor; eauto.
      * right. rewrite E2. cbn. exists e, v. split; auto. split; auto. eapply sr_later; eauto.
    + right. rewrite Hall. cbn. eexists _, NotBalanced. split; [reflexivity|]. split; [reflexivity|]. apply sr_here; auto. discriminate.
    + right. rewrite Hall. cbn. eexists _, (TooManyElided n). split; [reflexivity|]. split; [reflexivity|]. apply sr_here; auto. discriminate.
Qed.
Lemma run_headers skip run ts ts' prs : ledger_run skip run ts ts' prs -> Forall2 same_header ts ts'.
Proof. induction 1; constructor; auto. apply H. Qed.
