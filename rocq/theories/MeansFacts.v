(** Facts for C94: journals with the same transactions in which the names mean the same. *)
From Coq Require Import Lia.
From Verif Require Import Base BaseFacts Numerals Money Alist Comment Txn Expr Filter Price Tokens Ledger Reports Spec MoneyFacts SpecList SpecTxn TxnFacts SpecLedger AlistFacts JournalFacts
  LedgerFacts LedgerFacts2 EvalFacts SpecBook SpecSame SameFacts SpecMeans.
Open Scope Qc_scope.

(** ** Lists in which names mean the same *)
Section Lists.
  Context {T : Type} (w : world) (name : T -> str) (aliases : T -> list str) (mk : str -> T).
  Context (mk_name : forall n, name (mk n) = n) (mk_aliases : forall n, aliases (mk n) = []).
  Definition nm (k : str) (l : alist T) : str := match l_get w k l with Ok e => name e | _ => k end.
  Definition means (U : str -> Prop) (l l' : alist T) : Prop :=
    buildable w name aliases l /\ buildable w name aliases l' /\ forall k, U k -> nm k l' = nm k l.
  Lemma nm_got k l e : l_get w k l = Ok e -> nm k l = name e.
  Proof using Type. unfold nm. intros ->. auto. Qed.
  Lemma nm_not k l : (forall x, l_get w k l <> Ok x) -> nm k l = k.
  Proof using Type. unfold nm. intros H. destruct (l_get w k l) eqn:E; auto. edestruct H; eauto. Qed.
  Lemma nm_insert n l k : buildable w name aliases l -> (forall x, l_get w n l <> Ok x) ->
    nm k (l_insert w name aliases (mk n) l) = if str_eqb (w_lower w k) (w_lower w n) then n else nm k l.
  Proof using mk_name mk_aliases.
    intros B N. assert (N' : forall x, l_get w (name (mk n)) l <> Ok x) by (rewrite mk_name; auto).
    destruct (insert_new_grows w name aliases (mk n) l B N' (mk_aliases n)) as [[G _] (x & R & _)]. rewrite mk_name in R.
    assert (Ex : x = mk n). { destruct (insert_new_get w name aliases (mk n) l n x B N' (mk_aliases n) R) as [Y|[_ Y]]; auto. edestruct N; eauto. }
    subst x. destruct (str_eqb_spec (w_lower w k) (w_lower w n)) as [E|E].
    - rewrite (nm_got k _ (mk n)); [apply mk_name|]. eapply get_lower; [symmetry; exact E|exact R].
    - destruct (lwf_get_cases w name k l (buildable_lwf _ _ _ _ B)) as [(e & _ & K)|K].
      + rewrite (nm_got _ _ _ K), (nm_got _ _ _ (G _ _ K)). auto.
      + rewrite (nm_not k l) by (intros; congruence). apply nm_not. intros y Y.
        destruct (insert_new_get w name aliases (mk n) l k y B N' (mk_aliases n) Y) as [Z|[Z _]]; [congruence|]. rewrite mk_name in Z. congruence.
  Qed.
  Definition put (n : str) (l : alist T) : alist T := match l_get w n l with Ok _ => l | _ => l_insert w name aliases (mk n) l end.
  Lemma nm_put n l k : buildable w name aliases l -> nm k (put n l) = if str_eqb (w_lower w k) (w_lower w n) then nm n l else nm k l.
  Proof using mk_name mk_aliases.
    intros B. unfold put. destruct (lwf_get_cases w name n l (buildable_lwf _ _ _ _ B)) as [(e & _ & K)|K]; rewrite K.
    - destruct (str_eqb_spec (w_lower w k) (w_lower w n)) as [E|E]; auto. rewrite (nm_got _ _ _ K). apply nm_got. eapply get_lower; [symmetry; exact E|exact K].
    - assert (N : forall x, l_get w n l <> Ok x) by (intros; congruence). rewrite (nm_not n l N). apply nm_insert; auto.
  Qed.
  Lemma put_built n l : buildable w name aliases l -> buildable w name aliases (put n l).
  Proof using Type. intros B. unfold put. destruct (l_get w n l); auto; apply buildable_insert; auto. Qed.
  Lemma put_grows n l : buildable w name aliases l -> grows w l (put n l) /\ resolves w (put n l) n.
  Proof using mk_name mk_aliases.
    intros B. unfold put. destruct (lwf_get_cases w name n l (buildable_lwf _ _ _ _ B)) as [(e & I & K)|K]; rewrite K.
    - split; [apply grows_refl|exists e; auto].
    - destruct (insert_new_grows w name aliases (mk n) l B) as [G R]; auto; [rewrite mk_name; congruence|]. rewrite mk_name in R. auto.
  Qed.
  Lemma put_means (U : str -> Prop) n l l' : U n -> means U l l' -> means U (put n l) (put n l').
  Proof using mk_name mk_aliases.
    intros Un (B & B' & H). split; [apply put_built; auto|]. split; [apply put_built; auto|]. intros k Uk. rewrite !nm_put by auto.
    destruct (str_eqb _ _); auto.
  Qed.
  Lemma ensure_is_put n l : buildable w name aliases l -> ensure w (l_insert w name aliases) mk l n = Ok (put n l).
  Proof using Type. intros B. unfold ensure, put. destruct (lwf_get_cases w name n l (buildable_lwf _ _ _ _ B)) as [(e & I & K)|K]; rewrite K; auto. Qed.
  (** A name that both lists know. *)
  Lemma means_got (U : str -> Prop) k l l' e : U k -> means U l l' -> l_get w k l = Ok e -> resolves w l' k -> exists e', l_get w k l' = Ok e' /\ name e' = name e.
  Proof using Type.
    intros Uk (_ & _ & H) E (e' & E' & _). exists e'. split; auto. specialize (H k Uk). rewrite (nm_got _ _ _ E), (nm_got _ _ _ E') in H. auto.
  Qed.
  Lemma means_unwrap (U : str -> Prop) k l l' : U k -> means U l l' -> resolves w l k -> resolves w l' k ->
    exists e e', get_unwrap w k l = Ok e /\ get_unwrap w k l' = Ok e' /\ name e' = name e /\ In e (l_values l) /\ In e' (l_values l').
  Proof using Type.
    intros Uk M (e & E & I) (e' & E' & I'). exists e, e'. unfold get_unwrap. rewrite E, E'. repeat (split; auto).
    destruct M as (_ & _ & H). specialize (H k Uk). rewrite (nm_got _ _ _ E), (nm_got _ _ _ E') in H. auto.
  Qed.
End Lists.
Arguments nm {T}. Arguments means {T}. Arguments put {T}.

(** ** Expressions *)
Definition cmeans (w : world) (U : str -> Prop) (cs cs' : alist currency) : Prop := means w cu_name cu_aliases U cs cs'.
Definition evsame (w : world) (U : str -> Prop) {A} : A * alist currency -> A * alist currency -> Prop :=
  fun x y => fst x = fst y /\ cmeans w U (snd x) (snd y).
Lemma money_is_put w cur q cs : buildable w cu_name cu_aliases cs ->
  match l_get w cur cs with
  | Ok c => Ok (VMoney (M q (cu_name c)), cs)
  | Err _ => Ok (VMoney (M q cur), cur_insert w (currency_from cur) cs)
  | Panic e => Panic e
  end = Ok (VMoney (M q (nm w cu_name cur cs)), put w cu_name cu_aliases currency_from cur cs).
Proof. intros B. unfold nm, put. destruct (lwf_get_cases w cu_name cur cs (buildable_lwf _ _ _ _ B)) as [(c & _ & E)|E]; rewrite E; reflexivity. Qed.
Lemma eval_means w (U : str -> Prop) t : forall n, (forall c, names_commodity n c -> U c) -> forall p cs cs', cmeans w U cs cs' ->
  agree (evsame w U) (eval w n p t cs) (eval w n p t cs').
Proof.
  induction n as [| | | | |q|cur q|op n IH|op a IHa b IHb|rx|s]; intros HU p cs cs' S; cbn [eval]; try (split; auto; fail).
  - destruct (p_amount p); cbn; [split; auto|auto].
  - destruct (p_payee p); cbn; [split; auto|auto].
  - destruct (t_date t); cbn; [split; auto|auto].
  - assert (Uc : U cur) by (apply HU; reflexivity). pose proof S as (B & B' & G). rewrite !money_is_put by auto. cbn. rewrite (G cur Uc).
    split; auto. cbn. apply put_means; auto.
  - eapply agree_bind; [apply IH; auto|]. intros [v c] [v' c'] [Ev Sc]. cbn [fst snd] in *. subst v'.
    assert (K : agree (evsame w U) (r <- eval_unary w p op v ;; Ok (r, c)) (r <- eval_unary w p op v ;; Ok (r, c'))).
    { destruct (eval_unary w p op v); cbn; [split; auto|auto|auto]. }
    destruct op; try exact K.
    eapply (agree_bind (evsame w U)).
    { clear K. revert c c' Sc. induction (t_postings t) as [|p0 ps IHp]; intros c c' Sc; cbn [any_loop]; [split; auto|]. eapply agree_bind; [apply IH; auto|].
      intros [x d] [x' d'] [Ex Sd]. cbn in Ex, Sd. subst x'. destruct x as [| |[|]| | | | | |]; try reflexivity; [split; auto|apply IHp; auto]. }
    intros [b1 c1] [b2 c2] [Eb Sb]. cbn in *. subst. split; auto.
  - eapply agree_bind; [apply IHa; cbn in HU; auto|]. intros [v c] [v' c'] [Ev Sc]. cbn [fst snd] in *. subst v'.
    eapply agree_bind; [apply IHb; cbn in HU; auto|]. intros [u d] [u' d'] [Eu Sd]. cbn [fst snd] in *. subst u'.
    destruct (eval_binary w t op v u); cbn; [split; auto|auto|auto].
Qed.
Lemma filter_expression_means w (U : str -> Prop) n p t cs cs' : (forall c, names_commodity n c -> U c) -> cmeans w U cs cs' ->
  agree (evsame w U) (filter_expression w n p t cs) (filter_expression w n p t cs').
Proof.
  intros HU S. unfold filter_expression. eapply agree_bind; [apply eval_means; eauto|]. intros [v c] [v' c'] [E Sc]. cbn in E, Sc. subst v'. destruct v; cbn; try reflexivity. split; auto.
Qed.
Lemma filter_posting_means w (U : str -> Prop) op n t p cs cs' : (forall m c, n = Some m -> names_commodity m c -> U c) -> cmeans w U cs cs' ->
  agree (evsame w U) (filter_posting w op n t p cs) (filter_posting w op n t p cs').
Proof.
  intros HU S. unfold filter_posting. destruct (_ && _); [split; auto|].
  destruct (match o_end op with Some d => _ | None => _ end) as [ae|e|x]; cbn [bind]; try reflexivity. destruct ae; [split; auto|].
  destruct (match o_begin op with Some d => _ | None => _ end) as [bb|e|x]; cbn [bind]; try reflexivity. destruct bb; [split; auto|].
  destruct n as [n|]; [|split; auto]. apply filter_expression_means; eauto.
Qed.
Lemma select_means w (U : str -> Prop) op n ts : (forall m c, n = Some m -> names_commodity m c -> U c) -> forall cs cs', cmeans w U cs cs' ->
  agree (evsame w U) (select_txns w op n ts cs) (select_txns w op n ts cs').
Proof.
  intros HU. assert (P : forall t ps cs cs', cmeans w U cs cs' -> agree (evsame w U) (select_postings w op n t ps cs) (select_postings w op n t ps cs')).
  { intros t. induction ps as [|p ps IH]; intros cs cs' S; cbn [select_postings]; [split; auto|]. eapply agree_bind; [apply filter_posting_means; eauto|].
    intros [b c] [b' c'] [E Sc]. cbn [fst snd] in *. subst b'. eapply agree_bind; [apply IH; auto|]. intros [l d] [l' d'] [E Sd]. cbn in *. subst l'. split; auto. }
  induction ts as [|t ts IH]; intros cs cs' S; cbn [select_txns]; [split; auto|]. eapply agree_bind; [apply P; auto|].
  intros [b c] [b' c'] [E Sc]. cbn [fst snd] in *. subst b'. eapply agree_bind; [apply IH; auto|]. intros [l d] [l' d'] [E Sd]. cbn in *. subst l'. split; auto.
Qed.

(** ** Reports *)
Definition pmeans (w : world) (U : str -> Prop) (l l' : alist payee) : Prop := means w py_name py_aliases U l l'.
Lemma get_payee_is_put w d l : world_ok w -> buildable w py_name py_aliases l -> get_payee w d l = Ok (nm w py_name d l, put w py_name py_aliases payee_from d l).
Proof.
  intros W B. unfold get_payee, nm, put. destruct (lwf_get_cases w py_name d l (buildable_lwf _ _ _ _ B)) as [(y & _ & E)|E]; rewrite E; [reflexivity|].
  change {| py_name := d; py_aliases := []; py_regexes := []; py_note := None; py_directive := false |} with (payee_from d). unfold pay_insert.
  assert (N : forall x, l_get w d l <> Ok x) by (intros; congruence).
  pose proof (nm_insert w py_name py_aliases payee_from (fun _ => eq_refl) (fun _ => eq_refl) d l d B N) as K. rewrite str_eqb_refl in K.
  destruct (put_grows w py_name py_aliases payee_from (fun _ => eq_refl) (fun _ => eq_refl) d l B) as [_ (x & R & _)]. unfold put in R. rewrite E in R.
  rewrite R. rewrite (nm_got w py_name d _ x R) in K. rewrite K. reflexivity.
Qed.
Lemma register_means w (U : str -> Prop) sel : world_ok w -> Forall (fun x => U (t_desc (fst x))) sel -> forall site b l l', pmeans w U l l' ->
  register_txns w site sel b l = register_txns w site sel b l'.
Proof.
  intros W. assert (P : forall t, U (t_desc t) -> forall ps site first b l l', pmeans w U l l' ->
     agree (fun x y => fst x = fst y /\ pmeans w U (snd x) (snd y)) (register_postings w site t first ps b l) (register_postings w site t first ps b l')).
  { intros t Ut. induction ps as [|p ps IH]; intros site first b l l' S; cbn [register_postings]; [split; auto|].
    eapply (agree_bind (fun x y => fst x = fst y /\ pmeans w U (snd x) (snd y))).
    { destruct first; [|split; auto]. destruct (t_date t); [|reflexivity]. cbn [unwrap bind]. pose proof S as (B & B' & G). rewrite !get_payee_is_put by auto. cbn. rewrite (G _ Ut).
      split; auto. cbn. apply put_means; auto. }
    intros [h l1] [h' l1'] [E S1]. cbn in E, S1. subst h'. destruct (p_amount p); [|reflexivity]. cbn [unwrap bind]. eapply agree_bind; [apply IH; exact S1|].
    intros [[rows b2] l2] [[rows' b2'] l2'] [E S2]. cbn in E, S2. injection E as <- <-. split; auto. }
  induction sel as [|[t ps] sel IH]; intros F site b l l' S; cbn [register_txns]; [reflexivity|]. inversion F as [|? ? F1 F2]; subst. apply agree_eq.
  eapply agree_bind; [apply P; auto|]. intros [[rows b1] l1] [[rows' b1'] l1'] [E S1]. cbn in E, S1. injection E as <- <-. rewrite (IH F2 _ _ _ _ S1). apply agree_eq. reflexivity.
Qed.
