(** Evaluating an expression: what it does to the list of commodities. *)
From Coq Require Import Lia.
From Verif Require Import Base BaseFacts Numerals Money Alist Comment Txn Peg Grammar Dates Expr Filter Tokens Price
  Ledger SpecList AlistFacts LedgerFacts Reports.

Section EvalFacts.
  Context (w : world).
  Let bld := buildable w cu_name cu_aliases.

  (** The commodities named in money literals, in order of evaluation. *)
  Fixpoint lits (n : node) : list str :=
    match n with
    | NMoney cur _ => [cur]
    | NUnary _ c => lits c
    | NBinary _ a b => lits a ++ lits b
    | _ => []
    end.
  Definition reg1 (cs : alist currency) (n : str) : alist currency :=
    match l_get w n cs with Err _ => cur_insert w (currency_from n) cs | _ => cs end.
  Definition reg (ns : list str) (cs : alist currency) : alist currency := fold_left reg1 ns cs.

  Lemma reg1_ok cs n : bld cs -> bld (reg1 cs n) /\ grows w cs (reg1 cs n) /\
    exists c, l_get w n (reg1 cs n) = Ok c /\ match l_get w n cs with Ok c' => c = c' | _ => c = currency_from n end.
  Proof.
    intros B. unfold reg1. destruct (lwf_get_cases w cu_name n cs (buildable_lwf _ _ _ _ B)) as [(c & Hi & E)|E]; rewrite E.
    - split; auto. split; [apply grows_refl|]. exists c. auto.
    - destruct (insert_new_grows w cu_name cu_aliases (currency_from n) cs B) as [G R]; auto.
      + cbn. rewrite E. discriminate.
      + split; [apply buildable_insert; auto|]. split; auto. exists (currency_from n). split; auto.
        unfold cur_insert. cbn [currency_from cu_name] in R |- *. destruct R as (c & R & _).
        unfold l_insert in *. cbn [cu_name currency_from] in *.
        destruct (hget str_eqb (w_lower w n) (l_list cs)) eqn:E2.
        * unfold l_get in E. rewrite E2 in E. discriminate.
        * unfold l_get. cbn [l_list]. rewrite (hget_hset_same _ str_eqb_spec). auto.
  Qed.
  Lemma reg_ok ns : forall cs, bld cs -> bld (reg ns cs) /\ grows w cs (reg ns cs).
  Proof.
    induction ns as [|n ns IH]; intros cs B; cbn.
    - split; auto. apply grows_refl.
    - destruct (reg1_ok cs n B) as (B1 & G1 & _). destruct (IH _ B1) as [B2 G2]. split; auto. eapply grows_trans; eauto.
  Qed.
  Lemma reg_app a b cs : reg (a ++ b) cs = reg b (reg a cs).
  Proof. apply fold_left_app. Qed.

  (** The same answer, leaving the list [cs2]. *)
  Definition at_list {A} (cs2 : alist currency) (r : res (A * alist currency)) : res (A * alist currency) :=
    match r with Ok (v, _) => Ok (v, cs2) | Err e => Err e | Panic x => Panic x end.

  Lemma any_loop_same ev cs cs2 : forall ps,
    (forall p, In p ps -> ev p cs2 = at_list cs2 (ev p cs)) -> (forall p v cs', ev p cs = Ok (v, cs') -> cs' = cs) ->
    any_loop ev ps cs2 = at_list cs2 (any_loop ev ps cs).
  Proof.
    induction ps as [|p ps IH]; intros H1 H2; cbn; auto. rewrite H1 by (left; auto).
    destruct (ev p cs) as [[v cs']|e|x] eqn:E; cbn; auto. apply H2 in E. subst cs'.
    destruct v as [| |b| | | | | |]; auto. destruct b; auto. apply IH; auto. intros q Hq. apply H1. right. auto.
  Qed.
  Lemma any_loop_list ev cs : forall ps b cs', (forall p v cs', ev p cs = Ok (v, cs') -> cs' = cs) ->
    any_loop ev ps cs = Ok (b, cs') -> cs' = cs.
  Proof.
    induction ps as [|p ps IH]; cbn; intros b cs' H E; [congruence|]. destruct (ev p cs) as [[v c1]| |] eqn:E0; try discriminate. cbn in E.
    pose proof (H _ _ _ E0) as X. subst. destruct v as [| |b'| | | | | |]; try discriminate. destruct b'; [congruence|eauto].
  Qed.

  Lemma eval_reg : forall n p t cs cs2, bld cs -> grows w (reg (lits n) cs) cs2 ->
    eval w n p t cs2 = at_list cs2 (eval w n p t cs) /\
    (forall v cs1, eval w n p t cs = Ok (v, cs1) -> cs1 = reg (lits n) cs).
  Proof.
    induction n as [| | | | |q|cur q|op n IH|op a IHa b IHb|rx|s]; intros p t cs cs2 B G; cbn [eval lits] in *.
    - destruct (p_amount p); cbn; split; auto; intros ? ? E; congruence.
    - cbn; split; auto; intros ? ? E; congruence.
    - destruct (p_payee p); cbn; split; auto; intros ? ? E; congruence.
    - cbn; split; auto; intros ? ? E; congruence.
    - destruct (t_date t); cbn; split; auto; intros ? ? E; congruence.
    - cbn; split; auto; intros ? ? E; congruence.
    - destruct (reg1_ok cs cur B) as (B1 & G1 & c & E1 & E2).
      assert (E3 : l_get w cur cs2 = Ok c) by (apply G; auto). rewrite E3.
      destruct (lwf_get_cases w cu_name cur cs (buildable_lwf _ _ _ _ B)) as [(c' & Hi & E)|E]; rewrite E in *; subst c; cbn [at_list bind currency_from cu_name];
        (split; [auto|intros ? ? X; cbn [reg fold_left]; unfold reg1; rewrite E; congruence]).
    - destruct (reg_ok (lits n) cs B) as [B1 G1].
      assert (Ga : forall p, eval w n p t cs2 = at_list cs2 (eval w n p t cs)) by (intros p0; apply IH; auto).
      assert (Gb : forall p, eval w n p t cs2 = at_list cs2 (eval w n p t (reg (lits n) cs))).
      { intros p0. rewrite Ga. destruct (IH p0 t cs (reg (lits n) cs) B (grows_refl _ _)) as [X _]. rewrite X.
        destruct (eval w n p0 t cs) as [[v ?]| |]; auto. }
      assert (Gc : forall p v cs', eval w n p t (reg (lits n) cs) = Ok (v, cs') -> cs' = reg (lits n) cs).
      { intros p0 v cs'. destruct (IH p0 t cs (reg (lits n) cs) B (grows_refl _ _)) as [X _]. rewrite X.
        destruct (eval w n p0 t cs) as [[v' ?]| |]; cbn; congruence. }
      rewrite Ga. destruct (IH p t cs cs2 B G) as [_ Gd].
      destruct (eval w n p t cs) as [[v cs1]|e|x]; cbn; try (split; [auto|intros ? ? E; congruence]).
      specialize (Gd v cs1 eq_refl). subst cs1.
      destruct op; try (match goal with |- context [eval_unary w p ?o v] => destruct (eval_unary w p o v) end; cbn [bind at_list]; split; auto; intros ? ? E; congruence).
      rewrite (any_loop_same _ (reg (lits n) cs) cs2 (t_postings t)); auto.
      pose proof (any_loop_list (fun p' cs' => eval w n p' t cs') (reg (lits n) cs) (t_postings t)) as AL.
      destruct (any_loop _ _ _) as [[r cs1]|e|x]; cbn; try (split; [auto|intros ? ? E; congruence]).
      split; auto. intros v' cs' E. inv E. eapply AL; eauto.
    - rewrite reg_app in *. destruct (reg_ok (lits a) cs B) as [B1 G1]. destruct (reg_ok (lits b) _ B1) as [B2 G2].
      destruct (IHa p t cs cs2 B (grows_trans _ _ _ _ G2 G)) as [Ea La]. destruct (IHb p t (reg (lits a) cs) cs2 B1 G) as [Eb Lb].
      rewrite Ea. destruct (eval w a p t cs) as [[va cs1]|e|x]; cbn; try (split; [auto|intros ? ? E; congruence]).
      rewrite (La va cs1 eq_refl). rewrite Eb.
      destruct (eval w b p t (reg (lits a) cs)) as [[vb cs3]|e|x]; cbn; try (split; [auto|intros ? ? E; congruence]).
      rewrite (Lb vb cs3 eq_refl). destruct (eval_binary w t op va vb); cbn; split; auto; intros ? ? E; congruence.
    - cbn; split; auto; intros ? ? E; congruence.
    - cbn; split; auto; intros ? ? E; congruence.
  Qed.

  (** Filtering: the same answer in every list reached by earlier evaluations. *)
  Definition olits (n : option node) : list str := match n with Some n => lits n | None => [] end.
  Lemma filter_reg o n t p cs cs2 : bld cs -> grows w (reg (olits n) cs) cs2 ->
    filter_posting w o n t p cs2 = at_list cs2 (filter_posting w o n t p cs) /\
    (forall b cs1, filter_posting w o n t p cs = Ok (b, cs1) -> cs1 = cs \/ cs1 = reg (olits n) cs).
  Proof.
    intros B G. unfold filter_posting.
    destruct (o_real o && _); [split; auto; intros ? ? E; left; congruence|].
    destruct (match o_end o with Some d => _ | None => _ end) as [ae|e|x]; cbn; try (split; [auto|intros; discriminate]).
    destruct ae; [split; auto; intros ? ? E; left; congruence|].
    destruct (match o_begin o with Some d => _ | None => _ end) as [bb|e|x]; cbn; try (split; [auto|intros; discriminate]).
    destruct bb; [split; auto; intros ? ? E; left; congruence|].
    destruct n as [n|]; [|split; auto; intros ? ? E; left; congruence].
    unfold filter_expression. destruct (eval_reg n p t cs cs2 B G) as [E1 E2]. rewrite E1.
    destruct (eval w n p t cs) as [[v cs1]|e|x]; cbn; try (split; [auto|intros; discriminate]).
    rewrite (E2 v cs1 eq_refl). destruct v; cbn [bind at_list]; split; auto; intros; try discriminate. right. cbn [olits] in *. match goal with H : Ok _ = Ok _ |- _ => injection H as <- <- end. auto.
  Qed.

  (** Reachable lists during the filtering of a journal with the query [n]. *)
  Definition between (n : option node) (cs cs' : alist currency) : Prop := cs' = cs \/ cs' = reg (olits n) cs.
  Lemma reg_idem n cs : bld cs -> reg (lits n) (reg (lits n) cs) = reg (lits n) cs.
  Proof.
    intros B. assert (H : forall ns l, (forall x, In x ns -> exists c, l_get w x l = Ok c) -> reg ns l = l).
    { induction ns as [|x ns IH]; intros l H; cbn; auto. unfold reg1 at 2. destruct (H x (or_introl eq_refl)) as (c & ->). apply IH. intros; apply H; right; auto. }
    apply H. revert cs B. induction (lits n) as [|m ns IH]; intros cs B x; [intros []|]. cbn [reg fold_left].
    destruct (reg1_ok cs m B) as (B1 & G1 & c & E1 & _). intros [<-|Hx].
    - exists c. apply (reg_ok ns _ B1). auto.
    - apply IH; auto.
  Qed.
  Lemma filter_between o n t p cs cs1 : bld cs -> between n cs cs1 ->
    match filter_posting w o n t p cs with
    | Ok (b, _) => exists cs2, filter_posting w o n t p cs1 = Ok (b, cs2) /\ between n cs cs2
    | Err e => filter_posting w o n t p cs1 = Err e
    | Panic x => filter_posting w o n t p cs1 = Panic x
    end.
  Proof.
    intros B [-> | ->].
    - destruct (filter_reg o n t p cs (reg (olits n) cs) B (grows_refl _ _)) as [_ E].
      destruct (filter_posting w o n t p cs) as [[b cs2]|e|x]; auto. exists cs2. split; auto. destruct (E b cs2 eq_refl) as [-> | ->]; [left|right]; auto.
    - destruct (filter_reg o n t p cs (reg (olits n) cs) B (grows_refl _ _)) as [E _]. rewrite E.
      destruct (filter_posting w o n t p cs) as [[b cs2]|e|x]; cbn; auto. exists (reg (olits n) cs). split; auto. right. auto.
  Qed.
End EvalFacts.
