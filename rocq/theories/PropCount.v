(** C96: numbers of things. *)
From Coq Require Import Lia.
From Verif Require Import Base BaseFacts Numerals Money Alist Comment Txn Expr Filter Price Tokens Ledger Reports App Spec MoneyFacts SpecList AlistFacts PropAlist SpecTxn TxnFacts SpecLedger
  TokenFacts JournalFacts LedgerFacts LedgerFacts2 LedgerFacts3 PropTxn PropLedger Count SpecCount.
Open Scope nat_scope.

Lemma how_many_one {A} (P : A -> Prop) n m : how_many P n -> how_many P m -> n = m.
Proof.
  intros (xs & N & X & <-) (ys & N' & Y & <-). apply Permutation_length. apply NoDup_Permutation; auto. intros x. rewrite X, Y. tauto.
Qed.
Lemma how_many_iff {A} (P Q : A -> Prop) n : (forall x, P x <-> Q x) -> how_many P n -> how_many Q n.
Proof. intros E (xs & N & X & H). exists xs. split; auto. split; auto. intros x. rewrite X. apply E. Qed.

Section Lists.
  Context {T : Type} (w : world) (name : T -> str) (aliases : T -> list str).
  Notation lower := (w_lower w).
  Definition counted (h : list (op T)) (l : alist T) : Prop :=
    NoDup (hkeys (l_list l)) /\ NoDup (hkeys (l_aliases l)) /\ (forall k, In k (hkeys (l_list l)) <-> exists e, In (Insert e) h /\ lower (name e) = k) /\
    (forall a, In a (hkeys (l_aliases l)) -> exists s, lower s = a).
  Lemma fold_alias_keys (nm : str) als : forall m a, In a (hkeys (fold_left (fun m a => hset str_eqb (lower a) nm m) als m)) -> (exists s, lower s = a) \/ In a (hkeys m).
  Proof using Type.
    induction als as [|b als IH]; intros m a H; cbn [fold_left] in H; auto. apply IH in H. destruct H as [H|H]; auto.
    apply (In_hkeys_hset _ str_eqb_spec) in H. destruct H as [->|H]; eauto.
  Qed.
  Lemma perform_counted h : forall l, perform w name aliases h = Ok l -> counted h l.
  Proof using Type.
    unfold perform. induction h as [|o h IH] using rev_ind; intros l H.
    - inv H. split; [constructor|]. split; [constructor|]. split; [|intros a []]. intros k. split; [intros []|intros (e & [] & _)].
    - rewrite foldM_app in H. bind_inv H. simpl in H. bind_inv H. inv H. destruct (IH _ Hb) as (N & NA & K & A). clear IH Hb. destruct o as [e|b e].
      + inv Hb0. assert (K' : forall k, (exists e0, In (Insert e0) (h ++ [Insert e]) /\ lower (name e0) = k) <-> k = lower (name e) \/ In k (hkeys (l_list a))).
        { intros k. rewrite K. split.
          - intros (e0 & Hi & <-). apply in_app_or in Hi. destruct Hi as [Hi|[Hi|[]]]; [right; eauto|inv Hi; auto].
          - intros [->|(e0 & Hi & <-)]; [exists e|exists e0]; split; auto; apply in_or_app; cbn; auto. }
        unfold l_insert. destruct (hget str_eqb (lower (name e)) (l_list a)) eqn:G.
        * split; auto. split; auto. split; auto. intros k. rewrite K'. split; auto. intros [->|]; auto. apply (hget_Some_key _ str_eqb_spec). eauto.
        * split; [apply (NoDup_hset _ str_eqb_spec); auto|]. split; [apply NoDup_fold_alias; auto|]. split.
          -- intros k. rewrite K'. cbn [l_list]. apply (In_hkeys_hset _ str_eqb_spec).
          -- cbn [l_aliases]. intros a0 Ha. apply fold_alias_keys in Ha. destruct Ha; auto.
      + unfold l_add_alias in Hb0. destruct (hget str_eqb (lower b) (l_aliases a)) eqn:G; inv Hb0. split; auto. split; [apply (NoDup_hset _ str_eqb_spec); auto|]. split.
        * intros k. cbn [l_list]. rewrite K. split; intros (e0 & Hi & <-); exists e0; split; auto; [apply in_or_app; auto|]. apply in_app_or in Hi. destruct Hi as [|[Hi|[]]]; auto. discriminate Hi.
        * cbn [l_aliases]. intros a0 Ha. apply (In_hkeys_hset _ str_eqb_spec) in Ha. destruct Ha as [->|Ha]; eauto.
  Qed.
  (** The length of a list is the number of different names that were inserted, up to letter case. *)
  Theorem C96_elements : forall h l, perform w name aliases h = Ok l -> how_many (fun k => exists e, In (Insert e) h /\ w_lower w (name e) = k) (l_len l).
  Proof using Type.
    intros h l H. destruct (perform_counted h l H) as (N & _ & K & _). exists (hkeys (l_list l)). split; auto. split; auto. apply map_length.
  Qed.
  (** The length with aliases is that and the number of different aliases that stand for something. *)
  Theorem C96_aliases : forall h l n, perform w name aliases h = Ok l ->
    how_many (fun k => exists a, alias_owner w name aliases a [] h <> None /\ w_lower w a = k) n -> l_len_alias l = l_len l + n.
  Proof using Type.
    intros h l n H X. destruct (perform_counted h l H) as (_ & N & _ & K). destruct (perform_tracks w name aliases h l H) as [_ T2].
    assert (Y : how_many (fun k => exists a, alias_owner w name aliases a [] h <> None /\ w_lower w a = k) (length (l_aliases l))).
    { exists (hkeys (l_aliases l)). split; auto. split; [|apply map_length]. intros k.
      assert (Z : forall a, In (lower a) (hkeys (l_aliases l)) <-> alias_owner w name aliases a [] h <> None).
      { intros a. specialize (T2 a). rewrite (hget_Some_key _ str_eqb_spec), T2. destruct (alias_owner w name aliases a [] h); cbn; split; [discriminate|eauto|intros (v & E); discriminate E|congruence]. }
      split.
      - intros Hk. destruct (K k Hk) as (a & <-). exists a. split; auto. apply Z. auto.
      - intros (a & Ha & <-). apply Z. auto. }
    unfold l_len_alias. rewrite (how_many_one _ _ _ X Y). lia.
  Qed.
  (** What was said twice counts once when lists are merged. *)
  Theorem C96_merged : forall l other, world_ok w -> buildable w name aliases l -> buildable w name aliases other ->
    how_many (fun k => exists e, (In e (l_values l) \/ In e (l_values other)) /\ w_lower w (name e) = k) (l_len (l_append l other)).
  Proof using Type.
    intros l other Hw B B'. assert (W : lwf w name (l_append l other)) by (apply (buildable_lwf w name aliases); constructor; auto).
    exists (hkeys (l_list (l_append l other))). split; [apply (lwf_nd _ _ _ W)|]. split; [|apply map_length]. intros k. split.
    - intros Hk. destruct (lwf_get w name k _ W Hk) as (e & _ & -> & Hv). exists e. split; auto. apply (C23_elements w name aliases l other e Hw B B') in Hv. tauto.
    - assert (In' : forall e, In e (l_values (l_append l other)) -> In (lower (name e)) (hkeys (l_list (l_append l other)))).
      { intros e He. apply (hget_Some_key _ str_eqb_spec). exists e. apply lwf_value; auto. }
      intros (e & [He|He] & <-); [|apply In', (C23_elements w name aliases l other e Hw B B'); auto].
      destruct (existsb (fun y => same_name w (name e) (name y)) (l_values other)) eqn:X.
      + apply existsb_exists in X as (y & Hy & E). destruct (same_name_spec w (name e) (name y)) as [E'|]; [|discriminate]. rewrite E'. apply In', (C23_elements w name aliases l other y Hw B B'). auto.
      + apply In', (C23_elements w name aliases l other e Hw B B'). right. split; auto. intros y Hy. destruct (same_name w (name e) (name y)) eqn:E; auto.
        assert (Z : existsb (fun y => same_name w (name e) (name y)) (l_values other) = true) by (apply existsb_exists; eauto). congruence.
  Qed.
End Lists.
Print Assumptions C96_elements.
Print Assumptions C96_aliases.
Print Assumptions C96_merged.

(** A journal with what an included one says: names count once, transactions, prices and comments all count, tags of the
    included one do not. *)
Theorem C96_included : forall w a b na np nc, world_ok w ->
  buildable w ac_name ac_aliases (pl_accounts a) -> buildable w ac_name ac_aliases (pl_accounts b) ->
  buildable w py_name py_aliases (pl_payees a) -> buildable w py_name py_aliases (pl_payees b) ->
  buildable w cu_name cu_aliases (pl_commodities a) -> buildable w cu_name cu_aliases (pl_commodities b) ->
  how_many (fun k => exists e, (In e (l_values (pl_accounts a)) \/ In e (l_values (pl_accounts b))) /\ w_lower w (ac_name e) = k) na ->
  how_many (fun k => exists e, (In e (l_values (pl_payees a)) \/ In e (l_values (pl_payees b))) /\ w_lower w (py_name e) = k) np ->
  how_many (fun k => exists e, (In e (l_values (pl_commodities a)) \/ In e (l_values (pl_commodities b))) /\ w_lower w (cu_name e) = k) nc ->
  pl_len (pl_append a b) = na + np + nc + (length (pl_txns a) + length (pl_txns b)) + (length (pl_prices a) + length (pl_prices b)) +
    (length (pl_comments a) + length (pl_comments b)) + length (pl_tags a).
Proof.
  intros w a b na np nc Hw A A' P P' C C' HA HP HC. unfold pl_len, pl_append. cbn [pl_accounts pl_payees pl_commodities pl_txns pl_prices pl_comments pl_tags]. rewrite !app_length.
  rewrite (how_many_one _ _ _ HA (C96_merged w ac_name ac_aliases _ _ Hw A A')), (how_many_one _ _ _ HP (C96_merged w py_name py_aliases _ _ Hw P P')),
    (how_many_one _ _ _ HC (C96_merged w cu_name cu_aliases _ _ Hw C C')). reflexivity.
Qed.
Print Assumptions C96_included.

(** The depth of an account is the number of parts of its name. *)
Theorem C96_depth : forall a parts, parts <> [] -> (forall p, In p parts -> ~ In c_colon p) -> ac_name a = with_colons parts -> ac_depth a = length parts.
Proof.
  intros a parts NE NC E. unfold ac_depth. rewrite E. clear E.
  assert (Z : forall p, ~ In c_colon p -> filter (fun c => (c =? c_colon)%N) p = []).
  { intros p. induction p as [|c p IH]; intros H; auto. cbn [filter]. destruct (N.eqb_spec c c_colon); [exfalso; apply H; subst; left; auto|]. apply IH. intros X. apply H. right. auto. }
  induction parts as [|p [|q r] IH]; [congruence| |].
  - cbn [with_colons length]. rewrite Z by (apply NC; left; auto). reflexivity.
  - cbn [with_colons length] in *. rewrite !filter_app, !app_length. rewrite Z by (apply NC; left; auto).
    specialize (IH ltac:(discriminate) ltac:(intros x Hx; apply NC; right; exact Hx)). cbn in IH |- *. lia.
Qed.
Print Assumptions C96_depth.
Example C96_depth_case : ac_depth (ex_acc (L "Assets:Bank:Savings") []) = 3 /\ with_colons [L "Assets"; L "Bank"; L "Savings"] = L "Assets:Bank:Savings".
Proof. split; reflexivity. Qed.

(** ** Postings without an amount *)
Lemma positions_counted (f : posting -> bool) (P : posting -> Prop) ps : (forall p, f p = true <-> P p) -> how_many (position_of ps P) (length (filter f ps)).
Proof.
  intros F. induction ps as [|p ps (xs & N & X & E)].
  - exists []. split; [constructor|]. split; auto. intros i. split; [intros []|]. intros (q & H & _). destruct i; discriminate.
  - set (ys := map S xs). assert (NY : NoDup ys). { apply FinFun.Injective_map_NoDup; auto. intros x y Hxy. congruence. }
    assert (Y : forall i, In i ys <-> exists j, i = S j /\ position_of ps P j).
    { intros i. unfold ys. rewrite in_map_iff. split; intros (j & H1 & H2); exists j; [split; auto; apply X; auto|split; auto; apply X; auto]. }
    cbn [filter]. destruct (f p) eqn:Fp.
    + exists (0 :: ys). split; [constructor; auto; intros H; apply Y in H as (j & H & _); discriminate|]. split; [|cbn; unfold ys; rewrite map_length, E; auto]. intros i. cbn [In]. rewrite Y. split.
      * intros [<-|(j & -> & q & H1 & H2)]; [exists p; split; auto; apply F; auto|exists q; auto].
      * intros (q & H1 & H2). destruct i as [|i]; auto. right. exists i. split; auto. exists q. auto.
    + exists ys. split; auto. split; [|unfold ys; rewrite map_length; auto]. intros i. rewrite Y. split.
      * intros (j & -> & q & H1 & H2). exists q. auto.
      * intros (q & H1 & H2). destruct i as [|i]; [|exists i; split; auto; exists q; auto]. exfalso. cbn in H1. inv H1. apply F in H2. congruence.
Qed.
(** [num_empty_postings] is the number of postings left out.  A transaction is accepted only if at most one of them is
    real; the virtual ones are then what is still left out. *)
Theorem C96_left_out : forall t, how_many (position_of (t_postings t) left_out) (num_empty_postings t).
Proof.
  intros t. apply positions_counted. intros p. unfold left_out. destruct (p_amount p), (p_balance p); cbn; split; intros H; try discriminate; auto; destruct H; discriminate.
Qed.
Print Assumptions C96_left_out.
Definition empty_posting (p : posting) : bool :=
  match p_amount p with None => true | Some _ => false end && match p_balance p with None => true | Some _ => false end.
Lemma empty_iff p : empty_posting p = true <-> left_out p.
Proof. unfold empty_posting, left_out. destruct (p_amount p), (p_balance p); cbn; split; intros H; try discriminate; auto; destruct H; discriminate. Qed.
Lemma filter_none {A} (f : A -> bool) l : (forall x, In x l -> f x = false) -> filter f l = [].
Proof. induction l as [|x l IH]; intros H; auto. cbn. rewrite (H x (or_introl eq_refl)). apply IH. intros; apply H; right; auto. Qed.
Theorem C96_balanced : forall ord skip t bals b t' bals' n m, order_ok ord -> good_bals bals -> good_txn t -> txn_balance ord skip t bals = Ok (b, t', bals') ->
  how_many (position_of (t_postings t) (fun p => left_out p /\ p_kind p = Real)) n ->
  how_many (position_of (t_postings t) (fun p => left_out p /\ p_kind p <> Real)) m ->
  n <= 1 /\ num_empty_postings t = n + m /\ num_empty_postings t' = m.
Proof.
  intros ord skip t bals b t' bals' n m Ho Hg Ht H HN HM. apply txn_balance_accepted in H; auto. destruct H as [_ (kept & fills & Hp & Hk & _ & Hm) _ _ _ _].
  assert (KR : forall k, kind_eqb k Real = true <-> k = Real) by (intros []; cbn; split; congruence).
  assert (N : n = length (filter (fun p => empty_posting p && kind_eqb (p_kind p) Real) (t_postings t))).
  { eapply how_many_one; [exact HN|]. apply positions_counted. intros p. rewrite andb_true_iff, empty_iff, KR. tauto. }
  assert (M' : m = length (filter (fun p => empty_posting p && negb (kind_eqb (p_kind p) Real)) (t_postings t))).
  { eapply how_many_one; [exact HM|]. apply positions_counted. intros p. rewrite andb_true_iff, empty_iff, negb_true_iff, <- not_true_iff_false, KR. tauto. }
  split; [|split].
  - assert (LE : n <= length (filter (elided skip) (t_postings t))).
    { rewrite N. generalize (t_postings t). intros ps. induction ps as [|p ps IH]; auto. cbn [filter].
      assert (I : empty_posting p && kind_eqb (p_kind p) Real = true -> elided skip p = true).
      { rewrite andb_true_iff, empty_iff, KR. unfold left_out, elided. intros ((-> & ->) & ->). auto. }
      destruct (empty_posting p && kind_eqb (p_kind p) Real); [rewrite I by auto; cbn; lia|]. destruct (elided skip p); cbn; lia. }
    destruct (filter (elided skip) (t_postings t)) as [|p [|q r]]; cbn in LE; [lia|lia|destruct Hm].
  - change (num_empty_postings t) with (length (filter empty_posting (t_postings t))). rewrite N, M'. generalize (t_postings t). intros ps. induction ps as [|p ps IH]; auto. cbn [filter].
    destruct (empty_posting p), (kind_eqb (p_kind p) Real); cbn [andb negb length]; rewrite ?IH; lia.
  - change (num_empty_postings t') with (length (filter empty_posting (t_postings t'))). rewrite Hp, !filter_app.
    assert (E1 : filter empty_posting kept = []).
    { apply filter_none. intros q Hq. clear -Hk Hq. induction Hk as [|p p' ps ps' H F IH]; [destruct Hq|]. destruct Hq as [<-|Hq]; auto.
      destruct H as (_ & _ & _ & _ & _ & _ & _ & A & _). unfold empty_posting. destruct (p_amount p'); [auto|congruence]. }
    assert (E2 : filter empty_posting fills = []).
    { apply filter_none. intros q Hq. destruct (filter (elided skip) (t_postings t)) as [|p [|x r]]; [destruct Hm as (-> & _); destruct Hq| |destruct Hm].
      destruct Hm as (_ & am & -> & _). apply in_map_iff in Hq as (x & <- & _). reflexivity. }
    rewrite E1, E2, M'. cbn [app]. unfold non_real. generalize (t_postings t). intros ps. induction ps as [|p ps IH]; auto. cbn [filter].
    destruct (kind_eqb (p_kind p) Real); cbn [negb filter]; [rewrite andb_false_r; auto|]. rewrite andb_true_r. destruct (empty_posting p); cbn [length]; auto.
Qed.
Print Assumptions C96_balanced.

(** ** Cases *)
(** Bank and cash, the former once more in capitals; the aliases b and Cash of Bank, and y; BANK does not get its alias x. *)
Example C96_list_case : perform w0 ac_name ac_aliases ex_ops = Ok ex_list /\ l_len ex_list = 2 /\ l_len_alias ex_list = 5 /\
  how_many (fun k => exists a, alias_owner w0 ac_name ac_aliases a [] ex_ops <> None /\ w_lower w0 a = k) 3.
Proof.
  split; [reflexivity|]. split; [reflexivity|]. split; [reflexivity|]. exists [L "b"; L "cash"; L "y"].
  split; [repeat constructor; cbn; intros H; repeat (destruct H as [H|H]; [discriminate H|]); exact H|]. split; [|reflexivity].
  assert (OW : forall a, alias_owner w0 ac_name ac_aliases a [] ex_ops <> None <-> In (w_lower w0 a) [L "b"; L "cash"; L "y"]).
  { intros a. destruct (perform_tracks w0 ac_name ac_aliases ex_ops ex_list eq_refl) as [_ T]. specialize (T a).
    change (hkeys (l_aliases ex_list)) with [L "b"; L "cash"; L "y"] || idtac.
    assert (K : In (w_lower w0 a) (hkeys (l_aliases ex_list)) <-> alias_owner w0 ac_name ac_aliases a [] ex_ops <> None).
    { rewrite (hget_Some_key _ str_eqb_spec), T. destruct (alias_owner w0 ac_name ac_aliases a [] ex_ops); cbn; split; [discriminate|eauto|intros (v & E); discriminate E|congruence]. }
    rewrite <- K. reflexivity. }
  intros k. split.
  - intros [<-|[<-|[<-|[]]]]; [exists (L "b")|exists (L "Cash")|exists (L "y")]; (split; [|reflexivity]); apply OW; cbn; auto.
  - intros (a & Ha & <-). apply OW. auto.
Qed.
Definition book96 (names payees commodities : list str) (ts : list (txn rposting)) (tags : list tagdir) : pledger :=
  {| pl_accounts := fold_left (fun l n => acc_insert w0 (account_from n) l) names l_new;
     pl_payees := fold_left (fun l n => pay_insert w0 (payee_from n) l) payees l_new;
     pl_commodities := fold_left (fun l n => cur_insert w0 (currency_from n) l) commodities l_new;
     pl_txns := ts; pl_prices := []; pl_comments := [L "a comment"]; pl_tags := tags |}.
Lemma inserted {T} w (name : T -> str) aliases (mk : str -> T) ns : forall l, buildable w name aliases l -> buildable w name aliases (fold_left (fun l n => l_insert w name aliases (mk n) l) ns l).
Proof. induction ns as [|n ns IH]; intros l B; auto. cbn [fold_left]. apply IH. constructor. auto. Qed.
(** Two journals that share the account a and the commodity EUR. *)
Example C96_included_case : let a := book96 [L "a"; L "b"] [L "shop"] [L "EUR"] [] [] in let b := book96 [L "A"; L "c"] [L "job"] [L "eur"; L "USD"] [] [] in
  buildable w0 ac_name ac_aliases (pl_accounts a) /\ buildable w0 ac_name ac_aliases (pl_accounts b) /\ buildable w0 py_name py_aliases (pl_payees a) /\
  buildable w0 py_name py_aliases (pl_payees b) /\ buildable w0 cu_name cu_aliases (pl_commodities a) /\ buildable w0 cu_name cu_aliases (pl_commodities b) /\
  how_many (fun k => exists e, (In e (l_values (pl_accounts a)) \/ In e (l_values (pl_accounts b))) /\ w_lower w0 (ac_name e) = k) 3 /\
  pl_len a = 5 /\ pl_len b = 6 /\ pl_len (pl_append a b) = 9.
Proof.
  cbv zeta. split; [apply (inserted w0 ac_name ac_aliases account_from); constructor|]. split; [apply (inserted w0 ac_name ac_aliases account_from); constructor|].
  split; [apply (inserted w0 py_name py_aliases payee_from); constructor|]. split; [apply (inserted w0 py_name py_aliases payee_from); constructor|].
  split; [apply (inserted w0 cu_name cu_aliases currency_from); constructor|]. split; [apply (inserted w0 cu_name cu_aliases currency_from); constructor|].
  split; [|repeat split]. exists [L "a"; L "b"; L "c"].
  split; [repeat constructor; cbn; intros H; repeat (destruct H as [H|H]; [discriminate H|]); exact H|]. split; [|reflexivity]. intros k. split.
  - intros [<-|[<-|[<-|[]]]]; [exists (account_from (L "a"))|exists (account_from (L "b"))|exists (account_from (L "c"))]; (split; [cbn; auto|reflexivity]).
  - intros (e & [[<-|[<-|[]]]|[<-|[<-|[]]]] & <-); cbn; auto.
Qed.
(** One real posting without an amount, and a bracketed one. *)
Definition t96 : txn posting := ex_txn [ex_posting acA (e_ 5) None None Real; ex_posting acB None None None Real; ex_posting acE None None None VirtualMustBalance].
Example C96_balanced_case : order_ok ord_id /\ good_bals ex_bals /\ good_txn t96 /\ num_empty_postings t96 = 2 /\
  exists b t' bals', txn_balance ord_id false t96 ex_bals = Ok (b, t', bals') /\ num_empty_postings t' = 1.
Proof.
  split; [exact ord_id_ok|]. split; [exact ex_bals_good|]. split; [|split; [reflexivity|]].
  - intros p Hp. repeat (destruct Hp as [<-|Hp]; [vm_compute; auto|]); contradiction.
  - do 3 eexists. split; vm_compute; reflexivity.
Qed.
