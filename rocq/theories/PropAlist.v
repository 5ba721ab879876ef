(** C21-C25: the lists of accounts, commodities and payees, and memoised regex matching. *)
From Verif Require Import Base BaseFacts Alist SpecList AlistFacts Spec PropMoney SpecTxn PropTxn.

(** ** C21 Names and aliases are found regardless of case, first definition wins *)
Section C21.
  Context {T : Type} (w : world) (name : T -> str) (aliases : T -> list str).

  (** A name, in any letter case, finds the first element inserted under it, whatever aliases
      exist. *)
  Theorem C21_names_first h l index e :
    perform w name aliases h = Ok l ->
    first_named w name index h = Some e ->
    l_get w index l = Ok e.
  Proof.
    intros H F. apply perform_tracks in H. destruct H as [H1 _].
    unfold l_get. rewrite H1, F. auto.
  Qed.

  (** Otherwise an alias, in any letter case, finds the element its last giver named. *)
  Theorem C21_then_aliases h l index e e' :
    perform w name aliases h = Ok l ->
    first_named w name index h = None ->
    alias_owner w name aliases index [] h = Some e ->
    first_named w name (name e) h = Some e' ->
    l_get w index l = Ok e'.
  Proof.
    intros H F A F'. apply perform_tracks in H. destruct H as [H1 H2].
    unfold l_get. rewrite H1, F, H2, A. simpl. rewrite H1, F'. auto.
  Qed.

  (** Anything else is not found. *)
  Theorem C21_otherwise_not_found h l index :
    perform w name aliases h = Ok l ->
    first_named w name index h = None ->
    alias_owner w name aliases index [] h = None ->
    l_get w index l = Err (ELedger (AliasNotInList index)).
  Proof.
    intros H F A. apply perform_tracks in H. destruct H as [H1 H2].
    unfold l_get. rewrite H1, F, H2, A. auto.
  Qed.

  (** An insertion changes nothing for strings that spell neither the name nor an alias of the new
      element. *)
  Theorem C21_other_lookups_unaffected l e index :
    same_name w index (name e) = false ->
    existsb (same_name w index) (aliases e) = false ->
    (forall p, l_get w index l <> Panic p) ->
    l_get w index (l_insert w name aliases e l) = l_get w index l.
  Proof.
    intros Hn Ha Hp. unfold l_insert. destruct (hget str_eqb (w_lower w (name e)) (l_list l)) eqn:E; auto.
    unfold l_get in *. simpl. unfold same_name in *.
    rewrite (hget_hset _ str_eqb_spec), Hn. rewrite hget_fold_alias, Ha.
    destruct (hget str_eqb (w_lower w index) (l_list l)); auto.
    destruct (hget str_eqb (w_lower w index) (l_aliases l)) as [k|]; auto.
    destruct (hget str_eqb k (l_list l)) eqn:Ek; [|exfalso; eapply Hp; reflexivity].
    rewrite (hget_hset_other _ str_eqb_spec); [rewrite Ek; auto|]. intros ->. congruence.
  Qed.

  (** Inserting a name that is already there changes nothing at all. *)
  Theorem C21_second_definition_ignored h l e e' :
    perform w name aliases h = Ok l ->
    first_named w name (name e) h = Some e' ->
    l_insert w name aliases e l = l.
  Proof.
    intros H F. apply perform_tracks in H. destruct H as [H1 _].
    unfold l_insert. rewrite H1, F. auto.
  Qed.
End C21.
Print Assumptions C21_names_first.
Print Assumptions C21_then_aliases.
Print Assumptions C21_otherwise_not_found.
Print Assumptions C21_other_lookups_unaffected.
Print Assumptions C21_second_definition_ignored.

Definition ex_acc (n : str) (al : list str) : account :=
  {| ac_name := n; ac_aliases := al; ac_note := None; ac_isin := None; ac_check := [];
     ac_assert := []; ac_payees := []; ac_default := false; ac_directive := true |}.
Definition ex_ops : list (op account) :=
  [Insert (ex_acc (L "Bank") [L "b"; L "Cash"]); Insert (ex_acc (L "cash") []);
   Insert (ex_acc (L "BANK") [L "x"]); AddAlias (L "y") (ex_acc (L "CASH") [])].
Definition ex_list : alist account :=
  match perform w0 ac_name ac_aliases ex_ops with Ok l => l | _ => l_new end.
Example C21_ex_perform : perform w0 ac_name ac_aliases ex_ops = Ok ex_list.
Proof. reflexivity. Qed.
Example C21_ex_name : first_named w0 ac_name (L "CaSh") ex_ops = Some (ex_acc (L "cash") []).
Proof. reflexivity. Qed.
Example C21_ex_alias :
  first_named w0 ac_name (L "B") ex_ops = None /\
  alias_owner w0 ac_name ac_aliases (L "B") [] ex_ops = Some (ex_acc (L "Bank") [L "b"; L "Cash"]).
Proof. split; reflexivity. Qed.
Example C21_ex_none :
  first_named w0 ac_name (L "x") ex_ops = None /\ alias_owner w0 ac_name ac_aliases (L "x") [] ex_ops = None.
Proof. split; reflexivity. Qed.

(** ** C22 Lookups never hit a dangling alias *)
Section C22.
  Context {T : Type} (w : world) (name : T -> str) (aliases : T -> list str).
  Theorem C22_lookup_total l index :
    world_ok w -> buildable w name aliases l ->
    (exists e, In e (l_values l) /\ l_get w index l = Ok e) \/
    l_get w index l = Err (ELedger (AliasNotInList index)).
  Proof. intros Hw H. eapply lwf_get_cases. eapply buildable_lwf; eauto. Qed.

  Theorem C22_regex_lookup_total l rx :
    world_ok w -> buildable w name aliases l -> exists r l', l_get_regex w name rx l = Ok (r, l').
  Proof.
    intros Hw H. eapply lwf_regex_total; [|eapply buildable_lwf; eauto].
    apply Hw.
  Qed.
End C22.
Print Assumptions C22_lookup_total.
Print Assumptions C22_regex_lookup_total.
Example C22_ex : buildable w0 ac_name ac_aliases
  (l_append (l_insert w0 ac_name ac_aliases (ex_acc (L "Bank") [L "b"]) l_new)
            (l_insert w0 ac_name ac_aliases (ex_acc (L "Cash") [L "c"]) l_new)).
Proof. repeat constructor. Qed.
Example C22_ex_alias : exists l', 
  l_add_alias w0 ac_name (L "z") (ex_acc (L "Bank") [L "b"])
    (l_insert w0 ac_name ac_aliases (ex_acc (L "Bank") [L "b"]) l_new) = Ok l' /\
  buildable w0 ac_name ac_aliases l'.
Proof.
  eexists. split; [reflexivity|]. apply (buildable_alias w0 ac_name ac_aliases (L "z") (ex_acc (L "Bank") [L "b"])
    (l_insert w0 ac_name ac_aliases (ex_acc (L "Bank") [L "b"]) l_new)).
  - apply buildable_insert, buildable_new.
  - left. reflexivity.
  - reflexivity.
Qed.
(** Without the proviso the claim fails: an alias for an element that is not in the list dangles. *)
Example C22_needs_membership :
  (l <- l_add_alias w0 ac_name (L "z") (ex_acc (L "Bank") []) l_new ;; l_get w0 (L "z") l) = Panic PUnwrap.
Proof. reflexivity. Qed.

(** ** C23 Merging the lists of an included file *)
Section C23.
  Context {T : Type} (w : world) (name : T -> str) (aliases : T -> list str).
  Notation by_name l i := (hget str_eqb (w_lower w i) (l_list l)).
  Notation by_alias l i := (hget str_eqb (w_lower w i) (l_aliases l)).

  (** Every lookup that succeeds in the merged-in list gives the same element in the merged list,
      unless the string is a name of the receiving list and only an alias of the merged-in one. *)
  Theorem C23_merged_in_wins l other index e :
    world_ok w -> buildable w name aliases l -> buildable w name aliases other ->
    l_get w index other = Ok e ->
    (exists x, In x (l_values l) /\ same_name w index (name x) = true /\
               (forall y, In y (l_values other) -> same_name w index (name y) = false) /\
               l_get w index (l_append l other) = Ok x) \/
    l_get w index (l_append l other) = Ok e.
  Proof.
    intros Hw B B' H. pose proof (buildable_lwf w name aliases l B) as W.
    pose proof (buildable_lwf w name aliases other B') as W'.
    unfold l_get in *. simpl. rewrite !hget_fold_extend by apply W'.
    destruct (by_name other index) eqn:E; [right; auto|].
    destruct (by_name l index) eqn:E2.
    - left. exists t. repeat split; auto.
      + apply (hget_In _ str_eqb_spec) in E2. unfold l_values.
        change t with (snd (w_lower w index, t)). apply in_map. auto.
      + apply (hget_In _ str_eqb_spec) in E2. apply (lwf_key _ _ _ W) in E2.
        unfold same_name. apply str_eqb_eq. auto.
      + intros y Hy. unfold same_name. apply str_eqb_neq. intros E3.
        apply (lwf_value w name) in Hy; auto. congruence.
    - right. destruct (by_alias other index) eqn:E3; [|discriminate].
      rewrite hget_fold_extend by apply W'.
      destruct (hget str_eqb s (l_list other)); [auto|discriminate].
  Qed.

  (** A lookup the merged-in list cannot answer gives what the receiving list gave, or the
      merged-in definition of the same name. *)
  Theorem C23_rest_unchanged l other index :
    world_ok w -> buildable w name aliases l -> buildable w name aliases other ->
    l_get w index other = Err (ELedger (AliasNotInList index)) ->
    l_get w index (l_append l other) = l_get w index l \/
    (exists e e', l_get w index l = Ok e /\ In e' (l_values other) /\
                  same_name w (name e) (name e') = true /\ l_get w index (l_append l other) = Ok e').
  Proof.
    intros Hw B B' H. pose proof (buildable_lwf w name aliases l B) as W.
    pose proof (buildable_lwf w name aliases other B') as W'.
    unfold l_get in *. simpl. rewrite !hget_fold_extend by apply W'.
    destruct (by_name other index) eqn:E; [discriminate|].
    destruct (by_alias other index) eqn:E3.
    { destruct (hget str_eqb s (l_list other)); discriminate. }
    destruct (by_name l index) eqn:E2; [left; auto|].
    destruct (by_alias l index) eqn:E4; [|left; auto].
    rewrite hget_fold_extend by apply W'.
    destruct (hget str_eqb s (l_list other)) eqn:E5; [|left; auto].
    right. apply (hget_In _ str_eqb_spec) in E4. apply (lwf_alias _ _ _ W) in E4.
    destruct (lwf_get w name _ _ W E4) as (e & E6 & Ek & _). exists e, t. rewrite E6.
    repeat split; auto.
    - apply (hget_In _ str_eqb_spec) in E5. unfold l_values. change t with (snd (s, t)). apply in_map. auto.
    - apply (hget_In _ str_eqb_spec) in E5. apply (lwf_key _ _ _ W') in E5.
      unfold same_name. apply str_eqb_eq. congruence.
  Qed.

  (** The elements of the merged list: those merged in, and those of the receiving list whose name
      is not merged in. *)
  Theorem C23_elements l other e :
    world_ok w -> buildable w name aliases l -> buildable w name aliases other ->
    (In e (l_values (l_append l other)) <->
     In e (l_values other) \/
     (In e (l_values l) /\ forall y, In y (l_values other) -> same_name w (name e) (name y) = false)).
  Proof.
    intros Hw B B'. pose proof (buildable_lwf w name aliases l B) as W.
    pose proof (buildable_lwf w name aliases other B') as W'.
    pose proof (lwf_append w name l other W W') as W2.
    assert (V : forall (m : alist T), lwf w name m -> 
              (In e (l_values m) <-> hget str_eqb (w_lower w (name e)) (l_list m) = Some e)).
    { intros m Wm. split; [apply lwf_value; auto|]. intros H. apply (hget_In _ str_eqb_spec) in H.
      unfold l_values. change e with (snd (w_lower w (name e), e)). apply in_map. auto. }
    rewrite (V _ W2), (V _ W), (V _ W'). simpl. rewrite hget_fold_extend by apply W'.
    destruct (hget str_eqb (w_lower w (name e)) (l_list other)) eqn:E.
    - split; auto. intros [H|[H1 H2]]; auto. exfalso.
      apply (hget_In _ str_eqb_spec) in E. pose proof (lwf_key _ _ _ W' _ _ E) as Ek.
      assert (Hi : In t (l_values other)).
      { unfold l_values. change t with (snd (w_lower w (name e), t)). apply in_map. auto. }
      apply H2 in Hi. unfold same_name in Hi. apply str_eqb_neq in Hi. congruence.
    - split.
      + intros H. right. split; auto. intros y Hy. unfold same_name. apply str_eqb_neq. intros Ey.
        apply (lwf_value w name) in Hy; auto. congruence.
      + intros [H|[H _]]; [discriminate|auto].
  Qed.
End C23.
Print Assumptions C23_merged_in_wins.
Print Assumptions C23_rest_unchanged.
Print Assumptions C23_elements.
Definition ex_l1 := l_insert w0 ac_name ac_aliases (ex_acc (L "Bank") [L "b"; L "q"]) l_new.
Definition ex_l2 := l_insert w0 ac_name ac_aliases (ex_acc (L "bank") [L "c"])
                     (l_insert w0 ac_name ac_aliases (ex_acc (L "Cash") [L "b"]) l_new).
Example C23_ex_built : buildable w0 ac_name ac_aliases ex_l1 /\ buildable w0 ac_name ac_aliases ex_l2.
Proof. split; repeat constructor. Qed.
Example C23_ex :
  l_get w0 (L "B") (l_append ex_l1 ex_l2) = Ok (ex_acc (L "Cash") [L "b"]) /\
  l_get w0 (L "q") ex_l2 = Err (ELedger (AliasNotInList (L "q"))) /\
  l_get w0 (L "q") (l_append ex_l1 ex_l2) = Ok (ex_acc (L "bank") [L "c"]).
Proof. repeat split; reflexivity. Qed.

(** ** C24 Regex lookup returns a matching element, and its cache is transparent *)
Section C24.
  Context {T : Type} (w : world) (name : T -> str) (aliases : T -> list str).

  (** The first time a pattern is looked up, the answer is an element of the list that matches by
      name or by one of its aliases, and it is nothing only if nothing matches. *)
  Theorem C24_first_answer l rx r l' :
    world_ok w -> buildable w name aliases l -> ~ asked_before l rx ->
    l_get_regex w name rx l = Ok (r, l') ->
    match r with
    | Some e => In e (l_values l) /\
                (w_rx w rx (name e) = true \/ exists a, alias_for w name l a e /\ w_rx w rx a = true)
    | None => (forall e, In e (l_values l) -> w_rx w rx (name e) = false) /\
              (forall e a, alias_for w name l a e -> w_rx w rx a = false)
    end.
  Proof.
    intros Hw B Hn H. pose proof (buildable_lwf w name aliases l B) as W.
    apply (hget_None _ str_eqb_spec) in Hn. unfold l_get_regex in H. rewrite Hn in H.
    destruct (find (fun kv => w_rx w rx (name (snd kv))) (l_list l)) as [[k v]|] eqn:E1.
    - inv H. apply find_some in E1. destruct E1 as [Hi Hm]. split; auto.
      unfold l_values. change v with (snd (k, v)). apply in_map. auto.
    - assert (N1 : forall e, In e (l_values l) -> w_rx w rx (name e) = false).
      { intros e He. unfold l_values in He. apply in_map_iff in He. destruct He as ([k v] & Ee & He).
        simpl in Ee. subst v. exact (find_none _ _ E1 _ He). }
      destruct (find (fun kv => w_rx w rx (fst kv)) (l_aliases l)) as [[a k]|] eqn:E2; inv H.
      + apply find_some in E2. destruct E2 as [Hi Hm]. simpl in Hm.
        pose proof (lwf_alias _ _ _ W _ _ Hi) as Hk.
        destruct (lwf_get w name _ _ W Hk) as (e & E3 & Ek & He). rewrite E3. split; auto.
        right. exists a. split; auto. unfold alias_for. rewrite <- Ek. auto.
      + split; auto. intros e a Ha. exact (find_none _ _ E2 _ Ha).
  Qed.

  (** As long as nothing is inserted, every answer of any sequence of lookups is the answer the
      original list would give. *)
  Theorem C24_cache_transparent_between_insertions l qs l' rx r :
    world_ok w -> buildable w name aliases l ->
    lookups w name l qs l' -> In (rx, r) qs ->
    exists l1, l_get_regex w name rx l = Ok (r, l1).
  Proof.
    intros Hw B Hq Hi. pose proof (buildable_lwf w name aliases l B) as W. clear B.
    assert (idem : forall s, w_lower w (w_lower w s) = w_lower w s) by apply Hw.
    revert Hi. induction Hq as [|l rx0 r0 l1 qs l2 H Hq IH]; intros Hi; [contradiction|].
    destruct Hi as [E|Hi]; [inv E; eauto|].
    pose proof (regex_step w name aliases idem _ _ _ _ W H) as (E1 & E2 & E3 & E4 & _).
    destruct (IH (lwf_regex w name _ _ _ _ W H) Hi) as (l3 & H3).
    destruct (str_eq_dec rx rx0).
    - subst rx0. exists l1. rewrite E4 in H3. inv H3. auto.
    - eapply regex_cong; [symmetry; exact E1|symmetry; exact E2|symmetry; apply E3; auto|exact H3].
  Qed.

  (** A positive answer survives insertions: the same element is returned afterwards. *)
  Theorem C24_found_stays_found_partial l rx e l1 x :
    world_ok w -> buildable w name aliases l ->
    l_get_regex w name rx l = Ok (Some e, l1) ->
    exists l2, l_get_regex w name rx (l_insert w name aliases x l1) = Ok (Some e, l2).
  Proof.
    intros Hw B H. pose proof (buildable_lwf w name aliases l B) as W.
    assert (idem : forall s, w_lower w (w_lower w s) = w_lower w s) by apply Hw.
    pose proof (lwf_regex w name _ _ _ _ W H) as W1.
    pose proof (regex_step w name aliases idem _ _ _ _ W H) as (_ & _ & _ & H1 & Hk).
    apply (hget_Some_key _ str_eqb_spec) in Hk. destruct Hk as (v & Hv).
    unfold l_get_regex in H1. rewrite Hv in H1. destruct v as [k|]; [|discriminate].
    pose proof (lwf_memo _ _ _ W1 _ _ Hv) as Hm.
    destruct (lwf_get_key w name idem _ _ W1 Hm) as (e0 & G1 & G2 & G3 & _). rewrite G1 in H1. inv H1.
    unfold l_get_regex, l_insert.
    destruct (hget str_eqb (w_lower w (name x)) (l_list l1)) eqn:E; eexists.
    - rewrite Hv, G1. reflexivity.
    - simpl. rewrite Hv. unfold l_get. simpl. rewrite idem.
      rewrite (hget_hset_other _ str_eqb_spec); [|congruence]. rewrite G2. reflexivity.
  Qed.
End C24.
Definition w1 : world :=
  {| w_lower := ascii_lower; w_numeric := fun _ => false; w_rx := str_eqb; w_rx_ok := fun _ => true;
     w_width := None; w_read := fun _ => None; w_glob := fun _ => None; w_two_timer := fun _ => None; w_now := 0%Z;
     w_ord := fun _ _ l => l |}.
(** A negative answer is remembered across an insertion that makes it wrong: the full claim is
    false of this program. *)
Theorem C24_cache_goes_stale_refuted :
  exists (e : payee) (rx : str) l1 l2,
    w_rx w1 rx (py_name e) = true /\
    l_get_regex w1 py_name rx l_new = Ok (None, l1) /\
    l_get_regex w1 py_name rx (l_insert w1 py_name py_aliases e l1) = Ok (None, l2) /\
    l_get_regex w1 py_name rx (l_insert w1 py_name py_aliases e l_new) <> Ok (None, l2).
Proof.
  exists (payee_from (L "shop")), (L "shop"), 
    {| l_aliases := []; l_list := []; l_matches := [(L "shop", None)] |}.
  eexists. split; [reflexivity|]. split; [reflexivity|]. split; [reflexivity|]. discriminate.
Qed.
Print Assumptions C24_first_answer.
Print Assumptions C24_cache_transparent_between_insertions.
Print Assumptions C24_found_stays_found_partial.
Print Assumptions C24_cache_goes_stale_refuted.
Example C24_ex : exists l1,
  buildable w1 py_name py_aliases (l_insert w1 py_name py_aliases (payee_from (L "shop")) l_new) /\
  ~ asked_before (l_insert w1 py_name py_aliases (payee_from (L "shop")) l_new) (L "shop") /\
  l_get_regex w1 py_name (L "shop") (l_insert w1 py_name py_aliases (payee_from (L "shop")) l_new)
  = Ok (Some (payee_from (L "shop")), l1) /\
  lookups w1 py_name (l_insert w1 py_name py_aliases (payee_from (L "shop")) l_new)
    [(L "shop", Some (payee_from (L "shop"))); (L "shop", Some (payee_from (L "shop")))] l1.
Proof.
  eexists. split; [repeat constructor|]. split; [intros []|]. split; [reflexivity|].
  econstructor; [reflexivity|]. econstructor; [reflexivity|]. constructor.
Qed.

(** ** C25 Memoised regex matching on accounts and payees is transparent *)
Theorem C25_memo_transparent w nm qs memo rx b :
  matched w nm [] qs memo -> In (rx, b) qs -> b = w_rx w rx nm.
Proof.
  intros H. assert (H0 : forall r x, hget str_eqb r (@nil (str * bool)) = Some x -> x = w_rx w r nm)
    by discriminate.
  revert H0. induction H as [|m rx0 b0 m1 qs m2 E H IH]; intros Hm Hi; [contradiction|].
  destruct (is_match_ok w nm _ _ _ _ Hm E) as [E1 E2]. destruct Hi as [Ei|Hi]; [inv Ei; auto|auto].
Qed.
Print Assumptions C25_memo_transparent.
Example C25_ex : exists memo,
  matched w1 (L "shop") [] [(L "shop", true); (L "x", false); (L "shop", true)] memo.
Proof.
  eexists. econstructor; [reflexivity|]. econstructor; [reflexivity|]. econstructor; [reflexivity|].
  constructor.
Qed.
