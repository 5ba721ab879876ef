(** Properties C26-C32, C66: from the journal to the ledger. *)
From Coq Require Import Lia Sorting.Sorted.
From Verif Require Import Base BaseFacts Numerals Money Alist Comment Txn Peg Grammar Dates Expr Filter Tokens Price
  Ledger Spec MoneyFacts SpecTxn TxnFacts TxnFacts2 PropTxn TokenFacts SpecList AlistFacts JournalFacts SpecLedger
  LedgerFacts LedgerFacts2 LedgerFacts3 LedgerFacts4.
Open Scope Z_scope.

(** ** A journal for the examples *)
(** In this world a pattern (?i)x matches x only. *)
Definition w1 : world :=
  {| w_lower := ascii_lower; w_numeric := fun _ => false; w_rx := fun rx s => str_eqb rx (L "(?i)" ++ s);
     w_rx_ok := fun _ => true; w_width := None; w_read := fun _ => None; w_glob := fun _ => None; w_two_timer := fun _ => None;
     w_now := 0%Z; w_ord := fun _ _ l => l |}.
Example w1_ok : world_ok w1.
Proof. split; [intros; apply Permutation_refl|exact ascii_lower_idem]. Qed.
Definition nl := String.String (Ascii.ascii_of_nat 10) String.EmptyString.
Definition text (lines : list String.string) : str :=
  List.concat (map (fun l => L l ++ [10%N]) lines).
Definition j_text : str := text
  ["P 2021-01-05 EUR 2 USD"; "2021-01-03 shop"; "  Expenses:E  10 EUR @ 2 USD"; "  assets:a  -20 usd"; "  (Budget)  3 EUR";
   "2021-01-01 open"; "  Assets:A  5 USD = 5 USD"; "  Equity"; "2021-01-03 later"; "  Assets:A  7 EUR"; "  Expenses:E  -14 USD"]%string.
Definition j_parsed : res pledger := tokenize_string 1 w1 j_text.
Definition j_rules_text : str := text
  ["= Expenses:E"; "  (Budget)  2"; "2021-01-03 shop"; "  Expenses:E  7 EUR"; "  Assets:A  -14 USD"]%string.
Definition get {A} (d : A) (r : res A) : A := match r with Ok x => x | _ => d end.
Definition jl : pledger := get pl_new j_parsed.
Definition jr : pledger := get pl_new (tokenize_string 1 w1 j_rules_text).
Definition lg_new : ledger :=
  {| lg_accounts := l_new; lg_commodities := l_new; lg_txns := []; lg_prices := []; lg_payees := l_new |}.
Definition jlg : ledger := get lg_new (to_ledger w1 false jl).
Definition jrg : ledger := get lg_new (to_ledger w1 false jr).
Example jl_parsed : parsed w1 jl /\ parsed w1 jr /\ length (journal_txns jl) = 3%nat /\ length (rules jr) = 1%nat.
Proof.
  split; [|split; [|split; vm_compute; reflexivity]].
  - exists 1%nat, None, [], j_text. vm_compute. reflexivity.
  - exists 1%nat, None, [], j_rules_text. vm_compute. reflexivity.
Qed.
Example jlg_built : to_ledger w1 false jl = Ok jlg /\ to_ledger w1 false jr = Ok jrg.
Proof. split; vm_compute; reflexivity. Qed.

(** ** C26 *)
Theorem C26_date_order : forall w skip l lg, world_ok w -> parsed w l -> to_ledger w skip l = Ok lg ->
  Permutation (map header (journal_txns l)) (map header (lg_txns lg)) /\
  StronglySorted not_after (lg_txns lg) /\
  (forall d, filter (dated_on d) (map header (lg_txns lg)) = filter (dated_on d) (map header (journal_txns l))).
Proof.
  intros w skip l lg Hw HP H. apply to_ledger_built in H; auto using parsed_ok.
  destruct (built_sorted _ _ _ _ H) as (al & cs & pays & ts & dir & costs & sorted & JR & (D1 & D2 & D3) & SH & _).
  pose proof (reads_headers _ _ _ _ _ _ (jr_txns _ _ _ _ _ _ _ _ JR)) as RH.
  rewrite (Forall2_headers _ _ SH). split; [|split].
  - rewrite <- RH. apply Permutation_map. auto.
  - eapply sorted_headers; eauto.
  - intros d. rewrite <- RH, !filter_dated, D3. auto.
Qed.
Print Assumptions C26_date_order.
Example C26_case : map t_desc (journal_txns jl) = [L "shop"; L "open"; L "later"] /\
  map t_desc (lg_txns jlg) = [L "open"; L "shop"; L "later"].
Proof. split; vm_compute; reflexivity. Qed.

(** ** C27 *)
Theorem C27_file_order_irrelevant : forall w skip l l', world_ok w -> parsed w l -> parsed w l' ->
  reordered w l l' -> NoDup (map t_date (journal_txns l)) ->
  same_outcome (to_ledger w skip l) (to_ledger w skip l').
Proof. intros. apply reordered_outcome; auto using parsed_ok. Qed.
Print Assumptions C27_file_order_irrelevant.
(** Whatever the order in which names are traversed, the order of transactions is the same. *)
Theorem C27_transaction_order : forall w w' skip skip' l l' lg lg', world_ok w -> world_ok w' -> parsed w l -> parsed w' l' ->
  Permutation (map header (journal_txns l)) (map header (journal_txns l')) ->
  NoDup (map t_date (journal_txns l)) ->
  to_ledger w skip l = Ok lg -> to_ledger w' skip' l' = Ok lg' ->
  map header (lg_txns lg) = map header (lg_txns lg').
Proof.
  intros w w' skip skip' l l' lg lg' Hw Hw' HP HP' HPm ND H H'.
  destruct (C26_date_order _ _ _ _ Hw HP H) as (P1 & S1 & _). destruct (C26_date_order _ _ _ _ Hw' HP' H') as (P2 & S2 & _).
  set (R := fun h1 h2 : option Z * option Z * option str * str * list str =>
    match h1, h2 with (Some a, _, _, _, _), (Some b, _, _, _, _) => a <= b | _, _ => False end).
  assert (SR : forall ts : list (txn posting), StronglySorted not_after ts -> StronglySorted R (map header ts)).
  { clear. intros ts S. induction S as [|t ts S IH F]; cbn; constructor; auto. clear -F. induction F; constructor; auto. }
  assert (P12 : Permutation (map header (lg_txns lg)) (map header (lg_txns lg'))).
  { eapply Permutation_trans; [symmetry; exact P1|]. eapply Permutation_trans; [exact HPm|exact P2]. }
  apply (sorted_perm_eq R); auto.
  intros a b Ha Hb. apply (Permutation_in _ (Permutation_sym P1)) in Ha. apply (Permutation_in _ (Permutation_sym P1)) in Hb.
  intros R1 R2. apply in_map_iff in Ha. apply in_map_iff in Hb. destruct Ha as (ta & <- & Ha), Hb as (tb & <- & Hb).
  cbn in R1, R2. destruct (t_date ta) as [da|] eqn:Ea; [|destruct R1]. destruct (t_date tb) as [db|] eqn:Eb; [|destruct R1].
  assert (E : t_date ta = t_date tb) by (rewrite Ea, Eb; f_equal; lia). f_equal. clear -ND Ha Hb E.
  induction (journal_txns l) as [|x ts IH]; [destruct Ha|]. cbn in ND. inv ND. destruct Ha as [->|Ha], Hb as [->|Hb]; auto.
  - exfalso. apply H1. rewrite E. apply in_map. auto.
  - exfalso. apply H1. rewrite <- E. apply in_map. auto.
Qed.
Print Assumptions C27_transaction_order.
Definition two_days (a b : list String.string) : pledger := get pl_new (tokenize_string 1 w1 (text (a ++ b))).
Definition day_a (d : String.string) : list String.string := [String.append d " one"; "  Assets:A  5 EUR = 5 EUR"; "  Equity  -5 EUR"]%string.
Definition day_b (d : String.string) : list String.string := [String.append d " one"; "  Assets:A  2 EUR = 7 EUR"; "  Equity  -2 EUR"]%string.
Example C27_case : reordered w1 (two_days (day_a "2021-01-01") (day_b "2021-01-02")) (two_days (day_b "2021-01-02") (day_a "2021-01-01")) /\
  NoDup (map t_date (journal_txns (two_days (day_a "2021-01-01") (day_b "2021-01-02")))) /\
  is_ok (to_ledger w1 false (two_days (day_b "2021-01-02") (day_a "2021-01-01"))) = true.
Proof.
  split; [|split].
  - constructor; try (vm_compute; reflexivity). vm_compute. apply perm_swap.
  - vm_compute. constructor; [intros [E|[]]; discriminate|]. constructor; [intros []|constructor].
  - vm_compute. reflexivity.
Qed.
(** With a shared date the order matters. *)
Theorem C27_shared_dates_matter : exists l l', parsed w1 l /\ parsed w1 l' /\ reordered w1 l l' /\
  is_ok (to_ledger w1 false l) = true /\ to_ledger w1 false l' = Err (ELedger TransactionIsNotBalanced).
Proof.
  exists (two_days (day_a "2021-01-01") (day_b "2021-01-01")), (two_days (day_b "2021-01-01") (day_a "2021-01-01")).
  split; [|split; [|split; [|split]]].
  - exists 1%nat, None, [], (text (day_a "2021-01-01" ++ day_b "2021-01-01")). vm_compute. reflexivity.
  - exists 1%nat, None, [], (text (day_b "2021-01-01" ++ day_a "2021-01-01")). vm_compute. reflexivity.
  - constructor; try (vm_compute; reflexivity). vm_compute. apply perm_swap.
  - vm_compute. reflexivity.
  - vm_compute. reflexivity.
Qed.
Print Assumptions C27_shared_dates_matter.

(** ** C28 *)
Lemma get_called {T} w (name : T -> str) aliases l n e : buildable w name aliases l -> l_get w n l = Ok e -> called w name l n e.
Proof.
  intros B H. pose proof (buildable_lwf w name aliases l B) as W. split; [|split; auto].
  - destruct (lwf_get_cases w name n l W) as [(x & Hi & E)|E]; congruence.
  - unfold l_get in H. destruct (hget str_eqb (w_lower w n) (l_list l)) as [x|] eqn:E.
    + inv H. left. apply (hget_In _ str_eqb_spec) in E. apply (lwf_key _ _ _ W) in E. auto.
    + destruct (hget str_eqb (w_lower w n) (l_aliases l)) as [k|] eqn:Ea; [|discriminate].
      right. unfold alias_for. apply (hget_In _ str_eqb_spec) in Ea.
      unfold unwrap in H. destruct (hget str_eqb k (l_list l)) as [x|] eqn:Ek; [|discriminate]. inv H.
      apply (hget_In _ str_eqb_spec) in Ek. apply (lwf_key _ _ _ W) in Ek. subst k. exact Ea.
Qed.
Theorem C28_names_resolve : forall w skip l lg, world_ok w -> parsed w l -> to_ledger w skip l = Ok lg ->
  (forall n, mentions_account l n -> exists a, called w ac_name (lg_accounts lg) n a) /\
  (forall n, mentions_commodity l n -> exists c, called w cu_name (lg_commodities lg) n c) /\
  (forall n, mentions_payee l n -> exists y, called w py_name (lg_payees lg) n y).
Proof.
  intros w skip l lg Hw HP H. apply to_ledger_built in H; auto using parsed_ok.
  assert (LB : lists_built w lg) by (destruct H; auto). destruct LB as (B1 & B2 & B3).
  destruct (built_sorted _ _ _ _ H) as (al & cs & pays & ts & dir & costs & sorted & JR & _ & _ & E1 & E2 & E3).
  split; [|split]; intros n Hn.
  - destruct (jr_found_accounts _ _ _ _ _ _ _ _ JR n Hn) as (e & E). exists e. eapply get_called; [exact B1|]. apply E1. auto.
  - destruct (jr_found_commodities _ _ _ _ _ _ _ _ JR n Hn) as (e & E). exists e. eapply get_called; [exact B2|]. apply E2. auto.
  - destruct (jr_found_payees _ _ _ _ _ _ _ _ JR n Hn) as (e & E). exists e. eapply get_called; [exact B3|]. apply E3. auto.
Qed.
Print Assumptions C28_names_resolve.
Example C28_case : mentions_account jl (L "assets:a") /\ mentions_commodity jl (L "usd") /\ mentions_payee jl (L "shop").
Proof.
  split; [apply mention_account|split; [apply mention_commodity|apply mention_payee]]; apply in_eqb; vm_compute; reflexivity.
Qed.

(** Without rules there are only three outcomes: a ledger, a transaction that does not balance, and a
    total cost for a zero amount. *)
Theorem C28_outcomes : forall w skip l, world_ok w -> parsed w l -> rules l = [] ->
  (exists lg, to_ledger w skip l = Ok lg) \/
  (exists e v, to_ledger w skip l = Err e /\ verdict_error v e /\ ledger_refused w skip l v) \/
  (to_ledger w skip l = Panic PDivZero /\ exists t p, In t (pl_txns l) /\ In p (t_postings t) /\ zero_total_cost p).
Proof.
  intros w skip l Hw HP Hr. destruct (to_ledger_plain w skip l Hw (parsed_ok _ _ HP) Hr) as [(lg & E & _)|[H|H]]; eauto.
Qed.
Print Assumptions C28_outcomes.
(** With rules there are also the failures of the rules themselves: a query that is not a condition,
    and queries and amounts that abort. *)
Theorem C28_outcomes_with_rules : forall w skip l, world_ok w -> parsed w l ->
  match to_ledger w skip l with
  | Ok _ => True
  | Err e => (exists v, verdict_error v e /\ (ledger_refused w skip l v \/ refused_after_rules w skip l v)) \/
             (e = ENotBoolean /\ exists r, In r (rules l) /\ no_condition w r)
  | Panic x => (x = PDivZero /\ exists t p, In t (pl_txns l) /\ In p (t_postings t) /\ zero_total_cost p) \/
               (exists r, In r (rules l) /\ rule_aborts w r x)
  end.
Proof. intros w skip l Hw HP. apply to_ledger_ends; auto using parsed_ok. Qed.
Print Assumptions C28_outcomes_with_rules.
(** The third outcome. *)
Theorem C28_zero_quantity_aborts : exists l, parsed w1 l /\ rules l = [] /\ to_ledger w1 false l = Panic PDivZero.
Proof.
  exists (get pl_new (tokenize_string 1 w1 (text ["2021-01-01 x"; "  A  0 EUR @@ 1 USD"; "  B  -1 USD"]%string))).
  split; [|split; vm_compute; reflexivity].
  exists 1%nat, None, [], (text ["2021-01-01 x"; "  A  0 EUR @@ 1 USD"; "  B  -1 USD"]%string). vm_compute. reflexivity.
Qed.
Print Assumptions C28_zero_quantity_aborts.

(** ** C29 *)
(** One element per identity, and spellings that differ in case or through an alias share it. *)
Theorem C29_one_identity : forall w skip l lg, world_ok w -> parsed w l -> to_ledger w skip l = Ok lg ->
  (forall n m, mentions_commodity l n -> w_lower w n = w_lower w m ->
     exists c, called w cu_name (lg_commodities lg) n c /\ called w cu_name (lg_commodities lg) m c) /\
  (forall n m, mentions_account l n -> w_lower w n = w_lower w m ->
     exists a, called w ac_name (lg_accounts lg) n a /\ called w ac_name (lg_accounts lg) m a) /\
  (forall n c c', called w cu_name (lg_commodities lg) n c -> called w cu_name (lg_commodities lg) n c' -> c = c') /\
  (forall c c', In c (l_values (lg_commodities lg)) -> In c' (l_values (lg_commodities lg)) ->
     w_lower w (cu_name c) = w_lower w (cu_name c') -> c = c') /\
  (forall a a', In a (l_values (lg_accounts lg)) -> In a' (l_values (lg_accounts lg)) ->
     w_lower w (ac_name a) = w_lower w (ac_name a') -> a = a').
Proof.
  intros w skip l lg Hw HP H. destruct (C28_names_resolve _ _ _ _ Hw HP H) as (C1 & C2 & _).
  apply to_ledger_built in H; auto using parsed_ok.
  assert (LB : lists_built w lg) by (destruct H; auto). destruct LB as (B1 & B2 & B3).
  split; [|split; [|split; [|split]]].
  - intros n m Hn E. destruct (C2 n Hn) as (c & Hc). exists c. split; auto. eapply get_called; [exact B2|].
    destruct Hc as (_ & Hc & _). revert Hc. unfold l_get. rewrite E.
    destruct (hget str_eqb (w_lower w m) (l_list (lg_commodities lg))); auto.
    destruct (hget str_eqb (w_lower w m) (l_aliases (lg_commodities lg))); auto. discriminate.
  - intros n m Hn E. destruct (C1 n Hn) as (c & Hc). exists c. split; auto. eapply get_called; [exact B1|].
    destruct Hc as (_ & Hc & _). revert Hc. unfold l_get. rewrite E.
    destruct (hget str_eqb (w_lower w m) (l_list (lg_accounts lg))); auto.
    destruct (hget str_eqb (w_lower w m) (l_aliases (lg_accounts lg))); auto. discriminate.
  - intros n c c' (_ & H1 & _) (_ & H2 & _). congruence.
  - intros c c' H1 H2 E. pose proof (lwf_value _ _ _ _ (buildable_lwf _ _ _ _ B2) H1) as G1.
    pose proof (lwf_value _ _ _ _ (buildable_lwf _ _ _ _ B2) H2) as G2. cbn in G1, G2. rewrite E in G1. congruence.
  - intros c c' H1 H2 E. pose proof (lwf_value _ _ _ _ (buildable_lwf _ _ _ _ B1) H1) as G1.
    pose proof (lwf_value _ _ _ _ (buildable_lwf _ _ _ _ B1) H2) as G2. cbn in G1, G2. rewrite E in G1. congruence.
Qed.
Print Assumptions C29_one_identity.
(** Aliases of directives keep their meaning. *)
Theorem C29_directives_kept : forall w skip l lg, world_ok w -> parsed w l -> to_ledger w skip l = Ok lg ->
  (forall n c, l_get w n (pl_commodities l) = Ok c -> called w cu_name (lg_commodities lg) n c) /\
  (forall n a, l_get w n (pl_accounts l) = Ok a -> called w ac_name (lg_accounts lg) n a) /\
  (forall n y, l_get w n (pl_payees l) = Ok y -> called w py_name (lg_payees lg) n y).
Proof.
  intros w skip l lg Hw HP H. apply to_ledger_built in H; auto using parsed_ok.
  assert (LB : lists_built w lg) by (destruct H; auto). destruct LB as (B1 & B2 & B3).
  destruct (built_sorted _ _ _ _ H) as (al & cs & pays & ts & dir & costs & sorted & [_ _ _ J1 J2 J3 _ _ _ _ _ _ _] & _ & _ & E1 & E2 & E3).
  split; [|split]; intros n x Hx.
  - eapply get_called; [exact B2|]. apply E2, J2, Hx.
  - eapply get_called; [exact B1|]. apply E1, J1, Hx.
  - eapply get_called; [exact B3|]. apply E3, J3, Hx.
Qed.
Print Assumptions C29_directives_kept.
Definition j_alias : pledger := get pl_new (tokenize_string 1 w1 (text
  ["commodity EUR"; "  alias Euro"; "2021-01-01 x"; "  A  1 eur"; "  A  2 euro"; "  a  3 EUR"; "  B"]%string)).
Example C29_case : match to_ledger w1 false j_alias with
  | Ok lg => map (fun p => (p_account p, p_amount p)) (flat_map t_postings (lg_txns lg)) =
             [(L "A", Some (M (qz 1) (L "EUR"))); (L "A", Some (M (qz 2) (L "EUR"))); (L "A", Some (M (qz 3) (L "EUR")));
              (L "B", Some (M (qz (-6)) (L "EUR")))]
  | _ => False
  end.
Proof. vm_compute. reflexivity. Qed.

(** ** C30 *)
Lemma directive_extends w cs cs' p pr : extends w cs cs' -> directive_price w cs p pr -> directive_price w cs' p pr.
Proof. intros [G _] (x & y & H1 & H2 & H3). exists x, y. split; auto. Qed.
Lemma implied_extends w cs cs' d p pr : extends w cs cs' -> implied_price w cs d p pr -> implied_price w cs' d p pr.
Proof. intros [G _] (q & c & k & kc & x & y & H1 & H2 & H3 & H4 & H5). exists q, c, k, kc, x, y. repeat (split; auto). Qed.
Theorem C30_prices : forall w skip l lg, world_ok w -> parsed w l -> to_ledger w skip l = Ok lg ->
  exists dir costs rest, lg_prices lg = dir ++ costs ++ rest /\
    Forall2 (directive_price w (lg_commodities lg)) (pl_prices l) dir /\
    Forall2 (fun dp pr => exists d, fst dp = Some d /\ implied_price w (lg_commodities lg) d (snd dp) pr) (costed l) costs.
Proof.
  intros w skip l lg Hw HP H. apply to_ledger_built in H; auto using parsed_ok.
  assert (X : exists al cs pays ts dir costs rest, journal_read w l al cs pays ts dir costs /\ extends w cs (lg_commodities lg) /\
              lg_prices lg = dir ++ costs ++ rest).
  { destruct H as [ts dir costs sorted run imps Hr HL JR DS Hz LR EP|al cs pays ts dir costs sorted run ts1 imps q ts2 run' imps' Hr HL JR DS Hz LR Q RP Hz' LR' E1 E2 E3 EP].
    - exists (lg_accounts lg), (lg_commodities lg), (lg_payees lg), ts, dir, costs, imps. split; auto. split; auto. apply extends_refl.
    - exists al, cs, pays, ts, dir, costs, (imps ++ imps'). auto. }
  destruct X as (al & cs & pays & ts & dir & costs & rest & JR & EX & EP).
  exists dir, costs, rest. split; auto. split.
  - eapply Forall2_impl_in; [exact (jr_prices _ _ _ _ _ _ _ _ JR)|]. intros p pr _. apply directive_extends. auto.
  - eapply Forall2_impl_in; [exact (jr_costs _ _ _ _ _ _ _ _ JR)|]. intros dp pr _ (d & E & I). exists d. split; auto.
    eapply implied_extends; eauto.
Qed.
Print Assumptions C30_prices.
Example C30_case : length (pl_prices jl) = 1%nat /\ length (costed jl) = 1%nat /\
  map (fun p => (pr_com p, this (pr_amount p), pr_cur p)) (lg_prices jlg) =
  [(L "EUR", (2#1)%Q, L "USD"); (L "EUR", (2#1)%Q, L "USD"); (L "EUR", (2#1)%Q, L "USD")].
Proof. repeat split; vm_compute; reflexivity. Qed.

(** ** C31 *)
Lemma Forall2_length {A B} (R : A -> B -> Prop) l l' : Forall2 R l l' -> length l = length l'.
Proof. induction 1; cbn; congruence. Qed.
Lemma txn_unchanged skip run t t' prs : ledger_txn skip run t t' prs -> amounts_given t -> same_postings t t'.
Proof.
  intros (_ & _ & (kept & fills & E & K & F & _) & _) G.
  assert (NE : filter (elided skip) (t_postings t) = []).
  { clear -G. unfold amounts_given in G. induction (t_postings t) as [|p ps IH]; cbn; auto.
    rewrite IH by (intros; apply G; auto; right; auto). specialize (G p (or_introl eq_refl)).
    unfold elided. destruct (p_kind p), (p_amount p); cbn; auto. exfalso. apply G; auto. }
  destruct fills as [|q fills]; [|destruct (F q (or_introl eq_refl)) as (_ & _ & _ & _ & _ & p & E' & _); congruence].
  cbn in E. unfold same_postings. rewrite E.
  assert (U : Forall2 unchanged (filter (given skip) (t_postings t) ++ filter (fun p => negb (kind_eqb (p_kind p) Real)) (t_postings t))
                (kept ++ filter (fun p => negb (kind_eqb (p_kind p) Real)) (t_postings t))).
  { apply Forall2_app.
    - assert (GA : forall p, In p (filter (given skip) (t_postings t)) -> p_amount p <> None).
      { intros p Hp. apply filter_In in Hp. destruct Hp as [Hp Hg]. apply G; auto. unfold given in Hg.
        apply andb_true_iff in Hg. destruct Hg as [Hg _]. destruct (p_kind p); auto; discriminate. }
      eapply Forall2_impl_in; [exact K|]. intros p q Hp (H1 & H2 & H3 & H4 & H5 & H6 & H7 & H8 & H9).
      repeat (split; auto).
    - clear. induction (filter _ _); constructor; auto. repeat split. }
  assert (P : Permutation (filter (given skip) (t_postings t) ++ filter (fun p => negb (kind_eqb (p_kind p) Real)) (t_postings t)) (t_postings t)).
  { rewrite <- (amounts_stated skip t G) at 3. symmetry. apply filter_split.
    - intros p. unfold stated, given, elided. destruct (p_kind p), (p_amount p), (p_balance p); cbn; auto. destruct skip; auto.
    - intros p. unfold given. destruct (p_kind p); cbn; auto. apply andb_false_r. }
  destruct (Forall2_perm_l _ _ _ _ P U) as (ps & Pp & Fp). exists ps. auto.
Qed.
(** The ledger with rules: the transactions [ts1] are those of the journal, balanced; the rules turn
    them into [ts2]; the ledger has the postings of [ts2]. *)
Theorem C31_rules_apply : forall w skip l lg, world_ok w -> parsed w l -> rules l <> [] -> to_ledger w skip l = Ok lg ->
  exists al cs pays ts dir costs sorted run ts1 imps queries ts2,
    journal_read w l al cs pays ts dir costs /\ date_sorted ts sorted /\
    (forall acc c, run acc c = 0%Qc) /\ ledger_run skip run sorted ts1 imps /\
    Forall2 (fun r q => build_root w (get_filter_query r) = Ok q) (rules l) queries /\
    Forall2 (rules_pass w {| as_accs := al; as_curs := cs; as_pays := pays |}
               {| as_accs := lg_accounts lg; as_curs := lg_commodities lg; as_pays := lg_payees lg |}
               (combine queries (rules l))) ts1 ts2 /\
    Forall2 (fun t t' => header t' = header t /\ same_postings t t') ts2 (lg_txns lg).
Proof.
  intros w skip l lg Hw HP Hr H. apply to_ledger_built in H; auto using parsed_ok.
  destruct H as [ts dir costs sorted run imps Hr' HL JR DS Hz LR EP|al cs pays ts dir costs sorted run ts1 imps q ts2 run' imps' Hr' HL JR DS Hz LR Q RP Hz' LR' E1 E2 E3 EP].
  - contradiction.
  - exists al, cs, pays, ts, dir, costs, sorted, run, ts1, imps, q, ts2. repeat (split; [assumption|]).
    assert (A : Forall amounts_given ts2).
    { apply run_includes in LR. clear -LR RP. revert ts2 RP. induction LR as [|x y l0 l' (_ & _ & G) LR IH]; intros ts2 RP; inv RP; constructor; auto.
      eapply rules_pass_includes; eauto. }
    clear -LR' A. induction LR'; constructor; inv A; auto. split.
    + apply same_header_header. apply H.
    + eapply txn_unchanged; eauto.
Qed.
Print Assumptions C31_rules_apply.

(** What one rule does to one transaction: postings are left alone or tagged, the postings added are
    marked as automated, and there are as many as the rule has for each posting that matches. *)
Theorem C31_one_rule : forall w from upto query rule t done todo tg ad,
  rule_pass w from upto query rule t done todo tg ad ->
  Forall2 (fun p q => q = p \/ (p_origin p = FromTransaction /\ q = tagged (flat_map get_tags (t_comments rule)) p)) todo tg /\
  Forall (fun q => p_origin q = OAutomated /\ p_amount q <> None /\ p_balance q = None /\ p_cost q = None) ad /\
  exists hits, length ad = (hits * length (t_postings rule))%nat /\
    (hits <= length (filter (fun p => match p_origin p with FromTransaction => true | _ => false end) todo))%nat.
Proof.
  induction 1 as [done|done p r tg ad O H (I1 & I2 & hits & I3 & I4)|done p r tg ad O W H (I1 & I2 & hits & I3 & I4)
                 |done p p' r new tg ad O W E F H (I1 & I2 & hits & I3 & I4)].
  - split; [constructor|]. split; [constructor|]. exists 0%nat. split; auto.
  - split; [constructor; auto|]. split; auto. exists hits. split; auto. cbn. destruct (p_origin p); cbn; lia.
  - split; [constructor; auto|]. split; auto. exists hits. split; auto. cbn. rewrite O. cbn. lia.
  - split; [constructor; auto|]. split.
    + apply Forall_app. split; auto. clear -F. induction F; constructor; auto.
      destruct H as (_ & _ & (m & -> & _) & _ & H1 & H2 & _ & _ & H3). repeat (split; auto). discriminate.
    + exists (S hits). rewrite app_length, I3, <- (Forall2_length _ _ _ F). split; [lia|]. cbn. rewrite O. cbn. lia.
Qed.
Print Assumptions C31_one_rule.
(** Postings added by rules are not matched by later rules. *)
Theorem C31_added_not_matched : forall w from upto query rule t done todo tg ad,
  rule_pass w from upto query rule t done todo tg ad ->
  Forall (fun p => p_origin p = OAutomated) todo -> tg = todo /\ ad = [].
Proof.
  induction 1; intros F; auto; inv F; try congruence. destruct IHrule_pass; auto. split; congruence.
Qed.
Print Assumptions C31_added_not_matched.
(** The outcome is determined: the same rule over the same postings with the same evaluation. *)
Definition seen (p : posting) : str * option (Q * str) * kind :=
  (p_account p, match p_amount p with Some (M a c) => Some (this a, c) | _ => None end, p_kind p).
Example C31_case : map seen (flat_map t_postings (lg_txns jrg)) =
  [(L "Expenses:E", Some (7#1, L "EUR"), Real); (L "Assets:A", Some (-14#1, L "USD"), Real); (L "Budget", Some (14#1, L "EUR"), Virtual)].
Proof. vm_compute. reflexivity. Qed.

(** ** C32 *)
Definition balanced_price (t : txn posting) (prs : list price) : Prop :=
  exchange_price (t_date t) (group_value Real (t_postings t)) prs.
Lemma run_prices skip run ts ts' prices : ledger_run skip run ts ts' prices ->
  exists imps, prices = List.concat imps /\ Forall2 balanced_price ts' imps.
Proof.
  induction 1 as [|run run' t t' prs ts ts' prices H _ _ (imps & -> & IH)].
  - exists []. split; auto.
  - exists (prs :: imps). split; auto. constructor; auto. unfold balanced_price.
    destruct H as (_ & (E & _) & _ & _ & _ & X & _). rewrite E. auto.
Qed.
Theorem C32_exchange_rates_partial : forall w skip l lg, world_ok w -> parsed w l -> rules l = [] -> to_ledger w skip l = Ok lg ->
  exists dir costs imps, lg_prices lg = dir ++ costs ++ List.concat imps /\
    length dir = length (pl_prices l) /\ length costs = length (costed l) /\
    Forall2 balanced_price (lg_txns lg) imps.
Proof.
  intros w skip l lg Hw HP Hr H. apply to_ledger_built in H; auto using parsed_ok.
  destruct H as [ts dir costs sorted run imps Hr' HL JR DS Hz LR EP|]; [|contradiction].
  destruct (run_prices _ _ _ _ _ LR) as (is & -> & F). exists dir, costs, is. split; auto.
  split; [symmetry; exact (Forall2_length _ _ _ (jr_prices _ _ _ _ _ _ _ _ JR))|].
  split; [symmetry; exact (Forall2_length _ _ _ (jr_costs _ _ _ _ _ _ _ _ JR))|auto].
Qed.
Print Assumptions C32_exchange_rates_partial.
(** With rules each transaction is balanced twice and both prices are recorded. *)
Theorem C32_with_rules : forall w skip l lg, world_ok w -> parsed w l -> rules l <> [] -> to_ledger w skip l = Ok lg ->
  exists dir costs first imps, lg_prices lg = dir ++ costs ++ List.concat first ++ List.concat imps /\
    length dir = length (pl_prices l) /\ length costs = length (costed l) /\
    length first = length (lg_txns lg) /\ Forall2 balanced_price (lg_txns lg) imps.
Proof.
  intros w skip l lg Hw HP Hr H. apply to_ledger_built in H; auto using parsed_ok.
  destruct H as [|al cs pays ts dir costs sorted run ts1 imps q ts2 run' imps' Hr' HL JR DS Hz LR Q RP Hz' LR' E1 E2 E3 EP]; [contradiction|].
  destruct (run_prices _ _ _ _ _ LR') as (is & -> & F). destruct (run_prices _ _ _ _ _ LR) as (is' & -> & F').
  exists dir, costs, is', is. split; auto.
  split; [symmetry; exact (Forall2_length _ _ _ (jr_prices _ _ _ _ _ _ _ _ JR))|].
  split; [symmetry; exact (Forall2_length _ _ _ (jr_costs _ _ _ _ _ _ _ _ JR))|]. split; auto.
  apply run_headers in LR'. rewrite <- (Forall2_length _ _ _ F'), (Forall2_length _ _ _ RP). exact (Forall2_length _ _ _ LR').
Qed.
Print Assumptions C32_with_rules.
Theorem C32_recorded_once_refuted : exists l lg, parsed w1 l /\ to_ledger w1 false l = Ok lg /\
  length (lg_txns lg) = 1%nat /\ pl_prices l = [] /\ costed l = [] /\ length (lg_prices lg) = 2%nat.
Proof.
  exists jr, jrg. split; [apply jl_parsed|]. split; [apply jlg_built|]. repeat split; vm_compute; reflexivity.
Qed.
Print Assumptions C32_recorded_once_refuted.

(** ** C66 *)
Lemma filter_stated w al pays cs skip t t' : reads_txn w al pays cs t t' ->
  Forall2 (fun p q => reads_posting w al pays cs p q /\ p_tags q = written_tags (t_comments t) p)
    (filter (states skip) (t_postings t)) (filter (stated skip) (t_postings t')).
Proof.
  intros (_ & F & G & _). revert G. generalize (t_comments t) as cms. intros cms G.
  induction F as [|p q ps qs R F IH]; cbn; auto. inv G. specialize (IH H4).
  assert (E : states skip p = stated skip q).
  { destruct R as (R1 & R2 & _ & R4 & _). unfold states, stated, elided. rewrite R4.
    destruct (rp_money p) as [[a c]|], (p_amount q) as [[| a' c']|], (rp_balance p) as [[b d]|], (p_balance q) as [[|b' d']|]; cbn in R1, R2; try contradiction;
      destruct (rp_kind p); cbn; auto. }
  rewrite E. destruct (stated skip q); auto.
Qed.
Theorem C66_postings_kept : forall w skip l lg, world_ok w -> parsed w l -> to_ledger w skip l = Ok lg ->
  exists nma nmc nmp order,
    (forall n a, called w ac_name (lg_accounts lg) n a -> nma n = ac_name a) /\
    (forall n c, called w cu_name (lg_commodities lg) n c -> nmc n = cu_name c) /\
    (forall n y, called w py_name (lg_payees lg) n y -> nmp n = py_name y) /\
    Permutation (journal_txns l) order /\
    Forall2 (fun t t' => header t' = header t /\
               includes (carries w (l_values (pl_accounts l)) nma nmc nmp (t_comments t)) (filter (states skip) (t_postings t)) (t_postings t')) order (lg_txns lg).
Proof.
  intros w skip l lg Hw HP H. apply to_ledger_built in H; auto using parsed_ok.
  destruct (built_includes _ _ _ _ H) as (al & cs & pays & ts & dir & costs & sorted & JR & (D1 & _) & [E1 _] & [E2 _] & [E3 _] & F).
  set (nma := fun n => match l_get w n (lg_accounts lg) with Ok a => ac_name a | _ => n end).
  set (nmc := fun n => match l_get w n (lg_commodities lg) with Ok a => cu_name a | _ => n end).
  set (nmp := fun n => match l_get w n (lg_payees lg) with Ok a => py_name a | _ => n end).
  assert (R : Forall2 (fun t' t => reads_txn w al pays cs t t') ts (journal_txns l)).
  { pose proof (jr_txns _ _ _ _ _ _ _ _ JR) as X. clear -X. induction X; constructor; auto. }
  destruct (Forall2_perm_l _ _ _ _ D1 R) as (order & P & F').
  exists nma, nmc, nmp, order. split; [|split; [|split; [|split]]]; auto.
  - intros n a (_ & E & _). unfold nma. rewrite E. auto.
  - intros n a (_ & E & _). unfold nmc. rewrite E. auto.
  - intros n a (_ & E & _). unfold nmp. rewrite E. auto.
  - assert (F2 : Forall2 (reads_txn w al pays cs) order sorted) by (clear -F'; induction F'; constructor; auto).
    eapply Forall2_compose; [|exact F2|exact F]. cbn. intros t t1 t2 R1 (X1 & X2). split.
    + destruct R1. congruence.
    + eapply includes_trans; [|apply Forall2_includes; eapply filter_stated; eauto|exact X2].
      intros p q r ((P1 & P2 & P3 & P4 & (yy & YA & _ & YB) & a & P6 & P7 & P8 & P9) & PT) (S1 & S2 & S3 & S4 & S5 & S6 & more & S7). unfold carries.
      assert (M : forall x y q', reads_money w cs (Some (x, y)) (Some q') -> q' = M x (nmc y)).
      { intros x y [|x' y'] X; cbn in X; [contradiction|]. destruct X as (-> & c & X & ->). unfold nmc. rewrite (E2 _ _ X). auto. }
      split; [|split; [|split; [|split; [|split; [|split; [|split]]]]]].
      * intros x y0 E. rewrite E in P1. destruct (p_amount q) as [m|] eqn:Em; cbn in P1; [|contradiction].
        rewrite S5 by discriminate. f_equal. apply M. exact P1.
      * rewrite S2. destruct (rp_balance p) as [[x y]|], (p_balance q) as [m|]; cbn in P2; try contradiction; auto.
        f_equal. apply M. exact P2.
      * rewrite S3. unfold reads_cost in P3. destruct (rp_cost p) as [[x y]|]; auto. destruct P3 as (m & X3 & Y3).
        apply M in X3. subst m. destruct (rp_cost_type p) as [[]|]; auto. contradiction.
      * congruence.
      * intros E. rewrite S1, P6. unfold nma. rewrite (E1 _ _ (P8 E)). auto.
      * intros E y Ey. rewrite S6 in Ey. destruct (jr_new_accounts _ _ _ _ _ _ _ _ JR) as [_ V].
        assert (V' : forall b, In b (l_values al) -> claims_payee w y b -> In b (l_values (pl_accounts l))).
        { intros b Ib (rx & C1 & C2). destruct (V b Ib) as [Z|(m & _ & _ & ->)]; auto. destruct C1. }
        destruct (P9 E y Ey) as [Z|[Z1 Z2]].
        -- left. exists a. split; auto. split; auto. congruence.
        -- right. split; [|rewrite S1, P6; unfold nma; rewrite (E1 _ _ Z2); auto].
           intros b Ib. apply Z1. apply (jr_accounts _ _ _ _ _ _ _ _ JR). auto.
      * intros n E. rewrite S6, YA. unfold nmp. rewrite (E3 _ _ (YB _ E)). auto.
      * exists more. congruence.
Qed.
Print Assumptions C66_postings_kept.
Example C66_case : map (fun t => length (filter (states false) (t_postings t))) (journal_txns jl) = [3; 1; 2]%nat.
Proof. vm_compute. reflexivity. Qed.

(** ** The whole ledger balances and satisfies its assertions *)
Lemma built_last_run w skip l lg : ledger_built w skip l lg ->
  exists ts run imps, (forall acc c, run acc c = 0%Qc) /\ ledger_run skip run ts (lg_txns lg) imps.
Proof. intros []; eauto 6. Qed.
Theorem C10_ledger : forall w skip l lg, world_ok w -> parsed w l -> to_ledger w skip l = Ok lg ->
  forall t, In t (lg_txns lg) -> fine (group_value Real (t_postings t)).
Proof.
  intros w skip l lg Hw HP H t Ht. apply to_ledger_built in H; auto using parsed_ok.
  destruct (built_last_run _ _ _ _ H) as (ts & run & imps & _ & LR). clear -LR Ht. induction LR; [destruct Ht|].
  destruct Ht as [<-|Ht]; auto. apply H.
Qed.
Print Assumptions C10_ledger.
Theorem C14_ledger : forall w l lg, world_ok w -> parsed w l -> to_ledger w false l = Ok lg ->
  forall pre t post k1 p k2 a c, lg_txns lg = pre ++ t :: post -> t_postings t = k1 ++ p :: k2 ->
  p_kind p = Real -> p_balance p = Some (M a c) ->
  account_sum (flat_map t_postings pre ++ k1 ++ [p]) (p_account p) c = a.
Proof.
  intros w l lg Hw HP H pre t post k1 p k2 a c E Ep Hk Hb. apply to_ledger_built in H; auto using parsed_ok.
  destruct (built_last_run _ _ _ _ H) as (ts & run & imps & Hz & LR).
  assert (X : (run (p_account p) c + account_sum (flat_map t_postings pre ++ k1 ++ [p]) (p_account p) c = a)%Qc).
  { clear Hz H. revert E. generalize dependent pre. induction LR as [|run run' u u' prs us us' prices T R LR IH]; intros pre E.
    - destruct pre; discriminate.
    - destruct pre as [|v pre]; cbn in E; inv E.
      + destruct T as (_ & _ & _ & _ & A & _). cbn. eapply A; eauto.
      + specialize (IH _ eq_refl). rewrite R in IH. cbn [flat_map]. rewrite <- app_assoc, account_sum_app. rewrite <- IH. ring. }
  rewrite Hz in X. rewrite <- X. ring.
Qed.
Print Assumptions C14_ledger.
Example C14_ledger_case : existsb (fun p => match p_balance p, p_kind p with Some (M _ _), Real => true | _, _ => false end)
                            (flat_map t_postings (lg_txns jlg)) = true.
Proof. vm_compute. reflexivity. Qed.
