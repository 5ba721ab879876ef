(** Properties C71 and C72: what the names of a journal stand for, and where the postings of the ledger
    come from. *)
From Coq Require Import Lia.
From Verif Require Import Base BaseFacts Numerals Money Alist Comment Txn Peg Grammar Dates Expr Filter Tokens Price
  Ledger Spec MoneyFacts SpecTxn TxnFacts TxnFacts2 PropTxn TokenFacts SpecList AlistFacts JournalFacts SpecLedger
  LedgerFacts LedgerFacts2 LedgerFacts3 LedgerFacts4 PropLedger.
Open Scope Z_scope.

(** ** C71 *)
(** A name that no directive knows stands for something named after a mention of it. *)
Definition told_by_directive {T} (w : world) (l : alist T) (n : str) (e : T) : Prop := l_get w n l = Ok e.
Definition unknown_to {T} (w : world) (l : alist T) (n : str) : Prop := forall e, l_get w n l <> Ok e.
Theorem C71_names : forall w skip l lg, world_ok w -> parsed w l -> to_ledger w skip l = Ok lg ->
  (forall n a, mentions_account l n -> called w ac_name (lg_accounts lg) n a ->
     told_by_directive w (pl_accounts l) n a \/
     (unknown_to w (pl_accounts l) n /\ mentions_account l (ac_name a) /\ w_lower w (ac_name a) = w_lower w n /\
      ac_aliases a = [] /\ ac_payees a = [])) /\
  (forall n c, mentions_commodity l n -> called w cu_name (lg_commodities lg) n c ->
     told_by_directive w (pl_commodities l) n c \/
     (unknown_to w (pl_commodities l) n /\ mentions_commodity l (cu_name c) /\ w_lower w (cu_name c) = w_lower w n /\
      cu_aliases c = [] /\ cu_precision c = None)).
Proof.
  intros w skip l lg Hw HP H. apply to_ledger_built in H; auto using parsed_ok.
  destruct (built_sorted _ _ _ _ H) as (al & cs & pays & ts & dir & costs & sorted & JR & _ & _ & [E1 _] & [E2 _] & [E3 _]).
  split.
  - intros n a Hn (_ & Ha & _). destruct (jr_found_accounts _ _ _ _ _ _ _ _ JR n Hn) as (e & E). pose proof (E1 _ _ E) as X.
    rewrite Ha in X. inv X. destruct (proj1 (jr_new_accounts _ _ _ _ _ _ _ _ JR) _ _ E) as [Y|(Y & m & M1 & M2 & ->)]; [left; exact Y|].
    right. cbn. auto.
  - intros n a Hn (_ & Ha & _). destruct (jr_found_commodities _ _ _ _ _ _ _ _ JR n Hn) as (e & E). pose proof (E2 _ _ E) as X.
    rewrite Ha in X. inv X. destruct (proj1 (jr_new_commodities _ _ _ _ _ _ _ _ JR) _ _ E) as [Y|(Y & m & M1 & M2 & ->)]; [left; exact Y|].
    right. cbn. auto.
Qed.
Print Assumptions C71_names.
(** For payees the patterns of the directives are tried before. *)
Theorem C71_payees : forall w skip l lg, world_ok w -> parsed w l -> to_ledger w skip l = Ok lg ->
  forall n y, mentions_payee l n -> called w py_name (lg_payees lg) n y ->
    told_by_directive w (pl_payees l) n y \/
    (unknown_to w (pl_payees l) n /\ exists m, mentions_payee l m /\ w_lower w m = w_lower w n /\
      ((In y (l_values (pl_payees l)) /\ claims_name w m y) \/
       ((forall z, In z (l_values (pl_payees l)) -> ~ claims_name w m z) /\ py_name y = m /\ py_aliases y = []))).
Proof.
  intros w skip l lg Hw HP H. apply to_ledger_built in H; auto using parsed_ok.
  destruct (built_sorted _ _ _ _ H) as (al & cs & pays & ts & dir & costs & sorted & JR & _ & _ & [E1 _] & [E2 _] & [E3 _]).
  intros n a Hn (_ & Ha & _). destruct (jr_found_payees _ _ _ _ _ _ _ _ JR n Hn) as (e & E). pose proof (E3 _ _ E) as X.
  rewrite Ha in X. inv X. destruct (proj1 (jr_new_payees _ _ _ _ _ _ _ _ JR) _ _ E) as [Y|(Y & m & M1 & M2 & [M3|[M3 ->]])]; [left; exact Y| |].
  - right. split; [exact Y|]. exists m. auto.
  - right. split; [exact Y|]. exists m. cbn. auto 6.
Qed.
Print Assumptions C71_payees.
(** In this world a pattern matches a text that begins with it. *)
Definition w71 : world :=
  {| w_lower := ascii_lower; w_numeric := fun _ => false; w_rx := fun rx s => starts_with rx s;
     w_rx_ok := fun _ => true; w_width := None; w_read := fun _ => None; w_glob := fun _ => None; w_two_timer := fun _ => None;
     w_now := 0%Z; w_ord := fun _ _ l => l |}.
Definition j71_text : str := text
  ["account Expenses:Food"; "  payee Market"; "payee The market"; "  alias MARKET ST"; "commodity EUR";
   "2021-01-01 MARKET ST. 12"; "  Expenses:Unknown  5 eur"; "  Assets:A";
   "2021-01-02 Market hall"; "  Expenses:Unknown  6 USD"; "  Assets:A";
   "2021-01-03 Bakery"; "  Expenses:Unknown"; "  assets:a  -7 usd"]%string.
Definition j71 : pledger := get pl_new (tokenize_string 1 w71 j71_text).
Definition lg71 : ledger := get lg_new (to_ledger w71 false j71).
Example C71_case : world_ok w71 /\ parsed w71 j71 /\ to_ledger w71 false j71 = Ok lg71 /\
  (exists y, l_get w71 (L "MARKET ST. 12") (lg_payees lg71) = Ok y /\ py_name y = L "The market") /\
  (exists y, l_get w71 (L "Bakery") (lg_payees lg71) = Ok y /\ py_name y = L "Bakery") /\
  (exists c, l_get w71 (L "eur") (lg_commodities lg71) = Ok c /\ cu_name c = L "EUR") /\
  map (fun p => (p_account p, p_payee p)) (flat_map t_postings (lg_txns lg71)) =
  [(L "Expenses:Unknown", Some (L "The market")); (L "Assets:A", Some (L "The market"));
   (L "Expenses:Food", Some (L "Market hall")); (L "Assets:A", Some (L "Market hall"));
   (L "Assets:A", Some (L "Bakery")); (L "Expenses:Unknown", Some (L "Bakery"))].
Proof.
  split; [split; [intros; apply Permutation_refl|exact ascii_lower_idem]|].
  split; [exists 1%nat, None, [], j71_text; vm_compute; reflexivity|].
  split; [vm_compute; reflexivity|]. split; [|split; [|split]].
  - eexists. split; vm_compute; reflexivity.
  - eexists. split; vm_compute; reflexivity.
  - eexists. split; vm_compute; reflexivity.
  - vm_compute. reflexivity.
Qed.
(** If the patterns of several directives match, or if names that differ in letter case only match
    different patterns, the payee depends on the order in which a hash table is gone through. *)
Definition w71b : world :=
  {| w_lower := ascii_lower; w_numeric := fun _ => false; w_rx := fun rx s => starts_with rx s;
     w_rx_ok := fun _ => true; w_width := None; w_read := fun _ => None; w_glob := fun _ => None; w_two_timer := fun _ => None;
     w_now := 0%Z; w_ord := fun _ _ l => rev l |}.
Theorem C71_choice_not_determined : exists w w' l lg lg' n y y',
  world_ok w /\ world_ok w' /\ (forall x, w_lower w x = w_lower w' x) /\ (forall r x, w_rx w r x = w_rx w' r x) /\
  parsed w l /\ parsed w' l /\ to_ledger w false l = Ok lg /\ to_ledger w' false l = Ok lg' /\
  l_get w n (lg_payees lg) = Ok y /\ l_get w' n (lg_payees lg') = Ok y' /\ py_name y <> py_name y'.
Proof.
  pose (t := text ["payee Alpha"; "  alias Sh"; "payee Beta"; "  alias S"; "2021-01-01 Shop"; "  A  1 EUR"; "  B"]%string).
  exists w71, w71b, (get pl_new (tokenize_string 1 w71 t)), (get lg_new (to_ledger w71 false (get pl_new (tokenize_string 1 w71 t)))),
    (get lg_new (to_ledger w71b false (get pl_new (tokenize_string 1 w71 t)))), (L "Shop").
  exists {| py_name := L "Alpha"; py_aliases := [L "Sh"]; py_regexes := [L "Sh"]; py_note := None; py_directive := true |}.
  exists {| py_name := L "Beta"; py_aliases := [L "S"]; py_regexes := [L "S"]; py_note := None; py_directive := true |}.
  split; [split; [intros; apply Permutation_refl|exact ascii_lower_idem]|].
  split; [split; [intros; cbn; apply Permutation_sym, Permutation_rev|exact ascii_lower_idem]|].
  split; [reflexivity|]. split; [reflexivity|].
  split; [exists 1%nat, None, [], t; vm_compute; reflexivity|]. split; [exists 1%nat, None, [], t; vm_compute; reflexivity|].
  split; [vm_compute; reflexivity|]. split; [vm_compute; reflexivity|]. split; [vm_compute; reflexivity|]. split; [vm_compute; reflexivity|].
  vm_compute. discriminate.
Qed.
Print Assumptions C71_choice_not_determined.

(** ** C72 *)
(** Which accounts are unknown: those whose name ends with the word, whatever the case of its letters. *)
Theorem C72_unknown : forall w name, is_unknown w name = true <-> exists before, w_lower w name = before ++ L "unknown".
Proof.
  intros w name. unfold is_unknown, ends_with. rewrite BaseFacts.starts_with_app. split.
  - intros (r & E). exists (rev r). apply (f_equal (@rev N)) in E. rewrite rev_involutive, rev_app_distr, rev_involutive in E. exact E.
  - intros (b & E). exists (rev b). rewrite E, rev_app_distr. reflexivity.
Qed.
Example C72_unknown_case : is_unknown w71 (L "Expenses:Unknown") = true /\ is_unknown w71 (L "Unknown:Expenses") = false.
Proof. vm_compute. split; reflexivity. Qed.
Print Assumptions C72_unknown.
(** [q] is the posting [p] of the journal: its kind, payee and account, and its amount if it has one. *)
Definition placed (w : world) (dirs : list account) (nma nmc nmp : str -> str) (p : rposting) (q : posting) : Prop :=
  p_kind q = rp_kind p /\
  (forall n, rp_payee p = Some n -> p_payee q = Some (nmp n)) /\
  (forall a c, rp_money p = Some (a, c) -> p_amount q = Some (M a (nmc c))) /\
  (is_unknown w (rp_account p) = false -> p_account q = nma (rp_account p)) /\
  (is_unknown w (rp_account p) = true -> forall y, p_payee q = Some y ->
     (exists a, In a dirs /\ claims_payee w y a /\ p_account q = ac_name a) \/
     ((forall a, In a dirs -> ~ claims_payee w y a) /\ p_account q = nma (rp_account p))).
(** [q] is what the line [ap] of a rule adds. *)
Definition added_by (nma nmc nmp : str -> str) (ap : rposting) (q : posting) : Prop :=
  p_kind q = rp_kind ap /\ p_account q = nma (rp_account ap) /\
  (forall n, rp_payee ap = Some n -> p_payee q = Some (nmp n)) /\
  (forall a c, rp_money ap = Some (a, c) -> c <> [] -> p_amount q = Some (M a (nmc c))).
Definition stems (p q : posting) : Prop :=
  p_account q = p_account p /\ p_kind q = p_kind p /\ p_payee q = p_payee p /\ (p_amount p <> None -> p_amount q = p_amount p).
Lemma run_txn_stems skip run t t' prs (Q : posting -> Prop) : (forall p q, Q p -> stems p q -> Q q) ->
  ledger_txn skip run t t' prs -> Forall Q (t_postings t) -> Forall Q (t_postings t').
Proof.
  intros C (_ & _ & (kept & fills & E & K & F & _) & _) G. rewrite Forall_forall in G. rewrite E. apply Forall_forall. intros q Hq.
  rewrite !in_app_iff in Hq. destruct Hq as [Hq|[Hq|Hq]].
  - assert (X : exists p, In p (filter (given skip) (t_postings t)) /\ keeps p q).
    { clear -K Hq. induction K; [destruct Hq|]. destruct Hq as [<-|Hq]; [exists x; cbn; auto|]. destruct (IHK Hq) as (p & I & R). exists p. cbn. auto. }
    destruct X as (p & I & R). apply filter_In in I. apply (C p); [apply G, I|]. unfold keeps in R. unfold stems. tauto.
  - destruct (F q Hq) as (F1 & _ & _ & _ & _ & p & Ep & F2 & F3 & _).
    assert (I : In p (filter (elided skip) (t_postings t))) by (rewrite Ep; left; auto). apply filter_In in I. destruct I as [I1 I2].
    apply (C p); [apply G; auto|]. unfold elided in I2. unfold stems. destruct (p_kind p); try discriminate. destruct (p_amount p); try discriminate.
    repeat split; auto. congruence.
  - apply filter_In in Hq. apply G, Hq.
Qed.
Lemma pass_stems w from upto query rule t (Q : posting -> Prop) :
  (forall tags p, Q p -> Q (tagged tags p)) ->
  (forall p t' ap q, In ap (t_postings rule) -> rule_posting w from upto t' p ap q -> Q q) ->
  forall done todo tg ad, rule_pass w from upto query rule t done todo tg ad -> Forall Q todo -> Forall Q (tg ++ ad).
Proof.
  intros C A done todo tg ad H. induction H; intros F.
  - constructor.
  - inv F. constructor; auto.
  - inv F. constructor; auto.
  - inv F. specialize (IHrule_pass H7). apply Forall_app in IHrule_pass. destruct IHrule_pass as [X Y]. cbn. constructor; auto.
    apply Forall_app. split; auto. apply Forall_app. split; auto. apply Forall_forall. intros q Hq.
    assert (Z : exists ap, In ap (t_postings rule) /\ rule_posting w from upto (set_postings t (done ++ tagged (flat_map get_tags (t_comments rule)) p :: r)) (tagged (flat_map get_tags (t_comments rule)) p) ap q).
    { clear -H2 Hq. induction H2; [destruct Hq|]. destruct Hq as [<-|Hq]; [exists x; cbn; auto|]. destruct (IHForall2 Hq) as (ap & I & R). exists ap. cbn. auto. }
    destruct Z as (ap & I & R). eapply A; eauto.
Qed.
Lemma passes_stems w from upto (Q : posting -> Prop) rs : 
  (forall tags p, Q p -> Q (tagged tags p)) ->
  (forall query rule p t' ap q, In (query, rule) rs -> In ap (t_postings rule) -> rule_posting w from upto t' p ap q -> Q q) ->
  forall t t', rules_pass w from upto rs t t' -> Forall Q (t_postings t) -> Forall Q (t_postings t').
Proof.
  intros C A t t' H. induction H; auto. intros F. apply IHrules_pass.
  - intros. eapply A; eauto. right. eauto.
  - cbn. eapply pass_stems; eauto. intros. eapply A; eauto. left. auto.
Qed.
Theorem C72_where_postings_come_from : forall w skip l lg, world_ok w -> parsed w l -> to_ledger w skip l = Ok lg ->
  exists nma nmc nmp order,
    (forall n a, called w ac_name (lg_accounts lg) n a -> nma n = ac_name a) /\
    (forall n c, called w cu_name (lg_commodities lg) n c -> nmc n = cu_name c) /\
    (forall n y, called w py_name (lg_payees lg) n y -> nmp n = py_name y) /\
    Permutation (journal_txns l) order /\
    Forall2 (fun t t' => header t' = header t /\
      forall q, In q (t_postings t') ->
        (exists p, In p (t_postings t) /\ placed w (l_values (pl_accounts l)) nma nmc nmp p q) \/
        (exists r ap, In r (rules l) /\ In ap (t_postings r) /\ added_by nma nmc nmp ap q)) order (lg_txns lg).
Proof.
  intros w skip l lg Hw HP H. apply to_ledger_built in H; auto using parsed_ok.
  set (nma := fun n => match l_get w n (lg_accounts lg) with Ok a => ac_name a | _ => n end).
  set (nmc := fun n => match l_get w n (lg_commodities lg) with Ok a => cu_name a | _ => n end).
  set (nmp := fun n => match l_get w n (lg_payees lg) with Ok a => py_name a | _ => n end).
  set (Q := fun t q => (exists p, In p (t_postings t) /\ placed w (l_values (pl_accounts l)) nma nmc nmp p q) \/
        (exists r ap, In r (rules l) /\ In ap (t_postings r) /\ added_by nma nmc nmp ap q)).
  assert (C1 : forall (t : txn rposting) p q, Q t p -> stems p q -> Q t q).
  { intros t p q [(p0 & I & X1 & X2 & X3 & X4 & X5)|(r & ap & I1 & I2 & X1 & X2 & X3 & X4)] (S1 & S2 & S3 & S4).
    - left. exists p0. split; auto. unfold placed. rewrite S1, S2, S3. split; [auto|]. split; [auto|]. split; [|auto].
      intros a c E. rewrite S4; auto. rewrite (X3 _ _ E). discriminate.
    - right. exists r, ap. split; auto. split; auto. unfold added_by. rewrite S1, S2, S3. split; [auto|]. split; [auto|]. split; [auto|].
      intros a c E N. rewrite S4; auto. rewrite (X4 _ _ E N). discriminate. }
  assert (C2 : forall (t : txn rposting) tags p, Q t p -> Q t (tagged tags p)).
  { intros t tags p X. apply (C1 t p); auto. repeat split. }
  assert (RD : forall al cs pays ts dir costs, journal_read w l al cs pays ts dir costs ->
     extends w al (lg_accounts lg) -> extends w cs (lg_commodities lg) -> extends w pays (lg_payees lg) ->
     forall t t', reads_txn w al pays cs t t' -> Forall (Q t) (t_postings t')).
  { intros al cs pays ts dir costs JR [E1 _] [E2 _] [E3 _] t t' (_ & F & _). apply Forall_forall. intros q Hq. left.
    assert (X : exists p, In p (t_postings t) /\ reads_posting w al pays cs p q).
    { clear -F Hq. induction F; [destruct Hq|]. destruct Hq as [<-|Hq]; [exists x; cbn; auto|]. destruct (IHF Hq) as (p & I & R). exists p. cbn. auto. }
    destruct X as (p & I & P1 & P2 & P3 & P4 & (yy & YA & _ & YB) & a & P6 & P7 & P8 & P9). exists p. split; auto.
    split; [auto|]. split; [intros n E; rewrite YA; unfold nmp; rewrite (E3 _ _ (YB _ E)); auto|]. split; [|split].
    - intros x y E. rewrite E in P1. destruct (p_amount q) as [[|x' y']|]; cbn in P1; try contradiction. destruct P1 as (-> & c & X & ->).
      unfold nmc. rewrite (E2 _ _ X). auto.
    - intros E. rewrite P6. unfold nma. rewrite (E1 _ _ (P8 E)). auto.
    - intros E y Ey. destruct (jr_new_accounts _ _ _ _ _ _ _ _ JR) as [_ V].
      assert (V' : forall b, In b (l_values al) -> claims_payee w y b -> In b (l_values (pl_accounts l))).
      { intros b Ib (rx & D1 & D2). destruct (V b Ib) as [Z|(m & _ & _ & ->)]; auto. destruct D1. }
      destruct (P9 E y Ey) as [Z|[Z1 Z2]].
      + left. exists a. split; auto.
      + right. split; [|rewrite P6; unfold nma; rewrite (E1 _ _ Z2); auto].
        intros b Ib. apply Z1. apply (jr_accounts _ _ _ _ _ _ _ _ JR). auto. }
  assert (RN : forall run ts ts' imps, ledger_run skip run ts ts' imps -> forall order, Forall2 (fun t t' => header t' = header t /\ Forall (Q t) (t_postings t')) order ts ->
    Forall2 (fun t t' => header t' = header t /\ Forall (Q t) (t_postings t')) order ts').
  { induction 1 as [|run run' t t' prs ts ts' prices T R LR IH]; intros order F; inv F; constructor; auto. destruct H3 as [A B]. split.
    - destruct T as (_ & (X1 & X2 & X3 & X4 & X5 & X6 & X7 & X8 & X9) & _). rewrite <- A. unfold header. congruence.
    - eapply run_txn_stems; eauto. }
  assert (ST : forall al cs pays ts dir costs sorted, journal_read w l al cs pays ts dir costs ->
     extends w al (lg_accounts lg) -> extends w cs (lg_commodities lg) -> extends w pays (lg_payees lg) -> date_sorted ts sorted ->
     exists order, Permutation (journal_txns l) order /\ Forall2 (fun t t' => header t' = header t /\ Forall (Q t) (t_postings t')) order sorted).
  { intros al cs pays ts dir costs sorted JR X1 X2 X3 (D1 & _).
    assert (R : Forall2 (fun t' t => reads_txn w al pays cs t t') ts (journal_txns l)).
    { pose proof (jr_txns _ _ _ _ _ _ _ _ JR) as X. clear -X. induction X; constructor; auto. }
    destruct (Forall2_perm_l _ _ _ _ D1 R) as (order & P & F'). exists order. split; auto.
    assert (F2 : Forall2 (reads_txn w al pays cs) order sorted) by (clear -F'; induction F'; constructor; auto).
    eapply Forall2_impl_in; [exact F2|]. intros t t' _ RT. split; [destruct RT; auto|]. eapply RD; eauto. }
  assert (G : exists order, Permutation (journal_txns l) order /\ Forall2 (fun t t' => header t' = header t /\ Forall (Q t) (t_postings t')) order (lg_txns lg)).
  { destruct H as [ts dir costs sorted run imps Hr HL JR DS Hz LR EP|al cs pays ts dir costs sorted run ts1 imps q ts2 run' imps' Hr HL JR DS Hz LR QF RP Hz' LR' E1 E2 E3 EP].
    - destruct (ST _ _ _ _ _ _ _ JR (extends_refl _ _) (extends_refl _ _) (extends_refl _ _) DS) as (order & P & F). exists order. split; auto.
      eapply RN; eauto.
    - destruct (ST _ _ _ _ _ _ _ JR E1 E2 E3 DS) as (order & P & F). exists order. split; auto.
      eapply RN; [exact LR'|]. eapply (RN _ _ _ _ LR) in F. clear -F RP C2. revert order F. induction RP as [|t t' us us' R RP IH]; intros order F; inv F; constructor; auto.
      destruct H2 as [A B]. pose proof (proj1 (rules_pass_good _ _ _ _ _ _ R)) as (X1 & X2 & X3 & X4 & X5 & X6 & X7 & X8 & X9). split.
      + rewrite <- A. unfold header. congruence.
      + eapply passes_stems; [apply C2| |exact R|exact B]. intros query rule p t'' ap q0 I1 I2 RPst. right. exists rule, ap.
        split; [eapply in_combine_r; eauto|]. split; auto.
        destruct RPst as ((a & Y1 & Y2) & Y3 & (m & Y4 & Y5) & Y6 & _). cbn in Y1. split; [auto|]. split; [|split].
        * unfold nma. rewrite Y1. auto.
        * intros n En. rewrite En in Y3. destruct Y3 as (yy & Y7 & Y8). cbn in Y7. unfold nmp. rewrite Y7. auto.
        * intros qa qc Em Nc. unfold rule_amount in Y5. rewrite Em in Y5. destruct qc as [|c0 qc]; [congruence|]. destruct Y5 as (cu & Y7 & ->). cbn in Y7.
          unfold nmc. rewrite Y7. auto. }
  destruct G as (order & P & F). exists nma, nmc, nmp, order. split; [|split; [|split; [|split]]]; auto.
  - intros n a (_ & E & _). unfold nma. rewrite E. auto.
  - intros n a (_ & E & _). unfold nmc. rewrite E. auto.
  - intros n a (_ & E & _). unfold nmp. rewrite E. auto.
  - eapply Forall2_impl_in; [exact F|]. intros t t' _ [A B]. split; auto. rewrite Forall_forall in B. exact B.
Qed.
Print Assumptions C72_where_postings_come_from.
Example C72_case :
  existsb (fun t => existsb (fun p => is_unknown w71 (rp_account p)) (t_postings t)) (journal_txns j71) = true /\
  existsb (fun p => str_eqb (p_account p) (L "Expenses:Food")) (flat_map t_postings (lg_txns lg71)) = true.
Proof. split; vm_compute; reflexivity. Qed.
