(** Properties C55-C61: the balance and register reports. *)
From Coq Require Import Lia Sorting.Sorted.
From Verif Require Import Base BaseFacts Numerals Money Alist Comment Txn Expr Filter Price Tokens Ledger Reports Spec MoneyFacts SpecList SpecTxn SpecLedger
  LedgerFacts LedgerFacts2 PropTxn PropLedger SpecQuery SpecReports SpecUtf8 ReportFacts ReportFacts2 ReportFacts3.
Open Scope Qc_scope.

(** ** Journals for the examples *)
Definition plain_opts : opts :=
  {| o_real := false; o_begin := None; o_end := None; o_query := []; o_depth := None; o_exchange := None; o_no_balance_check := false |}.
Definition with_depth (d : nat) : opts :=
  {| o_real := false; o_begin := None; o_end := None; o_query := []; o_depth := Some d; o_exchange := None; o_no_balance_check := false |}.
Definition into (c : str) : opts :=
  {| o_real := false; o_begin := None; o_end := None; o_query := []; o_depth := None; o_exchange := Some c; o_no_balance_check := false |}.
Definition journal_of (t : list String.string) : pledger := get pl_new (tokenize_string 1 w1 (text t)).
Definition ledger_of (t : list String.string) : ledger := get lg_new (to_ledger w1 false (journal_of t)).
Definition rows_of (r : res breport) : list (nat * str * list (option str * Q)) :=
  match r with
  | Ok b => map (fun x => (br_indent x, br_label x, map (fun m => (m_commodity m, this (m_amount m))) (br_moneys x))) (bp_rows b)
  | _ => []
  end.
Definition t55 : list String.string :=
  ["P 1960-01-01 USD 2 EUR"; "2021-01-01 a"; "  Assets:Bank  10 EUR"; "  Assets:Cash  5 USD"; "  Income:Job  -8 EUR"; "  Income:Gift  -2 EUR"; "  Income:Gift  -5 USD";
   "2021-01-02 b"; "  Assets:Cash  -1 USD"; "  Food  1 USD"]%string.
Definition lg55 : ledger := ledger_of t55.
Example lg55_made : made_from w1 lg55.
Proof. exists false, (journal_of t55). split; [exists 1%nat, None, [], (text t55)|]; vm_compute; reflexivity. Qed.

(** ** C55 *)
(** The amounts computed for the accounts of the tree, from the postings [ps]. *)
Theorem C55_tree_amounts_partial : forall w site sel bals, world_ok w -> account_balances sel = Ok bals ->
  let ps := flat_map snd sel in let tree := tree_balances w site bals in
  NoDup (map fst tree) /\
  (forall a b, In (a, b) tree -> ~ begins_with_colon a -> (forall c, bal_amt b c = subtotal ps (inside a) c) /\ exists c, bal_amt b c <> 0) /\
  (forall a, (forall p, In p ps -> ~ begins_with_colon (p_account p)) -> (In a (map fst tree) <-> exists c, subtotal ps (inside a) c <> 0)).
Proof.
  intros w site sel bals Hw H. cbn zeta. unfold account_balances in H.
  destruct (account_balances_ok _ _ _ H empty_good) as (G1 & G2 & G3 & _).
  assert (G2' : forall P c, entries_sum P bals c = subtotal (flat_map snd sel) P c).
  { intros Q c. rewrite G2. change (entries_sum Q [] c) with 0. ring. }
  destruct (tree_balances_ok w Hw site bals G1) as (T1 & T2 & T3 & T4).
  assert (A : forall a b, In (a, b) (tree_balances w site bals) -> ~ begins_with_colon a -> (forall c, bal_amt b c = subtotal (flat_map snd sel) (inside a) c) /\ exists c, bal_amt b c <> 0).
  { intros a b Hi Hl. destruct (T2 a b Hi) as [Z X]. split.
    - intros c. rewrite X by (intros r E; apply Hl; exists r; auto). apply G2'.
    - assert (Gb : good_bal b) by (eapply T1; eauto). destruct b as [|e b]; [discriminate|].
      destruct (nz_entry_shape _ e (proj1 Gb) (proj2 Gb) (or_introl eq_refl)) as (c & am & ->).
      destruct (proj1 (nz_entry_iff _ c am (proj1 Gb) (proj2 Gb)) (or_introl eq_refl)) as [Y1 Y2]. exists c. congruence. }
  split; [apply T1|]. split; auto. intros a Hl. split.
  - intros Hi. apply in_map_iff in Hi. destruct Hi as ([a' b] & <- & Hi). cbn [fst].
    assert (Hla : ~ begins_with_colon a').
    { intros (r & ->). destruct (T4 (L ":" ++ r)) as (n & N1 & N2); [apply (in_map fst _ _ Hi)|]. apply G3 in N1. destruct N1 as [[]|(p & P1 & P2)].
      apply (Hl p P1). rewrite P2. destruct N2 as [->|N2]; [exists r; auto|]. destruct (prefixes_inside _ _ N2) as [(r' & ->)|[->|X]]; auto; [|exists r; auto].
      exists (r ++ L ":" ++ r'). rewrite <- app_assoc. auto. }
    destruct (A _ _ Hi Hla) as [A1 (c & A2)]. exists c. rewrite <- A1. auto.
  - intros (c & Hc). destruct (subtotal_some _ _ _ Hc) as (p & P1 & P2). apply T3.
    + exists (p_account p). split; [apply G3; right; eauto|]. apply prefixes_ancestor; auto. intros r' Er. apply (Hl p P1). exists r'. auto.
    + exists c. rewrite G2'. auto.
Qed.
Print Assumptions C55_tree_amounts_partial.
(** The printed rows.  [accs] are the accounts of the rows. *)
Definition tree_row_shows (o : opts) (rate : str -> option Qc) (cur : str) (ps : list posting) (a : str) (row : brow) : Prop :=
  br_indent row = levels a /\ (exists part more, own_part a part /\ br_label row = part ++ more) /\
  (forall d, o_depth o = Some d -> (levels a <= d)%nat) /\
  shown_amounts (br_moneys row) /\ br_moneys row <> [] /\
  (~ begins_with_colon a -> forall c, moneys_amt (br_moneys row) c = converted rate cur (amounts_of ps (inside a)) c).
Lemma tree_rows w site o tot lg r : world_ok w -> made_from w lg -> balance_report w site o false tot lg = Ok r ->
  exists q tps rate cur accs, report_data w o lg q tps rate cur /\ ascending accs /\
    Forall2 (tree_row_shows o rate cur (map snd tps)) accs (bp_rows r) /\
    (forall ms, bp_total r = Some ms -> forall c, moneys_amt ms c = converted rate cur (amounts_of (map snd tps) (fun _ => true)) c).
Proof.
  intros Hw M H. destruct (tree_report _ _ _ _ _ _ Hw M H) as (q & tps & rate & cur & es & RD & S & G & GR & _ & HA & _ & _ & HTT).
  destruct (grouped_rows _ _ _ _ GR) as (es' & Sub & F). exists q, tps, rate, cur, (map fst es'). split; auto. split; [|split; [|exact HTT]].
  - apply sorted_ascending. eapply sublist_sorted; [apply sublist_map; exact Sub|exact S].
  - assert (I : forall x, In x es' -> In x es) by (intros x; apply sublist_in; auto). clear Sub GR H. revert I. remember (bp_rows r) as rs eqn:Er. clear Er.
    induction F as [|[a b] row es0 rows0 (Z & D & g & T1 & T2 & s & T3) F IH]; [constructor|]. intros I. cbn [map fst]. constructor; [|apply IH; intros x X; apply I; right; auto].
    cbn [fst snd] in *. assert (Hi : In (a, b) es) by (apply I; left; auto). destruct (shown_perm w s b Hw (G a b Hi)) as (P1 & P2 & P3).
    split; [rewrite T1; apply nparts_levels|]. split; [exists (leaf a), (absorbed g); split; [apply leaf_own|auto]|].
    split; [intros d Hd; rewrite <- nparts_levels; auto|]. rewrite T3. split; auto. split; auto. intros Hl c. rewrite P3. apply HA; auto.
Qed.
Theorem C55_tree_rows_partial : forall w site o tot lg r, world_ok w -> made_from w lg -> o_exchange o = None ->
  balance_report w site o false tot lg = Ok r ->
  exists q tps accs, query_node w o = Ok q /\ reported_postings w o q lg tps /\ ascending accs /\
    Forall2 (fun a row =>
      br_indent row = levels a /\ (exists part more, own_part a part /\ br_label row = part ++ more) /\
      (forall d, o_depth o = Some d -> (levels a <= d)%nat) /\
      shown_amounts (br_moneys row) /\ br_moneys row <> [] /\
      (~ begins_with_colon a -> forall c, moneys_amt (br_moneys row) c = subtotal (map snd tps) (inside a) c)) accs (bp_rows r).
Proof.
  intros w site o tot lg r Hw M Ex H. destruct (tree_rows _ _ _ _ _ _ Hw M H) as (q & tps & rate & cur & accs & [R1 R2 (cs & _ & _ & R3)] & A & F & _).
  assert (rate = fun _ => None) as -> by (inversion R3; congruence).
  exists q, tps, accs. split; auto. split; auto. split; auto. eapply forall2_weaken; [|exact F].
  intros a row (H1 & H2 & H3 & H4 & H5 & H6). do 5 (split; auto). intros Hl c. rewrite H6 by auto. rewrite converted_id. apply amounts_subtotal.
Qed.
Print Assumptions C55_tree_rows_partial.
Example C55_case : rows_of (balance_report w1 9 plain_opts false true lg55) =
  [(1, L "Assets", [(Some (L "EUR"), 10 # 1); (Some (L "USD"), 4 # 1)]); (2, L "Bank", [(Some (L "EUR"), 10 # 1)]); (2, L "Cash", [(Some (L "USD"), 4 # 1)]);
   (1, L "Food", [(Some (L "USD"), 1 # 1)]);
   (1, L "Income", [(Some (L "EUR"), - 10 # 1); (Some (L "USD"), - 5 # 1)]); (2, L "Gift", [(Some (L "EUR"), - 2 # 1); (Some (L "USD"), - 5 # 1)]);
   (2, L "Job", [(Some (L "EUR"), - 8 # 1)])]%nat%Q.
Proof. vm_compute. reflexivity. Qed.

(** An account whose name begins with a colon is not given the amounts of its sub-accounts. *)
Definition tcolon : list String.string := ["2021-01-01 a"; "  :a  2 EUR"; "  :a:b  1 EUR"; "  :z  4 EUR"; "  c  -7 EUR"]%string.
Definition selected (lg : ledger) : list (txn posting * list posting) :=
  match select_txns w1 plain_opts None (lg_txns lg) (lg_commodities lg) with Ok (s, _) => s | _ => [] end.
Theorem C55_leading_colon_refuted : exists lg bals a b c, made_from w1 lg /\ account_balances (selected lg) = Ok bals /\
  In (a, b) (tree_balances w1 9 bals) /\ bal_amt b c <> subtotal (flat_map snd (selected lg)) (inside a) c.
Proof.
  set (lg := ledger_of tcolon). exists lg, (get [] (account_balances (selected lg))), (L ":a").
  exists (match hget str_eqb (L ":a") (tree_balances w1 9 (get [] (account_balances (selected lg)))) with Some b => b | None => [] end), (L "EUR").
  split; [exists false, (journal_of tcolon); split; [exists 1%nat, None, [], (text tcolon)|]; vm_compute; reflexivity|].
  split; [vm_compute; reflexivity|]. split; [apply (hget_In _ str_eqb_spec); vm_compute; reflexivity|].
  intros X. apply (f_equal this) in X. vm_compute in X. discriminate.
Qed.
Print Assumptions C55_leading_colon_refuted.

(** ** C56 *)
(** [cut] shortens names to the depth asked for. *)
Definition cuts (o : opts) (cut : str -> str) : Prop :=
  forall n, match o_depth o with Some d => shortened d n (cut n) | None => cut n = n end.
Lemma cuts_cut_to o cut n : cuts o cut -> cut n = cut_to (o_depth o) n.
Proof.
  intros H. specialize (H n). unfold cut_to. destruct (o_depth o); auto. eapply shortened_unique; [exact H|apply truncate_shortened].
Qed.
Lemma cuts_exists o : cuts o (cut_to (o_depth o)).
Proof. intros n. unfold cut_to. destruct (o_depth o); auto. apply truncate_shortened. Qed.
Lemma flat_rows w site o tot lg r : world_ok w -> made_from w lg -> balance_report w site o true tot lg = Ok r ->
  exists q tps rate cur, report_data w o lg q tps rate cur /\
    ascending (map br_label (bp_rows r)) /\
    (forall row cut, In row (bp_rows r) -> cuts o cut -> br_indent row = O /\ br_moneys row <> [] /\
       row_shows rate cur (map snd tps) (fun n => str_eqb (cut n) (br_label row)) (br_moneys row)) /\
    (forall cut a c, cuts o cut -> converted rate cur (amounts_of (map snd tps) (fun n => str_eqb (cut n) a)) c <> 0 ->
       In a (map br_label (bp_rows r))) /\
    (forall c, qsum (map (fun row => moneys_amt (br_moneys row) c) (bp_rows r)) = converted rate cur (amounts_of (map snd tps) (fun _ => true)) c) /\
    (forall ms, bp_total r = Some ms -> forall c, moneys_amt ms c = converted rate cur (amounts_of (map snd tps) (fun _ => true)) c).
Proof.
  intros Hw M H. destruct (flat_report _ _ _ _ _ _ Hw M H) as (q & tps & rate & cur & es & RD & S & G & F & HA & HK & HT & HTT).
  exists q, tps, rate, cur. split; auto.
  assert (El : map br_label (bp_rows r) = hkeys (nonzero es)).
  { clear - F. induction F as [|x row l rows (E & _) F IH]; [reflexivity|]. unfold hkeys in *. cbn [map]. rewrite IH, E. auto. }
  assert (Ef : forall cut a, cuts o cut -> amounts_of (map snd tps) (fun n => str_eqb (cut n) a) = amounts_of (map snd tps) (fun n => str_eqb (cut_to (o_depth o) n) a)).
  { intros cut a Hc. unfold amounts_of. f_equal. apply filter_ext. intros p. rewrite (cuts_cut_to o cut) by auto. auto. }
  split; [|split; [|split; [|split; [|exact HTT]]]].
  - rewrite El. apply sorted_ascending. eapply sublist_sorted; [|exact S]. apply sublist_map. clear. unfold nonzero. induction es as [|x es IH]; cbn [filter]; [constructor|].
    destruct (negb _); constructor; auto.
  - intros row cut Hi Hc. destruct (forall2_in_r _ _ _ _ F Hi) as ([a b] & I1 & I2 & I3 & s & I4). apply filter_In in I1. destruct I1 as [I1 Z]. cbn [fst snd] in *.
    destruct (shown_perm w s b Hw (G a b I1)) as (P1 & P2 & P3). split; auto. rewrite I4. split; [apply P2; destruct (bal_is_zero b); auto; discriminate|].
    split; auto. intros c. rewrite P3, (HA a b I1), (Ef cut _ Hc), I2. auto.
  - intros cut a c Hc Hn. rewrite El. rewrite (Ef cut a Hc) in Hn.
    assert (K : In a (hkeys es)).
    { destruct (existsb (fun c' => negb (qc_eqb (subtotal (map snd tps) (fun n => str_eqb (cut_to (o_depth o) n) a) c') 0))
                 (flat_map (fun m => match m with M _ k => [k] | MZero => [] end) (amounts_of (map snd tps) (fun n => str_eqb (cut_to (o_depth o) n) a)))) eqn:Ex.
      - apply existsb_exists in Ex. destruct Ex as (c' & _ & Ex). apply (HK a c'). apply negb_true_iff in Ex. intros X. rewrite X in Ex. vm_compute in Ex. discriminate.
      - exfalso. apply Hn. transitivity (converted rate cur [] c); [|reflexivity]. apply converted_same. intros c'. rewrite amounts_subtotal.
        change (moneys_amt [] c') with 0. destruct (Qc_eq_dec (subtotal (map snd tps) (fun n => str_eqb (cut_to (o_depth o) n) a) c') 0) as [E|E]; auto. exfalso.
        assert (X : In c' (flat_map (fun m => match m with M _ k => [k] | MZero => [] end) (amounts_of (map snd tps) (fun n => str_eqb (cut_to (o_depth o) n) a)))).
        { rewrite <- amounts_subtotal in E. unfold moneys_amt in E. clear - E. induction (amounts_of (map snd tps) _) as [|m l IH]; [destruct (E eq_refl)|].
          cbn [flat_map map] in *. rewrite qsum_cons in E. apply in_or_app. destruct m as [|x k]; cbn [money_amt] in E.
          - right. apply IH. rewrite Qcplus_0_l in E. exact E.
          - destruct (str_eqb_spec k c') as [->|]; [left; left; auto|]. right. apply IH. rewrite Qcplus_0_l in E. exact E. }
        assert (Y : existsb (fun c' => negb (qc_eqb (subtotal (map snd tps) (fun n => str_eqb (cut_to (o_depth o) n) a) c') 0))
                 (flat_map (fun m => match m with M _ k => [k] | MZero => [] end) (amounts_of (map snd tps) (fun n => str_eqb (cut_to (o_depth o) n) a))) = true).
        { apply existsb_exists. exists c'. split; auto. apply negb_true_iff. destruct (qc_eqb_spec (subtotal (map snd tps) (fun n => str_eqb (cut_to (o_depth o) n) a) c') 0); congruence. }
        congruence. }
    apply in_map_iff in K. destruct K as ([a' b] & <- & K). cbn [fst] in *. apply (in_map fst _ (a', b)). apply filter_In. split; auto. cbn [snd]. apply negb_true_iff.
    destruct (bal_is_zero b) eqn:Z; auto. exfalso. apply Hn. rewrite <- (HA a' b K). apply good_zero_amt; auto. eapply G; eauto.
  - intros c. rewrite <- HT. clear - F G Hw. 
    assert (E : qsum (map (fun x => bal_amt (snd x) c) es) = qsum (map (fun x => bal_amt (snd x) c) (nonzero es))).
    { clear F. induction es as [|[a b] es IH]; [reflexivity|]. unfold nonzero in *. cbn [map filter snd]. rewrite qsum_cons, IH by (intros x y X; apply (G x); right; auto).
      destruct (bal_is_zero b) eqn:Z; cbn [negb]; [|cbn [map snd]; rewrite qsum_cons; auto].
      rewrite (proj1 (good_zero_amt b (G a b (or_introl eq_refl))) Z c). apply Qcplus_0_l. }
    rewrite E. assert (G' : forall a b, In (a, b) (nonzero es) -> good_bal b) by (intros a b X; apply filter_In in X; eapply G; apply X). clear E G.
    induction F as [|[a b] row l rows (_ & _ & s & E) F IH]; [reflexivity|]. cbn [map snd] in *. rewrite !qsum_cons, IH by (intros x y X; apply (G' x); right; auto).
    f_equal. rewrite E. apply shown_perm; auto. apply (G' a). left. auto.
Qed.
Theorem C56_flat_rows_partial : forall w site o tot lg r, world_ok w -> made_from w lg -> o_exchange o = None ->
  balance_report w site o true tot lg = Ok r ->
  exists q tps, query_node w o = Ok q /\ reported_postings w o q lg tps /\
    ascending (map br_label (bp_rows r)) /\
    (forall row cut, In row (bp_rows r) -> cuts o cut -> shown_amounts (br_moneys row) /\ br_moneys row <> [] /\
       forall c, moneys_amt (br_moneys row) c = subtotal (map snd tps) (fun n => str_eqb (cut n) (br_label row)) c) /\
    (forall cut a c, cuts o cut -> subtotal (map snd tps) (fun n => str_eqb (cut n) a) c <> 0 -> In a (map br_label (bp_rows r))).
Proof.
  intros w site o tot lg r Hw M Ex H. destruct (flat_rows _ _ _ _ _ _ Hw M H) as (q & tps & rate & cur & [R1 R2 (cs & _ & _ & R3)] & A & F1 & F2 & _ & _).
  assert (rate = fun _ => None) as -> by (inversion R3; congruence).
  exists q, tps. do 3 (split; auto). split.
  - intros row cut Hi Hc. destruct (F1 row cut Hi Hc) as (_ & X & Y1 & Y2). do 2 (split; auto). intros c. rewrite Y2, converted_id. apply amounts_subtotal.
  - intros cut a c Hc Hn. apply (F2 cut a c Hc). rewrite converted_id, amounts_subtotal. auto.
Qed.
Print Assumptions C56_flat_rows_partial.
(** Cutting the names to a positive depth never fails unless a name begins with a colon. *)
Theorem C56_depth_succeeds_partial : forall w site d sel bals, world_ok w -> account_balances sel = Ok bals -> (1 <= d)%nat ->
  (forall p, In p (flat_map snd sel) -> p_account p <> [] /\ ~ begins_with_colon (p_account p)) ->
  exists rows, flat_balances w site (Some d) bals = Ok rows.
Proof.
  intros w site d sel bals Hw H Hd Hl. destruct (account_balances_ok _ _ _ H empty_good) as (G1 & _ & G3 & _).
  unfold flat_balances. apply merge_runs_total; [right; auto|congruence|]. intros x Hx.
  eapply Permutation_in in Hx; [|apply stable_sort_perm]. apply in_map_iff in Hx. destruct Hx as ([a b] & <- & Hx). apply filter_In in Hx. destruct Hx as [Hx _].
  eapply Permutation_in in Hx; [|apply Hw]. cbn [fst]. assert (K : In a (hkeys bals)) by (apply (in_map fst _ (a, b)); auto).
  apply G3 in K. destruct K as [[]|(p & P1 & <-)]. destruct (Hl p P1) as [L1 L2]. intros X.
  destruct (truncate_shortened d (p_account p)) as [[_ E]|[(r & E & _)|[E _]]].
  - congruence.
  - rewrite X in E. apply L2. exists r. auto.
  - lia.
Qed.
Print Assumptions C56_depth_succeeds_partial.
(** Depth zero stops the program. *)
Theorem C56_depth_zero_refuted : made_from w1 lg55 /\ balance_report w1 9 (with_depth 0) true true lg55 = Panic PIndex.
Proof. split; [apply lg55_made|vm_compute; reflexivity]. Qed.
Print Assumptions C56_depth_zero_refuted.
Example C56_case : rows_of (balance_report w1 9 (with_depth 1) true true lg55) =
  [(0, L "Assets", [(Some (L "EUR"), 10 # 1); (Some (L "USD"), 4 # 1)]); (0, L "Food", [(Some (L "USD"), 1 # 1)]);
   (0, L "Income", [(Some (L "EUR"), - 10 # 1); (Some (L "USD"), - 5 # 1)])]%nat%Q /\
  shortened 1 (L "Assets:Bank") (L "Assets").
Proof. split; [vm_compute; reflexivity|]. right. left. exists (L "Bank"). split; reflexivity. Qed.

(** ** C57 *)
Theorem C57_total : forall w site o flat tot lg r, world_ok w -> made_from w lg -> o_exchange o = None ->
  balance_report w site o flat tot lg = Ok r ->
  exists q tps, query_node w o = Ok q /\ reported_postings w o q lg tps /\
    (bp_total r <> None <-> tot = true /\ (2 <= length (bp_rows r))%nat) /\
    forall ms, bp_total r = Some ms -> (ms = [MZero] \/ shown_amounts ms /\ ms <> []) /\
      forall c, moneys_amt ms c = subtotal (map snd tps) (fun _ => true) c.
Proof.
  intros w site o flat tot lg r Hw M Ex H. destruct (report_parts _ _ _ _ _ _ _ Hw M H) as (q & tps & rate & cur & bals & vb & vb1 & [R1 R2 (cs & _ & _ & R3)] & _ & _ & _ & _ & HT1 & HT2).
  assert (rate = fun _ => None) as -> by (inversion R3; congruence).
  exists q, tps. do 3 (split; auto). intros ms E. destruct (HT2 ms E) as [X Y]. split; auto. intros c. rewrite Y, converted_id. apply amounts_subtotal.
Qed.
Print Assumptions C57_total.
Theorem C57_sum_of_flat_rows : forall w site o tot lg r, world_ok w -> made_from w lg -> o_exchange o = None ->
  balance_report w site o true tot lg = Ok r ->
  exists q tps, query_node w o = Ok q /\ reported_postings w o q lg tps /\
    forall c, qsum (map (fun row => moneys_amt (br_moneys row) c) (bp_rows r)) = subtotal (map snd tps) (fun _ => true) c.
Proof.
  intros w site o tot lg r Hw M Ex H. destruct (flat_rows _ _ _ _ _ _ Hw M H) as (q & tps & rate & cur & [R1 R2 (cs & _ & _ & R3)] & _ & _ & _ & F & _).
  assert (rate = fun _ => None) as -> by (inversion R3; congruence).
  exists q, tps. do 2 (split; auto). intros c. rewrite F, converted_id. apply amounts_subtotal.
Qed.
Print Assumptions C57_sum_of_flat_rows.
Example C57_case : match balance_report w1 9 (with_depth 1) true true (ledger_of (t55 ++ ["2021-01-03 c"; "  (Budget)  7 EUR"]%string)) with
  | Ok r => match bp_total r with Some ms => map (fun m => (m_commodity m, this (m_amount m))) ms | None => [] end | _ => [] end = [(Some (L "EUR"), 7 # 1)]%Q.
Proof. vm_compute. reflexivity. Qed.

(** ** C58 *)
Theorem C58_tree_converted : forall w site o tot lg r, world_ok w -> made_from w lg -> balance_report w site o false tot lg = Ok r ->
  exists q tps rate cur accs, report_data w o lg q tps rate cur /\ ascending accs /\
    Forall2 (fun a row => br_indent row = levels a /\ (exists part more, own_part a part /\ br_label row = part ++ more) /\
      (~ begins_with_colon a -> row_shows rate cur (map snd tps) (inside a) (br_moneys row))) accs (bp_rows r) /\
    (forall ms, bp_total r = Some ms -> forall c, moneys_amt ms c = converted rate cur (amounts_of (map snd tps) (fun _ => true)) c).
Proof.
  intros w site o tot lg r Hw M H. destruct (tree_rows _ _ _ _ _ _ Hw M H) as (q & tps & rate & cur & accs & RD & A & F & T).
  exists q, tps, rate, cur, accs. split; auto. split; auto. split; [|exact T]. eapply forall2_weaken; [|exact F].
  intros a row (H1 & H2 & _ & H4 & _ & H6). split; auto. split; auto. intros Hl. split; auto.
Qed.
Print Assumptions C58_tree_converted.
Theorem C58_flat_converted : forall w site o tot lg r, world_ok w -> made_from w lg -> balance_report w site o true tot lg = Ok r ->
  exists q tps rate cur, report_data w o lg q tps rate cur /\
    (forall row cut, In row (bp_rows r) -> cuts o cut -> row_shows rate cur (map snd tps) (fun n => str_eqb (cut n) (br_label row)) (br_moneys row)) /\
    (forall c, qsum (map (fun row => moneys_amt (br_moneys row) c) (bp_rows r)) = converted rate cur (amounts_of (map snd tps) (fun _ => true)) c).
Proof.
  intros w site o tot lg r Hw M H. destruct (flat_rows _ _ _ _ _ _ Hw M H) as (q & tps & rate & cur & RD & _ & F1 & _ & F & _).
  exists q, tps, rate, cur. split; auto. split; auto. intros row cut Hi Hc. apply (F1 row cut Hi Hc).
Qed.
Print Assumptions C58_flat_converted.
(** One balance: the conversion of a sum never fails, changes the amounts at the rates, and converting a
    sum gives the sum of what the two parts give. *)
Theorem C58_linear : forall mults cur a b, is_sum a -> is_sum b ->
  exists a' b' s', convert_balance a mults cur = Ok a' /\ convert_balance b mults cur = Ok b' /\ convert_balance (bal_add a b) mults cur = Ok s' /\
    (forall c, bal_amt a' c = converted (fun k => hget str_eqb k mults) cur (map snd a) c) /\
    (forall c, bal_amt s' c = bal_amt a' c + bal_amt b' c).
Proof.
  intros mults cur a b Ha Hb. assert (Ga : good_bal a) by (apply is_sum_wf; auto). assert (Gb : good_bal b) by (apply is_sum_wf; auto).
  destruct (convert_balance_ok mults cur a Ga) as (a' & A1 & A2 & A3). destruct (convert_balance_ok mults cur b Gb) as (b' & B1 & B2 & B3).
  destruct (convert_balance_ok mults cur (bal_add a b)) as (s' & S1 & S2 & S3); [apply good_add; [apply Ga|apply Gb]|].
  exists a', b', s'. do 4 (split; auto). intros c. rewrite S3, A3, B3, <- converted_app. apply converted_same. intros c'.
  rewrite moneys_bal, bal_amt_add by (apply Ga || apply Gb). unfold moneys_amt. rewrite map_app, qsum_app. f_equal; symmetry; apply moneys_bal.
Qed.
Print Assumptions C58_linear.
Theorem C58_converted_total : forall w site o tot lg r ms, world_ok w -> made_from w lg ->
  balance_report w site o true tot lg = Ok r -> bp_total r = Some ms ->
  forall c, moneys_amt ms c = qsum (map (fun row => moneys_amt (br_moneys row) c) (bp_rows r)).
Proof.
  intros w site o tot lg r ms Hw M H E c. destruct (flat_rows _ _ _ _ _ _ Hw M H) as (q & tps & rate & cur & RD & _ & _ & _ & F & FT).
  rewrite F. apply FT. auto.
Qed.
Print Assumptions C58_converted_total.
(** The same world, today being later than the prices. *)
Definition w2 : world :=
  {| w_lower := ascii_lower; w_numeric := fun _ => false; w_rx := fun rx s => str_eqb rx (L "(?i)" ++ s);
     w_rx_ok := fun _ => true; w_width := None; w_read := fun _ => None; w_glob := fun _ => None; w_two_timer := fun _ => None;
     w_now := 800000%Z; w_ord := fun _ _ l => l |}.
Example w2_ok : world_ok w2.
Proof. split; [intros; apply Permutation_refl|exact ascii_lower_idem]. Qed.
Example C58_case : made_from w2 lg55 /\ match balance_report w2 9 (into (L "EUR")) true true lg55 with
  | Ok r => rows_of (Ok r) = [(0, L "Assets:Bank", [(Some (L "EUR"), 10 # 1)]); (0, L "Assets:Cash", [(Some (L "EUR"), 8 # 1)]); (0, L "Food", [(Some (L "EUR"), 2 # 1)]);
     (0, L "Income:Gift", [(Some (L "EUR"), - 12 # 1)]); (0, L "Income:Job", [(Some (L "EUR"), - 8 # 1)])]%nat%Q /\ bp_total r = Some [MZero]
  | _ => False end.
Proof. split; [exists false, (journal_of t55); split; [exists 1%nat, None, [], (text t55)|]; vm_compute; reflexivity|]. vm_compute. split; reflexivity. Qed.

(** ** C59 *)
Theorem C59_register : forall w site o lg rows, world_ok w -> made_from w lg -> register_report w site o lg = Ok rows ->
  exists q sel, query_node w o = Ok q /\
    Forall2 (fun t s => fst s = t /\ selection (reported w o q (lg_commodities lg) t) (t_postings t) (snd s)) (lg_txns lg) sel /\
    let lines := flat_map with_heading sel in
    length rows = length lines /\
    forall i row, nth_error rows i = Some row -> exists h p, nth_error lines i = Some (h, p) /\
      rr_account row = shown_account p /\ p_amount p = Some (rr_amount row) /\ heading w (lg_payees lg) h (rr_head row) /\
      (rr_total row = [MZero] \/ shown_amounts (rr_total row) /\ rr_total row <> []) /\
      forall c, moneys_amt (rr_total row) c = qsum (map (fun x => amount_in c (snd x)) (firstn (S i) lines)).
Proof.
  intros w site o lg rows Hw M H. unfold register_report in H. bind_inv H. rename a into q. rename Hb into Hq. bind_inv H. destruct a as [sel cs].
  destruct (select_reported w o q lg sel cs Hw M Hb) as (R1 & R2 & R3). destruct (made_dated w lg Hw M) as [(B1 & B2 & B3) D].
  exists q, sel. split; auto. split; auto. cbn zeta.
  destruct (register_index _ _ _ _ _ (register_txns_ok w Hw sel _ _ _ _ H wf_nil B3)) as [I1 I2]. split; auto.
  intros i row E. destruct (I2 i row E) as (h & p & J1 & J2 & J3 & J4 & J5 & J6). exists h, p. do 5 (split; auto). intros c. rewrite J6. apply Qcplus_0_l.
Qed.
Print Assumptions C59_register.
Example C59_case : made_from w1 lg55 /\ match register_report w1 9 plain_opts lg55 with
  | Ok rows => map (fun r => (rr_account r, map (fun m => (m_commodity m, this (m_amount m))) (rr_total r))) rows =
      [(L "Assets:Bank", [(Some (L "EUR"), 10 # 1)]); (L "Assets:Cash", [(Some (L "EUR"), 10 # 1); (Some (L "USD"), 5 # 1)]);
       (L "Income:Job", [(Some (L "EUR"), 2 # 1); (Some (L "USD"), 5 # 1)]); (L "Income:Gift", [(Some (L "USD"), 5 # 1)]); (L "Income:Gift", [(None, 0 # 1)]);
       (L "Assets:Cash", [(Some (L "USD"), - 1 # 1)]); (L "Food", [(None, 0 # 1)])]%Q
  | _ => False end.
Proof. split; [apply lg55_made|]. vm_compute. reflexivity. Qed.

(** ** C60 *)
Lemma utf8_len_ge s : (length s <= utf8_len s)%nat.
Proof. induction s as [|c s IH]; cbn [length utf8_len]; auto. unfold utf8_clen. destruct (_ <? _)%N; [lia|]. destruct (_ <? _)%N; [lia|]. destruct (_ <? _)%N; lia. Qed.
Lemma utf8_len_ascii s : (forall c, In c s -> (c < 128)%N) -> utf8_len s = length s.
Proof.
  induction s as [|c s IH]; intros H; [reflexivity|]. cbn [length utf8_len]. rewrite IH by (intros; apply H; right; auto).
  unfold utf8_clen. rewrite (proj2 (N.ltb_lt c 128)) by (apply H; left; auto). auto.
Qed.
Theorem C60_clip : forall s width, (3 <= width)%nat ->
  (clip s width = s \/ exists p r, s = p ++ r /\ clip s width = p ++ L "..") /\ (length (clip s width) <= width - 1)%nat.
Proof.
  intros s width Hw. unfold clip. destruct (Nat.ltb_spec (utf8_len s) (width - 3)).
  - split; auto. pose proof (utf8_len_ge s). lia.
  - split.
    + right. exists (firstn (width - 3) s), (skipn (width - 3) s). split; auto. symmetry. apply firstn_skipn.
    + rewrite app_length, firstn_length. cbn. lia.
Qed.
Print Assumptions C60_clip.
(** A short text is not touched. *)
Theorem C60_short_text_unchanged : forall s width, (forall c, In c s -> (c < 128)%N) -> (length s < width - 3)%nat -> clip s width = s.
Proof.
  intros s width Ha Hl. unfold clip. rewrite utf8_len_ascii by auto. rewrite (proj2 (Nat.ltb_lt _ _) Hl). auto.
Qed.
Print Assumptions C60_short_text_unchanged.
(** Exactly: a text of fewer than [width - 3] bytes is printed as it is, any other one is cut to its first
    [width - 3] characters. *)
Theorem C60_exactly : forall s width,
  ((length (utf8_bytes s) < width - 3)%nat -> clip s width = s) /\
  ((width - 3 <= length (utf8_bytes s))%nat ->
     exists p r, s = p ++ r /\ clip s width = p ++ L ".." /\
       (length p = width - 3 \/ (length p < width - 3)%nat /\ r = [])%nat).
Proof.
  intros s width. rewrite <- utf8_len_bytes. unfold clip. destruct (Nat.ltb_spec (utf8_len s) (width - 3)); split; intros; try lia; auto.
  exists (firstn (width - 3) s), (skipn (width - 3) s). split; [symmetry; apply firstn_skipn|]. split; auto.
  rewrite firstn_length. destruct (Nat.le_gt_cases (width - 3) (length s)); [left; lia|right]. split; [lia|].
  apply skipn_all2. lia.
Qed.
Print Assumptions C60_exactly.
(** So a short name with accents gets dots although nothing is cut. *)
Example C60_accents : clip [233; 233; 233; 233]%N 9 = [233; 233; 233; 233]%N ++ L ".." /\ clip (L "eeee") 9 = L "eeee".
Proof. split; reflexivity. Qed.
Example C60_case : clip (L "Supermarket") 10 = L "Superma.." /\ clip (L "Bakery") 10 = L "Bakery".
Proof. split; reflexivity. Qed.

(** ** C61 *)
Definition tflat : list String.string := ["2021-01-01 a"; "  A  5 EUR"; "  A:b  3 EUR"; "  C  -8 EUR"]%string.
Definition tswallow : list String.string := ["2021-01-01 a"; "  A  5 EUR"; "  B:c  3 EUR"; "  B:d  -3 EUR"; "  E  -5 EUR"]%string.
(** The account A:b has three euros, which no row shows. *)
Theorem C61_own_amount_refuted : exists lg r tps, made_from w1 lg /\ balance_report w1 9 plain_opts false true lg = Ok r /\
  reported_postings w1 plain_opts None lg tps /\ subtotal (map snd tps) (inside (L "A:b")) (L "EUR") = qz 3 /\
  forall row, In row (bp_rows r) -> moneys_amt (br_moneys row) (L "EUR") <> qz 3.
Proof.
  set (lg := ledger_of tflat).
  assert (M : made_from w1 lg) by (exists false, (journal_of tflat); split; [exists 1%nat, None, [], (text tflat)|]; vm_compute; reflexivity).
  destruct (select_txns w1 plain_opts None (lg_txns lg) (lg_commodities lg)) as [[sel cs]| |] eqn:E; [|vm_compute in E; discriminate|vm_compute in E; discriminate].
  destruct (select_reported w1 plain_opts None lg sel cs w1_ok M E) as (R & _).
  eexists lg, _, _. split; auto. split; [vm_compute; reflexivity|]. split; [exact R|]. split.
  - rewrite sel_postings. vm_compute in E. inv E. apply Qc_is_canon. vm_compute. reflexivity.
  - intros row Hi X. apply (f_equal this) in X. destruct Hi as [<-|[<-|[]]]; vm_compute in X; discriminate.
Qed.
Print Assumptions C61_own_amount_refuted.

(** The accounts B, B:c and B:d: the row of B:c is put in the label of the unrelated account A. *)
Theorem C61_unrelated_account_refuted : exists lg r tps, made_from w1 lg /\ balance_report w1 9 plain_opts false true lg = Ok r /\
  reported_postings w1 plain_opts None lg tps /\ subtotal (map snd tps) (inside (L "B:c")) (L "EUR") = qz 3 /\
  map br_label (bp_rows r) = [L "A:c"; L "d"; L "E"] /\
  forall row, In row (bp_rows r) -> moneys_amt (br_moneys row) (L "EUR") <> qz 3.
Proof.
  set (lg := ledger_of tswallow).
  assert (M : made_from w1 lg) by (exists false, (journal_of tswallow); split; [exists 1%nat, None, [], (text tswallow)|]; vm_compute; reflexivity).
  destruct (select_txns w1 plain_opts None (lg_txns lg) (lg_commodities lg)) as [[sel cs]| |] eqn:E; [|vm_compute in E; discriminate|vm_compute in E; discriminate].
  destruct (select_reported w1 plain_opts None lg sel cs w1_ok M E) as (R & _).
  eexists lg, _, _. split; auto. split; [vm_compute; reflexivity|]. split; [exact R|]. split; [|split; [reflexivity|]].
  - rewrite sel_postings. vm_compute in E. inv E. apply Qc_is_canon. vm_compute. reflexivity.
  - intros row Hi X. apply (f_equal this) in X. destruct Hi as [<-|[<-|[<-|[]]]]; vm_compute in X; discriminate.
Qed.
Print Assumptions C61_unrelated_account_refuted.

(** The accounts of the tree: those whose amount is not zero. *)
Definition listed (ps : list posting) (a : str) : Prop := exists c, subtotal ps (inside a) c <> 0.
Lemma tree_listed w site o tot lg r : world_ok w -> made_from w lg -> o_exchange o = None -> balance_report w site o false tot lg = Ok r ->
  exists q tps es, query_node w o = Ok q /\ reported_postings w o q lg tps /\ StronglySorted lt_name (hkeys es) /\
    grouped w (o_depth o) es (bp_rows r) /\ bp_rows r = print_rows (length es) w (1000 + site) false (o_depth o) es /\
    ((forall p, In p (map snd tps) -> ~ begins_with_colon (p_account p)) ->
     (forall a, listed (map snd tps) a <-> In a (hkeys es)) /\
     (forall a b, In (a, b) es -> ~ begins_with_colon a /\ good_bal b /\ bal_is_zero b = false /\ forall c, bal_amt b c = subtotal (map snd tps) (inside a) c)).
Proof.
  intros Hw M Ex H. destruct (tree_report _ _ _ _ _ _ Hw M H) as (q & tps & rate & cur & es & [R1 R2 (cs & _ & _ & R3)] & S & G & GR & PR & HA & HK & HZ & _).
  assert (rate = fun _ => None) as -> by (inversion R3; congruence).
  exists q, tps, es. do 5 (split; auto). intros Hl.
  assert (HL : forall a b, In (a, b) es -> ~ begins_with_colon a).
  { intros a b Hi (s & ->). destruct (HA _ _ Hi) as (_ & p & P1 & P2). apply (Hl p P1). destruct P2 as [->|P2]; [exists s; auto|].
    destruct (prefixes_inside _ _ P2) as [(r' & ->)|[->|X]]; auto; [|exists s; auto]. exists (s ++ L ":" ++ r'). rewrite <- app_assoc. auto. }
  assert (HB : forall a b, In (a, b) es -> ~ begins_with_colon a /\ good_bal b /\ bal_is_zero b = false /\ forall c, bal_amt b c = subtotal (map snd tps) (inside a) c).
  { intros a b Hi. split; [eauto|]. split; [eauto|]. split; [eauto|]. intros c. destruct (HA a b Hi) as [X _]. rewrite X by eauto. rewrite converted_id. apply amounts_subtotal. }
  split; auto. intros a. split; [intros (c & Hc); eauto|].
  intros Hi. apply in_map_iff in Hi. destruct Hi as ([a' b] & <- & Hi). cbn [fst]. destruct (HB a' b Hi) as (_ & Gb & Z & E).
  destruct b as [|e b]; [discriminate|]. destruct (nz_entry_shape _ e (proj1 Gb) (proj2 Gb) (or_introl eq_refl)) as (c & am & ->).
  destruct (proj1 (nz_entry_iff _ c am (proj1 Gb) (proj2 Gb)) (or_introl eq_refl)) as [Y1 Y2]. exists c. rewrite <- E. congruence.
Qed.
(** No account disappears: it has its own row, or its name is in the label of a row further to the left. *)
Theorem C61_every_account_named_partial : forall w site o tot lg r, world_ok w -> made_from w lg -> o_exchange o = None -> o_depth o = None ->
  balance_report w site o false tot lg = Ok r ->
  exists q tps, query_node w o = Ok q /\ reported_postings w o q lg tps /\
    ((forall p, In p (map snd tps) -> ~ begins_with_colon (p_account p)) ->
     forall a, listed (map snd tps) a -> exists row part, In row (bp_rows r) /\ own_part a part /\
       ((br_indent row = levels a /\ (exists more, br_label row = part ++ more) /\ shown_amounts (br_moneys row) /\
         forall c, moneys_amt (br_moneys row) c = subtotal (map snd tps) (inside a) c) \/
        (br_indent row < levels a)%nat /\ exists x y, br_label row = x ++ L ":" ++ part ++ y)).
Proof.
  intros w site o tot lg r Hw M Ex Ed H. destruct (tree_listed _ _ _ _ _ _ Hw M Ex H) as (q & tps & es & R1 & R2 & S & GR & _ & HL).
  exists q, tps. do 2 (split; auto). intros Hc a Ha. destruct (HL Hc) as [L1 L2]. apply L1 in Ha.
  apply in_map_iff in Ha. destruct Ha as ([a' b] & <- & Hi). cbn [fst]. destruct (L2 a' b Hi) as (_ & Gb & Z & E).
  rewrite Ed in GR. destruct (grouped_all _ _ _ GR a' b Hi Z) as (row & I & [(g & T1 & T2 & s & T3)|(x & y & T1 & T2)]); exists row, (leaf a'); split; auto; (split; [apply leaf_own|]).
  - left. cbn [fst snd] in *. destruct (shown_perm w s b Hw Gb) as (P1 & P2 & P3). rewrite <- nparts_levels. split; auto. split; [eauto|]. rewrite T3. split; auto. intros c. rewrite P3, E. auto.
  - right. rewrite <- nparts_levels. split; auto. eauto.
Qed.
Print Assumptions C61_every_account_named_partial.
(** Every account has its own row, with its own amount, when every parent has a second child and no name
    has a character below the colon. *)
Theorem C61_own_rows_partial : forall w site o tot lg r, world_ok w -> made_from w lg -> o_exchange o = None ->
  balance_report w site o false tot lg = Ok r ->
  exists q tps, query_node w o = Ok q /\ reported_postings w o q lg tps /\
    let ps := map snd tps in
    ((forall p, In p ps -> ~ begins_with_colon (p_account p) /\ forall c, In c (p_account p) -> (58 <= c)%N) ->
     (forall parent x, listed ps (parent ++ L ":" ++ x) -> levels x = 1%nat ->
        listed ps parent /\ exists y, y <> x /\ levels y = 1%nat /\ listed ps (parent ++ L ":" ++ y)) ->
     forall a, listed ps a -> (forall d, o_depth o = Some d -> (levels a <= d)%nat) ->
       exists row, In row (bp_rows r) /\ br_indent row = levels a /\ own_part a (br_label row) /\ shown_amounts (br_moneys row) /\
         forall c, moneys_amt (br_moneys row) c = subtotal ps (inside a) c).
Proof.
  intros w site o tot lg r Hw M Ex H. destruct (tree_listed _ _ _ _ _ _ Hw M Ex H) as (q & tps & es & R1 & R2 & S & GR & PR & HL).
  exists q, tps. do 2 (split; auto). cbn zeta. intros Hc Hb a Ha Hd. destruct HL as [L1 L2]; [intros p Hp; apply (Hc p Hp)|].
  assert (Hn : forall x, levels x = 1%nat <-> filter (N.eqb c_colon) x = []).
  { intros x. unfold levels. destruct (filter (N.eqb c_colon) x); cbn; split; auto; discriminate. }
  assert (B : bushy (hkeys es)).
  { intros p x Hi Hx. apply L1 in Hi. apply Hn in Hx. destruct (Hb p x Hi Hx) as (B1 & y & B2 & B3 & B4). split; [apply L1; auto|].
    exists y. split; auto. split; [apply Hn; auto|apply L1; auto]. }
  assert (Pn : Forall plain_name (hkeys es)).
  { rewrite Forall_forall. intros n Hi. apply L1 in Hi. destruct Hi as (c & Hi). destruct (subtotal_some _ _ _ Hi) as (p & P1 & P2).
    unfold plain_name. rewrite Forall_forall. intros ch Hch. destruct (Hc p P1) as [_ X]. apply X. apply inside_iff in P2. destruct P2 as [->|(s & ->)]; auto. apply in_or_app. auto. }
  apply L1 in Ha. apply in_map_iff in Ha. destruct Ha as ([a' b] & <- & Hi). cbn [fst] in *. destruct (L2 a' b Hi) as (_ & Gb & Z & E).
  destruct (print_all w (o_depth o) (length es) (1000 + site) [] es (le_n _) S B Pn a' b Hi Z) as (row & s & Q1 & Q2 & Q3 & Q4); [intros k Ek; rewrite nparts_levels; auto|].
  exists row. split; [rewrite PR; auto|]. rewrite Q2, Q3, Q4. split; [apply nparts_levels|]. split; [apply leaf_own|].
  destruct (shown_perm w s b Hw Gb) as (P1 & P2 & P3). split; auto. intros c. rewrite P3, E. auto.
Qed.
Print Assumptions C61_own_rows_partial.
Lemma two_levels A B p x : levels (A ++ L ":" ++ B) = 2%nat -> inside (p ++ L ":" ++ x) (A ++ L ":" ++ B) = true -> p = A /\ x = B.
Proof.
  intros Hl Hi. apply inside_iff in Hi. pose proof Hl as Hl'. rewrite levels_app in Hl. pose proof (levels_pos A). pose proof (levels_pos B). pose proof (levels_pos p). pose proof (levels_pos x).
  destruct Hi as [Hi|(r & Hi)].
  - pose proof (f_equal levels Hi) as El. rewrite !levels_app in El. pose proof (f_equal parts Hi) as Ep. rewrite !split_colon in Ep.
    rewrite !levels_parts in *. destruct (parts A) as [|a [|]] eqn:EA, (parts B) as [|b [|]] eqn:EB, (parts p) as [|c [|]] eqn:EP, (parts x) as [|d [|]] eqn:EX; cbn in *; try lia.
    inv Ep. split; [rewrite <- (join_split p), <- (join_split A)|rewrite <- (join_split x), <- (join_split B)]; unfold parts in *; congruence.
  - pose proof (f_equal levels Hi) as El. rewrite Hl' in El.
    replace ((p ++ L ":" ++ x) ++ L ":" ++ r) with (p ++ L ":" ++ (x ++ L ":" ++ r)) in El by (rewrite <- !app_assoc; reflexivity).
    rewrite levels_app, levels_app in El. pose proof (levels_pos r). lia.
Qed.
Lemma one_level A p x : levels A = 1%nat -> inside (p ++ L ":" ++ x) A = true -> False.
Proof.
  intros Hl Hi. apply inside_iff in Hi. pose proof (levels_pos p). pose proof (levels_pos x). destruct Hi as [Hi|(r & Hi)]; apply (f_equal levels) in Hi.
  - rewrite !levels_app in Hi. lia.
  - replace ((p ++ L ":" ++ x) ++ L ":" ++ r) with (p ++ L ":" ++ (x ++ L ":" ++ r)) in Hi by (rewrite <- !app_assoc; reflexivity).
    rewrite levels_app in Hi. pose proof (levels_pos (x ++ L ":" ++ r)). lia.
Qed.
Lemma listed_b ps a c : qc_eqb (subtotal ps (inside a) c) 0 = false -> listed ps a.
Proof. intros Hq. exists c. destruct (qc_eqb_spec (subtotal ps (inside a) c) 0); congruence. Qed.
Lemma among_b (ps : list posting) names : forallb (fun p => existsb (str_eqb (p_account p)) names) ps = true -> forall p, In p ps -> In (p_account p) names.
Proof.
  intros X p Hp. rewrite forallb_forall in X. specialize (X p Hp). apply existsb_exists in X. destruct X as (n & N1 & N2).
  destruct (str_eqb_spec (p_account p) n) as [->|]; [auto|discriminate].
Qed.
(** The hypotheses hold for the journal of the first example. *)
Definition ps55 : list posting := flat_map snd (selected lg55).
Example C61_case :
  (forall p, In p ps55 -> ~ begins_with_colon (p_account p) /\ forall c, In c (p_account p) -> (58 <= c)%N) /\
  (forall parent x, listed ps55 (parent ++ L ":" ++ x) -> levels x = 1%nat ->
     listed ps55 parent /\ exists y, y <> x /\ levels y = 1%nat /\ listed ps55 (parent ++ L ":" ++ y)).
Proof.
  assert (A : forall p, In p ps55 -> In (p_account p) [L "Assets:Bank"; L "Assets:Cash"; L "Income:Job"; L "Income:Gift"; L "Food"]).
  { assert (X : forallb (fun p => existsb (str_eqb (p_account p)) [L "Assets:Bank"; L "Assets:Cash"; L "Income:Job"; L "Income:Gift"; L "Food"]) ps55 = true) by (vm_compute; reflexivity).
    exact (among_b _ _ X). }
  assert (LL : forall a c, qc_eqb (subtotal ps55 (inside a) c) 0 = false -> listed ps55 a).
  { intros a c Hq. eapply listed_b. exact Hq. }
  split.
  - intros p Hp. specialize (A p Hp). split.
    + intros (r & E). rewrite E in A. cbn in A. clear Hp. repeat (destruct A as [A|A]; [discriminate A|]). destruct A.
    + assert (X : forallb (fun n => forallb (fun c => (58 <=? c)%N) n) [L "Assets:Bank"; L "Assets:Cash"; L "Income:Job"; L "Income:Gift"; L "Food"] = true) by (vm_compute; reflexivity).
      rewrite forallb_forall in X. specialize (X _ A). rewrite forallb_forall in X. intros c Hc. apply N.leb_le. exact (X c Hc).
  - intros parent x (c & Hc) Hx. destruct (subtotal_some _ _ _ Hc) as (p & P1 & P2). specialize (A p P1). clear P1 Hc Hx.
    cbn [In] in A. destruct A as [A|[A|[A|[A|[A|[]]]]]]; rewrite <- A in P2.
    + destruct (two_levels (L "Assets") (L "Bank") parent x eq_refl P2) as [-> ->]. split; [apply (LL _ (L "EUR")); vm_compute; reflexivity|].
      exists (L "Cash"). split; [discriminate|]. split; [reflexivity|]. apply (LL _ (L "USD")). vm_compute. reflexivity.
    + destruct (two_levels (L "Assets") (L "Cash") parent x eq_refl P2) as [-> ->]. split; [apply (LL _ (L "EUR")); vm_compute; reflexivity|].
      exists (L "Bank"). split; [discriminate|]. split; [reflexivity|]. apply (LL _ (L "EUR")). vm_compute. reflexivity.
    + destruct (two_levels (L "Income") (L "Job") parent x eq_refl P2) as [-> ->]. split; [apply (LL _ (L "EUR")); vm_compute; reflexivity|].
      exists (L "Gift"). split; [discriminate|]. split; [reflexivity|]. apply (LL _ (L "EUR")). vm_compute. reflexivity.
    + destruct (two_levels (L "Income") (L "Gift") parent x eq_refl P2) as [-> ->]. split; [apply (LL _ (L "EUR")); vm_compute; reflexivity|].
      exists (L "Job"). split; [discriminate|]. split; [reflexivity|]. apply (LL _ (L "EUR")). vm_compute. reflexivity.
    + exfalso. exact (one_level (L "Food") _ _ eq_refl P2).
Qed.
