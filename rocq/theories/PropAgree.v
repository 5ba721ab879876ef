(** C86: the reports made from one file agree with each other. *)
From Coq Require Import Lia Sorting.Sorted.
From Verif Require Import Base BaseFacts Numerals Money Alist Comment Txn Expr Filter Price Tokens Ledger Reports App Spec MoneyFacts SpecList SpecTxn TxnFacts SpecLedger
  LedgerFacts LedgerFacts2 PropTxn PropLedger SpecQuery SpecReports ReportFacts ReportFacts2 ReportFacts3 PropReports PropApp SpecLayout PropLayout PropBook2 PropRules ExchangeFacts SpecAgree.
Open Scope Qc_scope.

(** ** Sums by groups *)
Definition str_dec : forall a b : str, {a = b} + {a <> b} := list_eq_dec N.eq_dec.
Lemma sum_of_none {A} (f : A -> Qc) l : (forall x, In x l -> f x = 0) -> qsum (map f l) = 0.
Proof. induction l as [|x l IH]; intros H; auto. cbn [map]. rewrite qsum_cons, H, IH; [ring| |left; auto]. intros y Hy. apply H. right. auto. Qed.
Lemma sum_single (k : Qc) (n : str) U : NoDup U -> In n U -> qsum (map (fun a => if str_eqb n a then k else 0) U) = k.
Proof.
  induction U as [|a U IH]; [intros _ []|]. intros N [->|Hi]; inv N; cbn [map]; rewrite qsum_cons.
  - rewrite str_eqb_refl. rewrite sum_of_none; [ring|]. intros x Hx. destruct (str_eqb_spec n x); auto. congruence.
  - rewrite IH by auto. destruct (str_eqb_spec n a); [congruence|ring].
Qed.
Lemma sum_groups ps (cut : str -> str) (P : str -> bool) c U : NoDup U -> (forall p, In p ps -> In (cut (p_account p)) U) ->
  qsum (map (fun a => if P a then subtotal ps (fun n => str_eqb (cut n) a) c else 0) U) = subtotal ps (fun n => P (cut n)) c.
Proof.
  intros N. induction ps as [|p ps IH]; intros H.
  - apply sum_of_none. intros x _. destruct (P x); auto.
  - rewrite subtotal_cons, <- IH by (intros q Hq; apply H; right; auto).
    rewrite <- (sum_single (if P (cut (p_account p)) then amount_in c p else 0) (cut (p_account p)) U) at 1 by (auto; apply H; left; auto).
    rewrite <- qsum_add. f_equal. apply map_ext. intros a. rewrite subtotal_cons. destruct (str_eqb_spec (cut (p_account p)) a) as [->|]; destruct (P _); ring.
Qed.
Lemma sum_support (f : str -> Qc) U V : NoDup U -> NoDup V -> incl V U -> (forall x, In x U -> ~ In x V -> f x = 0) -> qsum (map f U) = qsum (map f V).
Proof.
  intros NU NV I Z. assert (E : qsum (map f U) = qsum (map f (filter (fun x => if in_dec str_dec x V then true else false) U))).
  { clear NU I. induction U as [|x U IH]; auto. cbn [filter]. destruct (in_dec str_dec x V) as [Hi|Hn]; cbn [map]; rewrite !qsum_cons, IH; auto; try (intros y Hy; apply Z; right; auto).
    rewrite Z; [ring|left; auto|auto]. }
  rewrite E. apply qsum_perm, Permutation_map. apply NoDup_Permutation; [apply NoDup_filter; auto|auto|].
  intros x. rewrite filter_In. destruct (in_dec str_dec x V) as [Y|Y]; split; intros H; [auto|split; auto|destruct H; discriminate|contradiction].
Qed.
Lemma sum_labels ps (cut : str -> str) (P : str -> bool) c V : NoDup V ->
  (forall a, subtotal ps (fun n => str_eqb (cut n) a) c <> 0 -> In a V) ->
  qsum (map (fun a => if P a then subtotal ps (fun n => str_eqb (cut n) a) c else 0) V) = subtotal ps (fun n => P (cut n)) c.
Proof.
  intros N H. set (U := nodup str_dec (V ++ map (fun p => cut (p_account p)) ps)).
  rewrite <- (sum_groups ps cut P c U); [|apply NoDup_nodup|intros p Hp; apply nodup_In, in_or_app; right; apply (in_map (fun p => cut (p_account p))); auto].
  symmetry. apply sum_support; [apply NoDup_nodup|auto|intros x Hx; apply nodup_In, in_or_app; left; auto|].
  intros x _ Hn. destruct (P x); auto. destruct (Qc_eq_dec (subtotal ps (fun n => str_eqb (cut n) x) c) 0) as [E|E]; auto. destruct Hn. auto.
Qed.

(** ** The same selection *)
Lemma selection_same {A} (P Q : A -> Prop) l a b : (forall x, P x <-> Q x) -> selection P l a -> selection Q l b -> a = b.
Proof.
  intros E H. revert b. induction H as [|x ps l' Hx H IH|x ps l' Hx H IH]; intros b Hb; inv Hb; auto.
  - f_equal. auto.
  - apply E in Hx. contradiction.
  - apply E in H2. contradiction.
Qed.
Lemma reported_same w o o' q cs t p : o_real o = o_real o' -> o_begin o = o_begin o' -> o_end o = o_end o' -> reported w o q cs t p <-> reported w o' q cs t p.
Proof. intros E1 E2 E3. unfold reported, in_period, wanted_kind. rewrite E1, E2, E3. tauto. Qed.
Lemma query_node_same w o o' : o_query o = o_query o' -> query_node w o = query_node w o'.
Proof. intros E. unfold query_node. rewrite E. auto. Qed.

(** ** The rows of a flat report *)
Lemma shown_rows rows (g : str -> str -> Qc) P c : (forall row, In row rows -> moneys_amt (br_moneys row) c = g (br_label row) c) ->
  shown_amount (filter (fun row => P (br_label row)) rows) c = qsum (map (fun a => if P a then g a c else 0) (map br_label rows)).
Proof.
  unfold shown_amount. induction rows as [|row rows IH]; intros H; auto. cbn [filter map]. rewrite qsum_cons, <- IH by (intros x Hx; apply H; right; auto).
  destruct (P (br_label row)); cbn [map]; rewrite ?qsum_cons; [|ring]. rewrite H by (left; auto). auto.
Qed.
Definition cut_by (o : opts) (n : str) : str := match o_depth o with Some d => truncate_name d n | None => n end.
Lemma cut_by_cuts o : cuts o (cut_by o).
Proof. intros n. unfold cut_by. destruct (o_depth o) as [d|]; auto. apply truncate_shortened. Qed.

Lemma flat_shown w site o tot lg r : world_ok w -> made_from w lg -> o_exchange o = None -> balance_report w site o true tot lg = Ok r ->
  exists q tps, query_node w o = Ok q /\ reported_postings w o q lg tps /\
    forall cut P c, cuts o cut -> shown_for r P c = subtotal (map snd tps) (fun n => P (cut n)) c.
Proof.
  intros Hw M Ex H. destruct (C56_flat_rows_partial w site o tot lg r Hw M Ex H) as (q & tps & H1 & H2 & A & R & C). exists q, tps. do 2 (split; auto).
  intros cut P c Hc. unfold shown_for. rewrite (shown_rows _ (fun a c => subtotal (map snd tps) (fun n => str_eqb (cut n) a) c)).
  - apply sum_labels; [apply ascending_NoDup; auto|]. intros a. apply C. auto.
  - intros row Hi. destruct (R row cut Hi Hc) as (_ & _ & X). apply X.
Qed.

(** ** The lines of a register *)
Lemma forall2_of_nth {A B} (R : A -> B -> Prop) : forall l l', length l = length l' ->
  (forall i x, nth_error l i = Some x -> exists y, nth_error l' i = Some y /\ R x y) -> Forall2 R l l'.
Proof.
  induction l as [|x l IH]; intros [|y l'] E H; try discriminate; constructor.
  - destruct (H O x eq_refl) as (z & Z1 & Z2). injection Z1 as <-. auto.
  - apply IH; [injection E; auto|]. intros i z Hz. apply (H (S i) z Hz).
Qed.
Definition line_of (row : rrow) (x : option (txn posting) * posting) : Prop :=
  rr_account row = shown_account (snd x) /\ p_amount (snd x) = Some (rr_amount row) /\
  option_map fst (rr_head row) = match fst x with Some t => t_date t | None => None end.
Lemma headings_postings sel : map snd (flat_map with_heading sel) = flat_map snd sel.
Proof.
  induction sel as [|[t ps] sel IH]; auto. cbn [flat_map]. rewrite map_app, IH. f_equal. unfold with_heading. cbn [fst snd].
  destruct ps; auto. cbn [map snd]. rewrite map_map. cbn. rewrite map_id. auto.
Qed.
Lemma headings_dated sel : Forall (fun x => match fst x with Some t => In t (map fst sel) | None => True end) (flat_map with_heading sel).
Proof.
  induction sel as [|[t ps] sel IH]; [constructor|]. cbn [flat_map map]. apply Forall_app. split.
  - unfold with_heading. cbn [fst snd]. destruct ps; constructor; [left; auto|]. rewrite Forall_map, Forall_forall. intros; exact I.
  - eapply Forall_impl; [|exact IH]. intros [[u|] p]; cbn; auto.
Qed.
Lemma sum_all_lines lines c : qsum (map (fun x : option (txn posting) * posting => amount_in c (snd x)) lines) = subtotal (map snd lines) (fun _ => true) c.
Proof.
  unfold subtotal. replace (filter _ (map snd lines)) with (map snd lines); [rewrite map_map; auto|].
  induction (map snd lines) as [|p l IH]; cbn; [|rewrite <- IH]; auto.
Qed.
Lemma register_shown w site o lg rows : world_ok w -> made_from w lg -> register_report w site o lg = Ok rows ->
  exists q sel, query_node w o = Ok q /\
    Forall2 (fun t s => fst s = t /\ selection (reported w o q (lg_commodities lg) t) (t_postings t) (snd s)) (lg_txns lg) sel /\
    reported_postings w o q lg (flat_map (fun s => map (Datatypes.pair (fst s)) (snd s)) sel) /\
    Forall2 line_of rows (flat_map with_heading sel) /\
    (forall c, final_total rows c = subtotal (flat_map snd sel) (fun _ => true) c) /\
    forall i row, nth_error rows i = Some row -> forall c, moneys_amt (rr_total row) c = qsum (map (fun x => amount_in c (snd x)) (firstn (S i) (flat_map with_heading sel))).
Proof.
  intros Hw M H. destruct (C59_register w site o lg rows Hw M H) as (q & sel & H1 & H2 & H3 & H4). exists q, sel. do 2 (split; auto). split; [|split; [|split]].
  - unfold reported_postings, ledger_postings. clear - H2. induction H2 as [|t s ts sel [E S0] S IH]; cbn [flat_map]; [constructor|]. apply selection_app; auto. rewrite E.
    eapply selection_map; [|exact S0]. cbn. tauto.
  - apply forall2_of_nth; auto. intros i row E. destruct (H4 i row E) as (h & p & J1 & J2 & J3 & J4 & _). exists (h, p). split; auto. split; [|split]; auto.
    cbn [fst]. unfold heading in J4. destruct h as [t|], (rr_head row) as [[d n]|]; cbn; try contradiction; auto. destruct J4. auto.
  - intros c. unfold final_total. destruct (rev rows) as [|row rest] eqn:E.
    + apply (f_equal (@rev rrow)) in E. rewrite rev_involutive in E. subst rows. rewrite <- headings_postings. destruct (flat_map with_heading sel); [|discriminate]. reflexivity.
    + apply (f_equal (@rev rrow)) in E. rewrite rev_involutive in E. cbn [rev] in E. subst rows. set (pre := rev rest) in *.
      destruct (H4 (length pre) row) as (h & p & J1 & _ & _ & _ & _ & J6); [rewrite nth_error_app2, Nat.sub_diag by lia; reflexivity|].
      rewrite J6, sum_all_lines. rewrite app_length in H3. cbn [length] in H3. rewrite firstn_all2 by lia. rewrite headings_postings. auto.
  - intros i row E. destruct (H4 i row E) as (h & p & _ & _ & _ & _ & _ & J). exact J.
Qed.
Lemma line_account row x : line_of row x -> account_of_line row (p_account (snd x)).
Proof. intros (H & _). unfold account_of_line. rewrite H. unfold shown_account. destruct (p_kind (snd x)); auto. Qed.
Lemma lines_shown rows lines : Forall2 line_of rows lines ->
  exists accs, Forall2 account_of_line rows accs /\ accs = map p_account (map snd lines) /\ forall P c, lines_amount rows accs P c = subtotal (map snd lines) P c.
Proof.
  intros F. exists (map p_account (map snd lines)). split; [|split; auto].
  - induction F as [|row x rows lines Hx F IH]; cbn [map]; constructor; auto. apply line_account. auto.
  - intros P c. induction F as [|row x rows lines Hx F IH]; auto. unfold lines_amount in *. cbn [map combine]. rewrite qsum_cons, subtotal_cons, IH. cbn [fst snd].
    destruct Hx as (_ & E & _). unfold amount_in. rewrite E. auto.
Qed.

(** ** What the two commands are made from *)
Lemma made_of depth w file items skip lg : tokenize_file depth w file = Ok items -> to_ledger w skip items = Ok lg -> made_from w lg.
Proof. intros H1 H2. exists skip, items. split; auto. apply file_parses_iff in H1. destruct H1 as (c & _ & F). exists depth, (Some file), [file], c. auto. Qed.

(** * C86 *)
(** The register ends with what the balance report adds up to, and its lines for an account add up to its row. *)
Theorem C86_register_and_balance : forall depth w o file no_total balance register, world_ok w -> o_exchange o = None ->
  run_cmd depth w (CBalance true no_total) o file = Ok balance -> run_cmd depth w CRegister o file = Ok register ->
  exists r rows accs, balance_printed r balance /\ register_printed w rows register /\ Forall2 account_of_line rows accs /\
    (forall c, shown_amount (bp_rows r) c = final_total rows c) /\
    (forall ms c, bp_total r = Some ms -> moneys_amt ms c = final_total rows c) /\
    (forall cut P c, cuts o cut -> shown_for r P c = lines_amount rows accs (fun n => P (cut n)) c).
Proof.
  intros depth w o file nt lb lr Hw Ex HB HR. destruct (C69_balance _ _ _ _ _ _ _ Hw HB) as (items & lg & r & E1 & E2 & E3 & PB).
  destruct (C69_register _ _ _ _ _ Hw HR) as (items' & lg' & rows & groups & E1' & E2' & E3' & -> & PR).
  rewrite E1' in E1. inv E1. rewrite E2' in E2. inv E2. pose proof (made_of _ _ _ _ _ _ E1' E2') as M.
  destruct (flat_shown _ _ _ _ _ _ Hw M Ex E3) as (q & tps & Q1 & Q2 & FS). destruct (register_shown _ _ _ _ _ Hw M E3') as (q' & sel & Q1' & _ & Q2' & F & T & _).
  rewrite Q1 in Q1'. inv Q1'. rename q' into q. assert (tps = flat_map (fun s => map (Datatypes.pair (fst s)) (snd s)) sel) as -> by (eapply selection_same; [|exact Q2|exact Q2']; tauto).
  rewrite sel_postings in FS. destruct (lines_shown _ _ F) as (accs & A1 & _ & A2). rewrite headings_postings in A2.
  exists r, rows, accs. split; auto. split; [exists groups; auto|]. split; auto. split; [|split].
  - intros c. rewrite T. specialize (FS (cut_by o) (fun _ => true) c (cut_by_cuts o)). cbv beta in FS. rewrite <- FS. unfold shown_for. f_equal.
    clear. induction (bp_rows r) as [|x l IH]; cbn; [|rewrite <- IH]; auto.
  - intros ms c Em. destruct (C57_total _ _ _ _ _ _ _ Hw M Ex E3) as (q2 & tps2 & Q3 & Q4 & _ & X). rewrite Q1 in Q3. inv Q3. rename q2 into q.
    assert (tps2 = flat_map (fun s => map (Datatypes.pair (fst s)) (snd s)) sel) as -> by (eapply selection_same; [|exact Q4|exact Q2']; tauto).
    destruct (X ms Em) as [_ Y]. rewrite Y, T, sel_postings. auto.
  - intros cut P c Hc. rewrite (FS cut P c Hc). symmetry. apply A2.
Qed.
Print Assumptions C86_register_and_balance.

(** A row of the tree is what the rows of the account and of its sub-accounts of the flat report add up to. *)
Theorem C86_tree_and_flat : forall depth w o o' file nt nt' tree flat, world_ok w -> o_exchange o = None -> same_but_depth o o' -> o_depth o' = None ->
  run_cmd depth w (CBalance false nt) o file = Ok tree -> run_cmd depth w (CBalance true nt') o' file = Ok flat ->
  exists r r' accs, balance_printed r tree /\ balance_printed r' flat /\ ascending accs /\
    Forall2 (fun a row => br_indent row = levels a /\ (exists part more, own_part a part /\ br_label row = part ++ more) /\
      (~ begins_with_colon a -> forall c, moneys_amt (br_moneys row) c = shown_for r' (inside a) c)) accs (bp_rows r) /\
    forall ms ms' c, bp_total r = Some ms -> bp_total r' = Some ms' -> moneys_amt ms c = moneys_amt ms' c.
Proof.
  intros depth w o o' file nt nt' lt lf Hw Ex (S1 & S2 & S3 & S4 & S5 & S6) D HT HF. destruct (C69_balance _ _ _ _ _ _ _ Hw HT) as (items & lg & r & E1 & E2 & E3 & PB).
  destruct (C69_balance _ _ _ _ _ _ _ Hw HF) as (items' & lg' & r' & E1' & E2' & E3' & PB').
  rewrite E1' in E1. inv E1. rewrite <- S6, E2 in E2'. inv E2'. rename lg' into lg. rename items into its. pose proof (made_of _ _ _ _ _ _ E1' E2) as M.
  assert (Ex' : o_exchange o' = None) by congruence.
  destruct (flat_shown _ _ _ _ _ _ Hw M Ex' E3') as (q & tps & Q1 & Q2 & FS). destruct (C55_tree_rows_partial _ _ _ _ _ _ Hw M Ex E3) as (q' & tps' & accs & Q1' & Q2' & A & F).
  rewrite (query_node_same w o o' S4), Q1 in Q1'. inv Q1'. rename q' into q.
  assert (tps' = tps) as -> by (eapply selection_same; [|exact Q2'|exact Q2]; intros x; apply reported_same; auto).
  exists r, r', accs. do 3 (split; auto). split.
  - eapply forall2_weaken; [|exact F]. intros a row (H1 & H2 & _ & _ & _ & H6). do 2 (split; auto). intros Hl c. rewrite (H6 Hl c), (FS (fun n => n) (inside a) c); auto.
    intros n. rewrite D. auto.
  - intros ms ms' c Em Em'. destruct (C57_total _ _ _ _ _ _ _ Hw M Ex E3) as (q2 & tps2 & Q3 & Q4 & _ & X). destruct (C57_total _ _ _ _ _ _ _ Hw M Ex' E3') as (q3 & tps3 & Q5 & Q6 & _ & X').
    rewrite (query_node_same w o o' S4), Q1 in Q3. inv Q3. rewrite Q1 in Q5. inv Q5.
    assert (tps2 = tps) as -> by (eapply selection_same; [|exact Q4|exact Q2]; intros x; apply reported_same; auto).
    assert (tps3 = tps) as -> by (eapply selection_same; [|exact Q6|exact Q2]; tauto).
    destruct (X ms Em) as [_ ->]. destruct (X' ms' Em') as [_ ->]. auto.
Qed.
Print Assumptions C86_tree_and_flat.
(** A flat report with --depth: each row is what the rows of the report without it add up to that are cut down to it. *)
Theorem C86_depth : forall depth w o o' file nt nt' short full, world_ok w -> o_exchange o = None -> same_but_depth o o' -> o_depth o' = None ->
  run_cmd depth w (CBalance true nt) o file = Ok short -> run_cmd depth w (CBalance true nt') o' file = Ok full ->
  exists r r', balance_printed r short /\ balance_printed r' full /\
    forall cut P c, cuts o cut -> shown_for r P c = shown_for r' (fun n => P (cut n)) c.
Proof.
  intros depth w o o' file nt nt' lt lf Hw Ex (S1 & S2 & S3 & S4 & S5 & S6) D HT HF. destruct (C69_balance _ _ _ _ _ _ _ Hw HT) as (items & lg & r & E1 & E2 & E3 & PB).
  destruct (C69_balance _ _ _ _ _ _ _ Hw HF) as (items' & lg' & r' & E1' & E2' & E3' & PB').
  rewrite E1' in E1. inv E1. rewrite <- S6, E2 in E2'. inv E2'. rename lg' into lg. pose proof (made_of _ _ _ _ _ _ E1' E2) as M.
  assert (Ex' : o_exchange o' = None) by congruence.
  destruct (flat_shown _ _ _ _ _ _ Hw M Ex E3) as (q & tps & Q1 & Q2 & FS). destruct (flat_shown _ _ _ _ _ _ Hw M Ex' E3') as (q' & tps' & Q1' & Q2' & FS').
  rewrite (query_node_same w o o' S4), Q1' in Q1. inv Q1.
  assert (tps = tps') as -> by (eapply selection_same; [|exact Q2|exact Q2']; intros x; apply reported_same; auto).
  exists r, r'. do 2 (split; auto). intros cut P c Hc. rewrite (FS cut P c Hc). symmetry. apply (FS' (fun n => n)). intros n. rewrite D. auto.
Qed.
Print Assumptions C86_depth.

(** ** The rows of the first level *)
Definition top_amount (c : str) (e : str * balance) : Qc := if Nat.eqb (nparts (fst e)) 1 then bal_amt (snd e) c else 0.
Lemma nparts_pos a : (1 <= nparts a)%nat.
Proof. rewrite nparts_levels. unfold levels. lia. Qed.
Lemma collapse_top account c : forall rest n text text' rest', (1 <= n)%nat -> collapse account n text rest = (text', rest') ->
  qsum (map (top_amount c) rest') = qsum (map (top_amount c) rest) /\ (length rest' <= length rest)%nat /\ incl rest' rest.
Proof.
  induction rest as [|[name b] rest IH]; intros n text text' rest' Hn H; cbn [collapse] in H.
  - inv H. split; auto. split; auto. apply incl_refl.
  - destruct (Nat.eqb_spec (nparts name) (n + 1)) as [En|En]; cbn [negb] in H; [|inv H; split; auto; split; auto; apply incl_refl].
    destruct (sibling_ahead account n rest); [inv H; split; auto; split; auto; apply incl_refl|].
    apply IH in H; [|lia]. destruct H as (H1 & H2 & H3). split; [|split; [cbn; lia|intros x Hx; right; auto]].
    cbn [map]. rewrite qsum_cons, H1. unfold top_amount at 2. cbn [fst]. rewrite En. destruct (Nat.eqb_spec (n + 1) 1); [lia|ring].
Qed.
Lemma rows_top w depth c : world_ok w -> depth <> Some O -> forall fuel site l, (length l <= fuel)%nat ->
  (forall a b, In (a, b) l -> good_bal b /\ bal_is_zero b = false) ->
  shown_amount (filter (fun row => Nat.eqb (br_indent row) 1) (print_rows fuel w site false depth l)) c = qsum (map (top_amount c) l).
Proof.
  intros Hw Hd. induction fuel as [|fuel IH]; intros site [|[a b] l] HL HG; auto; [cbn in HL; lia|]. cbn [print_rows map length] in *. rewrite qsum_cons.
  destruct (HG a b (or_introl eq_refl)) as [Gb Z].
  assert (HG' : forall a b, In (a, b) l -> good_bal b /\ bal_is_zero b = false) by (intros x y Hi; apply (HG x y); right; auto).
  destruct (match depth with Some d => Nat.ltb d (nparts a) | None => false end) eqn:ED.
  - rewrite IH by (auto; lia). unfold top_amount at 2. cbn [fst]. destruct (Nat.eqb_spec (nparts a) 1) as [E|E]; [|ring].
    destruct depth as [d|]; [|discriminate]. apply Nat.ltb_lt in ED. destruct d; [congruence|lia].
  - rewrite Z. destruct (collapse a (nparts a) (leaf a) l) as [text rest'] eqn:EC. destruct (collapse_top a c _ _ _ _ _ (nparts_pos a) EC) as (C1 & C2 & C3).
    cbn [filter br_indent]. specialize (IH (S site) rest' ltac:(lia) (fun x y Hi => HG' x y (C3 _ Hi))). rewrite C1 in IH. rewrite <- IH. unfold top_amount. cbn [fst snd].
    destruct (Nat.eqb (nparts a) 1); [|ring]. unfold shown_amount. cbn [map br_moneys]. rewrite qsum_cons. f_equal.
    destruct (shown_perm w site b Hw Gb) as (_ & _ & X). apply X.
Qed.
Lemma top_prefix a r a' r' : filter (N.eqb c_colon) a = [] -> filter (N.eqb c_colon) a' = [] -> a ++ L ":" ++ r = a' ++ L ":" ++ r' -> a = a'.
Proof.
  revert a'. induction a as [|x a IH]; intros [|y a'] H1 H2 E; cbn in E; auto.
  - injection E as <- _. discriminate.
  - injection E as -> _. discriminate.
  - injection E as -> E. cbn [filter] in *. destruct (N.eqb c_colon y); try discriminate. f_equal. auto.
Qed.
Lemma top_whole a r n : filter (N.eqb c_colon) n = [] -> n = a ++ L ":" ++ r -> False.
Proof. intros H ->. rewrite filter_app in H. apply app_eq_nil in H. destruct H as [_ H]. cbn in H. discriminate. Qed.
Lemma levels_one a : levels a = 1%nat <-> filter (N.eqb c_colon) a = [].
Proof. unfold levels. destruct (filter (N.eqb c_colon) a); cbn; split; auto; discriminate. Qed.
Lemma top_inside n : levels (truncate_name 1 n) = 1%nat /\ inside (truncate_name 1 n) n = true.
Proof.
  destruct (truncate_shortened 1 n) as [[H ->]|[(r & E & H)|[H _]]]; [|split; auto; apply inside_iff; right; exists r; auto|discriminate].
  split; [unfold levels in *; lia|]. apply inside_iff. auto.
Qed.
Lemma inside_top a n : levels a = 1%nat -> inside a n = str_eqb (truncate_name 1 n) a.
Proof.
  intros H. destruct (top_inside n) as [T1 T2]. destruct (str_eqb_spec (truncate_name 1 n) a) as [<-|N]; auto.
  destruct (inside a n) eqn:E; auto. exfalso. apply N. apply inside_iff in E, T2. apply levels_one in H, T1.
  set (t := truncate_name 1 n) in *. clearbody t. destruct E as [E|(r & E)], T2 as [T2|(r' & T2)].
  - congruence.
  - rewrite <- E in H. destruct (top_whole _ _ _ H T2).
  - rewrite <- T2 in T1. destruct (top_whole _ _ _ T1 E).
  - rewrite E in T2. symmetry. eapply top_prefix; eauto.
Qed.
Lemma tree_top w site o tot lg r : world_ok w -> made_from w lg -> o_exchange o = None -> o_depth o <> Some O -> balance_report w site o false tot lg = Ok r ->
  exists q tps, query_node w o = Ok q /\ reported_postings w o q lg tps /\
    ((forall p, In p (map snd tps) -> ~ begins_with_colon (p_account p)) -> forall c, shown_at_top r c = subtotal (map snd tps) (fun _ => true) c).
Proof.
  intros Hw M Ex Hd H. destruct (tree_listed _ _ _ _ _ _ Hw M Ex H) as (q & tps & es & R1 & R2 & S & _ & PR & HL). exists q, tps. do 2 (split; auto).
  intros Hc c. destruct (HL Hc) as [L1 L2]. unfold shown_at_top. rewrite PR, rows_top; auto; [|intros a b Hi; destruct (L2 a b Hi) as (_ & G & Z & _); auto].
  set (ps := map snd tps) in *. assert (N : NoDup (hkeys es)) by (apply ascending_NoDup, sorted_ascending; auto).
  transitivity (qsum (map (fun a => if (fun x => Nat.eqb (levels x) 1) a then subtotal ps (fun n => str_eqb (truncate_name 1 n) a) c else 0) (hkeys es))).
  - unfold hkeys. rewrite map_map. f_equal. apply map_ext_in. intros [a b] Hi. unfold top_amount. cbn [fst snd]. rewrite nparts_levels.
    destruct (Nat.eqb_spec (levels a) 1) as [E|E]; auto. destruct (L2 a b Hi) as (_ & _ & _ & X). rewrite X. apply subtotal_ext. intros p _. apply inside_top. auto.
  - rewrite sum_labels; auto.
    + apply subtotal_ext. intros p _. destruct (top_inside (p_account p)) as [-> _]. reflexivity.
    + intros a Ha. destruct (subtotal_some _ _ _ Ha) as (p & P1 & P2). destruct (str_eqb_spec (truncate_name 1 (p_account p)) a) as [<-|]; [|discriminate].
      apply L1. exists c. erewrite subtotal_ext; [exact Ha|]. intros p' _. apply inside_top. apply top_inside.
Qed.
(** The rows of the first level of the tree add up to the last running total of the register. *)
Theorem C86_top_of_tree : forall depth w o file nt tree register, world_ok w -> o_exchange o = None -> o_depth o <> Some O ->
  run_cmd depth w (CBalance false nt) o file = Ok tree -> run_cmd depth w CRegister o file = Ok register ->
  exists r rows accs, balance_printed r tree /\ register_printed w rows register /\ Forall2 account_of_line rows accs /\
    ((forall a, In a accs -> ~ begins_with_colon a) -> forall c, shown_at_top r c = final_total rows c) /\
    (forall ms c, bp_total r = Some ms -> moneys_amt ms c = final_total rows c).
Proof.
  intros depth w o file nt lb lr Hw Ex Hd HB HR. destruct (C69_balance _ _ _ _ _ _ _ Hw HB) as (items & lg & r & E1 & E2 & E3 & PB).
  destruct (C69_register _ _ _ _ _ Hw HR) as (items' & lg' & rows & groups & E1' & E2' & E3' & -> & PR).
  rewrite E1' in E1. inv E1. rewrite E2' in E2. inv E2. pose proof (made_of _ _ _ _ _ _ E1' E2') as M.
  destruct (tree_top _ _ _ _ _ _ Hw M Ex Hd E3) as (q & tps & Q1 & Q2 & FS). destruct (register_shown _ _ _ _ _ Hw M E3') as (q' & sel & Q1' & _ & Q2' & F & T & _).
  rewrite Q1 in Q1'. inv Q1'. rename q' into q. assert (tps = flat_map (fun s => map (Datatypes.pair (fst s)) (snd s)) sel) as -> by (eapply selection_same; [|exact Q2|exact Q2']; tauto).
  rewrite sel_postings in FS. destruct (lines_shown _ _ F) as (accs & A1 & A3 & _). rewrite headings_postings in A3.
  exists r, rows, accs. split; auto. split; [exists groups; auto|]. split; auto. split.
  - intros Hc c. rewrite T. apply FS. intros p Hp. apply Hc. rewrite A3. apply in_map. auto.
  - intros ms c Em. destruct (C57_total _ _ _ _ _ _ _ Hw M Ex E3) as (q2 & tps2 & Q3 & Q4 & _ & X). rewrite Q1 in Q3. inv Q3. rename q2 into q.
    assert (tps2 = flat_map (fun s => map (Datatypes.pair (fst s)) (snd s)) sel) as -> by (eapply selection_same; [|exact Q4|exact Q2']; tauto).
    destruct (X ms Em) as [_ Y]. rewrite Y, T, sel_postings. auto.
Qed.
Print Assumptions C86_top_of_tree.

(** ** Periods *)
Lemma divided_period whole first second day d : divided whole first second day ->
  (in_period whole d <-> in_period first d \/ in_period second d) /\ (in_period first d -> (d < day)%Z) /\ (in_period second d -> (day <= d)%Z).
Proof.
  intros (_ & _ & B1 & E1 & B2 & E2 & HB & HE). unfold in_period. rewrite B1, E1, B2, E2. split; [split|split].
  - intros [H1 H2]. destruct (Z.lt_ge_cases d day) as [D|D]; [left|right]; split; auto; intros x X; inv X; lia.
  - intros [[H1 H2]|[H1 H2]]; split; auto.
    + intros e Ee. specialize (H2 day eq_refl). specialize (HE e Ee). lia.
    + intros b Eb. specialize (H1 day eq_refl). specialize (HB b Eb). lia.
  - intros [_ H]. apply H. auto.
  - intros [H _]. apply H. auto.
Qed.
Lemma divided_reported w whole first second day q cs t p : divided whole first second day ->
  (reported w whole q cs t p <-> reported w first q cs t p \/ reported w second q cs t p) /\ ~ (reported w first q cs t p /\ reported w second q cs t p).
Proof.
  intros D. assert (K : (wanted_kind whole p <-> wanted_kind first p) /\ (wanted_kind whole p <-> wanted_kind second p)).
  { destruct D as ((R1 & _) & (R2 & _) & _). unfold wanted_kind. rewrite <- R1, <- R2. tauto. }
  destruct K as [K1 K2]. unfold reported. split; [split|].
  - intros (d & H1 & H2 & H3 & H4). destruct (divided_period _ _ _ _ d D) as ([X _] & _). destruct (X H2); [left|right]; exists d; tauto.
  - intros [(d & H1 & H2 & H3 & H4)|(d & H1 & H2 & H3 & H4)]; exists d; destruct (divided_period _ _ _ _ d D) as ([_ X] & _); tauto.
  - intros [(d & H1 & H2 & _) (d' & H1' & H2' & _)]. rewrite H1 in H1'. inv H1'. destruct (divided_period _ _ _ _ d' D) as (_ & X & Y). specialize (X H2). specialize (Y H2'). lia.
Qed.
Lemma split_sums {X} (f : X -> posting) (P1 P2 P3 : X -> Prop) A c l : (forall x, P3 x <-> P1 x \/ P2 x) -> (forall x, ~ (P1 x /\ P2 x)) ->
  forall l3 l1 l2, selection P3 l l3 -> selection P1 l l1 -> selection P2 l l2 ->
  subtotal (map f l3) A c = subtotal (map f l1) A c + subtotal (map f l2) A c.
Proof.
  intros E N. induction l as [|x l IH]; intros l3 l1 l2 H3 H1 H2.
  - inv H3. inv H1. inv H2. change (subtotal (map f []) A c) with 0. ring.
  - specialize (E x). specialize (N x). inv H3; inv H1; inv H2; try tauto; cbn [map]; rewrite ?subtotal_cons; erewrite IH by eassumption; ring.
Qed.
(** The reports of two adjacent periods add up to the report of both. *)
Theorem C86_periods : forall depth w whole first second day file n1 n2 n3 lines lines1 lines2, world_ok w -> o_exchange whole = None -> divided whole first second day ->
  run_cmd depth w (CBalance true n1) whole file = Ok lines -> run_cmd depth w (CBalance true n2) first file = Ok lines1 -> run_cmd depth w (CBalance true n3) second file = Ok lines2 ->
  exists r r1 r2, balance_printed r lines /\ balance_printed r1 lines1 /\ balance_printed r2 lines2 /\
    forall P c, shown_for r P c = shown_for r1 P c + shown_for r2 P c.
Proof.
  intros depth w o o1 o2 day file n1 n2 n3 ls ls1 ls2 Hw Ex D H H1 H2.
  pose proof D as ((R1 & R2 & R3 & R4 & R5) & (S1 & S2 & S3 & S4 & S5) & _).
  destruct (C69_balance _ _ _ _ _ _ _ Hw H) as (items & lg & r & E1 & E2 & E3 & PB).
  destruct (C69_balance _ _ _ _ _ _ _ Hw H1) as (items' & lg' & r1 & E1' & E2' & E3' & PB').
  destruct (C69_balance _ _ _ _ _ _ _ Hw H2) as (items2 & lg2 & r2 & E12 & E22 & E32 & PB2).
  rewrite E1 in E1', E12. inv E1'. inv E12. rename items2 into its. rewrite <- R5, E2 in E2'. inv E2'. rewrite <- S5, E2 in E22. inv E22. rename lg2 into lg.
  pose proof (made_of _ _ _ _ _ _ E1 E2) as M.
  destruct (flat_shown _ _ _ _ _ _ Hw M Ex E3) as (q & tps & Q1 & Q2 & FS).
  rewrite R4 in Ex. destruct (flat_shown _ _ _ _ _ _ Hw M Ex E3') as (q' & tps' & Q1' & Q2' & FS').
  rewrite <- R4, S4 in Ex. destruct (flat_shown _ _ _ _ _ _ Hw M Ex E32) as (q2 & tps2 & Q12 & Q22 & FS2).
  rewrite <- (query_node_same w o o1 R3), Q1 in Q1'. inv Q1'. rewrite <- (query_node_same w o o2 S3), Q1 in Q12. inv Q12.
  exists r, r1, r2. do 3 (split; auto). intros P c. rewrite (FS (cut_by o) P c (cut_by_cuts o)).
  rewrite (FS' (cut_by o) P c), (FS2 (cut_by o) P c).
  - eapply split_sums; [| |exact Q2|exact Q2'|exact Q22]; intros x; apply (divided_reported w o o1 o2 day _ _ _ _ D).
  - intros n. rewrite <- S2. apply cut_by_cuts.
  - intros n. rewrite <- R2. apply cut_by_cuts.
Qed.
Print Assumptions C86_periods.

Lemma selection_none {A} (P : A -> Prop) l a : selection P l a -> (forall x, ~ P x) -> a = [].
Proof. intros H N. induction H; auto. destruct (N x); auto. Qed.
Lemma flat_map_none sel : Forall (fun s : txn posting * list posting => snd s = []) sel -> flat_map with_heading sel = [].
Proof. induction 1 as [|[t ps] sel E _ IH]; auto. cbn in *. subst ps. auto. Qed.
Lemma period_lines w o o1 o2 day q cs : divided o o1 o2 day -> forall ts, StronglySorted not_after ts -> (forall t, In t ts -> exists d, t_date t = Some d) ->
  let chosen o := Forall2 (fun t s => fst s = t /\ selection (reported w o q cs t) (t_postings t) (snd s)) ts in
  forall sel sel1 sel2, chosen o sel -> chosen o1 sel1 -> chosen o2 sel2 ->
  flat_map with_heading sel = flat_map with_heading sel1 ++ flat_map with_heading sel2.
Proof.
  intros D ts S. induction S as [|t ts S IH NA]; cbn zeta; intros DT sel sel1 sel2 H H1 H2.
  - inv H. inv H1. inv H2. auto.
  - inversion H as [|? [u ps] ? sel' K H' Ea Eb]; subst. inversion H1 as [|? [u1 ps1] ? sel1' K1 H1' Ea Eb]; subst. inversion H2 as [|? [u2 ps2] ? sel2' K2 H2' Ea Eb]; subst.
    destruct K as [U E], K1 as [U1 E1], K2 as [U2 E2]. cbn [fst snd] in *. subst u u1 u2. destruct (DT t (or_introl eq_refl)) as (d & Ed).
    specialize (IH (fun x Hx => DT x (or_intror Hx)) sel' sel1' sel2' H' H1' H2'). cbn [flat_map].
    assert (G : forall o', ~ in_period o' d -> forall x, ~ reported w o' q cs t x) by (intros o' N x (d' & X1 & X2 & _); congruence).
    destruct (divided_period _ _ _ _ d D) as (X & Y1 & Y2).
    destruct (Z.lt_ge_cases d day) as [L|L].
    + assert (ps2 = []) as -> by (eapply selection_none; [exact E2|apply G; intros Z; apply Y2 in Z; lia]).
      assert (ps = ps1) as -> by (eapply selection_same; [|exact E|exact E1]; intros x; destruct (divided_reported w _ _ _ _ q cs t x D) as [K _]; rewrite K; split; [|tauto]; intros [Z|Z]; auto; exfalso; revert Z; apply G; intros Z; apply Y2 in Z; lia).
      rewrite IH, <- app_assoc. auto.
    + assert (ps1 = []) as -> by (eapply selection_none; [exact E1|apply G; intros Z; apply Y1 in Z; lia]).
      assert (ps = ps2) as -> by (eapply selection_same; [|exact E|exact E2]; intros x; destruct (divided_reported w _ _ _ _ q cs t x D) as [K _]; rewrite K; split; [|tauto]; intros [Z|Z]; auto; exfalso; revert Z; apply G; intros Z; apply Y1 in Z; lia).
      assert (Z1 : flat_map with_heading sel1' = []).
      { apply flat_map_none. clear - H1' NA Ed L D. revert sel1' H1'. induction NA as [|v ts Hv NA IH]; intros sel1' H; inversion H as [|? [u ps] ? s' K H' Ea Eb]; subst; constructor; eauto.
        destruct K as [U E]. cbn [fst snd] in *. subst u. eapply selection_none; [exact E|]. intros x (d' & X1 & X2 & _). unfold not_after in Hv. rewrite Ed, X1 in Hv.
        destruct (divided_period _ _ _ _ d' D) as (_ & Y & _). specialize (Y X2). lia. }
      rewrite IH, Z1. auto.
Qed.
Lemma lines_said rows lines : Forall2 line_of rows lines ->
  map line_says rows = map (fun x : option (txn posting) * posting => (match fst x with Some t => t_date t | None => None end, shown_account (snd x), match p_amount (snd x) with Some m => m | None => MZero end)) lines.
Proof. induction 1 as [|row x rows lines (H1 & H2 & H3) _ IH]; auto. cbn [map]. rewrite IH. f_equal. unfold line_says. rewrite H1, H2, H3. auto. Qed.
(** The register of both periods is that of the first one followed by that of the second one, whose running totals go on
    where the first one ends. *)
Theorem C86_register_periods : forall depth w whole first second day file lines lines1 lines2, world_ok w -> divided whole first second day ->
  run_cmd depth w CRegister whole file = Ok lines -> run_cmd depth w CRegister first file = Ok lines1 -> run_cmd depth w CRegister second file = Ok lines2 ->
  exists rows rows1 rows2, register_printed w rows lines /\ register_printed w rows1 lines1 /\ register_printed w rows2 lines2 /\
    map line_says rows = map line_says rows1 ++ map line_says rows2 /\
    (forall i row, nth_error rows1 i = Some row -> exists row', nth_error rows i = Some row' /\ forall c, moneys_amt (rr_total row') c = moneys_amt (rr_total row) c) /\
    (forall i row, nth_error rows2 i = Some row -> exists row', nth_error rows (length rows1 + i) = Some row' /\
       forall c, moneys_amt (rr_total row') c = final_total rows1 c + moneys_amt (rr_total row) c) /\
    forall c, final_total rows c = final_total rows1 c + final_total rows2 c.
Proof.
  intros depth w o o1 o2 day file ls ls1 ls2 Hw D H H1 H2.
  pose proof D as ((R1 & R2 & R3 & R4 & R5) & (S1 & S2 & S3 & S4 & S5) & _).
  destruct (C69_register _ _ _ _ _ Hw H) as (items & lg & r & g & E1 & E2 & E3 & -> & PB).
  destruct (C69_register _ _ _ _ _ Hw H1) as (items' & lg' & r1 & g1 & E1' & E2' & E3' & -> & PB').
  destruct (C69_register _ _ _ _ _ Hw H2) as (items2 & lg2 & r2 & g2 & E12 & E22 & E32 & -> & PB2).
  rewrite E1 in E1', E12. inv E1'. inv E12. rename items2 into its. rewrite <- R5, E2 in E2'. inv E2'. rewrite <- S5, E2 in E22. inv E22. rename lg2 into lg.
  pose proof (made_of _ _ _ _ _ _ E1 E2) as M.
  destruct (register_shown _ _ _ _ _ Hw M E3) as (q & sel & Q1 & A & Q2 & F & T & U).
  destruct (register_shown _ _ _ _ _ Hw M E3') as (q' & sel1 & Q1' & A1 & Q2' & F1 & T1 & U1).
  destruct (register_shown _ _ _ _ _ Hw M E32) as (q2 & sel2 & Q12 & A2 & Q22 & F2 & T2 & U2).
  rewrite <- (query_node_same w o o1 R3), Q1 in Q1'. inv Q1'. rewrite <- (query_node_same w o o2 S3), Q1 in Q12. inv Q12. rename q2 into q.
  destruct (made_dated w lg Hw M) as [_ DT].
  assert (SO : StronglySorted not_after (lg_txns lg)). { destruct M as (skip & j & Hp & Hl). apply (C26_date_order w skip j lg Hw Hp Hl). }
  pose proof (period_lines w o o1 o2 day q (lg_commodities lg) D (lg_txns lg) SO DT sel sel1 sel2 A A1 A2) as PL.
  pose proof (forall2_length _ _ _ F) as N. pose proof (forall2_length _ _ _ F1) as N1. pose proof (forall2_length _ _ _ F2) as N2. rewrite PL, app_length in N.
  exists r, r1, r2. split; [exists g; auto|]. split; [exists g1; auto|]. split; [exists g2; auto|]. split; [|split; [|split]].
  - rewrite (lines_said _ _ F), (lines_said _ _ F1), (lines_said _ _ F2), PL, map_app. auto.
  - intros i row E. assert (I : (i < length r1)%nat) by (apply nth_error_Some; congruence).
    destruct (nth_error r i) as [row'|] eqn:E'; [|apply nth_error_None in E'; lia]. exists row'. split; auto. intros c.
    rewrite (U i row' E' c), (U1 i row E c), PL, firstn_app. replace (S i - length (flat_map with_heading sel1))%nat with O by lia. cbn [firstn]. rewrite app_nil_r. auto.
  - intros i row E. assert (I : (i < length r2)%nat) by (apply nth_error_Some; congruence).
    destruct (nth_error r (length r1 + i)) as [row'|] eqn:E'; [|apply nth_error_None in E'; lia]. exists row'. split; auto. intros c.
    rewrite (U _ row' E' c), (U2 i row E c), PL, firstn_app, firstn_all2, map_app, qsum_app, T1 by lia. rewrite sum_all_lines, headings_postings.
    replace (S (length r1 + i) - length (flat_map with_heading sel1))%nat with (S i) by lia. auto.
  - intros c. rewrite T, T1, T2, <- !sel_postings. eapply split_sums; [| |exact Q2|exact Q2'|exact Q22]; intros x; apply (divided_reported w o o1 o2 day _ _ _ _ D).
Qed.
Print Assumptions C86_register_periods.

(** Assets and budgets, in all and before and from February 10th on. *)
Definition t86 : list String.string :=
  ["2021-01-05 Shop"; "  Expenses:Food:Out  10 EUR"; "  Assets:Cash"; "2021-03-01 Shop"; "  Expenses:Food  4 EUR"; "  Expenses:Books  3 USD"; "  (Budget:Food)  -4 EUR"; "  Assets:Bank  -4 EUR"; "  Assets:Cash  -3 USD";
   "2021-02-10 Job"; "  Assets:Bank  100 EUR"; "  Income:Job  -100 EUR"]%string.
Definition o86 (b e : option Z) (d : option nat) : opts :=
  {| o_real := false; o_begin := b; o_end := e; o_query := [L "et"]; o_depth := d; o_exchange := None; o_no_balance_check := false |}.
Definition run86 (c : command) (o : opts) : list str := get [] (run_cmd 2 (w84 t86) c o (L "book")).
Example C86_case :
  run_cmd 2 (w84 t86) (CBalance true false) (o86 None None None) (L "book") = Ok (map L
    ["           96.00 EUR  Assets:Bank"; "          -10.00 EUR"; "           -3.00 USD  Assets:Cash"; "           -4.00 EUR  Budget:Food"; "--------------------"; "           82.00 EUR"; "           -3.00 USD"]%string) /\
  run_cmd 2 (w84 t86) (CBalance true false) (o86 None (Some 737830%Z) None) (L "book") = Ok (map L ["          -10.00 EUR  Assets:Cash"]%string) /\
  run_cmd 2 (w84 t86) (CBalance true false) (o86 (Some 737830%Z) None None) (L "book") = Ok (map L
    ["           96.00 EUR  Assets:Bank"; "           -3.00 USD  Assets:Cash"; "           -4.00 EUR  Budget:Food"; "--------------------"; "           92.00 EUR"; "           -3.00 USD"]%string) /\
  run_cmd 2 (w84 t86) (CBalance true false) (o86 None None (Some 1%nat)) (L "book") = Ok (map L
    ["           86.00 EUR"; "           -3.00 USD  Assets"; "           -4.00 EUR  Budget"; "--------------------"; "           82.00 EUR"; "           -3.00 USD"]%string) /\
  run_cmd 2 (w84 t86) (CBalance false false) (o86 None None None) (L "book") = Ok (map L
    ["           86.00 EUR"; "           -3.00 USD  Assets"; "           96.00 EUR    Bank"; "          -10.00 EUR"; "           -3.00 USD    Cash"; "           -4.00 EUR  Budget:Food"; "--------------------"; "           82.00 EUR"; "           -3.00 USD"]%string) /\
  (map (@length N) (run86 CRegister (o86 None None None)), map (@length N) (run86 CRegister (o86 None (Some 737830%Z) None)), map (@length N) (run86 CRegister (o86 (Some 737830%Z) None None))) =
    ([121; 121; 121; 121; 121; 121; 121], [121], [121; 121; 121; 121; 121; 121])%nat /\
  divided (o86 None None None) (o86 None (Some 737830%Z) None) (o86 (Some 737830%Z) None None) 737830 /\
  same_but_depth (o86 None None (Some 1%nat)) (o86 None None None) /\ cuts (o86 None None (Some 1%nat)) (truncate_name 1).
Proof.
  split; [vm_compute; reflexivity|]. split; [vm_compute; reflexivity|]. split; [vm_compute; reflexivity|]. split; [vm_compute; reflexivity|]. split; [vm_compute; reflexivity|].
  split; [vm_compute; reflexivity|]. split; [|split].
  - unfold divided, same_but_period. cbn. repeat split; intros; discriminate.
  - unfold same_but_depth. cbn. repeat split.
  - apply cut_by_cuts.
Qed.
