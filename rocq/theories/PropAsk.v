(** C78: the reports of some accounts add up what the journal says about them. *)
From Coq Require Import Lia Sorting.Sorted.
From Verif Require Import Base BaseFacts Numerals Money Alist Comment Txn Expr Filter Price Tokens Ledger Reports App Spec MoneyFacts SpecList SpecTxn TxnFacts SpecLedger
  TokenFacts JournalFacts LedgerFacts LedgerFacts2 LedgerFacts3 PropTxn PropLedger SpecQuery SpecExpr ExprFacts PropExpr PropQuery SpecReports ReportFacts ReportFacts2 ReportFacts3 PropReports PropApp
  SpecText SpecDates SpecTokens SpecJournal JournalRead PropJournal SpecLayout PropLayout SpecBook BookFacts PropBook PropBook2 SpecAsk.
Open Scope Qc_scope.

(** ** The query decides by the account *)
Definition answers (w : world) (q : option node) (A : str -> bool) : Prop :=
  forall t p cs, match q with None => A (p_account p) = true | Some n => eval w n p t cs = Ok (VBool (A (p_account p)), cs) end.
Definition clause_of (before : list str) (x : str) : clause := {| cl_before := before; cl_term := x |}.
Lemma word_clause w x A before : account_word w x A -> Forall connective before -> ~ Exists (is_word (L "expr")) before ->
  let c := clause_of before x in clause_ok c /\ ~ taken_verbatim c /\ term_ok w c /\
  forall t p cs, eval w (denotes (term_cexp c)) p t cs = Ok (VBool (A (p_account p)), cs).
Proof.
  intros H FB NB. cbn zeta. set (c := clause_of before x).
  assert (E : clause_ok c /\ term_ok w c).
  { destruct H as [N1 N2 P|y E P].
    - split; [split; auto|apply to_account; auto]. unfold connective, blank, is_word. cbn [cl_term c clause_of]. intros [X|[X|[X|X]]]; apply N1; rewrite X; cbn; auto.
    - split; [split; auto|eapply to_regex; eauto]. unfold connective, blank, is_word. cbn [cl_term c clause_of]. rewrite E. intuition discriminate. }
  destruct E as [C T]. do 2 (split; auto). split; auto. intros t p cs. destruct H as [N1 N2 P|y E P].
  - unfold term_cexp. cbn [cl_term c clause_of]. destruct (marks (trim x) N2) as (k & r & E & K1 & K2 & K3); [intros E; apply N1; rewrite E; left; auto|].
    rewrite E, K1, K2, K3. reflexivity.
  - rewrite (tc_regex c y E). reflexivity.
Qed.
Lemma one_node w o c : clause_ok c -> ~ taken_verbatim c -> term_ok w c -> o_query o = words_of [c] -> query_node w o = Ok (Some (denotes (term_cexp c))).
Proof.
  intros C V T E. destruct (C41_translation [c] []) as (q & Q & _); auto; [congruence|].
  rewrite (C41_filter_is_translation w o [c] [] q) by (auto; try congruence; rewrite app_nil_r; auto).
  assert (M : exists e, term_means c e /\ q = L "(" ++ e ++ L ")").
  { inversion Q as [c' e M| cs c' q' e Q' |cs c' q' e Q']; subst; [eauto| |]; destruct cs as [|? [|]]; try discriminate; inversion Q'; destruct cs; discriminate. }
  destruct M as (e & M & ->). destruct (term_cexp_ok w c e C V T M) as (W & X & _).
  rewrite <- X. rewrite <- (app_nil_r (L "(" ++ _ ++ L ")")), <- !app_assoc, C46_parsed_as_written_partial by auto. reflexivity.
Qed.
Lemma two_node w o conj c1 c2 : clause_ok c1 -> ~ taken_verbatim c1 -> term_ok w c1 -> clause_ok c2 -> ~ taken_verbatim c2 -> term_ok w c2 -> joined conj c2 ->
  o_query o = words_of [c1; c2] -> query_node w o = Ok (Some (NBinary (op_node (join_op conj)) (denotes (term_cexp c1)) (denotes (term_cexp c2)))).
Proof.
  intros C1 V1 T1 C2 V2 T2 J E. assert (F : Forall (fun c => clause_ok c /\ ~ taken_verbatim c /\ term_ok w c /\ joined conj c) [c2]) by (constructor; [tauto|constructor]).
  assert (FC : Forall clause_ok [c1; c2]) by (repeat constructor; auto; apply C1 || apply C2).
  destruct (C41_translation [c1; c2] []) as (q & Q & _); auto; [congruence|].
  rewrite (C41_filter_is_translation w o [c1; c2] [] q) by (auto; try congruence; rewrite app_nil_r; auto).
  rewrite (query_chain w conj c1 C1 V1 T1 [c2] q F Q).
  pose proof (term_chain w conj [c2] c1 C1 V1 T1 F) as W. cbn [map] in *.
  pose proof (C42_only_the_first_two w (precedence (join_op conj)) (term_cexp c1) (join_op conj) (term_cexp c2) [] []) as H.
  unfold chain_text in H. rewrite app_nil_r in H. rewrite <- app_assoc. rewrite H; auto. destruct conj; cbn; lia.
Qed.
Lemma asked_nodes w o A : asked_accounts w (o_query o) A -> exists q, query_node w o = Ok q /\ (o_query o <> [] -> q <> None) /\ answers w q A.
Proof.
  assert (N1 : ~ Exists (is_word (L "expr")) []) by (intros X; inversion X).
  assert (N2 : forall k, k <> L "expr" -> trim k = k -> ~ Exists (is_word (L "expr")) [k]).
  { intros k H Tk X. inversion X as [? ? Y|? ? Y]; [|inversion Y]. unfold is_word in Y. congruence. }
  intros H. remember (o_query o) as q eqn:Eq. symmetry in Eq. destruct H as [|x A HA|x y A B HA HB|x y A B HA HB|x y A B HA HB].
  - exists None. split; [|split; [congruence|intros t p cs; auto]]. unfold query_node. rewrite Eq. reflexivity.
  - destruct (word_clause w x A [] HA (Forall_nil _) N1) as (C & V & T & Ev). eexists. split; [eapply one_node; eauto|]. split; [discriminate|]. intros t p cs. apply Ev.
  - destruct (word_clause w x A [] HA (Forall_nil _) N1) as (C & V & T & Ev). destruct (word_clause w y B [] HB (Forall_nil _) N1) as (C2 & V2 & T2 & Ev2).
    eexists. split; [apply (two_node w o false _ _ C V T C2 V2 T2); [|exact Eq]|].
    + intros (a & k & b & E & _). destruct a; discriminate.
    + split; [discriminate|]. intros t p cs. cbn [eval]. rewrite Ev. cbn [bind]. rewrite Ev2. cbn. destruct (A (p_account p)), (B (p_account p)); reflexivity.
  - destruct (word_clause w x A [] HA (Forall_nil _) N1) as (C & V & T & Ev).
    destruct (word_clause w y B [L "or"] HB) as (C2 & V2 & T2 & Ev2); [repeat constructor; right; right; left; reflexivity|apply N2; [discriminate|reflexivity]|].
    eexists. split; [apply (two_node w o false _ _ C V T C2 V2 T2); [|exact Eq]|].
    + intros (a & k & b & E & W & _). cbn in E. destruct a as [|? []]; inv E. discriminate.
    + split; [discriminate|]. intros t p cs. cbn [eval]. rewrite Ev. cbn [bind]. rewrite Ev2. cbn. destruct (A (p_account p)), (B (p_account p)); reflexivity.
  - destruct (word_clause w x A [] HA (Forall_nil _) N1) as (C & V & T & Ev).
    destruct (word_clause w y B [L "and"] HB) as (C2 & V2 & T2 & Ev2); [repeat constructor; right; left; reflexivity|apply N2; [discriminate|reflexivity]|].
    eexists. split; [apply (two_node w o true _ _ C V T C2 V2 T2); [|exact Eq]|].
    + exists [], (L "and"), []. split; [reflexivity|]. split; [reflexivity|constructor].
    + split; [discriminate|]. intros t p cs. cbn [eval]. rewrite Ev. cbn [bind]. rewrite Ev2. cbn. destruct (A (p_account p)), (B (p_account p)); reflexivity.
Qed.
Lemma asked_node w o A : asked_accounts w (o_query o) A -> exists q, query_node w o = Ok q /\ answers w q A.
Proof. intros H. destruct (asked_nodes w o A H) as (q & Q & _ & X). eauto. Qed.

(** ** What is reported *)
Lemma query_answers w q A cs t p : answers w q A -> (query_holds w q t p cs <-> A (p_account p) = true).
Proof.
  intros H. specialize (H t p cs). unfold query_holds. destruct q as [n|]; [|tauto]. rewrite H. split; [intros (cs' & E); congruence|intros ->; eauto].
Qed.
Lemma reported_asked w o q A cs t p : answers w q A -> (reported w o q cs t p <-> window_of o t && (asked_for o (p_kind p) && A (p_account p)) = true).
Proof.
  intros H. pose proof (reported_plain w o cs t p) as R. rewrite andb_assoc. rewrite andb_true_iff, <- R. unfold reported. rewrite <- (query_answers w q A cs t p H). cbn [query_holds].
  split; [intros (d & ? & ? & ? & ?)|intros ((d & ? & ? & ? & _) & ?)]; [split; auto; exists d; auto|exists d; auto].
Qed.
Lemma reported_asked_totals w o q lg tps A P c : answers w q A -> reported_postings w o q lg tps ->
  subtotal (map snd tps) P c = qsum (map (txn_counted (asked_for o) (fun n => A n && P n) c) (filter (window_of o) (lg_txns lg))).
Proof.
  intros HA H. unfold reported_postings in H. apply (selection_filter _ (fun x => window_of o (fst x) && (asked_for o (p_kind (snd x)) && A (p_account (snd x))))) in H.
  2:{ intros x _. apply reported_asked. auto. }
  subst tps. unfold ledger_postings. induction (lg_txns lg) as [|t ts IH]; [reflexivity|]. cbn [flat_map]. rewrite filter_app, map_app.
  unfold subtotal in *. rewrite filter_app, map_app, qsum_app, IH. cbn [filter].
  assert (E : qsum (map (amount_in c) (filter (fun p => P (p_account p)) (map snd (filter (fun x => window_of o (fst x) && (asked_for o (p_kind (snd x)) && A (p_account (snd x)))) (map (Datatypes.pair t) (t_postings t)))))) =
              if window_of o t then txn_counted (asked_for o) (fun n => A n && P n) c t else 0).
  { unfold txn_counted. induction (t_postings t) as [|p ps IHp]; [destruct (window_of o t); reflexivity|]. cbn [map filter fst snd]. unfold counted at 1.
    destruct (window_of o t); cbn [andb] in *; [|auto]. destruct (asked_for o (p_kind p)); cbn [andb]; cbn [map filter snd].
    - destruct (A (p_account p)); cbn [andb map filter snd]; [|rewrite qsum_cons, IHp; ring].
      destruct (P (p_account p)); cbn [map]; rewrite !qsum_cons, IHp; auto; ring.
    - rewrite qsum_cons, IHp. ring. }
  rewrite E. destruct (window_of o t); cbn [map]; rewrite ?qsum_cons; auto. ring.
Qed.
Lemma subtotal_asked w o l skip lg q tps A P c : answers w q A -> plain_journal w l -> ledger_built w skip l lg -> reported_postings w o q lg tps ->
  subtotal (map snd tps) P c = asked_total w o l A P c.
Proof. intros HA PJ B R. rewrite (reported_asked_totals _ _ _ _ _ _ _ _ HA R). rewrite (ledger_totals w l skip) by auto. reflexivity. Qed.
Lemma filter_answers w o q A t p cs : answers w q A -> (exists d, t_date t = Some d) -> exists b, filter_posting w o q t p cs = Ok (b, cs).
Proof.
  intros H (d & D). specialize (H t p cs).
  assert (X : exists b, match q with Some n => filter_expression w n p t cs | None => Ok (true, cs) end = Ok (b, cs)).
  { destruct q as [n|]; [|eauto]. unfold filter_expression. rewrite H. cbn. eauto. }
  unfold filter_posting. rewrite D. destruct (o_real o && _); [eauto|].
  destruct (o_end o) as [e|]; cbn [unwrap bind]; [destruct (e <=? d)%Z; [eauto|]|]; (destruct (o_begin o) as [b|]; cbn [unwrap bind]; [destruct (d <? b)%Z; eauto|eauto]).
Qed.
Lemma select_asked w o q A ts cs : answers w q A -> (forall t, In t ts -> exists d, t_date t = Some d) ->
  exists sel, select_txns w o q ts cs = Ok (sel, cs) /\ forall t ps, In (t, ps) sel -> In t ts /\ incl ps (t_postings t).
Proof.
  intros HA. induction ts as [|t ts IH]; intros H; cbn [select_txns]; [exists []; split; auto; intros u ps []|].
  assert (E : exists ps, select_postings w o q t (t_postings t) cs = Ok (ps, cs) /\ incl ps (t_postings t)).
  { assert (D : exists d, t_date t = Some d) by (apply H; left; auto). induction (t_postings t) as [|p ps (l0 & El & Il)]; cbn [select_postings]; [exists []; split; auto; intros x []|].
    destruct (filter_answers w o q A t p cs HA D) as (b & ->). cbn [bind]. rewrite El. cbn [bind]. eexists. split; [reflexivity|]. destruct b.
    - intros x [<-|Hx]; [left; auto|right; auto].
    - intros x Hx. right. auto. }
  destruct E as (ps & -> & I). cbn [bind]. destruct IH as (sel & -> & J); [intros x Hx; apply H; right; auto|]. cbn [bind].
  eexists. split; [reflexivity|]. intros u us [E|Hi]; [inv E; split; [left|]; auto|]. destruct (J u us Hi). split; [right|]; auto.
Qed.
Lemma ledger_accounts w l skip lg : plain_journal w l -> ledger_built w skip l lg ->
  forall t p, In t (lg_txns lg) -> In p (t_postings t) -> exists n, mentions_account l n /\ p_account p = account_meant w l n.
Proof.
  intros P B. destruct (journal_all w l P) as [_ R0]. destruct B as [ts dir costs sorted run imps _ _ JR DS _ LR _|]; [|congruence].
  pose proof (read_all _ _ _ _ _ _ _ _ P JR) as F. destruct DS as [PM _]. destruct (perm_forall2 _ _ _ _ F PM) as (us & PU & FU).
  assert (IU : incl us (pl_txns l)) by (intros x Hx; eapply Permutation_in; [symmetry; exact PU|auto]).
  apply run_txns in LR. clear - FU LR IU. revert us FU IU. induction LR as [|t1 t2 sorted ts2 (run0 & prs & LT) LR IH]; intros us FU IU t p Ht Hi; [destruct Ht|].
  inversion FU as [|u ? us' ? PT FU']; subst. destruct Ht as [<-|Ht]; [|eapply IH; eauto; intros x Hx; apply IU; right; auto].
  assert (HU : In u (pl_txns l)) by (apply IU; left; auto).
  destruct PT as (_ & R & _). assert (RA : forall x, In x (t_postings t1) -> exists n, mentions_account l n /\ p_account x = account_meant w l n).
  { intros x Hx. assert (Y : exists r, In r (t_postings u) /\ plain_read w l r x).
    { clear -R Hx. induction R as [|a b ps ps' Q R IH]; destruct Hx; subst; [exists a; split; [left|]; auto|]. destruct IH as (r & ? & ?); auto. exists r. split; [right|]; auto. }
    destruct Y as (r & Y1 & (Y2 & _)). exists (rp_account r). split; auto. exists u, r. auto. }
  destruct LT as (_ & _ & (kept & fills & E & F2 & HF & _) & _). rewrite E in Hi. rewrite !in_app_iff in Hi. destruct Hi as [Hi|[Hi|Hi]].
  - assert (Y : exists x, In x (t_postings t1) /\ p_account p = p_account x).
    { assert (Z : forall x, In x (filter (given skip) (t_postings t1)) -> In x (t_postings t1)) by (intros x Hx; apply filter_In in Hx; apply Hx).
      clear -F2 Hi Z. induction F2 as [|x y ps ps' K F IH]; destruct Hi; subst; [exists x; split; [apply Z; left; auto|apply K]|]. apply IH; auto. intros z Hz. apply Z. right. auto. }
    destruct Y as (x & Y1 & ->). auto.
  - destruct (HF p Hi) as (_ & _ & _ & _ & _ & x & X1 & -> & _). apply RA. assert (In x (filter (elided skip) (t_postings t1))) by (rewrite X1; left; auto). apply filter_In in H. apply H.
  - apply filter_In in Hi. apply RA, Hi.
Qed.
(** The flat report can be cut to a depth of at least one. *)
Definition can_be_cut (w : world) (o : opts) (l : pledger) : Prop :=
  forall d, o_depth o = Some d -> (1 <= d)%nat /\ forall n, mentions_account l n -> account_meant w l n <> [] /\ ~ begins_with_colon (account_meant w l n).
Lemma report_asked w site o flat tot l skip lg A : world_ok w -> parsed w l -> plain_journal w l -> ledger_built w skip l lg -> asked_accounts w (o_query o) A -> o_exchange o = None ->
  (flat = true -> can_be_cut w o l) -> exists r, balance_report w site o flat tot lg = Ok r.
Proof.
  intros Hw Hp P B HA X HC. pose proof (ledger_whole _ _ _ _ Hp P B) as H. destruct (asked_node w o A HA) as (q & Q & AN). unfold balance_report. rewrite Q, X. cbn [bind].
  destruct (select_asked w o q A (lg_txns lg) (lg_commodities lg) AN) as (sel & -> & I); [intros t Ht; apply (H t Ht)|]. cbn [bind].
  assert (IN : forall p, In p (flat_map snd sel) -> exists t, In t (lg_txns lg) /\ In p (t_postings t)).
  { intros p Hi. apply in_flat_map in Hi. destruct Hi as ([t ps] & H1 & H2). destruct (I t ps H1) as [T1 T2]. exists t. split; auto. }
  destruct (account_balances sel) as [bals| |] eqn:Eb.
  - cbn [bind]. destruct flat.
    + assert (Y : exists vb, flat_balances w site (o_depth o) bals = Ok vb).
      { destruct (o_depth o) as [d|] eqn:Ed; [|cbn; eauto]. destruct (HC eq_refl d Ed) as [D1 D2]. eapply C56_depth_succeeds_partial; eauto.
        intros p Hi. destruct (IN p Hi) as (t & T1 & T2). destruct (ledger_accounts _ _ _ _ P B t p T1 T2) as (n & N1 & ->). apply D2. auto. }
      destruct Y as (vb & ->). cbn [bind]. destruct (_ && _); eauto.
    + cbn [bind]. destruct (_ && _); eauto.
  - exfalso. unfold account_balances in Eb. destruct (balances_whole (flat_map snd sel)) with (bals := @nil (str * balance)) as (bals & Eb').
    { intros p Hi. destruct (IN p Hi) as (t & T1 & T2). apply (H t T1). auto. } congruence.
  - exfalso. unfold account_balances in Eb. destruct (balances_whole (flat_map snd sel)) with (bals := @nil (str * balance)) as (bals & Eb').
    { intros z Hi. destruct (IN z Hi) as (t & T1 & T2). apply (H t T1). auto. } congruence.
Qed.

(** ** C78 *)
Definition asked_flat (w : world) (o : opts) (l : pledger) (A : str -> bool) (r : breport) : Prop :=
  ascending (map br_label (bp_rows r)) /\ forall cut, cut_to_depth o cut ->
  (forall row, In row (bp_rows r) -> shown_amounts (br_moneys row) /\ br_moneys row <> [] /\
     forall c, moneys_amt (br_moneys row) c = asked_total w o l A (fun n => str_eqb (cut n) (br_label row)) c) /\
  (forall a c, asked_total w o l A (fun n => str_eqb (cut n) a) c <> 0 -> In a (map br_label (bp_rows r))).
Definition asked_tree (w : world) (o : opts) (l : pledger) (A : str -> bool) (r : breport) : Prop :=
  exists accs, ascending accs /\
    Forall2 (fun a row => br_indent row = levels a /\ (exists part more, own_part a part /\ br_label row = part ++ more) /\
      (forall d, o_depth o = Some d -> (levels a <= d)%nat) /\ shown_amounts (br_moneys row) /\ br_moneys row <> [] /\
      (~ begins_with_colon a -> forall c, moneys_amt (br_moneys row) c = asked_total w o l A (inside a) c)) accs (bp_rows r).
Definition asked_total_shown (w : world) (o : opts) (l : pledger) (A : str -> bool) (tot : bool) (r : breport) : Prop :=
  (bp_total r <> None <-> tot = true /\ (2 <= length (bp_rows r))%nat) /\
  forall ms, bp_total r = Some ms -> (ms = [MZero] \/ shown_amounts ms /\ ms <> []) /\
    forall c, moneys_amt ms c = asked_total w o l A (fun _ => true) c.
Theorem C78_balance : forall depth w o file l flat no_total A, world_ok w -> file_parses depth w file l -> plain_journal w l ->
  Forall (in_order w l) (pl_txns l) -> asked_accounts w (o_query o) A -> o_exchange o = None -> (flat = true -> can_be_cut w o l) ->
  exists r lines, run_cmd depth w (CBalance flat no_total) o file = Ok lines /\ balance_printed r lines /\
    (if flat then asked_flat w o l A r else asked_tree w o l A r) /\ asked_total_shown w o l A (negb no_total) r.
Proof.
  intros depth w o file l flat nt A Hw HF P IO HA OX HC. assert (Hp : parsed w l) by (destruct HF as (c & _ & F); exists depth, (Some file), [file], c; auto).
  apply file_parses_iff in HF. destruct (plain_outcome w (o_no_balance_check o) l Hw Hp P) as [(_ & lg & E & B)|(N & _)]; [|contradiction].
  destruct (report_asked w (report_site lg) o flat (negb nt) l _ lg A Hw Hp P B HA OX HC) as (r & Er).
  destruct (C69_printed depth w o file l lg Hw HF E) as [HP _]. destruct (HP flat nt r Er) as (lines & L1 & L2). exists r, lines. do 2 (split; auto).
  destruct (asked_node w o A HA) as (q0 & Q0 & AN). pose proof (made_plain _ _ _ _ Hp E) as M. split.
  - destruct flat.
    + destruct (C56_flat_rows_partial w _ o _ lg r Hw M OX Er) as (q & tps & Q & R & AS & F1 & F2). assert (q = q0) by congruence. subst q.
      split; auto. intros cut C. split.
      * intros row Hi. destruct (F1 row _ Hi C) as (X1 & X2 & X3). do 2 (split; auto). intros c. rewrite X3. eapply subtotal_asked; eauto.
      * intros a c Hn. apply (F2 cut a c C). rewrite (subtotal_asked w o l (o_no_balance_check o) lg q0 tps A) by auto. auto.
    + destruct (C55_tree_rows_partial w _ o _ lg r Hw M OX Er) as (q & tps & accs & Q & R & AS & F). assert (q = q0) by congruence. subst q.
      exists accs. split; auto. eapply forall2_weaken; [|exact F]. intros a row (H1 & H2 & H3 & H4 & H5 & H6). do 5 (split; auto). intros Hc c. rewrite H6 by auto. eapply subtotal_asked; eauto.
  - destruct (C57_total w _ o flat _ lg r Hw M OX Er) as (q & tps & Q & R & T1 & T2). assert (q = q0) by congruence. subst q.
    split; auto. intros ms Em. destruct (T2 ms Em) as [X Y]. split; auto. intros c. rewrite Y. eapply subtotal_asked; eauto.
Qed.
Print Assumptions C78_balance.
(** The register of the accounts asked for. *)
Definition asked_register (w : world) (o : opts) (l : pledger) (A : str -> bool) (rows : list rrow) : Prop :=
  exists us ess, date_sorted (pl_txns l) us /\ Forall2 (txn_entries w l) us ess /\
    let lines := flat_map (asked_entries o A) (combine us ess) in
    length rows = length lines /\
    forall i row h e, nth_error rows i = Some row -> nth_error lines i = Some (h, e) ->
      rr_account row = entry_shown e /\ rr_amount row = snd e /\ head_written w l h (rr_head row) /\
      (rr_total row = [MZero] \/ shown_amounts (rr_total row) /\ rr_total row <> []) /\
      forall c, moneys_amt (rr_total row) c = qsum (map (fun x => money_amt (snd (snd x)) c) (firstn (S i) lines)).
Lemma lines_asked w o q A cs us ts : answers w q A -> Forall2 (fun u t => t_date t = t_date u /\ t_desc t = t_desc u) us ts -> forall sel,
  Forall2 (fun t s => fst s = t /\ selection (reported w o q cs t) (t_postings t) (snd s)) ts sel ->
  Forall2 same_line (flat_map (asked_entries o A) (combine us (map (fun t => map entry_of (t_postings t)) ts))) (flat_map with_heading sel).
Proof.
  intros AN. induction 1 as [|u t us ts (D & N) F IH]; intros sel H; inversion H as [|? s ? sel' (E & S) H']; subst; [constructor|].
  cbn [map combine flat_map]. apply forall2_app; [|auto].
  apply (selection_filter _ (fun p => window_of o (fst s) && (asked_for o (p_kind p) && A (p_account p)))) in S; [|intros; apply reported_asked; auto].
  unfold with_heading. rewrite S. unfold asked_entries. cbn [fst snd]. change (in_window o u) with (window_of o u).
  assert (W : window_of o (fst s) = window_of o u) by (unfold window_of; rewrite D; auto). rewrite W. destruct (window_of o u); cbn [andb].
  - assert (X : filter (fun e : entry => asked_for o (entry_kind e) && A (snd (fst e))) (map entry_of (t_postings (fst s))) =
                map entry_of (filter (fun p => asked_for o (p_kind p) && A (p_account p)) (t_postings (fst s)))).
    { clear. induction (t_postings (fst s)) as [|p ps IHp]; [reflexivity|]. cbn [map filter]. rewrite IHp. change (entry_kind (entry_of p)) with (p_kind p).
      change (snd (fst (entry_of p))) with (p_account p). destruct (asked_for o (p_kind p) && A (p_account p)); reflexivity. }
    rewrite X. destruct (filter (fun p => asked_for o (p_kind p) && A (p_account p)) (t_postings (fst s))) as [|p r]; [constructor|]. cbn [map]. constructor; [apply same_entry; auto|].
    rewrite map_map. clear. induction r; cbn; constructor; auto. apply same_entry. exact I.
  - assert (X : filter (fun _ : posting => false) (t_postings (fst s)) = []) by (clear; induction (t_postings (fst s)); auto). rewrite X. constructor.
Qed.
Lemma register_asked w site o l skip lg rows A : world_ok w -> parsed w l -> plain_journal w l -> asked_accounts w (o_query o) A -> to_ledger w skip l = Ok lg -> ledger_built w skip l lg ->
  register_report w site o lg = Ok rows -> asked_register w o l A rows.
Proof.
  intros Hw Hp P HA E B H. pose proof (made_plain _ _ _ _ Hp E) as M. pose proof (ledger_whole _ _ _ _ Hp P B) as LW.
  destruct (asked_node w o A HA) as (q0 & Q0 & AN).
  destruct (C59_register w site o lg rows Hw M H) as (q & sel & Q & S & C). assert (q = q0) by congruence. subst q. cbn zeta in C. destruct C as [C1 C2].
  destruct (journal_all w l P) as [_ R0]. destruct B as [ts dir costs sorted run imps _ _ JR DS _ LR _|]; [|congruence].
  pose proof (read_all_named _ _ _ _ _ _ _ _ P JR) as F.
  assert (D : Forall (fun u => exists d, t_date u = Some d) (pl_txns l)) by (apply Forall_forall; intros t Ht; apply (plain_dated w l Hp P t Ht)).
  destruct (date_order (pl_txns l) D) as (us & DU).
  assert (FU : Forall2 (plain_txn_named w l) us sorted).
  { eapply sort_related; eauto. intros u t ((X & _) & _). auto. }
  apply run_txns in LR.
  assert (FE : Forall2 (txn_entries w l) us (map (fun t => map entry_of (t_postings t)) (lg_txns lg)) /\ Forall2 (fun u t => t_date t = t_date u /\ t_desc t = t_desc u) us (lg_txns lg)).
  { clear -FU LR. revert us FU. induction LR as [|t1 t2 s ts2 (run0 & prs & LT) LR IH]; intros us FU; inversion FU as [|u ? us' ? (PT & PN) FU']; subst; [split; constructor|].
    destruct (IH us' FU') as [I1 I2]. split.
    - cbn [map]. constructor; auto. eapply ledger_entries; eauto.
    - constructor; auto. destruct LT as (_ & (H1 & _ & _ & _ & H2 & _) & _). destruct PT as (H3 & _). split; congruence. }
  destruct FE as [FE FH]. exists us, (map (fun t => map entry_of (t_postings t)) (lg_txns lg)). do 2 (split; auto). cbn zeta.
  pose proof (lines_asked w o q0 A (lg_commodities lg) us (lg_txns lg) AN FH sel S) as SL. pose proof (forall2_length _ _ _ SL) as LE.
  assert (AM : forall x, In x (flat_map with_heading sel) -> p_amount (snd x) <> None).
  { intros x Hx. apply in_flat_map in Hx. destruct Hx as ([t ps] & Hs & Hx).
    assert (X : In t (lg_txns lg) /\ incl ps (t_postings t)).
    { clear -S Hs. induction S as [|u s ts sel (E & SE) S IH]; [destruct Hs|]. destruct Hs as [->|Hs].
      - cbn in E, SE. subst u. split; [left; auto|]. clear -SE. induction SE; intros z Hx; [destruct Hx|destruct Hx as [<-|Hx]; [left; auto|right; auto]|right; auto].
      - destruct (IH Hs). split; [right|]; auto. }
    destruct X as [X1 X2]. destruct (LW t X1) as [_ Y]. unfold with_heading in Hx. cbn [fst snd] in Hx. destruct ps as [|p r]; [destruct Hx|].
    destruct Hx as [<-|Hx]; [cbn; apply Y, X2; left; auto|]. apply in_map_iff in Hx. destruct Hx as (z & <- & Hz). cbn. apply Y, X2. right. auto. }
  split; [congruence|]. intros i row h e E1 E2. destruct (C2 i row E1) as (h' & p & J1 & J2 & J3 & J4 & J5 & J6).
  destruct (forall2_nth _ _ _ SL i _ _ E2 J1) as (L1 & L2 & L3 & L4). cbn [fst snd] in *. split; [congruence|]. split; [symmetry; auto|]. split; [|split; auto].
  - unfold heading in J4. unfold head_written. destruct h as [t|], h' as [u|], (rr_head row) as [[d n]|]; try contradiction; auto.
    destruct J4 as [J4 J7]. destruct L4 as [L4 L5]. split; [congruence|]. rewrite <- L5. eapply payee_written; eauto.
  - intros c. rewrite J6. f_equal. pose proof (forall2_firstn _ _ _ (Datatypes.S i) SL) as FL.
    assert (AM' : forall x, In x (firstn (Datatypes.S i) (flat_map with_heading sel)) -> p_amount (snd x) <> None).
    { intros x Hx. apply AM. rewrite <- (firstn_skipn (Datatypes.S i)). apply in_app_iff. left. auto. }
    clear -FL AM'. induction FL as [|x y a b (_ & _ & L3 & _) FL IH]; [reflexivity|]. cbn [map]. f_equal; [|apply IH; intros; apply AM'; right; auto].
    symmetry. apply L3. apply AM'. left. auto.
Qed.
Theorem C78_register : forall depth w o file l A, world_ok w -> file_parses depth w file l -> plain_journal w l ->
  Forall (in_order w l) (pl_txns l) -> asked_accounts w (o_query o) A ->
  exists rows groups, run_cmd depth w CRegister o file = Ok (concat groups) /\ Forall2 (entry_printed (w_width w)) rows groups /\ asked_register w o l A rows.
Proof.
  intros depth w o file l A Hw HF P IO HA. assert (Hp : parsed w l) by (destruct HF as (c & _ & F); exists depth, (Some file), [file], c; auto).
  apply file_parses_iff in HF. destruct (plain_outcome w (o_no_balance_check o) l Hw Hp P) as [(_ & lg & E & B)|(N & _)]; [|contradiction].
  assert (R : exists rows, register_report w (report_site lg) o lg = Ok rows).
  { pose proof (ledger_whole _ _ _ _ Hp P B) as LW. destruct (asked_node w o A HA) as (q & Q & AN). unfold register_report. rewrite Q. cbn [bind].
    destruct (select_asked w o q A (lg_txns lg) (lg_commodities lg) AN) as (sel & Es & SI); [intros t Ht; apply (LW t Ht)|]. rewrite Es. cbn [bind].
    apply register_whole.
    - intros t ps Hi. destruct (SI t ps Hi) as [I1 I2]. destruct (LW t I1) as [D Y]. split; auto.
    - destruct (made_dated w lg Hw (made_plain _ _ _ _ Hp E)) as [(_ & _ & B3) _]. auto. }
  destruct R as (rows & R). destruct (C69_printed depth w o file l lg Hw HF E) as [_ HR]. destruct (HR rows R) as (groups & G1 & G2).
  exists rows, groups. do 2 (split; auto). eapply register_asked; eauto.
Qed.
Print Assumptions C78_register.
(** From the text of the journal to the text of the report. *)
Theorem C78_from_the_text : forall d w o path s l A, world_ok w -> blanks_not_numeric w ->
  w_read w path = Some s -> journal_written w pl_new l s -> plain_journal w l -> Forall (in_order w l) (pl_txns l) -> asked_accounts w (o_query o) A ->
  (forall flat no_total, o_exchange o = None -> (flat = true -> can_be_cut w o l) ->
   exists r lines, run_cmd (S d) w (CBalance flat no_total) o path = Ok lines /\ balance_printed r lines /\
     (if flat then asked_flat w o l A r else asked_tree w o l A r) /\ asked_total_shown w o l A (negb no_total) r) /\
  (exists rows groups, run_cmd (S d) w CRegister o path = Ok (concat groups) /\ Forall2 (entry_printed (w_width w)) rows groups /\ asked_register w o l A rows).
Proof.
  intros d w o path s l A Hw Hb Hr J P IO HA.
  assert (F : file_parses (S d) w path l) by (apply file_parses_iff; eapply C67_file_read_as_written; eauto).
  split; [intros flat nt OX HC; eapply C78_balance; eauto|eapply C78_register; eauto].
Qed.
Print Assumptions C78_from_the_text.

(** ** Cases: the journal of C73, asked for some of its accounts *)
Fixpoint occurs (x s : str) : bool := starts_with x s || match s with [] => false | _ :: r => occurs x r end.
Definition w78 : world :=
  {| w_lower := ascii_lower; w_numeric := fun _ => false;
     w_rx := fun rx s => if starts_with (L "(?i)") rx then occurs (ascii_lower (skipn 4 rx)) (ascii_lower s) else occurs rx s;
     w_rx_ok := fun _ => true; w_width := None; w_read := fun p => if str_eqb p (L "book") then Some (text t73) else None;
     w_glob := fun _ => None; w_two_timer := fun _ => None; w_now := 0%Z; w_ord := fun _ _ l => l |}.
Definition l78 : pledger := get pl_new (tokenize_file 2 w78 (L "book")).
Definition ask (q : list String.string) (depth : option nat) : opts :=
  {| o_real := false; o_begin := None; o_end := None; o_query := map L q; o_depth := depth; o_exchange := None; o_no_balance_check := false |}.
Lemma plain_word w x : forallb (fun k => negb (str_eqb (trim x) k)) [[]; L "and"; L "or"; L "expr"] = true ->
  match trim x with k :: _ => negb (existsb (N.eqb k) (L "@%/")) | [] => false end = true -> negb (existsb (N.eqb c_slash) (trim x)) = true ->
  w_rx_ok w (L "(?i)" ++ trim x) = true -> account_word w x (w_rx w (L "(?i)" ++ trim x)).
Proof.
  intros H1 H2 H3 H4. apply aw_text.
  - intros X. rewrite forallb_forall in H1. apply H1 in X. destruct (str_eqb_spec (trim x) (trim x)); [discriminate|congruence].
  - intros k r [<-|[<-|[<-|[]]]] E; rewrite E in H2; discriminate.
  - split; auto. intros X. apply negb_true_iff in H3. assert (E : existsb (N.eqb c_slash) (trim x) = true).
    { apply existsb_exists. exists c_slash. split; [|apply N.eqb_refl]. cbn [L app] in X. repeat (destruct X as [X|X]; [discriminate|]). exact X. }
    congruence.
Qed.
Example C78_case : world_ok w78 /\ file_parses 2 w78 (L "book") l78 /\ plain_journal w78 l78 /\ Forall (in_order w78 l78) (pl_txns l78) /\
  asked_accounts w78 (o_query (ask ["FOOD"; "bank"]%string (Some 1%nat))) (fun n => w_rx w78 (L "(?i)FOOD") n || w_rx w78 (L "(?i)bank") n) /\
  can_be_cut w78 (ask ["FOOD"; "bank"]%string (Some 1%nat)) l78 /\
  run_cmd 2 w78 (CBalance true false) (ask ["FOOD"; "bank"]%string (Some 1%nat)) (L "book") = Ok (map L
    ["           70.00 EUR  Assets"; "           10.50 EUR  Expenses"; "--------------------"; "           80.50 EUR"]%string).
Proof.
  split; [split; [intros; apply Permutation_refl|exact ascii_lower_idem]|]. split; [apply file_parses_iff; vm_compute; reflexivity|].
  split; [apply plain_check_ok; vm_compute; reflexivity|]. split; [apply order_check_ok; vm_compute; reflexivity|]. split; [|split; [|vm_compute; reflexivity]].
  - apply aa_two; apply (plain_word w78); reflexivity.
  - intros d E. inv E. split; [lia|]. intros n Hn. apply used_account in Hn.
    assert (X : forallb (fun n => match account_meant w78 l78 n with [] => false | c :: _ => negb (c =? c_colon)%N end) (used_accounts l78) = true) by (vm_compute; reflexivity).
    rewrite forallb_forall in X. apply X in Hn. destruct (account_meant w78 l78 n) as [|c r]; [discriminate|]. split; [discriminate|].
    intros (z & Z). inv Z. discriminate.
Qed.
(** With [and], in the register, with a regular expression. *)
Example C78_case_and :
  asked_accounts w78 (o_query (ask ["expenses"; "and"; "/Drinks/"]%string None)) (fun n => w_rx w78 (L "(?i)expenses") n && w_rx w78 (L "Drinks") n) /\
  map (fun c => this (asked_total w78 (ask ["expenses"; "and"; "/Drinks/"]%string None) l78 (fun n => w_rx w78 (L "(?i)expenses") n && w_rx w78 (L "Drinks") n) (fun _ => true) (L c)))
    ["USD"; "EUR"]%string = [2 # 1; 0 # 1]%Q /\
  run_cmd 2 w78 (CBalance false false) (ask ["expenses"; "and"; "/Drinks/"]%string None) (L "book") =
    Ok (map L ["            2.00 USD  Expenses:Drinks"]%string).
Proof.
  split; [|split; vm_compute; reflexivity]. apply aa_and; [apply (plain_word w78); reflexivity|].
  apply aw_regex; [reflexivity|]. split; [cbn; intuition discriminate|reflexivity].
Qed.
