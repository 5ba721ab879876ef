(** C61, exactly: the rows of the tree report are determined by the accounts that have an amount. *)
From Coq Require Import Lia Sorting.Sorted.
From Verif Require Import Base BaseFacts Numerals Money Alist Comment Txn Expr Filter Price Tokens Ledger Reports App Spec MoneyFacts SpecList SpecTxn TxnFacts SpecLedger
  TokenFacts JournalFacts LedgerFacts LedgerFacts2 LedgerFacts3 PropTxn PropLedger SpecQuery SpecExpr ExprFacts PropExpr PropQuery SpecReports ReportFacts ReportFacts2 ReportFacts3 PropReports PropApp
  SpecText SpecDates SpecTokens SpecJournal JournalRead PropJournal SpecLayout PropLayout SpecBook BookFacts PropBook SpecAgree PropAgree SpecTree.
Open Scope Qc_scope.

Lemma starts_iff a n : starts_with a n = true <-> exists r, n = a ++ r.
Proof.
  split.
  - revert n. induction a as [|x a IH]; intros n H; [exists n; auto|]. destruct n as [|y n]; [discriminate|]. cbn in H. apply andb_true_iff in H. destruct H as [H1 H2].
    apply N.eqb_eq in H1. subst y. destruct (IH n H2) as (r & ->). exists r. auto.
  - intros (r & ->). induction a; cbn; auto. rewrite N.eqb_refl. auto.
Qed.
Lemma ahead_iff a n (rest : balances) : sibling_ahead a n rest = true <-> one_ahead a (S n) (hkeys rest).
Proof.
  induction rest as [|[name b] rest IH]; cbn [sibling_ahead hkeys map fst].
  - split; [discriminate|]. intros (p & x & q & E & _). destruct p; discriminate.
  - destruct (starts_with a name) eqn:E1; cbn [negb].
    + apply starts_iff in E1. destruct (Nat.eqb_spec (nparts name) (n + 1)) as [E2|E2].
      * split; auto. intros _. exists [], name, (hkeys rest). split; [reflexivity|]. rewrite <- nparts_levels. split; [lia|]. repeat constructor. auto.
      * rewrite IH. rewrite nparts_levels in E2. split.
        -- intros (p & x & q & E & Lx & F). exists (name :: p), x, q. cbn [app]. unfold hkeys in *. rewrite E. auto.
        -- intros (p & x & q & E & Lx & F). destruct p as [|y p]; cbn [app] in E; injection E as -> E; [lia|]. exists p, x, q. split; auto. split; auto. inv F. auto.
    + split; [discriminate|]. intros (p & x & q & E & _ & F). exfalso. assert (X : exists r, name = a ++ r).
      { destruct p as [|y p]; cbn [app] in E, F; injection E as -> E; inv F; auto. }
      apply starts_iff in X. congruence.
Qed.
Lemma collapse_taken a : forall (rest : balances) n text text' rest', collapse a n text rest = (text', rest') ->
  exists g, rest = g ++ rest' /\ text' = text ++ absorbed g /\ taken a n (hkeys rest) (hkeys g) (hkeys rest').
Proof.
  induction rest as [|[name b] rest IH]; intros n text text' rest'; cbn [collapse]; intros H.
  - inv H. exists []. split; [reflexivity|]. split; [symmetry; apply app_nil_r|constructor].
  - destruct (Nat.eqb_spec (nparts name) (n + 1)) as [En|En]; cbn [negb] in H; rewrite nparts_levels in En.
    + destruct (sibling_ahead a n rest) eqn:E.
      * inv H. exists []. split; [reflexivity|]. split; [symmetry; apply app_nil_r|]. apply tk_brother; [cbn [fst]; lia|]. apply ahead_iff. auto.
      * apply IH in H. destruct H as (g & -> & -> & T). exists ((name, b) :: g). split; [reflexivity|]. split.
        -- unfold absorbed. cbn [flat_map fst]. rewrite <- !app_assoc. auto.
        -- apply tk_next; [cbn [fst]; lia| |replace (S n) with (n + 1)%nat by lia; exact T].
           intros X. change (map fst (g ++ rest')) with (hkeys (g ++ rest')) in X. apply ahead_iff in X. congruence.
    + inv H. exists []. split; [reflexivity|]. split; [symmetry; apply app_nil_r|]. apply tk_other_level. cbn [fst]. lia.
Qed.
Lemma absorbed_label a (g : balances) : label_of (a :: hkeys g) (leaf a ++ absorbed g).
Proof.
  exists (leaf a :: map (fun x => leaf (fst x)) g). split.
  - constructor; [apply leaf_own|]. induction g; constructor; auto using leaf_own.
  - revert a. induction g as [|x g IH]; intros a; cbn [map]; [apply app_nil_r|]. unfold absorbed. cbn [flat_map].
    change (flat_map (fun x => [c_colon] ++ leaf (fst x)) g) with (absorbed g). rewrite <- app_assoc, (IH (fst x)). reflexivity.
Qed.
Lemma print_laid w d : forall f site (l : balances), (length l <= f)%nat -> (forall a b, In (a, b) l -> bal_is_zero b = false) ->
  exists groups, laid_out d (hkeys l) groups /\
    Forall2 (fun g row => br_indent row = levels (fst g) /\ label_of (fst g :: snd g) (br_label row) /\
      exists b s, In (fst g, b) l /\ br_moneys row = map snd (w_ord w s _ b)) groups (print_rows f w site false d l).
Proof.
  induction f as [|f IH]; intros site l Hl Z; [destruct l; [exists []; split; constructor|cbn in Hl; lia]|].
  destruct l as [|[a b] l]; cbn [print_rows]; [exists []; split; constructor|]. cbn in Hl.
  destruct (match d with Some k => Nat.ltb k (nparts a) | None => false end) eqn:Ed.
  - destruct (IH (S site) l) as (gs & G1 & G2); [lia|intros; eapply Z; right; eauto|]. exists gs. destruct d as [k|]; [|discriminate]. apply Nat.ltb_lt in Ed. rewrite nparts_levels in Ed. split.
    + eapply lo_deep; eauto.
    + eapply forall2_weaken; [|exact G2]. intros g row (H1 & H2 & b' & s & H3 & H4). do 2 (split; auto). exists b', s. split; auto. right. auto.
  - rewrite (Z a b (or_introl eq_refl)). destruct (collapse a (nparts a) (leaf a) l) as [text rest'] eqn:Ec.
    destruct (collapse_taken _ _ _ _ _ _ Ec) as (g & -> & -> & T). destruct (IH (S site) rest') as (gs & G1 & G2).
    { rewrite app_length in Hl. lia. }
    { intros x y Hx. apply (Z x y). right. apply in_or_app. auto. }
    exists ((a, hkeys g) :: gs). split.
    + rewrite nparts_levels in T. eapply lo_row; [|exact T|exact G1]. intros k ->. apply Nat.ltb_ge in Ed. rewrite nparts_levels in Ed. auto.
    + constructor.
      * cbn [br_indent br_label br_moneys fst snd]. split; [apply nparts_levels|]. split; [apply absorbed_label|]. exists b, site. split; [left|]; auto.
      * eapply forall2_weaken; [|exact G2]. intros h row (H1 & H2 & b' & s & H3 & H4). do 2 (split; auto). exists b', s. split; auto. right. apply in_or_app. auto.
Qed.

(** The rows are laid out as [laid_out] says of the accounts with an amount, in ascending order, and the amounts of a row
    are those of the account it begins with: the accounts taken into it are shown without theirs. *)
Theorem C61_layout : forall depth w o file no_total lines, world_ok w -> o_exchange o = None ->
  run_cmd depth w (CBalance false no_total) o file = Ok lines ->
  exists r lg q tps, balance_printed r lines /\ made_from w lg /\ query_node w o = Ok q /\ reported_postings w o q lg tps /\
    let ps := map snd tps in
    ((forall p, In p ps -> ~ begins_with_colon (p_account p)) ->
     exists accs groups, ascending accs /\ (forall a, In a accs <-> exists c, subtotal ps (inside a) c <> 0) /\ laid_out (o_depth o) accs groups /\
       Forall2 (fun g row => br_indent row = levels (fst g) /\ label_of (fst g :: snd g) (br_label row) /\ shown_amounts (br_moneys row) /\
         forall c, moneys_amt (br_moneys row) c = subtotal ps (inside (fst g)) c) groups (bp_rows r)).
Proof.
  intros depth w o file nt lines Hw Ex H. destruct (C69_balance _ _ _ _ _ _ _ Hw H) as (items & lg & r & E1 & E2 & R & B).
  pose proof (made_of _ _ _ _ _ _ E1 E2) as M. destruct (tree_listed _ _ _ _ _ _ Hw M Ex R) as (q & tps & es & R1 & R2 & S & GR & PR & HL).
  exists r, lg, q, tps. do 4 (split; auto). cbn zeta. intros Hc. destruct (HL Hc) as [L1 L2].
  destruct (print_laid w (o_depth o) (length es) (1000 + report_site lg) es (le_n _)) as (gs & G1 & G2); [intros a b Hi; apply (L2 a b Hi)|].
  exists (hkeys es), gs. split; [apply sorted_ascending; auto|]. split; [intros a; symmetry; apply L1|]. split; auto. rewrite PR. eapply forall2_weaken; [|exact G2].
  intros g row (H1 & H2 & b & s & H3 & H4). do 2 (split; auto). destruct (L2 _ _ H3) as (_ & Gb & _ & E). destruct (shown_perm w s b Hw Gb) as (P1 & P2 & P3).
  rewrite H4. split; auto. intros c. rewrite P3, E. auto.
Qed.
Print Assumptions C61_layout.

(** There is one such layout only. *)
Lemma taken_once a n l : forall xs left xs' left', taken a n l xs left -> taken a n l xs' left' -> xs = xs' /\ left = left'.
Proof.
  intros xs left xs' left' H. revert xs' left'. induction H; intros xs' left' H'; inv H'; auto; try contradiction; try congruence.
  match goal with T : taken a (S n) rest _ _ |- _ => destruct (IHtaken _ _ T) as [-> ->]; auto end.
Qed.
Lemma label_once names x y : label_of names x -> label_of names y -> x = y.
Proof.
  intros (ps & F & ->) (qs & G & ->). f_equal. revert qs G. induction F as [|n p names ps O F IH]; intros qs G; inv G; auto. f_equal; [|apply IH; auto].
  match goal with O' : own_part n _ |- _ => revert O O' end. clear. intros [F1 [->|(p1 & ->)]] [F2 [E|(p2 & E)]]; auto.
  - exfalso. rewrite E in F1. rewrite !filter_app in F1. destruct (filter (N.eqb c_colon) p2); discriminate.
  - exfalso. rewrite <- E in F2. rewrite !filter_app in F2. destruct (filter (N.eqb c_colon) p1); discriminate.
  - pose proof (f_equal parts E) as P. rewrite !split_colon in P. unfold parts in P.
    assert (K : forall s, filter (N.eqb c_colon) s = [] -> split_char c_colon s = [s]).
    { intros s Hs. pose proof (levels_parts s) as Lv. unfold levels in Lv. rewrite Hs in Lv. unfold nparts, parts in Lv. pose proof (join_split s) as J. unfold parts in J.
      destruct (split_char c_colon s) as [|u [|v k]]; cbn [length] in Lv; try (exfalso; lia). f_equal. exact J. }
    rewrite (K _ F1), (K _ F2) in P. apply app_inj_tail in P. apply P.
Qed.
Theorem C61_layout_unique : forall d accs groups groups', laid_out d accs groups -> laid_out d accs groups' -> groups = groups'.
Proof.
  intros d accs gs gs' H. revert gs'. induction H as [|k a rest rows E1 E2 H IH|a rest xs left rows E T H IH]; intros gs' H'; inv H'; auto.
  - exfalso. match goal with X : forall k0, Some k = Some k0 -> _ |- _ => specialize (X k eq_refl) end. lia.
  - exfalso. specialize (E _ eq_refl). lia.
  - match goal with T' : taken a (levels a) rest _ _ |- _ => destruct (taken_once _ _ _ _ _ _ _ T T') as [-> ->] end. f_equal. auto.
Qed.
Print Assumptions C61_layout_unique.

(** ** Cases *)
(** The journals of the refutations: the layout of their reports. *)
Lemma not_ahead a n l : Forall (fun x => levels x <> n) l -> ~ one_ahead a n l.
Proof. intros F (p & x & q & -> & E & _). rewrite Forall_app in F. destruct F as [_ F]. inv F. auto. Qed.
Example C61_layout_case : world_ok (w65 tswallow) /\ laid_out None [L "A"; L "B:c"; L "B:d"; L "E"] [(L "A", [L "B:c"]); (L "B:d", []); (L "E", [])] /\
  label_of [L "A"; L "B:c"] (L "A:c") /\ run_cmd 2 (w65 tswallow) (CBalance false true) plain_opts (L "book") =
  Ok (map L ["            5.00 EUR  A:c"; "           -3.00 EUR    d"; "           -5.00 EUR  E"]%string).
Proof.
  split; [split; [intros; apply Permutation_refl|exact ascii_lower_idem]|]. split; [|split].
  - eapply lo_row; [discriminate| |eapply lo_row; [discriminate| |eapply lo_row; [discriminate|constructor|constructor]]].
    + apply tk_next; [reflexivity| |apply tk_other_level; discriminate].
      intros (p & x & q & E & Lx & F). destruct p as [|y p]; cbn [app] in E; injection E as <- E; inv F; match goal with X : exists r, _ = _ |- _ => destruct X as (r' & X); discriminate X end.
    + apply tk_other_level. discriminate.
  - exists [L "A"; L "c"]. split; [|reflexivity]. constructor; [split; auto|]. constructor; [|constructor]. split; auto. right. exists (L "B"). reflexivity.
  - vm_compute. reflexivity.
Qed.
