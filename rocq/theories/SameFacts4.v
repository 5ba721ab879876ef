(** Facts for C79, continued: the register, the lists, and reports in one commodity. *)
From Coq Require Import Lia Sorting.Sorted.
From Verif Require Import Base BaseFacts Numerals Money Alist Comment Txn Expr Filter Price Tokens Ledger Reports App Spec MoneyFacts SpecList SpecTxn TxnFacts SpecLedger AlistFacts JournalFacts
  LedgerFacts LedgerFacts2 EvalFacts SpecQuery SpecReports ReportFacts ReportFacts2 SpecBook SpecSame SameFacts SameRead SameFacts2 SameFacts3.
Open Scope Qc_scope.

(** ** The register *)
Definition paysame (w : world) (l l' : alist payee) : Prop :=
  buildable w py_name py_aliases l /\ buildable w py_name py_aliases l' /\ forall k, l_get w k l' = l_get w k l.
Lemma payee_same w o d l l' : paysame w l l' -> agree (fun x y => fst x = fst y /\ paysame w (snd x) (snd y)) (get_payee w d l) (get_payee (with_order w o) d l').
Proof.
  intros (B & B' & H). unfold get_payee. change (l_get (with_order w o) d l') with (l_get w d l'). rewrite H.
  destruct (l_get w d l) as [p|e|e] eqn:E; [cbn; repeat (split; auto)| |reflexivity].
  set (e0 := {| py_name := d; py_aliases := []; py_regexes := []; py_note := None; py_directive := false |}).
  assert (K : forall k, l_get w k (pay_insert w e0 l') = l_get w k (pay_insert w e0 l)).
  { apply insert_same; auto. cbn. intros. congruence. }
  change (pay_insert (with_order w o) e0 l') with (pay_insert w e0 l'). change (l_get (with_order w o) d (pay_insert w e0 l')) with (l_get w d (pay_insert w e0 l')). rewrite K.
  destruct (l_get w d (pay_insert w e0 l)); cbn; auto. split; auto. split; [apply buildable_insert; auto|]. split; [apply buildable_insert; auto|]. exact K.
Qed.
Lemma postings_same w o t : world_ok w -> world_ok (with_order w o) -> forall ps site site' first b l l', paysame w l l' ->
  agree (fun x y => Forall2 same_entry (fst (fst x)) (fst (fst y)) /\ snd (fst x) = snd (fst y) /\ paysame w (snd x) (snd y))
    (register_postings w site t first ps b l) (register_postings (with_order w o) site' t first ps b l').
Proof.
  intros W W'. induction ps as [|p ps IH]; intros site site' first b l l' P; cbn [register_postings]; [cbn; auto|].
  eapply agree_bind with (R := fun x y => fst x = fst y /\ paysame w (snd x) (snd y)).
  { destruct first; [|cbn; auto]. eapply agree_bind; [apply agree_eq; reflexivity|]. intros d ? <-. eapply agree_bind; [apply payee_same; exact P|].
    intros [n q] [n' q'] [E S]. cbn in *. subst n'. auto. }
  intros [h l1] [h' l1'] [E S]. cbn [fst snd] in *. subst h'. eapply agree_bind; [apply agree_eq; reflexivity|]. intros m ? <-. cbv zeta.
  eapply agree_bind; [apply IH; exact S|]. intros [[rs b2] l2] [[rs' b2'] l2'] (X & Y & Z). cbn [fst snd] in *. cbn. repeat (split; auto). constructor; auto. repeat (split; auto). cbn.
  apply Permutation_map. rewrite (proj1 W). symmetry. apply (proj1 W' site').
Qed.
Lemma reg_txns_same w o : world_ok w -> world_ok (with_order w o) -> forall sel site site' b l l', paysame w l l' ->
  agree (Forall2 same_entry) (register_txns w site sel b l) (register_txns (with_order w o) site' sel b l').
Proof.
  intros W W'. induction sel as [|[t ps] sel IH]; intros site site' b l l' P; cbn [register_txns]; [cbn; auto|].
  eapply agree_bind; [apply postings_same; eauto|]. intros [[rs b2] l2] [[rs' b2'] l2'] (X & Y & Z). cbn [fst snd] in *. subst b2'.
  eapply agree_bind; [apply IH; exact Z|]. intros r r' F. cbn. apply Forall2_app; auto.
Qed.
Lemma register_same w o op site site' lg lg' : world_ok w -> world_ok (with_order w o) -> same_ledger w lg lg' -> lists_built w lg -> lists_built w lg' -> lg_txns lg = lg_txns lg' ->
  agree (Forall2 same_entry) (register_report w site op lg) (register_report (with_order w o) site' op lg').
Proof.
  intros W W' S (B1 & B2 & B3) (B1' & B2' & B3') E. unfold register_report. rewrite query_node_order. eapply agree_bind; [apply agree_eq; reflexivity|]. intros n ? <-.
  rewrite <- E. eapply agree_bind; [apply select_txns_same; split; [auto|split; [auto|apply S]]|]. intros [sel cs] [sel' cs'] [X _]. cbn [fst] in X. subst sel'.
  apply reg_txns_same; auto. split; auto. split; auto. apply S.
Qed.

(** ** The lists *)
Lemma sorted_same (l l' : list str) : Permutation l l' -> sorted_names l = sorted_names l'.
Proof.
  intros P. unfold sorted_names. apply (sorted_perm_eq (fun a b => str_leb a b = true)).
  - intros a b _ _. apply str_leb_antisym.
  - apply stable_sort_sorted; [intros a b; apply str_leb_total|intros a b c; apply str_leb_trans].
  - apply stable_sort_sorted; [intros a b; apply str_leb_total|intros a b c; apply str_leb_trans].
  - rewrite !stable_sort_perm. auto.
Qed.
Lemma lists_same w w' site site' lg lg' : world_ok w -> world_ok w' -> same_ledger w lg lg' ->
  accounts_report w site lg = accounts_report w' site' lg' /\ payees_report w site lg = payees_report w' site' lg' /\ commodities_report w site lg = commodities_report w' site' lg'.
Proof.
  intros W W' S. unfold accounts_report, payees_report, commodities_report. repeat split; apply sorted_same; rewrite (proj1 W), (proj1 W'); apply Permutation_map; apply S.
Qed.

(** ** One commodity *)
Lemma running_short c b m : wf_bal b -> b_only c b -> m_only c m -> wf_bal (running_add b m) /\ b_only c (running_add b m) /\ (length (running_add b m) <= 1)%nat.
Proof.
  intros W B H. unfold running_add. pose proof (wf_add _ _ W (wf_of m)) as W1. pose proof (only_add c _ _ W (wf_of m) B (only_of c m H)) as B1. destruct (bal_is_zero _).
  - split; [apply wf_of|]. split; [apply only_of; exact I|cbn; auto].
  - split; auto. split; auto. eapply only_short; eauto. apply nz_add.
Qed.
Lemma postings_short c w t : world_ok w -> forall ps site first b l rows b2 l2, Forall (p_only c) ps -> wf_bal b -> b_only c b ->
  register_postings w site t first ps b l = Ok (rows, b2, l2) -> Forall (fun r => (length (rr_total r) <= 1)%nat) rows /\ wf_bal b2 /\ b_only c b2.
Proof.
  intros W. induction ps as [|p ps IH]; intros site first b l rows b2 l2 P Wb B H; cbn [register_postings] in H; [injection H as <- <- <-; auto|]. inversion P as [|? ? P1 P2]; subst.
  destruct (if first then _ else _) as [[h l1]| |]; cbn [bind] in H; try discriminate. destruct (p_amount p) as [m|] eqn:Em; cbn [unwrap bind] in H; [|discriminate].
  pose proof (running_short c b m Wb B (proj1 P1 m Em)) as (R1 & R2 & R3). destruct (register_postings w (S site) t false ps _ l1) as [[[rs b3] l3]| |] eqn:E; cbn [bind] in H; try discriminate.
  injection H as <- <- <-. destruct (IH _ _ _ _ _ _ _ P2 R1 R2 E) as (X1 & X2 & X3). split; auto. constructor; auto. cbn. rewrite map_length. rewrite (Permutation_length (proj1 W site _ _)). auto.
Qed.
Lemma txns_short c w : world_ok w -> forall sel site b l rows, Forall (fun x => Forall (p_only c) (snd x)) sel -> wf_bal b -> b_only c b ->
  register_txns w site sel b l = Ok rows -> Forall (fun r => (length (rr_total r) <= 1)%nat) rows.
Proof.
  intros W. induction sel as [|[t ps] sel IH]; intros site b l rows P Wb B H; cbn [register_txns] in H; [injection H as <-; auto|]. inversion P as [|? ? P1 P2]; subst.
  destruct (register_postings w site t true ps b l) as [[[rs b3] l3]| |] eqn:E; cbn [bind] in H; try discriminate. destruct (postings_short c w t W _ _ _ _ _ _ _ _ P1 Wb B E) as (X1 & X2 & X3).
  destruct (register_txns w _ sel b3 l3) as [r'| |] eqn:E2; cbn [bind] in H; try discriminate. injection H as <-. apply Forall_app. split; auto. eapply IH; eauto.
Qed.
Lemma selected_only c w op n ts : forall cs sel cs', Forall (fun t => Forall (p_only c) (t_postings t)) ts -> select_txns w op n ts cs = Ok (sel, cs') -> Forall (fun x => Forall (p_only c) (snd x)) sel.
Proof.
  assert (Sub : forall t ps cs r cs', select_postings w op n t ps cs = Ok (r, cs') -> incl r ps).
  { intros t. induction ps as [|p ps IH]; intros cs r cs' H; cbn [select_postings] in H; [injection H as <- <-; intros x []|].
    destruct (filter_posting w op n t p cs) as [[b c1]| |]; cbn [bind] in H; try discriminate. destruct (select_postings w op n t ps c1) as [[r1 c2]| |] eqn:E; cbn [bind] in H; try discriminate.
    injection H as <- <-. specialize (IH _ _ _ E). destruct b; intros x Hx; [destruct Hx as [<-|Hx]; [left; auto|right; auto]|right; auto]. }
  induction ts as [|t ts IH]; intros cs sel cs' P H; cbn [select_txns] in H; [injection H as <- <-; constructor|]. inversion P as [|? ? P1 P2]; subst.
  destruct (select_postings w op n t (t_postings t) cs) as [[r1 c1]| |] eqn:E; cbn [bind] in H; try discriminate. destruct (select_txns w op n ts c1) as [[r2 c2]| |] eqn:E2; cbn [bind] in H; try discriminate.
  injection H as <- <-. constructor; [|eapply IH; eauto]. cbn. apply Sub in E. rewrite Forall_forall in P1 |- *. auto.
Qed.
(** The balances of the accounts, in one commodity. *)
Definition map_only (c : str) (m : balances) : Prop := forall P d, d <> c -> entries_sum P m d = 0.
Lemma balances_only c ps m : Forall (p_only c) ps -> foldM add_posting [] ps = Ok m -> map_only c m.
Proof.
  intros F H P d N. destruct (account_balances_ok ps [] m H empty_good) as (_ & E & _). rewrite E. change (entries_sum P [] d) with 0. unfold subtotal.
  assert (Z : qsum (map (amount_in d) (filter (fun p => P (p_account p)) ps)) = 0); [|rewrite Z; ring].
  clear - F N. induction F as [|p ps Hp F IH]; cbn [filter map]; auto. destruct (P (p_account p)); auto. cbn [map]. change (amount_in d p + qsum (map (amount_in d) (filter (fun p => P (p_account p)) ps)) = 0). rewrite IH. unfold amount_in. destruct Hp as [Hp _].
  destruct (p_amount p) as [[|q e]|] eqn:E; cbn; auto; try ring. specialize (Hp _ eq_refl). cbn in Hp. subst e. destruct (str_eqb_spec c d); [congruence|ring].
Qed.
Definition short (m : balances) : Prop := forall a b, In (a, b) m -> (length b <= 1)%nat.
Lemma short_entry c b : good_bal b -> (forall d, d <> c -> bal_amt b d = 0) -> (length b <= 1)%nat.
Proof. intros [W N] H. eapply only_short; eauto. Qed.
Lemma tree_short c w site m : world_ok w -> good_map m -> map_only c m -> short (tree_balances w site m).
Proof.
  intros W G M a b H. destruct (tree_cases w W site m G) as (T1 & T2 & _). apply (short_entry c); [eapply T1; eauto|]. intros d N. rewrite (proj2 (T2 a b H)). unfold treeamt.
  destruct (pre_of m a); [apply M; auto|]. rewrite <- entries_sum_one by apply G. apply M. auto.
Qed.
Lemma flat_short c w site d m r : world_ok w -> good_map m -> map_only c m -> flat_balances w site d m = Ok r -> short r.
Proof.
  intros W G M E a b H. destruct (flat_balances_ok w W site d m r E G) as (R1 & R2 & _). apply (short_entry c); [eapply R1; eauto|]. intros x N. rewrite (R2 a b H). apply M. auto.
Qed.
Lemma esame_short l l' : Forall2 esame l l' -> short l -> l' = l.
Proof.
  induction 1 as [|[k b] [k' b'] l l' [E B] F IH]; intros S; auto. cbn in E, B. subst k'. rewrite IH by (intros x y H; apply (S x y); right; auto).
  rewrite (short_eq b b'); auto; [apply B|]. apply (S k b). left. auto.
Qed.
Lemma print_exact w w' flat d : world_ok w -> world_ok w' -> forall f site site' l, short l -> print_rows f w site flat d l = print_rows f w' site' flat d l.
Proof.
  intros W W'. induction f as [|f IH]; intros site site' l H; [reflexivity|]. destruct l as [|[k b] l]; cbn [print_rows]; [reflexivity|].
  assert (Hl : short l) by (intros x y Hi; apply (H x y); right; auto). assert (Hb : (length b <= 1)%nat) by (apply (H k b); left; auto).
  destruct (match d with Some k0 => _ | None => _ end); [apply IH; auto|]. destruct (bal_is_zero b); [apply IH; auto|].
  assert (E : w_ord w site _ b = w_ord w' site' _ b) by (transitivity b; [|symmetry]; apply short_eq; auto; symmetry; [apply W|apply W']). rewrite E.
  destruct flat; [f_equal; apply IH; auto|]. destruct (collapse k (nparts k) (leaf k) l) as [t r] eqn:Ec. f_equal. apply IH.
  assert (X : forall l n t0 t r, collapse k n t0 l = (t, r) -> incl r l).
  { clear. induction l as [|[k0 b0] l IH]; intros n t0 t r E; cbn [collapse] in E; [injection E as <- <-; intros x []|].
    destruct (negb _); [injection E as <- <-; intros x; auto|]. destruct (sibling_ahead k n l); [injection E as <- <-; intros x; auto|]. intros x Hx. right. eapply IH; eauto. }
  intros x y Hi. apply (Hl x y). eapply X; eauto.
Qed.
Lemma merge_fails l : forall a acc, match merge_runs l a acc with Ok _ => True | Err _ => False | Panic x => x = PIndex end.
Proof. induction l as [|[a v] l IH]; intros acc0 acc; cbn [merge_runs]; auto. destruct (str_eqb a acc0); [|apply IH]. destruct (rev acc) as [|[? ?] ?]; auto. apply IH. Qed.
Lemma flat_exact c w w' site site' d m : world_ok w -> world_ok w' -> good_map m -> map_only c m ->
  agree (fun x y => stable_sort name_le y = stable_sort name_le x /\ short x) (flat_balances w site d m) (flat_balances w' site' d m).
Proof.
  intros W W' G M. assert (Me : mapeq m m) by (split; auto; split; auto; split; [tauto|auto]). pose proof (flat_same w w' site site' d m m W W' Me) as F.
  pose proof (fun r => flat_short c w site d m r W G M) as Sh.
  assert (K : forall v site, match flat_balances v site d m with Ok _ => True | Err _ => False | Panic x => x = PIndex end).
  { intros v s. unfold flat_balances. destruct d; auto. apply merge_fails. }
  pose proof (K w site) as K1. pose proof (K w' site') as K2.
  destruct (flat_balances w site d m) as [x|e|e], (flat_balances w' site' d m) as [y|e'|e']; cbn in *; try contradiction; try congruence. split; auto.
  apply esame_short; auto. intros a b H. eapply Sh; eauto. eapply Permutation_in; [apply stable_sort_perm|eauto].
Qed.
Lemma agree_refl_eq {A} (r : res A) : agree eq r r.
Proof. apply agree_eq. reflexivity. Qed.
Lemma balance_exact c w o op flat tot site site' lg lg' : world_ok w -> world_ok (with_order w o) -> same_ledger w lg lg' -> lists_built w lg -> lists_built w lg' ->
  lg_txns lg = lg_txns lg' -> Forall (fun t => Forall (p_only c) (t_postings t)) (lg_txns lg) -> o_exchange op = None ->
  balance_report w site op flat tot lg = balance_report (with_order w o) site' op flat tot lg'.
Proof.
  intros W W' S (B1 & B2 & B3) (B1' & B2' & B3') E O X. unfold balance_report. rewrite X, query_node_order, <- E. destruct (query_node w op) as [n| |]; cbn [bind]; auto. apply agree_eq.
  pose proof (select_txns_same w o op n (lg_txns lg) (lg_commodities lg) (lg_commodities lg') (conj B2 (conj B2' (proj1 (sl_commodities _ _ _ S))))) as Sel.
  pose proof (fun sel cs => selected_only c w op n (lg_txns lg) (lg_commodities lg) sel cs O) as On.
  destruct (select_txns w op n (lg_txns lg) (lg_commodities lg)) as [[sel cs]|e|e], (select_txns (with_order w o) op n (lg_txns lg) (lg_commodities lg')) as [[sel' cs']|e'|e']; cbn in Sel; try contradiction; cbn [bind]; try exact Sel.
  destruct Sel as [Eq _]. cbn in Eq. subst sel'. specialize (On _ _ eq_refl). unfold account_balances.
  assert (F : Forall (p_only c) (flat_map snd sel)).
  { apply Forall_forall. intros p Hp. apply in_flat_map in Hp. destruct Hp as (x & Hx & Hp). rewrite Forall_forall in On. specialize (On x Hx). rewrite Forall_forall in On. auto. }
  destruct (foldM add_posting [] (flat_map snd sel)) as [bals| |] eqn:EB; cbn [bind]; [|reflexivity|reflexivity].
  pose proof (proj1 (account_balances_ok _ _ _ EB empty_good)) as G. pose proof (balances_only c _ _ F EB) as M.
  eapply agree_bind with (R := fun x y => stable_sort name_le y = stable_sort name_le x /\ short x).
  { destruct flat; [apply (flat_exact c); auto|]. cbn [agree].
    assert (Me : mapeq bals bals) by (split; auto; split; auto; split; [tauto|auto]). split; [|eapply tree_short; eauto]. apply esame_short; [apply tree_same; auto|].
    intros a b H. eapply (tree_short c w); eauto. eapply Permutation_in; [apply stable_sort_perm|eauto]. }
  intros vb vb' [Es Sh]. cbn [bind]. rewrite Es.
  assert (Ss : short (stable_sort name_le vb)) by (intros a b H; eapply Sh; eapply Permutation_in; [apply stable_sort_perm|eauto]).
  rewrite <- (print_exact w (with_order w o) flat (o_depth op) W W' _ (1000 + site)%nat (1000 + site')%nat _ Ss).
  assert (Me : mapeq bals bals) by (split; auto; split; auto; split; [tauto|auto]). pose proof (total_same w (with_order w o) (104 + site) (104 + site') bals bals W W' Me) as T.
  set (total := sum_balances (map snd (w_ord w (104 + site) _ bals))) in *. set (total' := sum_balances (map snd (w_ord (with_order w o) (104 + site') _ bals))) in *.
  assert (Ht : (length total <= 1)%nat).
  { pose proof (mapeq_ord _ _ _ _ Me (proj1 W (104 + site)%nat _ bals) (proj1 W (104 + site)%nat _ bals)) as (Go & _ & _ & _).
    destruct (sum_entries_ok (fun _ => true) _ (proj2 Go)) as [A B]. assert (Fl : forall l : balances, filter (fun _ => true) l = l) by (induction l as [|x l IH]; cbn; congruence). rewrite Fl in *. fold total in A, B.
    apply (short_entry c); auto. intros d N. rewrite B, (entries_sum_perm _ _ _ _ (proj1 W (104 + site)%nat _ bals)). apply M. auto. }
  assert (Et : total' = total) by (apply short_eq; auto; apply T). rewrite Et. destruct (tot && _); [|reflexivity]. cbn [bind agree].
  assert (Eo : w_ord (with_order w o) (106 + site') _ total = w_ord w (106 + site) _ total) by (transitivity total; [|symmetry]; apply short_eq; auto; symmetry; [apply W'|apply W]).
  rewrite Eo. reflexivity.
Qed.
Lemma register_exact c w o op site site' lg lg' : world_ok w -> world_ok (with_order w o) -> same_ledger w lg lg' -> lists_built w lg -> lists_built w lg' ->
  lg_txns lg = lg_txns lg' -> Forall (fun t => Forall (p_only c) (t_postings t)) (lg_txns lg) ->
  register_report w site op lg = register_report (with_order w o) site' op lg'.
Proof.
  intros W W' S L L' E O. pose proof (register_same w o op site site' lg lg' W W' S L L' E) as R. apply agree_eq.
  destruct (register_report w site op lg) as [rs|e|e] eqn:Er, (register_report (with_order w o) site' op lg') as [rs'|e'|e']; cbn in *; try contradiction; auto.
  assert (Sh : Forall (fun r => (length (rr_total r) <= 1)%nat) rs).
  { unfold register_report in Er. destruct (query_node w op) as [n| |]; cbn [bind] in Er; try discriminate. destruct (select_txns w op n (lg_txns lg) (lg_commodities lg)) as [[sel cs]| |] eqn:Es; cbn [bind] in Er; try discriminate.
    eapply (txns_short c w W); [| | |exact Er]; [eapply selected_only; eauto|apply wf_nil|intros d _; reflexivity]. }
  clear - R Sh. induction R as [|r r' rs rs' (H1 & H2 & H3 & H4) F IH]; auto. inversion Sh; subst. f_equal; auto. destruct r, r'; cbn in *. subst. f_equal. symmetry. apply short_eq; auto.
Qed.
