(** C106: options that change nothing. *)
From Coq Require Import Lia Sorting.Sorted.
From Verif Require Import Base BaseFacts Numerals Money Alist Comment Txn Expr Filter Price Tokens Ledger Reports App Spec MoneyFacts SpecList SpecTxn TxnFacts SpecLedger
  TokenFacts JournalFacts LedgerFacts LedgerFacts2 LedgerFacts3 PropAlist PropTxn PropLedger SpecQuery SpecExpr ExprFacts PropExpr PropQuery SpecReports ReportFacts ReportFacts2 ReportFacts3 PropReports PropApp
  SpecText SpecDates SpecTokens SpecJournal JournalRead PropJournal SpecLayout PropLayout SpecPrice PropPrice SpecBook BookFacts PropBook PropBook2 SpecAsk PropAsk
  SpecWords PropRuleQuery SpecAssert AssertFacts PropAssert SpecRules ShownFacts RuleFacts RuleFacts2 PropRules SpecExchange2 PropExchange2 PropAssert2 SpecAgree SpecJoin SpecRename PropRename SpecCarry PropCarry SpecChecks PropChecks SpecUnchecked PropUnchecked SpecNoEffect.
From Verif Require PropJoin PropAgree PropScale PropTokens.
Open Scope Qc_scope.

(** ** What the transactions of the ledger keep of those of the file *)
Lemma balanced_date ord skip t bals b t' bals' : txn_balance ord skip t bals = Ok (b, t', bals') -> t_date t' = t_date t.
Proof.
  unfold txn_balance. intros H. bnd H vb E. destruct (negb _); [discriminate|]. bnd H s E0. destruct (_ - _)%nat as [|[|]]; [| |discriminate].
  - destruct (can_be_zero _); [|discriminate]. inv H. auto.
  - bnd H x1 E1. destruct x1 as [b2 out]. inv H. auto.
Qed.
Lemma all_dates w skip ts : forall site bals prices ts' bals' prices', balance_all w site skip ts bals prices = Ok (ts', bals', prices') -> map t_date ts' = map t_date ts.
Proof.
  induction ts as [|t ts IH]; intros site bals prices ts' bals' prices' H; cbn [balance_all] in H; [inv H; auto|]. bnd H d E. bnd H x0 E0. destruct x0 as [[b t1] b1]. bnd H prs E1. bnd H x1 E2. destruct x1 as [[r' b2] p2]. inv H.
  cbn. rewrite (balanced_date _ _ _ _ _ _ _ E0), (IH _ _ _ _ _ _ E2). auto.
Qed.
Lemma ruled_date w autos : forall t s t' s', foldM (auto_one w) (t, s) autos = Ok (t', s') -> t_date t' = t_date t.
Proof.
  induction autos as [|a autos IH]; intros t s t' s' H; cbn [foldM] in H; [inv H; auto|]. bnd H x E. destruct x as [t1 s1]. unfold auto_one in E. bnd E x E0. destruct x as [[ps ex] s2]. inv E. rewrite (IH _ _ _ _ H). auto.
Qed.
Lemma ruled_dates w autos ts : forall s ts' s', auto_all w autos ts s = Ok (ts', s') -> map t_date ts' = map t_date ts.
Proof.
  induction ts as [|t ts IH]; intros s ts' s' H; cbn [auto_all] in H; [inv H; auto|]. bnd H x E. destruct x as [t1 s1]. bnd H x E0. destruct x as [r s2]. inv H. cbn. rewrite (ruled_date _ _ _ _ _ _ E), (IH _ _ _ E0). auto.
Qed.
Lemma dates_forall (P : option Z -> Prop) (ts ts' : list (txn posting)) : map t_date ts' = map t_date ts -> Forall (fun t => P (t_date t)) ts -> Forall (fun t => P (t_date t)) ts'.
Proof. intros E F. apply (Forall_map t_date P). rewrite E. apply (Forall_map t_date P). exact F. Qed.
(** Real postings only. *)
Definition is_real (p : posting) : Prop := p_kind p = Real.
Definition not_virtual (ts : list (txn posting)) : Prop := Forall (fun t => Forall is_real (t_postings t)) ts.
Lemma real_steps skip ps : forall s s', foldM (bal_step skip) s ps = Ok s' -> Forall is_real (bs_out s) -> Forall is_real (bs_out s').
Proof.
  induction ps as [|p ps IH]; intros s s' H F; cbn [foldM] in H; [inv H; auto|]. bnd H s1 E. apply (IH _ _ H). clear -E F. unfold bal_step in E. destruct (negb _); [inv E; auto|]. destruct (p_amount p).
  - bnd E old E1. destruct (negb skip && _); [discriminate|]. bnd E v E2. inv E. cbn. apply Forall_app. split; auto. constructor; auto. reflexivity.
  - destruct (p_balance p); [|inv E; auto]. destruct skip; [inv E; auto|]. bnd E old E1. bnd E m1 E2. inv E. cbn. apply Forall_app. split; auto. constructor; auto. reflexivity.
Qed.
Lemma real_fills t acc pay es : forall st st', fill_loop t acc pay es st = Ok st' -> Forall is_real (snd st) -> Forall is_real (snd st').
Proof.
  unfold fill_loop. induction es as [|e es IH]; intros [b out] st' H Hs; cbn [foldM] in H; [inv H; auto|]. bnd H x E. bnd E old E1. injection E as <-. apply (IH _ _ H). cbn. apply Forall_app. split; auto. constructor; auto. reflexivity.
Qed.
Lemma no_non_real ps : Forall is_real ps -> non_real ps = [].
Proof. induction 1 as [|p ps H F IH]; auto. unfold non_real in *. cbn [filter]. rewrite H. cbn. auto. Qed.
Lemma real_txn ord skip t bals b t' bals' : txn_balance ord skip t bals = Ok (b, t', bals') -> Forall is_real (t_postings t) -> Forall is_real (t_postings t').
Proof.
  unfold txn_balance. intros H F. bnd H vb E. destruct (negb _); [discriminate|]. bnd H s E0. pose proof (real_steps _ _ _ _ E0 (Forall_nil _)) as O. rewrite (no_non_real _ F) in H.
  destruct (_ - _)%nat as [|[|]]; [| |discriminate].
  - destruct (can_be_zero _); [|discriminate]. inv H. cbn. rewrite app_nil_r. auto.
  - bnd H x1 E1. destruct x1 as [b2 out]. inv H. cbn. rewrite app_nil_r. apply (real_fills _ _ _ _ _ _ E1). auto.
Qed.
Lemma real_all w skip ts : forall site bals prices ts' bals' prices', balance_all w site skip ts bals prices = Ok (ts', bals', prices') -> not_virtual ts -> not_virtual ts'.
Proof.
  induction ts as [|t ts IH]; intros site bals prices ts' bals' prices' H F; cbn [balance_all] in H; [inv H; auto|]. bnd H d E. bnd H x0 E0. destruct x0 as [[b t1] b1]. bnd H prs E1. bnd H x1 E2. destruct x1 as [[r' b2] p2]. inv H.
  inversion F; subst. constructor; [eapply real_txn; eauto|eapply IH; eauto].
Qed.
Lemma real_added w t p aps : Forall (fun a => rp_kind a = Real) aps -> forall s xs s', auto_postings w t p s aps = Ok (xs, s') -> Forall is_real xs.
Proof.
  induction 1 as [|a aps R F IH]; intros s xs s' H; cbn [auto_postings] in H; [inv H; auto|]. bnd H x E. destruct x as [x s1]. bnd H x0 E0. destruct x0 as [ys s2]. inv H. constructor; [|eapply IH; eauto].
  unfold auto_posting in E. bnd E al E1. bnd E x1 E2. destruct x1. bnd E acc E3. bnd E x2 E4. destruct x2. inv E. exact R.
Qed.
Lemma real_scan w t n a todo : Forall (fun x => rp_kind x = Real) (t_postings a) -> forall s done extra ps ex s', auto_scan w t n a s done todo extra = Ok (ps, ex, s') ->
  Forall is_real done -> Forall is_real todo -> Forall is_real extra -> Forall is_real ps /\ Forall is_real ex.
Proof.
  intros RA. induction todo as [|p todo IH]; intros s done extra ps ex s' H D T X; cbn [auto_scan] in H; [inv H; auto|]. inversion T; subst. destruct (negb _).
  - eapply IH; eauto. apply Forall_app. auto.
  - bnd H x E. destruct x as [b cs]. destruct b.
    + bnd H x E2. destruct x as [new s2]. eapply IH; eauto; apply Forall_app; split; auto. eapply real_added; eauto.
    + eapply IH; eauto. apply Forall_app. auto.
Qed.
Lemma real_rules w autos : Forall (fun na => Forall (fun x => rp_kind x = Real) (t_postings (snd na))) autos -> forall t s t' s', foldM (auto_one w) (t, s) autos = Ok (t', s') ->
  Forall is_real (t_postings t) -> Forall is_real (t_postings t').
Proof.
  induction 1 as [|a autos RA F IH]; intros t s t' s' H FT; cbn [foldM] in H; [inv H; auto|]. bnd H x E. destruct x as [t1 s1]. unfold auto_one in E. bnd E x E0. destruct x as [[ps ex] s2]. inv E. eapply IH; eauto. cbn.
  destruct (real_scan _ _ _ _ _ RA _ _ _ _ _ _ E0 (Forall_nil _) FT (Forall_nil _)). apply Forall_app. auto.
Qed.
Lemma real_autos w autos ts : Forall (fun na => Forall (fun x => rp_kind x = Real) (t_postings (snd na))) autos -> forall s ts' s', auto_all w autos ts s = Ok (ts', s') -> not_virtual ts -> not_virtual ts'.
Proof.
  intros RA. induction ts as [|t ts IH]; intros s ts' s' H F; cbn [auto_all] in H; [inv H; auto|]. bnd H x E. destruct x as [t1 s1]. bnd H x E0. destruct x as [r s2]. inv H. inversion F; subst.
  constructor; [eapply real_rules; eauto|eapply IH; eauto].
Qed.
Lemma read_dates w accs al pays cs txns raw : mapM (txn_of_raw w accs al pays cs) txns = Ok raw ->
  Forall (fun t => exists u d, In u txns /\ t_type u = TReal /\ t_date u = Some d /\ t_date t = Some d) (flat_map (fun x => fst (fst x)) raw).
Proof.
  intros H. apply mapM_ok_Forall2 in H. induction H as [|t x ts xs E F IH]; [constructor|]. cbn [flat_map]. apply Forall_app. split.
  - unfold txn_of_raw in E. destruct (t_type t) eqn:T; [|inv E; constructor|inv E; constructor]. bnd E d E1. bnd E ps E2. bnd E u E3. inv E. cbn. constructor; auto. cbn. unfold unwrap in E1. destruct (t_date t) eqn:D; [|discriminate]. exists t, z. split; [left; auto|auto].
  - eapply Forall_impl; [|exact IH]. intros t' (u & d & I & X). exists u, d. split; [right|]; auto.
Qed.
Lemma read_autos w accs al pays cs txns raw : mapM (txn_of_raw w accs al pays cs) txns = Ok raw -> incl (flat_map (fun x => snd (fst x)) raw) txns.
Proof.
  intros H. apply mapM_ok_Forall2 in H. induction H as [|t x ts xs E F IH]; [intros z []|]. cbn [flat_map]. apply incl_app; [|apply incl_tl; auto].
  unfold txn_of_raw in E. destruct (t_type t) eqn:T; [bnd E d E1; bnd E ps E2; bnd E u E3; inv E; intros z []|inv E; intros z [<-|[]]; left; auto|inv E; intros z []].
Qed.
Lemma ledger_dates w skip l lg : to_ledger w skip l = Ok lg -> Forall (fun t => exists u d, In u (pl_txns l) /\ t_type u = TReal /\ t_date u = Some d /\ t_date t = Some d) (lg_txns lg).
Proof.
  intros H. unfold to_ledger in H. bnd H cs E1. bnd H al E2. bnd H pays E3. bnd H prices E4. bnd H raw E5.
  set (P := fun o => exists u d, In u (pl_txns l) /\ t_type u = TReal /\ t_date u = Some d /\ o = Some d).
  assert (F : Forall (fun t => P (t_date t)) (sort_txns (flat_map (fun x => fst (fst x)) raw))).
  { apply Forall_forall. intros t I. pose proof (read_dates _ _ _ _ _ _ _ E5) as R. rewrite Forall_forall in R. apply R. eapply Permutation_in; [apply stable_sort_perm|exact I]. }
  bnd H x E6. destruct x as [[ts1 b1] p3]. pose proof (dates_forall P _ _ (all_dates _ _ _ _ _ _ _ _ _ E6) F) as F1.
  destruct (flat_map (fun x => snd (fst x)) raw) as [|a autos]; [inv H; exact F1|].
  bnd H nodes E7. bnd H y E8. destruct y as [ts2 s]. bnd H z E9. destruct z as [[ts3 b3] p4]. inv H. cbn.
  exact (dates_forall P _ _ (all_dates _ _ _ _ _ _ _ _ _ E9) (dates_forall P _ _ (ruled_dates _ _ _ _ _ _ E8) F1)).
Qed.
Lemma ledger_real w skip l lg : only_real_postings l -> to_ledger w skip l = Ok lg -> not_virtual (lg_txns lg).
Proof.
  intros R H. unfold to_ledger in H. bnd H cs E1. bnd H al E2. bnd H pays E3. bnd H prices E4. bnd H raw E5.
  assert (F : not_virtual (sort_txns (flat_map (fun x => fst (fst x)) raw))).
  { apply sorted_good. eapply read_good; [|exact E5]. intros t p q It T Ip K A C. unfold is_real. rewrite K. eapply R; eauto. }
  bnd H x E6. destruct x as [[ts1 b1] p3]. pose proof (real_all _ _ _ _ _ _ _ _ _ E6 F) as F1. pose proof (read_autos _ _ _ _ _ _ _ E5) as IA.
  destruct (flat_map (fun x => snd (fst x)) raw) as [|a autos]; [inv H; exact F1|].
  bnd H nodes E7. bnd H y E8. destruct y as [ts2 s]. bnd H z E9. destruct z as [[ts3 b3] p4]. inv H. cbn.
  eapply real_all; [exact E9|]. eapply real_autos; [|exact E8|exact F1]. apply Forall_forall. intros [n t] I. apply in_combine_r in I. apply Forall_forall. intros p Ip. apply (R t p); auto.
Qed.

(** ** Period and --real *)
Section Same.
  Context (w : world) (o o' : opts) (n : option node).
  Definition both_in (t : txn posting) : Prop := exists d, t_date t = Some d /\
    (forall b, o_begin o = Some b -> (b <= d)%Z) /\ (forall e, o_end o = Some e -> (d < e)%Z) /\ (forall b, o_begin o' = Some b -> (b <= d)%Z) /\ (forall e, o_end o' = Some e -> (d < e)%Z).
  Definition same_real (t : txn posting) : Prop := o_real o' = o_real o \/ Forall is_real (t_postings t).
  Lemma filter_same t p cs : both_in t -> o_real o' = o_real o \/ is_real p -> filter_posting w o' n t p cs = filter_posting w o n t p cs.
  Proof using Type.
    intros (d & D & B1 & E1 & B2 & E2) R. unfold filter_posting.
    assert (X : o_real o' && negb (kind_eqb (p_kind p) Real) = o_real o && negb (kind_eqb (p_kind p) Real)).
    { destruct R as [->|R]; auto. rewrite R. cbn. rewrite !andb_false_r. auto. }
    rewrite X. destruct (o_real o && _); auto. rewrite D. cbn [unwrap bind].
    assert (EE : forall oo, (forall e, o_end oo = Some e -> (d < e)%Z) -> (match o_end oo with Some e => Ok (e <=? d)%Z | None => Ok false end : res bool) = Ok false).
    { intros oo H. destruct (o_end oo) as [e|]; auto. specialize (H e eq_refl). destruct (Z.leb_spec e d); auto. lia. }
    assert (BB : forall oo, (forall b, o_begin oo = Some b -> (b <= d)%Z) -> (match o_begin oo with Some b => Ok (d <? b)%Z | None => Ok false end : res bool) = Ok false).
    { intros oo H. destruct (o_begin oo) as [b|]; auto. specialize (H b eq_refl). destruct (Z.ltb_spec d b); auto. lia. }
    rewrite (EE o E1), (EE o' E2). cbn [bind]. rewrite (BB o B1), (BB o' B2). auto.
  Qed.
  Lemma select_same t ps : both_in t -> o_real o' = o_real o \/ Forall is_real ps -> forall cs, select_postings w o' n t ps cs = select_postings w o n t ps cs.
  Proof using Type.
    intros B. induction ps as [|p ps IH]; intros R cs; auto. cbn [select_postings]. rewrite filter_same by first [exact B | destruct R as [R|R]; [left; exact R|right; inversion R; assumption]].
    destruct (filter_posting w o n t p cs) as [[b cs1]| |]; auto. cbn [bind]. rewrite IH; auto. all: destruct R as [R|R]; [left; exact R|right; inversion R; assumption].
  Qed.
  Lemma select_txns_same ts : Forall both_in ts -> o_real o' = o_real o \/ not_virtual ts -> forall cs, select_txns w o' n ts cs = select_txns w o n ts cs.
  Proof using Type.
    induction 1 as [|t ts B F IH]; intros R cs; auto. cbn [select_txns]. rewrite select_same by first [exact B | destruct R as [R|R]; [left; exact R|right; inversion R; assumption]].
    destruct (select_postings w o n t (t_postings t) cs) as [[b cs1]| |]; auto. cbn [bind]. rewrite IH; auto. all: destruct R as [R|R]; [left; exact R|right; inversion R; assumption].
  Qed.
End Same.
(** A period that takes in every transaction changes nothing, nor does --real if no posting is virtual: any command gives the
    same result, for any file. *)
Theorem C106_window : forall depth w c o o' file l, file_parses depth w file l -> same_but_window o o' ->
  period_of_all o l -> period_of_all o' l -> o_real o' = o_real o \/ only_real_postings l ->
  run_cmd depth w c o' file = run_cmd depth w c o file.
Proof.
  intros depth w c o o' file l HF (Q & X & DP & NB) P P' R. apply file_parses_iff in HF. unfold run_cmd. rewrite HF. cbn [bind]. unfold run_on. rewrite NB.
  assert (K : forall lg, to_ledger w (o_no_balance_check o) l = Ok lg -> forall n cs, select_txns w o' n (lg_txns lg) cs = select_txns w o n (lg_txns lg) cs).
  { intros lg E n cs. apply select_txns_same.
    - eapply Forall_impl; [|exact (ledger_dates _ _ _ _ E)]. intros t (u & d & I & T & D & D'). exists d. split; auto. destruct (P u d I T D). destruct (P' u d I T D). auto.
    - destruct R as [R|R]; [left; auto|right; eapply ledger_real; eauto]. }
  assert (QN : query_node w o' = query_node w o) by (unfold query_node; rewrite Q; auto).
  destruct c; auto; destruct (to_ledger w (o_no_balance_check o) l) as [lg| |] eqn:E; auto; cbn [bind].
  - unfold balance_report. rewrite QN. destruct (query_node w o) as [n| |]; auto. cbn [bind]. rewrite (K lg eq_refl), X, DP. auto.
  - unfold register_report. rewrite QN. destruct (query_node w o) as [n| |]; auto. cbn [bind]. rewrite (K lg eq_refl). auto.
Qed.
Print Assumptions C106_window.

(** ** Depth *)
Lemma sort_id {A} (le : A -> A -> bool) l : StronglySorted (fun a b => le a b = true) l -> stable_sort le l = l.
Proof.
  induction 1 as [|x l S IH F]; auto. cbn [stable_sort fold_right]. fold (stable_sort le l). rewrite IH. destruct l as [|y l]; auto. inversion F; subst. cbn. rewrite H1. auto.
Qed.
Lemma merge_id l : forall account acc, ~ In account (hkeys l) -> NoDup (hkeys l) -> merge_runs l account acc = Ok (acc ++ l).
Proof.
  induction l as [|[a v] l IH]; intros account acc N D; cbn [merge_runs]; [rewrite app_nil_r; auto|]. cbn in N, D. inversion D; subst. destruct (str_eqb_spec a account) as [->|X]; [exfalso; apply N; left; auto|].
  rewrite IH by auto. rewrite <- app_assoc. auto.
Qed.
Lemma truncate_id d n : (levels n <= d)%nat -> truncate_name d n = n.
Proof.
  intros H. destruct (truncate_shortened d n) as [[_ E]|[(r & E & X)|(E & X)]]; auto.
  - exfalso. set (m := truncate_name d n) in *. rewrite E in H. unfold levels in *. rewrite !filter_app, !app_length in H. cbn in H. lia.
  - unfold levels in H. lia.
Qed.
Lemma collapse_rest (P : str * balance -> Prop) rest : forall a n text, Forall P rest -> Forall P (snd (collapse a n text rest)).
Proof.
  induction rest as [|[name b] r IH]; intros a n text F; cbn [collapse]; auto. inversion F; subst. destruct (negb _); auto. destruct (sibling_ahead _ _ _); auto.
Qed.
Lemma rows_idle w d flat fuel : forall l site, Forall (fun e => (levels (fst e) <= d)%nat) l -> print_rows fuel w site flat (Some d) l = print_rows fuel w site flat None l.
Proof.
  induction fuel as [|f IH]; intros l site F; auto. destruct l as [|[a b] l]; auto. inversion F as [|? ? F1 F2]; subst. cbn [fst] in F1. cbn [print_rows]. rewrite <- nparts_levels in F1.
  destruct (Nat.ltb_spec d (nparts a)); [lia|]. rewrite !IH by auto. destruct (bal_is_zero b); auto. destruct flat; auto.
  pose proof (collapse_rest _ l a (nparts a) (leaf a) F2) as F3. destruct (collapse a (nparts a) (leaf a) l) as [text rest]. rewrite IH; auto.
Qed.
Lemma select_postings_depth w o o' n t ps : same_but_depth o o' -> forall cs, select_postings w o' n t ps cs = select_postings w o n t ps cs.
Proof.
  intros (R & B & E & _). induction ps as [|p ps IH]; intros cs; auto. cbn [select_postings]. unfold filter_posting. rewrite R, B, E.
  match goal with |- bind ?x _ = _ => destruct x as [[b cs1]| |] end; auto. cbn [bind]. rewrite IH. auto.
Qed.
Lemma select_depth w o o' n ts : same_but_depth o o' -> forall cs, select_txns w o' n ts cs = select_txns w o n ts cs.
Proof.
  intros S. induction ts as [|t ts IH]; intros cs; auto. cbn [select_txns]. rewrite (select_postings_depth w o o' n t _ S). destruct (select_postings w o n t (t_postings t) cs) as [[b cs1]| |]; auto. cbn [bind]. rewrite IH. auto.
Qed.
Lemma query_depth w o o' : same_but_depth o o' -> query_node w o' = query_node w o.
Proof. intros (_ & _ & _ & Q & _). unfold query_node. rewrite Q. auto. Qed.
(** Every account of the ledger is one that is declared or mentioned. *)
Section Accounts.
  Context (Q : str -> Prop) (Q0 : Q (L "this will never be used")).
  Definition list_in (al : alist account) : Prop := Forall (fun a => Q (ac_name a)) (l_values al).
  Definition posting_in (p : posting) : Prop := Q (p_account p).
  Definition txns_in (ts : list (txn posting)) : Prop := Forall (fun t => Forall posting_in (t_postings t)) ts.
  Lemma get_in w n al a : l_get w n al = Ok a -> list_in al -> Q (ac_name a).
  Proof using Type.
    intros H F. unfold list_in, l_values in F. rewrite Forall_map, Forall_forall in F.
    assert (X : exists k, hget str_eqb k (l_list al) = Some a).
    { unfold l_get in H. destruct (hget str_eqb (w_lower w n) (l_list al)) eqn:E; [inv H; eauto|]. destruct (hget str_eqb _ (l_aliases al)) as [k|]; [|discriminate]. unfold unwrap in H. destruct (hget str_eqb k (l_list al)) eqn:E2; [inv H; eauto|discriminate]. }
    destruct X as (k & X). apply (F (k, a)). eapply hget_In; [exact str_eqb_spec|exact X].
  Qed.
  Lemma ensure_in w al n al' : ensure_acc w al n = Ok al' -> Q n -> list_in al -> list_in al'.
  Proof using Type.
    unfold ensure_acc, ensure. intros H Hq F. destruct (l_get w n al); [inv H; auto| |discriminate]. inv H. unfold acc_insert, l_insert. destruct (hget str_eqb _ (l_list al)); auto.
    unfold list_in, l_values in *. rewrite Forall_map in *. rewrite Forall_forall in *. cbn [l_list]. intros x I. destruct (In_hset_inv str_eqb str_eqb_spec _ _ _ _ I) as [->|J]; [exact Hq|apply F; exact J].
  Qed.
  Lemma ensure_all_in w ns : forall al al', foldM (ensure_acc w) al ns = Ok al' -> Forall Q ns -> list_in al -> list_in al'.
  Proof using Type. induction ns as [|n ns IH]; intros al al' H F L; cbn [foldM] in H; [inv H; auto|]. inversion F; subst. bnd H x E. eapply IH; eauto. eapply ensure_in; eauto. Qed.
  Lemma which_in w accs al n pay a : posting_account w accs al n pay = Ok a -> Forall (fun a => Q (ac_name a)) accs -> list_in al -> Q (ac_name a).
  Proof using Type.
    unfold posting_account. intros H F L. destruct (ends_with _ _); [|eapply get_in; eauto].
    assert (X : forall r, (forall b, r = Some b -> Q (ac_name b)) -> forall b, fold_left (fun r a => if existsb (fun rx => w_rx w rx pay) (ac_payees a) then Some a else r) accs r = Some b -> Q (ac_name b)).
    { clear H. induction F as [|y accs Y F IH]; intros r R b E; cbn in E; [auto|]. eapply IH; [|exact E]. intros b' E'. destruct (existsb _ _); [inv E'; auto|auto]. }
    destruct (fold_left _ accs None) eqn:E; [inv H; eapply X; [|exact E]; discriminate|eapply get_in; eauto].
  Qed.
  Lemma raw_in w accs al pays cs txns raw : Forall (fun a => Q (ac_name a)) accs -> list_in al -> mapM (txn_of_raw w accs al pays cs) txns = Ok raw -> txns_in (flat_map (fun x => fst (fst x)) raw).
  Proof using Type.
    intros FA FL H. apply mapM_ok_Forall2 in H. induction H as [|t x ts xs E F IH]; [constructor|]. cbn [flat_map]. apply Forall_app. split; auto.
    unfold txn_of_raw in E. destruct (t_type t) eqn:T; [|inv E; constructor|inv E; constructor]. bnd E d E1. bnd E ps E2. bnd E u E3. inv E. cbn. constructor; auto. cbn.
    apply mapM_ok_Forall2 in E2. clear -FA FL E2. induction E2 as [|p [q prs] ps ys E F IH]; cbn; constructor; auto.
    unfold posting_of_raw in E. bnd E pay E1. bnd E acc E2'. bnd E amt E3. bnd E x E4. destruct x as [cst prs']. bnd E bal E5. inv E. unfold posting_in. cbn. eapply which_in; eauto.
  Qed.
  Lemma steps_in skip ps : forall s s', foldM (bal_step skip) s ps = Ok s' -> Forall posting_in ps -> Forall posting_in (bs_out s) -> Q (fst (bs_fill s)) -> Forall posting_in (bs_out s') /\ Q (fst (bs_fill s')).
  Proof using Type.
    induction ps as [|p ps IH]; intros s s' H F O B; cbn [foldM] in H; [inv H; auto|]. inversion F as [|? ? F1 F2]; subst. bnd H s1 E. apply (IH _ _ H F2); clear IH H; unfold bal_step in E.
    - destruct (negb _); [inv E; auto|]. destruct (p_amount p).
      + bnd E old E1. destruct (negb skip && _); [discriminate|]. bnd E v E2. inv E. cbn. apply Forall_app. split; auto.
      + destruct (p_balance p); [|inv E; auto]. destruct skip; [inv E; auto|]. bnd E old E1. bnd E m1 E2. inv E. cbn. apply Forall_app. split; auto.
    - destruct (negb _); [inv E; auto|]. destruct (p_amount p).
      + bnd E old E1. destruct (negb skip && _); [discriminate|]. bnd E v E2. inv E. auto.
      + destruct (p_balance p); [|inv E; auto]. destruct skip; [inv E; auto|]. bnd E old E1. bnd E m1 E2. inv E. auto.
  Qed.
  Lemma fills_in t acc pay es : Q acc -> forall st st', fill_loop t acc pay es st = Ok st' -> Forall posting_in (snd st) -> Forall posting_in (snd st').
  Proof using Type.
    intros A. unfold fill_loop. induction es as [|e es IH]; intros [b out] st' H Hs; cbn [foldM] in H; [inv H; auto|]. bnd H x E. bnd E old E1. injection E as <-. apply (IH _ _ H). cbn. apply Forall_app. split; auto.
  Qed.
  Lemma balanced_in ord skip t bals b t' bals' : txn_balance ord skip t bals = Ok (b, t', bals') -> Forall posting_in (t_postings t) -> Forall posting_in (t_postings t').
  Proof using Q0.
    unfold txn_balance. intros H F. bnd H vb E. destruct (negb _); [discriminate|]. bnd H s E0. destruct (steps_in _ _ _ _ E0 F (Forall_nil _) Q0) as [O B].
    assert (N : Forall posting_in (non_real (t_postings t))) by (unfold non_real; apply Forall_forall; intros p I; apply filter_In in I as [I _]; rewrite Forall_forall in F; auto).
    destruct (_ - _)%nat as [|[|]]; [| |discriminate].
    - destruct (can_be_zero _); [|discriminate]. inv H. cbn. apply Forall_app. auto.
    - bnd H x1 E1. destruct x1 as [b2 out]. inv H. cbn. apply Forall_app. split; auto. apply (fills_in _ _ _ _ B _ _ E1). auto.
  Qed.
  Lemma all_in w skip ts : forall site bals prices ts' bals' prices', balance_all w site skip ts bals prices = Ok (ts', bals', prices') -> txns_in ts -> txns_in ts'.
  Proof using Q0.
    induction ts as [|t ts IH]; intros site bals prices ts' bals' prices' H F; cbn [balance_all] in H; [inv H; auto|]. bnd H d E. bnd H x0 E0. destruct x0 as [[b t1] b1]. bnd H prs E1. bnd H x1 E2. destruct x1 as [[r' b2] p2]. inv H.
    inversion F; subst. constructor; [eapply balanced_in; eauto|eapply IH; eauto].
  Qed.
  Lemma added_in w t p aps : Forall (fun a => Q (rp_account a)) aps -> forall s xs s', auto_postings w t p s aps = Ok (xs, s') -> list_in (as_accs s) -> Forall posting_in xs /\ list_in (as_accs s').
  Proof using Type.
    induction 1 as [|a aps R F IH]; intros s xs s' H L; cbn [auto_postings] in H; [inv H; auto|]. bnd H x E. destruct x as [x s1]. bnd H x0 E0. destruct x0 as [ys s2]. inv H.
    unfold auto_posting in E. bnd E al E1. bnd E x1 E2. destruct x1 as [pay pl]. bnd E acc E3. bnd E x2 E4. destruct x2 as [m cs]. inv E. pose proof (ensure_in _ _ _ _ E1 R L) as L1.
    destruct (IH _ _ _ E0) as [P1 P2]; auto. split; auto. constructor; auto. unfold posting_in. cbn. eapply get_in; [|exact L1]. apply get_unwrap_inv. exact E3.
  Qed.
  Lemma tagged_in ts p : posting_in p -> posting_in (add_tags ts p).
  Proof using Type. auto. Qed.
  Lemma scan_in w t n a todo : Forall (fun x => Q (rp_account x)) (t_postings a) -> forall s done extra ps ex s', auto_scan w t n a s done todo extra = Ok (ps, ex, s') ->
    list_in (as_accs s) -> Forall posting_in done -> Forall posting_in todo -> Forall posting_in extra -> Forall posting_in ps /\ Forall posting_in ex /\ list_in (as_accs s').
  Proof using Type.
    intros RA. induction todo as [|p todo IH]; intros s done extra ps ex s' H L D T X; cbn [auto_scan] in H; [inv H; auto|]. inversion T; subst. destruct (negb _).
    - eapply IH; eauto. apply Forall_app. auto.
    - bnd H x E. destruct x as [b cs]. destruct b.
      + bnd H x E2. destruct x as [new s2]. destruct (added_in _ _ _ _ RA _ _ _ E2 L) as [A1 A2]. eapply IH; eauto; apply Forall_app; split; auto.
      + eapply IH; eauto. apply Forall_app. auto.
  Qed.
  Lemma rules_in w autos : Forall (fun na => Forall (fun x => Q (rp_account x)) (t_postings (snd na))) autos -> forall t s t' s', foldM (auto_one w) (t, s) autos = Ok (t', s') ->
    list_in (as_accs s) -> Forall posting_in (t_postings t) -> Forall posting_in (t_postings t') /\ list_in (as_accs s').
  Proof using Type.
    induction 1 as [|a autos RA F IH]; intros t s t' s' H L FT; cbn [foldM] in H; [inv H; auto|]. bnd H x E. destruct x as [t1 s1]. unfold auto_one in E. bnd E x E0. destruct x as [[ps ex] s2]. inv E.
    destruct (scan_in _ _ _ _ _ RA _ _ _ _ _ _ E0 L (Forall_nil _) FT (Forall_nil _)) as (A & B & C). eapply IH; eauto. cbn. apply Forall_app. auto.
  Qed.
  Lemma autos_in w autos ts : Forall (fun na => Forall (fun x => Q (rp_account x)) (t_postings (snd na))) autos -> forall s ts' s', auto_all w autos ts s = Ok (ts', s') -> list_in (as_accs s) -> txns_in ts -> txns_in ts'.
  Proof using Type.
    intros RA. induction ts as [|t ts IH]; intros s ts' s' H L F; cbn [auto_all] in H; [inv H; auto|]. bnd H x E. destruct x as [t1 s1]. bnd H x E0. destruct x as [r s2]. inv H. inversion F; subst.
    destruct (rules_in _ _ RA _ _ _ _ E L H1) as [A B]. constructor; [auto|eapply IH; eauto].
  Qed.
  Lemma ledger_in w skip l lg : world_ok w -> (forall a, In a (l_values (pl_accounts l)) -> Q (ac_name a)) -> (forall n, mentions_account l n -> Q n) -> to_ledger w skip l = Ok lg -> txns_in (lg_txns lg).
  Proof using Q0.
    intros Hw QD QM H. unfold to_ledger in H. bnd H cs E1. bnd H al E2. bnd H pays E3. bnd H prices E4. bnd H raw E5.
    assert (LA : list_in al).
    { eapply ensure_all_in; [exact E2| |apply Forall_forall; exact QD]. apply Forall_forall. intros n I. apply QM. apply mention_account. eapply Permutation_in; [apply Hw|exact I]. }
    assert (F : txns_in (sort_txns (flat_map (fun x => fst (fst x)) raw))).
    { apply PropUnchecked.sorted_good. eapply raw_in; [|exact LA|exact E5]. apply Forall_forall. intros a I. unfold list_in in LA. rewrite Forall_forall in LA. apply LA. eapply Permutation_in; [apply Hw|exact I]. }
    bnd H x E6. destruct x as [[ts1 b1] p3]. pose proof (all_in _ _ _ _ _ _ _ _ _ E6 F) as F1. pose proof (read_autos _ _ _ _ _ _ _ E5) as IA.
    destruct (flat_map (fun x => snd (fst x)) raw) as [|a autos]; [inv H; exact F1|].
    bnd H nodes E7. bnd H y E8. destruct y as [ts2 s]. bnd H z E9. destruct z as [[ts3 b3] p4]. inv H. cbn.
    eapply all_in; [exact E9|]. eapply autos_in; [|exact E8|exact LA|exact F1]. apply Forall_forall. intros [n t] I. apply in_combine_r in I. apply Forall_forall. intros p Ip. apply QM. exists t, p. split; auto.
  Qed.
End Accounts.
Lemma selected_in (Q : str -> Prop) w o n t ps : forall cs sel cs', select_postings w o n t ps cs = Ok (sel, cs') -> Forall (posting_in Q) ps -> Forall (posting_in Q) sel.
Proof.
  induction ps as [|p ps IH]; intros cs sel cs' H F; cbn [select_postings] in H; [inv H; auto|]. inversion F; subst. bnd H x E. destruct x as [b cs1]. bnd H x E1. destruct x as [r cs2]. inv H. destruct b; [constructor|]; eauto.
Qed.
Lemma selected_txns_in (Q : str -> Prop) w o n ts : forall cs sel cs', select_txns w o n ts cs = Ok (sel, cs') -> txns_in Q ts -> Forall (posting_in Q) (flat_map snd sel).
Proof.
  induction ts as [|t ts IH]; intros cs sel cs' H F; cbn [select_txns] in H; [inv H; constructor|]. inversion F; subst. bnd H x E. destruct x as [ps cs1]. bnd H x E1. destruct x as [r cs2]. inv H. cbn [flat_map snd]. apply Forall_app. split; [eapply selected_in; eauto|eapply IH; eauto].
Qed.
Lemma prefixes_levels n p : In p (prefixes n) -> (levels p <= levels n)%nat.
Proof.
  intros I. rewrite <- (nparts_levels n). unfold nparts. unfold prefixes in I.
  assert (X : forall xs pre k, Forall (fun x => filter (N.eqb c_colon) x = []) xs -> pre = [] \/ (levels pre <= k)%nat -> In p (prefixes_from pre xs) -> (levels p <= k + length xs)%nat).
  { clear I. induction xs as [|x xs IH]; intros pre k F K I; [destruct I|]. inversion F as [|? ? F1 F2]; subst. cbn [prefixes_from] in I.
    set (q := match pre with [] => x | _ => pre ++ [c_colon] ++ x end) in *. assert (B : (levels q <= k + 1)%nat).
    { unfold q, levels in *. destruct pre as [|c pre]; [rewrite F1; cbn; lia|]. destruct K as [K|K]; [discriminate|]. rewrite !filter_app, !app_length, F1. change (filter (N.eqb c_colon) [c_colon]) with [c_colon]. cbn [length]. lia. }
    change (In p (q :: prefixes_from q xs)) in I. clearbody q. destruct I as [E|I]; [rewrite <- E; cbn [length]; lia|]. specialize (IH q (k + 1)%nat F2 (or_intror B) I). cbn [length]. lia. }
  apply (X (parts n) [] O); [|left; auto|exact I]. apply Forall_forall. intros x. apply parts_no_colon.
Qed.
Lemma mapM_keys {A B} (f : str * A -> res (str * B)) l : forall l', (forall e r, f e = Ok r -> fst r = fst e) -> mapM f l = Ok l' -> map fst l' = map fst l.
Proof. intros l' K H. apply mapM_ok_Forall2 in H. induction H as [|x y l l' E F IH]; auto. cbn. rewrite IH, (K _ _ E). auto. Qed.
Lemma entries_levels d (l : balances) : (forall a, In a (hkeys l) -> (levels a <= d)%nat) -> Forall (fun e => (levels (fst e) <= d)%nat) (stable_sort name_le l).
Proof. intros H. apply Forall_forall. intros e I. apply H. apply in_map. eapply Permutation_in; [apply stable_sort_perm|exact I]. Qed.
Definition named (d : nat) (n : str) : Prop := n <> [] /\ (levels n <= d)%nat.
Lemma report_idle w site o o' flat tot lg d : world_ok w -> same_but_depth o o' -> (flat = true -> o_exchange o = None) -> o_depth o = None -> o_depth o' = Some d ->
  txns_in (named d) (lg_txns lg) -> balance_report w site o' flat tot lg = balance_report w site o flat tot lg.
Proof.
  intros Hw S X N D T. pose proof S as (_ & _ & _ & _ & X' & _). unfold balance_report. rewrite (query_depth w o o' S), <- X', D, N. destruct (query_node w o) as [n| |]; auto. cbn [bind]. rewrite (select_depth w o o' n _ S).
  destruct (select_txns w o n (lg_txns lg) (lg_commodities lg)) as [[sel cs]| |] eqn:E2; auto. cbn [bind]. destruct (account_balances sel) as [bals| |] eqn:E3; auto. cbn [bind].
  pose proof (selected_txns_in (named d) _ _ _ _ _ _ _ E2 T) as SI.
  unfold account_balances in E3. destruct (account_balances_ok _ _ _ E3) as (G & _ & KE & _); [split; [constructor|intros ? ? []]|].
  assert (K : forall a, In a (hkeys bals) -> named d a). { intros a I. apply KE in I. destruct I as [[]|(p & I & <-)]. rewrite Forall_forall in SI. apply SI. auto. }
  destruct flat.
  - rewrite (X eq_refl). unfold flat_balances. set (b0 := nonzero (w_ord w site _ bals)).
    assert (G0 : good_map b0) by (apply good_nonzero; eapply good_map_perm; [symmetry; apply Hw|exact G]).
    assert (K0 : forall a, In a (hkeys b0) -> named d a).
    { intros a I. apply K. unfold hkeys in *. apply in_map_iff in I as (e & <- & I). apply in_map. unfold b0, nonzero in I. apply filter_In in I as [I _]. eapply Permutation_in; [apply Hw|exact I]. }
    assert (TR : map (fun x => (truncate_name d (fst x), snd x)) b0 = b0).
    { rewrite <- (map_id b0) at 2. apply map_ext_in. intros [a b] I. cbn. rewrite truncate_id; auto. apply K0. apply (in_map fst) in I. exact I. }
    destruct (sorted_entries b0) as [P SS]; [apply G0|].
    rewrite TR, merge_id; cbn [app bind].
    + rewrite (sort_id name_le (stable_sort name_le b0)) by (apply stable_sort_sorted; [intros; apply str_leb_total|intros a b c; apply str_leb_trans]).
      rewrite rows_idle; [reflexivity|]. apply entries_levels. intros a I. apply K0. exact I.
    + intros I. apply (Permutation_in _ (Permutation_map fst P)) in I. destruct (K0 [] I) as [Z _]. apply Z. reflexivity.
    + eapply Permutation_NoDup; [symmetry; apply (Permutation_map fst); exact P|]. apply G0.
  - cbn [bind]. destruct (tree_balances_ok w Hw site bals G) as (_ & _ & _ & TK).
    assert (KT : forall a, In a (hkeys (tree_balances w site bals)) -> (levels a <= d)%nat).
    { intros a I. destruct (TK a I) as (m & Im & [->|Ip]); [apply K; auto|]. destruct (K m Im). pose proof (prefixes_levels _ _ Ip). lia. }
    assert (Y : forall (mults : list (str * Qc)) vb1, hkeys vb1 = hkeys (tree_balances w site bals) -> print_rows (length (stable_sort name_le vb1)) w (1000 + site) false (Some d) (stable_sort name_le vb1) = print_rows (length (stable_sort name_le vb1)) w (1000 + site) false None (stable_sort name_le vb1)).
    { intros mults vb1 E. apply rows_idle. apply entries_levels. rewrite E. exact KT. }
    destruct (o_exchange o) as [x|]; [|cbn [bind]; rewrite (Y []); auto].
    destruct (l_get w x cs) as [c| |]; [|cbn [bind]; rewrite (Y []); auto|auto]. destruct (conversion w (100 + site) (cu_name c) (w_now w) (lg_prices lg)) as [mults| |]; auto. cbn [bind].
    match goal with |- context [mapM ?f (tree_balances w site bals)] => destruct (mapM f (tree_balances w site bals)) as [vb1| |] eqn:M end; auto. cbn [bind]. rewrite (Y []); auto. eapply mapM_keys; [|exact M]. intros [k b] r E. cbn [fst snd] in *. bnd E z E'. inv E. auto.
Qed.
(** A depth that no account of the journal goes beyond changes nothing, for any file. *)
Theorem C106_depth : forall depth w flat no_total o o' d file l, world_ok w -> file_parses depth w file l -> accounts_within d l -> (0 < d)%nat ->
  same_but_depth o o' -> o_depth o = None -> o_depth o' = Some d -> (flat = true -> o_exchange o = None) ->
  run_cmd depth w (CBalance flat no_total) o' file = run_cmd depth w (CBalance flat no_total) o file.
Proof.
  intros depth w flat no_total o o' d file l Hw HF [A1 A2] D0 S N D X. apply file_parses_iff in HF. unfold run_cmd. rewrite HF. cbn [bind]. unfold run_on. pose proof S as (_ & _ & _ & _ & _ & NB). rewrite <- NB.
  destruct (to_ledger w (o_no_balance_check o) l) as [lg| |] eqn:E; auto. cbn [bind]. rewrite (report_idle w (report_site lg) o o' flat (negb no_total) lg d); auto.
  eapply ledger_in; [|exact Hw|exact A1|exact A2|exact E]. split; [discriminate|]. change (1 <= d)%nat. lia.
Qed.
Print Assumptions C106_depth.

(** ** A case: a journal with a rule *)
Definition real106 : list String.string := ["= income"; "  Taxes:Due  0.1"; "  Taxes:Paid  -0.1"; "2021-01-01 Job"; "  Assets:Bank  100 EUR = 100 EUR"; "  Income"; "2021-03-02 Cash"; "  Assets:Bank:Purse  50 EUR"; "  Assets:Bank"]%string.
Definition virtual106 : list String.string := ["2021-03-03 Plan"; "  (Budget)  7 EUR"]%string.
Definition w106 : world :=
  {| w_lower := ascii_lower; w_numeric := fun _ => false;
     w_rx := fun rx s => if starts_with (L "(?i)") rx then occurs (ascii_lower (skipn 4 rx)) (ascii_lower s) else occurs rx s;
     w_rx_ok := fun _ => true; w_width := None;
     w_read := fun p => option_map snd (find (fun f => str_eqb (fst f) p) [(L "./real", text real106); (L "./virtual", text (real106 ++ virtual106))]);
     w_glob := fun _ => None; w_two_timer := fun _ => None; w_now := 0%Z; w_ord := fun _ _ l => l |}.
Definition l106 (f : String.string) : pledger := get pl_new (tokenize_file 2 w106 (L (String.append "./" f))).
Lemma w106_ok : world_ok w106.
Proof. split; [intros; apply Permutation_refl|exact ascii_lower_idem]. Qed.
Lemma parses106 f : match tokenize_file 2 w106 (L (String.append "./" f)) with Ok l => l106 f = l | _ => False end -> file_parses 2 w106 (L (String.append "./" f)) (l106 f).
Proof. intros H. apply file_parses_iff. destruct (tokenize_file 2 w106 (L (String.append "./" f))); subst; auto; destruct H. Qed.
(** The days of the two transactions. *)
Definition days106 : list Z := flat_map (fun t => match t_type t, t_date t with TReal, Some d => [d] | _, _ => [] end) (pl_txns (l106 "real")).
Definition opts106 (r : bool) (b e : option Z) (d : option nat) : opts :=
  {| o_query := o_query plain_opts; o_real := r; o_begin := b; o_end := e; o_exchange := None; o_depth := d; o_no_balance_check := false |}.
Definition first106 : Z := nth 0 days106 0%Z.
Definition last106 : Z := nth 1 days106 0%Z.
Definition shows106 (flat : bool) (o : opts) (f : String.string) : res (list str) := run_cmd 2 w106 (CBalance flat false) o (L (String.append "./" f)).
Definition in_period (o : opts) (d : Z) : bool := match o_begin o with Some b => (b <=? d)%Z | None => true end && match o_end o with Some e => (d <? e)%Z | None => true end.
Lemma period_check o l : forallb (fun t => match t_type t, t_date t with TReal, Some d => in_period o d | _, _ => true end) (pl_txns l) = true -> period_of_all o l.
Proof.
  intros H t d I T D. rewrite forallb_forall in H. specialize (H t I). rewrite T, D in H. unfold in_period in H. apply andb_prop in H as [H1 H2]. split.
  - intros b E. rewrite E in H1. apply Z.leb_le. exact H1.
  - intros e E. rewrite E in H2. apply Z.ltb_lt. exact H2.
Qed.
Lemma real_check l : forallb (fun t => forallb (fun p => kind_eqb (rp_kind p) Real) (t_postings t)) (pl_txns l) = true -> only_real_postings l.
Proof. intros H t p It Ip. rewrite forallb_forall in H. specialize (H t It). rewrite forallb_forall in H. specialize (H p Ip). destruct (rp_kind p); auto; discriminate. Qed.
Definition name_check (d : nat) (n : str) : bool := match n with [] => false | _ => Nat.leb (levels n) d end.
Lemma name_check_ok d n : name_check d n = true -> n <> [] /\ (levels n <= d)%nat.
Proof. unfold name_check. destruct n; [discriminate|]. intros H. split; [discriminate|apply Nat.leb_le; exact H]. Qed.
Lemma within_check d l : forallb (fun a => name_check d (ac_name a)) (l_values (pl_accounts l)) = true -> forallb (fun t => forallb (fun p => name_check d (rp_account p)) (t_postings t)) (pl_txns l) = true -> accounts_within d l.
Proof.
  intros H1 H2. split.
  - intros a I. apply name_check_ok. rewrite forallb_forall in H1. exact (H1 a I).
  - intros n (t & p & It & Ip & <-). apply name_check_ok. rewrite forallb_forall in H2. specialize (H2 t It). rewrite forallb_forall in H2. exact (H2 p Ip).
Qed.
Example C106_case : world_ok w106 /\ file_parses 2 w106 (L "./real") (l106 "real") /\ only_real_postings (l106 "real") /\ period_of_all (opts106 true (Some first106) (Some (last106 + 1)%Z) None) (l106 "real") /\
  period_of_all (opts106 false None None None) (l106 "real") /\ accounts_within 3 (l106 "real") /\
  shows106 true (opts106 true (Some first106) (Some (last106 + 1)%Z) None) "real" = shows106 true (opts106 false None None None) "real" /\
  shows106 false (opts106 false None None (Some 3%nat)) "real" = shows106 false (opts106 false None None None) "real" /\
  shows106 true (opts106 false None None (Some 3%nat)) "real" = shows106 true (opts106 false None None None) "real" /\
  shows106 true (opts106 false None None None) "real" = Ok (map L ["           50.00 EUR  Assets:Bank"; "           50.00 EUR  Assets:Bank:Purse"; "         -100.00 EUR  Income"; "          -10.00 EUR  Taxes:Due"; "           10.00 EUR  Taxes:Paid"; "--------------------"; "                   0"]%string).
Proof.
  split; [exact w106_ok|]. split; [apply parses106; vm_compute; reflexivity|]. split; [apply real_check; vm_compute; reflexivity|]. split; [apply period_check; vm_compute; reflexivity|]. split; [apply period_check; vm_compute; reflexivity|].
  split; [apply within_check; vm_compute; reflexivity|]. split; [|split; [|split]]; vm_compute; reflexivity.
Qed.
(** One day less at either end, too few levels, or one virtual posting, and the option is seen. *)
Example C106_seen : shows106 true (opts106 false (Some (first106 + 1)%Z) None None) "real" <> shows106 true (opts106 false None None None) "real" /\
  shows106 true (opts106 false None (Some last106) None) "real" <> shows106 true (opts106 false None None None) "real" /\
  shows106 true (opts106 false None None (Some 2%nat)) "real" <> shows106 true (opts106 false None None None) "real" /\
  shows106 false (opts106 false None None (Some 1%nat)) "real" <> shows106 false (opts106 false None None None) "real" /\
  shows106 true (opts106 true None None None) "virtual" <> shows106 true (opts106 false None None None) "virtual".
Proof. split; [|split; [|split; [|split]]]; vm_compute; intros H; discriminate H. Qed.
