(** How the rules of a journal can fail. *)
From Coq Require Import Lia.
From Verif Require Import Base BaseFacts Numerals Money Alist Comment Txn Peg Grammar Dates Expr Filter Tokens Price
  Ledger Spec MoneyFacts SpecTxn TxnFacts TxnFacts2 PropTxn TokenFacts SpecList AlistFacts JournalFacts SpecLedger
  LedgerFacts LedgerFacts2.
Open Scope Z_scope.

(** ** Expressions are evaluated without errors: they abort or give a value *)
Definition noerr {A} (r : res A) : Prop := forall e, r <> Err e.
Lemma ne_ok {A} (a : A) : noerr (Ok a).
Proof. intros e. discriminate. Qed.
Lemma ne_panic {A} p : noerr (@Panic A p).
Proof. intros e. discriminate. Qed.
Lemma ne_bind {A B} (m : res A) (f : A -> res B) : noerr m -> (forall a, noerr (f a)) -> noerr (bind m f).
Proof. intros H1 H2. destruct m as [a|e|p]; cbn; auto using ne_panic. exfalso. apply (H1 e). auto. Qed.
Lemma ne_unwrap {A} (o : option A) : noerr (unwrap o).
Proof. destruct o; intros e; discriminate. Qed.
Lemma ne_pnext ps : noerr (pnext ps).
Proof. destruct ps; intros e; discriminate. Qed.
Create HintDb ne.
#[export] Hint Resolve ne_ok ne_panic ne_unwrap ne_pnext : ne.
Ltac ne := repeat (match goal with
  | |- forall _, _ => intro
  | |- noerr (bind _ _) => apply ne_bind
  | |- noerr (match ?x with _ => _ end) => destruct x
  | |- noerr _ => solve [auto with ne]
  end).
Lemma ne_rational p : noerr (parse_rational p).
Proof. unfold parse_rational. ne. Qed.
#[export] Hint Resolve ne_rational : ne.
Lemma ne_binary_of r t : noerr (binary_of r t).
Proof. unfold binary_of. ne. Qed.
Lemma ne_unary_of t : noerr (unary_of t).
Proof. unfold unary_of. ne. Qed.
Lemma ne_variable_of t : noerr (variable_of t).
Proof. unfold variable_of. ne. Qed.
Lemma ne_money_of t : noerr (money_of t).
Proof. unfold money_of. ne. Qed.
#[export] Hint Resolve ne_binary_of ne_unary_of ne_variable_of ne_money_of : ne.
Lemma pair_ind_deep {T} (P : pair T -> Prop) :
  (forall r txt kids, (forall k, In k kids -> P k) -> P (Pair r txt kids)) -> forall p, P p.
Proof.
  intros H. fix IH 1. intros [r txt kids]. apply H. induction kids as [|k ks IHk]; intros k' Hk; [destruct Hk|]; destruct Hk as [E|Hk].
  - rewrite <- E. apply IH.
  - exact (IHk k' Hk).
Qed.
Lemma ne_build w p : noerr (build_ast w p).
Proof.
  induction p as [r txt kids K] using pair_ind_deep.
  destruct r; cbn [build_ast]; try (intros e; discriminate);
    try (destruct kids as [|k0 [|k1 [|k2 ks]]]; ne; apply K; cbn; auto; fail).
Qed.
Lemma ne_root w e : noerr (build_root w e).
Proof. unfold build_root, gparse. ne. apply ne_build. Qed.
Lemma ne_date w s : noerr (date_parser w s).
Proof. unfold date_parser. ne. Qed.
Lemma ne_cmp a b : noerr (value_cmp a b).
Proof. unfold value_cmp, money_cmp. ne. Qed.
Lemma ne_eq a b : noerr (value_eq a b).
Proof. unfold value_eq. ne. Qed.
Lemma ne_match w t l rx : noerr (eval_match w t l rx).
Proof. unfold eval_match. ne. Qed.
Lemma ne_mdiv m q : noerr (m_div m q).
Proof. unfold m_div. ne. Qed.
#[export] Hint Resolve ne_root ne_date ne_cmp ne_eq ne_match ne_mdiv : ne.
Lemma ne_evb w t op l r : noerr (eval_binary w t op l r).
Proof. unfold eval_binary. ne. Qed.
Lemma ne_evu w p op v : noerr (eval_unary w p op v).
Proof. unfold eval_unary. ne. Qed.
#[export] Hint Resolve ne_evb ne_evu : ne.
Lemma ne_any ev ps : (forall p cs, noerr (ev p cs)) -> forall cs, noerr (any_loop ev ps cs).
Proof. intros H. induction ps; cbn; intros; ne; auto. Qed.
Lemma ne_eval w n : forall p t cs, noerr (eval w n p t cs).
Proof. induction n; intros p t cs; cbn [eval]; ne; auto. apply ne_any. auto. Qed.
#[export] Hint Resolve ne_eval : ne.
Lemma ne_value w e p t cs : noerr (eval_value_expression w e p t cs).
Proof. unfold eval_value_expression. ne. Qed.

(** ** Where the rules stop *)
(** Ok, not a condition, or an abort of one of the rules. *)
Definition rule_end {A} (w : world) (rs : list (txn rposting)) (r : res A) : Prop :=
  match r with
  | Ok _ => True
  | Err e => e = ENotBoolean /\ exists r, In r rs /\ no_condition w r
  | Panic x => exists r, In r rs /\ rule_aborts w r x
  end.
Lemma re_bind {A B} w rs (m : res A) (f : A -> res B) :
  rule_end w rs m -> (forall a, m = Ok a -> rule_end w rs (f a)) -> rule_end w rs (bind m f).
Proof. destruct m; cbn; auto. Qed.
Lemma auto_posting_end w rs r t p s ap : In r rs -> In ap (t_postings r) -> as_ok w s ->
  rule_end w rs (auto_posting w t p s ap).
Proof.
  intros Hr Ha (B1 & B2 & B3). unfold auto_posting.
  destruct (ensure_acc_ok w (as_accs s) (rp_account ap) B1) as (al & E1 & B1' & G1 & (a & Ra & Ia)). rewrite E1. cbn [bind].
  apply re_bind.
  { destruct (rp_payee ap) as [x|]; [|exact I].
    destruct (ensure_pay_ok w (as_pays s) x B3) as (pl & -> & B & G & (y & Ry & Iy)). cbn [bind].
    rewrite (get_unwrap_ok _ _ _ _ Ry). exact I. }
  intros [pay pl] _. rewrite (get_unwrap_ok _ _ _ _ Ra). cbn [bind].
  apply re_bind; [|intros [m cs] _; exact I].
  assert (X : forall x, match rp_money ap, rp_expr ap with
     | Some (_, []), _ => x = PUnwrap /\ (p_amount p = None \/ p_amount p = Some MZero)
     | Some _, _ => False
     | None, Some e => eval_value_expression w e p t (as_curs s) = Panic x
     | None, None => x = PUnwrap
     end -> exists r, In r rs /\ rule_aborts w r x).
  { intros x Hx. exists r. split; auto. right. right. exists ap, p, t, (as_curs s). auto. }
  destruct (rp_money ap) as [[q [|c0 c]]|].
  - destruct (p_amount p) as [[|m c]|]; cbn; auto.
  - destruct (ensure_cur_ok w (as_curs s) (c0 :: c) B2) as (cs1 & E & B & G & (x & Rx & Ix)). rewrite E. cbn [bind].
    rewrite (get_unwrap_ok _ _ _ _ Rx). exact I.
  - destruct (rp_expr ap) as [e|]; cbn; auto. pose proof (ne_value w e p t (as_curs s)) as N.
    destruct (eval_value_expression w e p t (as_curs s)) as [a0|e0|x]; cbn; auto. exfalso. apply (N e0). auto.
Qed.
Lemma auto_postings_end w rs r t p aps : In r rs -> incl aps (t_postings r) -> forall s, as_ok w s ->
  rule_end w rs (auto_postings w t p s aps).
Proof.
  intros Hr. induction aps as [|ap aps IH]; intros Hi s B; cbn [auto_postings]; [exact I|].
  apply re_bind; [eapply auto_posting_end; eauto; apply Hi; left; auto|]. intros [x s1] E.
  apply auto_posting_spec in E; auto. apply re_bind; [|intros [xs s2] _; exact I]. apply IH; [|apply E].
  intros y Hy. apply Hi. right. auto.
Qed.
Lemma auto_scan_end w rs t query rule todo : In rule rs -> build_root w (get_filter_query rule) = Ok query ->
  forall s done extra, as_ok w s -> rule_end w rs (auto_scan w t query rule s done todo extra).
Proof.
  intros Hr Hq. induction todo as [|p r IH]; intros s done extra B; cbn [auto_scan]; [exact I|].
  destruct (negb (is_from_txn (p_origin p))); [apply IH; auto|].
  apply re_bind.
  { unfold filter_expression. pose proof (ne_eval w query p (set_postings t (done ++ p :: r)) (as_curs s)) as N.
    destruct (eval w query p _ (as_curs s)) as [[v cs]|e|x] eqn:E; cbn.
    - assert (X : (forall b, v <> VBool b) -> exists r0, In r0 rs /\ no_condition w r0).
      { intros X. exists rule. split; auto. exists query, p, (set_postings t (done ++ p :: r)), (as_curs s), v, cs. auto. }
      destruct v; cbn; auto; split; auto; apply X; intros b; discriminate.
    - exfalso. apply (N e). auto.
    - exists rule. split; auto. right. left. eauto 6. }
  intros [b cs] E. unfold filter_expression in E. bind_inv E. destruct a as [v cs1].
  destruct B as (B1 & B2 & B3). destruct (eval_extends _ _ _ _ _ _ _ B2 Hb) as [B2' _].
  assert (BB : as_ok w (with_curs s cs)). { destruct v; inv E. split; [|split]; cbn; auto. }
  destruct b; [|apply IH; auto].
  apply re_bind; [eapply auto_postings_end; eauto; apply incl_refl|].
  intros [new s2] E2. apply auto_postings_spec in E2; auto. apply IH. apply E2.
Qed.
Lemma auto_fold_end w rs autos : Forall (fun na => In (snd na) rs /\ build_root w (get_filter_query (snd na)) = Ok (fst na)) autos ->
  forall t s, as_ok w s -> rule_end w rs (foldM (auto_one w) (t, s) autos) /\
    forall t' s', foldM (auto_one w) (t, s) autos = Ok (t', s') -> as_ok w s'.
Proof.
  induction autos as [|[n r] autos IH]; intros F t s B; cbn [foldM].
  - split; [exact I|]. intros t' s' E. inv E. auto.
  - inv F. cbn in H1. destruct H1 as [Hr Hq].
    assert (S : rule_end w rs (auto_one w (t, s) (n, r)) /\ forall t' s', auto_one w (t, s) (n, r) = Ok (t', s') -> as_ok w s').
    { unfold auto_one. cbn [fst snd]. split.
      - apply re_bind; [eapply auto_scan_end; eauto|]. intros [[ps ex] s'] _. exact I.
      - intros t' s' E. bind_inv E. destruct a as [[ps ex] s1]. inv E. eapply auto_scan_spec; eauto. }
    destruct S as [S1 S2]. split.
    + apply re_bind; auto. intros [t1 s1] E. apply IH; eauto.
    + intros t' s' E. bind_inv E. destruct a as [t1 s1]. exact (proj2 (IH H2 t1 s1 (S2 _ _ Hb)) _ _ E).
Qed.
Lemma auto_all_end w rs autos : Forall (fun na => In (snd na) rs /\ build_root w (get_filter_query (snd na)) = Ok (fst na)) autos ->
  forall ts s, as_ok w s -> rule_end w rs (auto_all w autos ts s).
Proof.
  intros F. induction ts as [|t ts IH]; intros s B; cbn [auto_all]; [exact I|].
  destruct (auto_fold_end w rs autos F t s B) as [S1 S2].
  apply re_bind; auto. intros [t' s1] E. apply re_bind; [apply IH; eauto|]. intros [r' s2] _. exact I.
Qed.
Lemma build_all_end w rs : forall rs', incl rs' rs -> rule_end w rs (mapM (fun a => build_root w (get_filter_query a)) rs').
Proof.
  induction rs' as [|r rs' IH]; intros Hi; cbn [mapM]; [exact I|]. apply re_bind.
  - pose proof (ne_root w (get_filter_query r)) as N. destruct (build_root w (get_filter_query r)) as [n|e|x] eqn:E; cbn; auto.
    + exfalso. apply (N e). auto.
    + exists r. split; [apply Hi; left; auto|]. left. auto.
  - intros n _. apply re_bind; [apply IH; intros x Hx; apply Hi; right; auto|]. intros; exact I.
Qed.
(** ** The outcomes of building a ledger *)
Lemma to_ledger_ends w skip l : world_ok w -> journal_ok w l ->
  match to_ledger w skip l with
  | Ok _ => True
  | Err e => (exists v, verdict_error v e /\ (ledger_refused w skip l v \/ refused_after_rules w skip l v)) \/
             (e = ENotBoolean /\ exists r, In r (rules l) /\ no_condition w r)
  | Panic x => (x = PDivZero /\ exists t p, In t (pl_txns l) /\ In p (t_postings t) /\ zero_total_cost p) \/
               (exists r, In r (rules l) /\ rule_aborts w r x)
  end.
Proof.
  intros Hw J.
  destruct (rules l) as [|r0 rs0] eqn:Hr.
  { destruct (to_ledger_plain w skip l Hw J Hr) as [(lg' & E & B)|[(e & v & E & V & R)|(E & Z)]]; rewrite E; [exact I|left; eauto|left; auto]. }
  rewrite to_ledger_phases.
  destruct (read_phase_spec w l Hw J) as [(cs & al & pays & prices1 & raw & E0 & [N P R])|(E0 & Z)]; rewrite E0; [|left; auto].
  cbn [bind]. destruct (raw_parts _ _ _ _ _ _ R) as (T1 & T2 & T3 & T4 & T5 & T6). cbn in T1, T2, T3, T4, T5, T6.
  unfold balance_phase. rewrite T2. fold (rules l).
  set (rts := flat_map (fun x : raw_result => fst (fst x)) raw) in *.
  pose proof (sort_txns_sorted rts T3) as DS.
  assert (JR : journal_read w l al cs pays rts prices1 (flat_map snd raw)).
  { destruct (found_names _ _ _ _ _ N) as (F1 & F2 & F3). destruct (new_names _ _ _ _ _ N) as (W1 & W2 & W3). constructor; auto; apply N. }
  assert (PS : Permutation rts (sort_txns rts)) by apply DS.
  assert (G1 : Forall good_txn (sort_txns rts)) by (eapply Permutation_Forall; eauto).
  assert (D1 : all_dated (sort_txns rts)) by (eapply Permutation_Forall; eauto).
  assert (A1 : Forall (accounts_in al) (sort_txns rts)).
  { eapply Permutation_Forall; [exact PS|]. eapply reads_accounts; eauto. }
  destruct (balance_all_spec w skip Hw (sort_txns rts) 8 (fresh_balances al) (prices1 ++ flat_map snd raw)
             (fresh_good al) G1 D1 (accounts_known _ _ A1))
    as [(ts1 & bals' & prs & E & LR & G)|(e & v & E & V & S)]; rewrite E.
  2:{ cbn. left. exists v. split; auto. left. exists al, cs, pays, rts, prices1, (flat_map snd raw), (sort_txns rts), (run_amt (fresh_balances al)).
      split; auto. split; auto. split; auto. apply fresh_zero. }
  cbn [bind]. rewrite Hr. rewrite <- Hr.
  pose proof (build_all_end w (rules l) (rules l) (incl_refl _)) as M.
  destruct (mapM (fun a => build_root w (get_filter_query a)) (rules l)) as [nodes|e|x] eqn:EM; cbn [rule_end bind] in M |- *; auto.
  assert (SO : as_ok w {| as_accs := al; as_curs := cs; as_pays := pays |}).
  { destruct N. split; [|split]; cbn; auto. }
  assert (FN : Forall (fun na => In (snd na) (rules l) /\ build_root w (get_filter_query (snd na)) = Ok (fst na)) (combine nodes (rules l))).
  { apply mapM_ok_Forall2 in EM. assert (X : forall rs, incl (rules l) rs -> Forall (fun na => In (snd na) rs /\ build_root w (get_filter_query (snd na)) = Ok (fst na)) (combine nodes (rules l))).
    { clear -EM. induction EM; intros rs Hi; cbn; constructor; cbn; auto.
      - split; auto. apply Hi. left. auto.
      - apply IHEM. intros z Hz. apply Hi. right. auto. }
    apply X, incl_refl. }
  pose proof (auto_all_end w (rules l) _ FN ts1 _ SO) as A.
  destruct (auto_all w (combine nodes (rules l)) ts1 _) as [[ts2 s]|e|x] eqn:AA; cbn [rule_end bind] in A |- *; auto.
  destruct (auto_all_spec _ _ _ _ _ _ SO AA) as (SO' & LE & K & RP).
  assert (A2 : Forall (accounts_in (as_accs s)) ts2). { apply K. eapply ledger_run_accounts; eauto. }
  assert (RP' := RP _ _ (as_le_refl _ _) (as_le_refl _ _)).
  assert (G2 : Forall good_txn ts2 /\ all_dated ts2).
  { pose proof (ledger_run_good _ _ _ _ _ LR G1) as G1'.
    pose proof (same_header_dated _ _ (run_headers _ _ _ _ _ LR) D1) as D1'. clear -RP' G1' D1'.
    induction RP'; [split; constructor|]. inv G1'. inv D1'. destruct IHRP'; auto. apply rules_pass_good in H.
    destruct H as [SH GG]. split; constructor; auto. destruct SH as (-> & _). auto. }
  destruct G2 as [G2 D2].
  destruct (balance_all_spec w skip Hw ts2 (8 + 2 * length (sort_txns rts)) (fresh_balances (as_accs s)) ((prices1 ++ flat_map snd raw) ++ prs)
             (fresh_good _) G2 D2 (accounts_known _ _ A2))
    as [(ts3' & bals3 & prs3 & E3 & LR3 & G3)|(e & v & E3 & V & S)]; rewrite E3; cbn; auto.
  left. exists v. split; auto. right. apply mapM_ok_Forall2 in EM.
  exists al, cs, pays, rts, prices1, (flat_map snd raw), (sort_txns rts), (run_amt (fresh_balances al)), ts1, prs, nodes, s, ts2, (run_amt (fresh_balances (as_accs s))).
  split; [exact JR|]. split; [exact DS|]. split; [apply fresh_zero|]. split; [exact LR|]. split; [exact EM|]. split; [exact RP'|]. destruct LE as (LE1 & LE2 & LE3). do 3 (split; [assumption|]). split; [apply fresh_zero|exact S].
Qed.
