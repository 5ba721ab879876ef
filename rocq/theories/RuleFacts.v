(** Facts for C84: from a journal with rules as written to the postings of the ledger. *)
From Coq Require Import Lia.
From Verif Require Import Base BaseFacts Numerals Money Alist Comment Txn Expr Filter Price Tokens Ledger Reports App Spec MoneyFacts SpecList SpecTxn TxnFacts SpecLedger
  TokenFacts AlistFacts JournalFacts LedgerFacts LedgerFacts2 LedgerFacts3 LedgerFacts4 PropTxn PropLedger SpecQuery SpecReports ReportFacts ReportFacts2 ReportFacts3 PropReports PropApp
  SpecBook BookFacts PropBook PropBook2 SpecExpr SpecAsk PropAsk SpecWords PropRuleQuery SpecAssert AssertFacts SpecRules ShownFacts.
Open Scope Qc_scope.

(** ** The postings of balanced transactions count as written *)
Lemma steps_origin skip ps : forall s s', foldM (bal_step skip) s ps = Ok s' -> Forall (fun p => p_origin p = FromTransaction) (bs_out s) -> Forall (fun p => p_origin p = FromTransaction) (bs_out s').
Proof.
  induction ps as [|p ps IH]; intros s s' H F; cbn [foldM] in H; [inv H; auto|]. bind_inv H. apply (IH _ _ H). clear IH H.
  unfold bal_step in Hb. destruct (negb (kind_eqb (p_kind p) Real)); [inv Hb; auto|]. destruct (p_amount p).
  - bind_inv Hb. destruct (_ && _); [discriminate|]. bind_inv Hb. inv Hb. cbn. apply Forall_app. split; auto.
  - destruct (p_balance p); [destruct skip|]; try (inv Hb; cbn; auto; fail). bind_inv Hb. bind_inv Hb. inv Hb. cbn. apply Forall_app. split; auto.
Qed.
Lemma fill_origin t acc pay es : forall st st', fill_loop t acc pay es st = Ok st' -> Forall (fun p => p_origin p = FromTransaction) (snd st) -> Forall (fun p => p_origin p = FromTransaction) (snd st').
Proof.
  unfold fill_loop. induction es as [|e es IH]; intros st st' H F; cbn [foldM] in H; [inv H; auto|]. bind_inv H. apply (IH _ _ H). destruct st as [bals out]. bind_inv Hb. inv Hb. cbn in *. apply Forall_app. split; auto.
Qed.
Lemma balance_origin ord skip t bals b t' bals' : txn_balance ord skip t bals = Ok (b, t', bals') -> Forall (fun p => p_origin p = FromTransaction) (t_postings t) ->
  Forall (fun p => p_origin p = FromTransaction) (t_postings t').
Proof.
  intros H F. unfold txn_balance in H. bind_inv H. destruct (negb (can_be_zero a)); [discriminate|]. bind_inv H.
  pose proof (steps_origin _ _ _ _ Hb0 (Forall_nil _)) as S.
  assert (N : Forall (fun p => p_origin p = FromTransaction) (non_real (t_postings t))).
  { rewrite Forall_forall in *. intros p Hp. apply filter_In in Hp. apply F, Hp. }
  destruct (_ - _)%nat as [|[|n]]; [| |discriminate].
  - destruct (can_be_zero (bs_tb a0)); [|discriminate]. inv H. cbn. apply Forall_app. auto.
  - bind_inv H. destruct a1 as [bb out]. inv H. cbn. apply Forall_app. split; auto. apply (fill_origin _ _ _ _ _ _ Hb1). exact S.
Qed.
Lemma balanced_origins w skip ts : forall site bals prices r, balance_all w site skip ts bals prices = Ok r ->
  Forall (fun t => Forall (fun p => p_origin p = FromTransaction) (t_postings t)) ts -> Forall (fun t => Forall (fun p => p_origin p = FromTransaction) (t_postings t)) (fst (fst r)).
Proof.
  induction ts as [|t ts IH]; intros site bals prices r H F; cbn [balance_all] in H; [inv H; constructor|]. inversion F as [|? ? F1 F2]; subst.
  bind_inv H. bind_inv H. destruct a0 as [[b t'] bals']. bind_inv H. bind_inv H. destruct a1 as [[r' b''] p']. inv H. cbn. constructor.
  - eapply balance_origin; eauto.
  - exact (IH _ _ _ _ Hb2 F2).
Qed.

(** ** The rules do not fail *)
Definition usable (p : posting) : Prop := p_origin p = FromTransaction -> exists a k, p_amount p = Some (M a k).
Definition rule_fits (w : world) (s : astate) (na : node * txn rposting) : Prop :=
  (exists A, answers w (Some (fst na)) A) /\
  forall ap, In ap (t_postings (snd na)) ->
    (exists e, l_get w (rp_account ap) (as_accs s) = Ok e) /\ (forall x, rp_payee ap = Some x -> exists y, l_get w x (as_pays s) = Ok y) /\
    exists q c, rp_money ap = Some (q, c) /\ exists x, l_get w c (as_curs s) = Ok x.
Lemma same_state s : {| as_accs := as_accs s; as_curs := as_curs s; as_pays := as_pays s |} = s.
Proof. destruct s. reflexivity. Qed.
Lemma posting_quiet w t p s ap a k : p_amount p = Some (M a k) ->
  (exists e, l_get w (rp_account ap) (as_accs s) = Ok e) -> (forall x, rp_payee ap = Some x -> exists y, l_get w x (as_pays s) = Ok y) ->
  (exists q c, rp_money ap = Some (q, c) /\ exists x, l_get w c (as_curs s) = Ok x) ->
  exists q, auto_posting w t p s ap = Ok (q, s) /\ p_origin q = OAutomated.
Proof.
  intros E (e & He) Hp (q & c & Em & x & Hx). unfold auto_posting, ensure_acc, ensure_pay, ensure_cur, ensure, get_unwrap. rewrite He. cbn [bind]. rewrite He.
  assert (X : exists pay, match rp_payee ap with
     | Some x0 => pl <- match l_get w x0 (as_pays s) with Ok _ => Ok (as_pays s) | Err _ => Ok (pay_insert w (payee_from x0) (as_pays s)) | Panic e0 => Panic e0 end ;;
                  y <- match l_get w x0 pl with Ok x1 => Ok x1 | Err _ => Panic PUnwrap | Panic e0 => Panic e0 end ;; Ok (Some (py_name y), pl)
     | None => Ok (p_payee p, as_pays s) end = Ok (pay, as_pays s)).
  { destruct (rp_payee ap) as [n|]; [|eauto]. destruct (Hp n eq_refl) as (y & Hy). rewrite Hy. cbn [bind]. rewrite Hy. cbn. eauto. }
  destruct X as (pay & ->). cbn [bind]. rewrite Em. destruct c as [|c0 c].
  - rewrite E. cbn [unwrap bind m_commodity]. rewrite same_state. eexists. split; [reflexivity|]. reflexivity.
  - rewrite Hx. cbn [bind]. rewrite Hx. cbn [bind]. rewrite same_state. eexists. split; [reflexivity|]. reflexivity.
Qed.
Lemma postings_quiet w t p s aps a k : p_amount p = Some (M a k) ->
  (forall ap, In ap aps -> (exists e, l_get w (rp_account ap) (as_accs s) = Ok e) /\ (forall x, rp_payee ap = Some x -> exists y, l_get w x (as_pays s) = Ok y) /\
    exists q c, rp_money ap = Some (q, c) /\ exists x, l_get w c (as_curs s) = Ok x) ->
  exists new, auto_postings w t p s aps = Ok (new, s) /\ Forall (fun q => p_origin q = OAutomated) new.
Proof.
  intros E. induction aps as [|ap aps IH]; intros H; cbn [auto_postings]; [exists []; split; auto|].
  destruct (H ap) as (H1 & H2 & H3); [left; auto|]. destruct (posting_quiet w t p s ap a k E H1 H2 H3) as (q & -> & O). cbn [bind].
  destruct IH as (new & -> & F); [intros; apply H; right; auto|]. cbn [bind]. exists (q :: new). auto.
Qed.
Lemma scan_quiet w s na : rule_fits w s na -> forall t todo done extra, Forall usable done -> Forall usable todo -> Forall usable extra ->
  exists ps ex, auto_scan w t (fst na) (snd na) s done todo extra = Ok (ps, ex, s) /\ Forall usable ps /\ Forall usable ex.
Proof.
  intros ((A & AN) & FT) t. induction todo as [|p r IH]; intros done extra F1 F2 F3; cbn [auto_scan]; [eauto|]. inversion F2 as [|? ? U F2']; subst.
  destruct (is_from_txn (p_origin p)) eqn:O; cbn [negb].
  - assert (O' : p_origin p = FromTransaction) by (destruct (p_origin p); auto; discriminate). destruct (U O') as (a & k & E).
    unfold filter_expression. pose proof (AN (set_postings t (done ++ p :: r)) p (as_curs s)) as EV. cbn in EV. rewrite EV. cbn [bind].
    unfold with_curs. rewrite same_state. destruct (A (p_account p)).
    + cbv zeta. destruct (postings_quiet w (set_postings t (done ++ add_tags (flat_map get_tags (t_comments (snd na))) p :: r)) (add_tags (flat_map get_tags (t_comments (snd na))) p) s
        (t_postings (snd na)) a k E FT) as (new & -> & N). cbn [bind]. apply IH; auto.
      * apply Forall_app. split; auto.
      * apply Forall_app. split; auto. eapply Forall_impl; [|exact N]. intros q Hq X. cbn in Hq. congruence.
    + apply IH; auto. apply Forall_app. auto.
  - apply IH; auto. apply Forall_app. auto.
Qed.
Lemma fold_quiet w s autos : Forall (rule_fits w s) autos -> forall t, Forall usable (t_postings t) -> exists t', foldM (auto_one w) (t, s) autos = Ok (t', s).
Proof.
  induction 1 as [|na autos R F IH]; intros t U; cbn [foldM]; [eauto|].
  destruct (scan_quiet w s na R t (t_postings t) [] [] (Forall_nil _) U (Forall_nil _)) as (ps & ex & E & U1 & U2). unfold auto_one at 1. rewrite E. cbn [bind].
  apply IH. cbn. apply Forall_app. auto.
Qed.
Lemma all_quiet w s autos ts : Forall (rule_fits w s) autos -> Forall (fun t => Forall usable (t_postings t)) ts -> exists ts', auto_all w autos ts s = Ok (ts', s).
Proof.
  intros R. induction 1 as [|t ts U F (ts' & IH)]; cbn [auto_all]; [eauto|]. destruct (fold_quiet w s autos R t U) as (t' & ->). cbn [bind]. rewrite IH. cbn. eauto.
Qed.
Lemma to_ledger_ruled w skip l nodes : world_ok w -> journal_ok w l -> rules l <> [] ->
  (forall t p, In t (pl_txns l) -> In p (t_postings t) -> ~ zero_total_cost p) ->
  (forall r ap, In r (rules l) -> In ap (t_postings r) -> rp_money ap <> None) ->
  Forall2 (fun r n => build_root w (get_filter_query r) = Ok n /\ exists A, answers w (Some n) A) (rules l) nodes ->
  (forall al cs pays ts dir costs sorted run ts1 imps, journal_read w l al cs pays ts dir costs -> date_sorted ts sorted -> (forall acc c, run acc c = 0) ->
     ledger_run skip run sorted ts1 imps -> forall t p, In t ts1 -> In p (t_postings t) -> exists a k, p_amount p = Some (M a k)) ->
  exists al cs pays ts dir costs sorted run, journal_read w l al cs pays ts dir costs /\ date_sorted ts sorted /\ (forall acc c, run acc c = 0) /\
    ((exists e v, to_ledger w skip l = Err e /\ stopped_run skip run sorted v) \/
     exists ts1 imps ts2 run', ledger_run skip run sorted ts1 imps /\ Forall (fun t => Forall (fun p => p_origin p = FromTransaction) (t_postings t)) ts1 /\
       (let s := {| as_accs := al; as_curs := cs; as_pays := pays |} in Forall2 (rules_pass w s s (combine nodes (rules l))) ts1 ts2) /\
       (forall acc c, run' acc c = 0) /\
       ((exists e v, to_ledger w skip l = Err e /\ stopped_run skip run' ts2 v) \/
        exists lg imps', to_ledger w skip l = Ok lg /\ lg_payees lg = pays /\ ledger_run skip run' ts2 (lg_txns lg) imps' /\
          lg_commodities lg = cs /\ lg_prices lg = dir ++ costs ++ imps ++ imps')).
Proof.
  intros Hw J Hr NZ HM HN AM. rewrite to_ledger_phases.
  destruct (read_phase_spec w l Hw J) as [(cs & al & pays & prices1 & raw & E0 & [N P R])|(E0 & t & p & Ht & Hp & Z)]; rewrite E0; [|exfalso; eapply NZ; eauto].
  cbn [bind]. destruct (raw_parts _ _ _ _ _ _ R) as (T1 & T2 & T3 & T4 & T5 & T6). cbn in T1, T2, T3, T4, T5, T6.
  unfold balance_phase. rewrite T2. fold (rules l).
  set (rts := flat_map (fun x : raw_result => fst (fst x)) raw) in *.
  pose proof (sort_txns_sorted rts T3) as DS.
  assert (JR : journal_read w l al cs pays rts prices1 (flat_map snd raw)).
  { destruct (found_names _ _ _ _ _ N) as (F1 & F2 & F3). destruct (new_names _ _ _ _ _ N) as (W1 & W2 & W3). constructor; auto; apply N. }
  assert (PS : Permutation rts (sort_txns rts)) by apply DS.
  assert (G1 : Forall good_txn (sort_txns rts)) by (eapply Permutation_Forall; eauto).
  assert (D1 : all_dated (sort_txns rts)) by (eapply Permutation_Forall; eauto).
  assert (A1 : Forall (accounts_in al) (sort_txns rts)).
  { eapply Permutation_Forall; [exact PS|]. eapply reads_accounts; eauto. }
  exists al, cs, pays, rts, prices1, (flat_map snd raw), (sort_txns rts), (run_amt (fresh_balances al)).
  split; [exact JR|]. split; [exact DS|]. split; [apply fresh_zero|].
  destruct (balance_all_spec w skip Hw (sort_txns rts) 8 (fresh_balances al) (prices1 ++ flat_map snd raw)
             (fresh_good al) G1 D1 (accounts_known _ _ A1))
    as [(ts1 & bals' & prs & E & LR & G)|(e & v & E & V & S)]; rewrite E.
  2:{ left. cbn. eauto. }
  right. cbn [bind]. destruct (rules l) as [|r0 rs0] eqn:Hrs; [congruence|]. rewrite <- Hrs in *.
  assert (EM : mapM (fun a => build_root w (get_filter_query a)) (rules l) = Ok nodes).
  { clear -HN. induction HN as [|r n rs ns (B & _) HN IH]; cbn [mapM]; auto. rewrite B. cbn [bind]. rewrite IH. reflexivity. }
  rewrite EM. cbn [bind].
  set (s := {| as_accs := al; as_curs := cs; as_pays := pays |}).
  assert (SO : as_ok w s).
  { destruct N. split; [|split]; cbn; auto. }
  assert (OR : Forall (fun t => Forall (fun p => p_origin p = FromTransaction) (t_postings t)) ts1).
  { apply (balanced_origins _ _ _ _ _ _ _ E). apply Forall_forall. intros t Ht. apply Forall_forall. intros p Hp. eapply (jr_origin _ _ _ _ _ _ _ _ JR); eauto.
    eapply Permutation_in; [symmetry; exact PS|auto]. }
  assert (FN : Forall (rule_fits w s) (combine nodes (rules l))).
  { assert (X : forall rs ns, incl rs (rules l) -> Forall2 (fun r n => build_root w (get_filter_query r) = Ok n /\ exists A, answers w (Some n) A) rs ns -> Forall (rule_fits w s) (combine ns rs)).
    { intros rs ns I H. revert I. induction H as [|r n rs ns (_ & A) H IH]; intros I; cbn; constructor; auto; [|apply IH; intros x Hx; apply I; right; auto].
      assert (RI : In r (rules l)) by (apply I; left; auto). assert (RP : In r (pl_txns l)) by (unfold rules in RI; apply filter_In in RI; apply RI).
      split; auto. cbn [snd]. intros ap Ha. split; [|split].
      - apply (jr_found_accounts _ _ _ _ _ _ _ _ JR). exists r, ap. auto.
      - intros x Hx. apply (jr_found_payees _ _ _ _ _ _ _ _ JR). exists r, ap. auto.
      - destruct (rp_money ap) as [[q c]|] eqn:Em; [|exfalso; eapply HM; eauto]. exists q, c. split; auto.
        apply (jr_found_commodities _ _ _ _ _ _ _ _ JR). right. exists r, ap, q. auto. }
    apply X; auto. apply incl_refl. }
  destruct (all_quiet w s _ ts1 FN) as (ts2 & AA).
  { apply Forall_forall. intros t Ht. apply Forall_forall. intros p Hp _. eapply (AM al cs pays rts prices1 (flat_map snd raw)); eauto. apply fresh_zero. }
  rewrite AA. cbn [bind].
  destruct (auto_all_spec _ _ _ _ _ _ SO AA) as (SO' & LE & K & RP).
  assert (A2 : Forall (accounts_in (as_accs s)) ts2). { apply K. eapply ledger_run_accounts; eauto. }
  assert (RP' := RP _ _ (as_le_refl _ _) (as_le_refl _ _)).
  assert (G2 : Forall good_txn ts2 /\ all_dated ts2).
  { pose proof (ledger_run_good _ _ _ _ _ LR G1) as G1'.
    pose proof (same_header_dated _ _ (run_headers _ _ _ _ _ LR) D1) as D1'. clear -RP' G1' D1'.
    induction RP'; [split; constructor|]. inv G1'. inv D1'. destruct IHRP'; auto. apply rules_pass_good in H.
    destruct H as [SH GG]. split; constructor; auto. destruct SH as (-> & _). auto. }
  destruct G2 as [G2 D2].
  exists ts1, prs, ts2, (run_amt (fresh_balances (as_accs s))). split; [exact LR|]. split; [exact OR|]. split; [exact RP'|]. split; [apply fresh_zero|].
  destruct (balance_all_spec w skip Hw ts2 (8 + 2 * length (sort_txns rts)) (fresh_balances (as_accs s)) ((prices1 ++ flat_map snd raw) ++ prs)
             (fresh_good _) G2 D2 (accounts_known _ _ A2))
    as [(ts3' & bals3 & prs3 & E3 & LR3 & G3)|(e & v & E3 & V & S)]; rewrite E3; cbn [bind].
  - right. eexists. exists prs3. split; [reflexivity|]. cbn. split; auto. split; auto. split; auto. rewrite <- !app_assoc. reflexivity.
  - left. cbn. eauto.
Qed.
