(** Facts for C94, continued: balancing, rules and the whole ledger. *)
From Coq Require Import Lia.
From Verif Require Import Base BaseFacts Numerals Money Alist Comment Txn Expr Filter Price Tokens TokenFacts Ledger Reports Spec MoneyFacts SpecList SpecTxn TxnFacts SpecLedger AlistFacts JournalFacts
  LedgerFacts LedgerFacts2 EvalFacts SpecBook SpecSame SameFacts SameFacts3 SpecMeans MeansFacts MeansFacts2.
Open Scope Qc_scope.

(** ** Balancing *)
Definition onsame (A : str -> Prop) (b b' : balances) : Prop := forall acc, A acc -> hget str_eqb acc b = hget str_eqb acc b'.
Lemma onsame_set A b b' a x : onsame A b b' -> onsame A (hset str_eqb a x b) (hset str_eqb a x b').
Proof. intros H acc Ha. rewrite !(hget_hset _ str_eqb_spec). destruct (str_eqb acc a); auto. Qed.
Definition stmeans (A : str -> Prop) (s s' : bstate) : Prop :=
  onsame A (bs_bals s) (bs_bals s') /\ bs_tb s = bs_tb s' /\ bs_out s = bs_out s' /\ bs_fill s = bs_fill s'.
Lemma step_means (A : str -> Prop) skip s s' p : A (p_account p) -> stmeans A s s' -> agree (stmeans A) (bal_step skip s p) (bal_step skip s' p).
Proof.
  intros Ap (B & T & O & F). unfold bal_step. destruct (negb (kind_eqb _ _)); [cbn; repeat (split; auto)|].
  rewrite <- (B _ Ap), <- T, <- O, <- F. destruct (p_amount p) as [m|].
  - destruct (hget str_eqb (p_account p) (bs_bals s)) as [old|]; [|reflexivity]. cbn [unwrap bind]. destruct (negb skip && _); [reflexivity|].
    destruct (post_value m (p_cost p)); cbn [bind]; try reflexivity. cbn. split; [|auto]. cbn. apply onsame_set. auto.
  - destruct (p_balance p) as [b|]; [|cbn; repeat (split; auto)]. destruct skip; [cbn; repeat (split; auto)|].
    destruct (hget str_eqb (p_account p) (bs_bals s)) as [old|]; [|reflexivity]. cbn [unwrap bind].
    destruct (to_money _); cbn [bind]; try reflexivity. cbn. split; [|auto]. cbn. apply onsame_set. auto.
Qed.
Lemma fill_means (A : str -> Prop) t acc pay es : A acc -> forall b b' out, onsame A b b' ->
  agree (fun x y => snd x = snd y /\ onsame A (fst x) (fst y)) (fill_loop t acc pay es (b, out)) (fill_loop t acc pay es (b', out)).
Proof.
  intros Ha. unfold fill_loop. induction es as [|e es IH]; intros b b' out H; cbn [foldM]; [cbn; auto|]. rewrite <- (H _ Ha).
  destruct (hget str_eqb acc b) as [old|]; [|reflexivity]. cbn [unwrap bind]. apply IH. apply onsame_set. auto.
Qed.
(** A posting is either passed on, or its account is noted down to be filled in. *)
Lemma fill_noted (A : str -> Prop) skip ps : (forall p, In p ps -> A (p_account p)) -> forall s s', foldM (bal_step skip) s ps = Ok s' ->
  (length (bs_out s') = length (bs_out s) + length (real ps))%nat /\ bs_fill s' = bs_fill s \/ A (fst (bs_fill s')) \/
  (length (bs_out s') = length (bs_out s) + length (real ps))%nat.
Proof.
  induction ps as [|p ps IH]; intros HA s s' H; cbn [foldM] in H; [injection H as <-; left; cbn; auto|].
  destruct (bal_step skip s p) as [s1| |] eqn:E; cbn [bind] in H; try discriminate.
  assert (K : ((length (bs_out s1) = length (bs_out s) + length (real [p]))%nat /\ bs_fill s1 = bs_fill s) \/ A (fst (bs_fill s1))).
  { clear H IH. unfold bal_step in E. unfold real. cbn [filter]. destruct (kind_eqb (p_kind p) Real) eqn:K; cbn [negb] in E; [|injection E as <-; left; cbn; auto].
    destruct (p_amount p).
    - destruct (hget _ _ _); [|discriminate]. cbn [unwrap bind] in E. destruct (negb skip && _); [discriminate|]. destruct (post_value _ _); cbn [bind] in E; try discriminate.
      injection E as <-. left. cbn. rewrite app_length. auto.
    - destruct (p_balance p); [|injection E as <-; right; apply HA; left; auto]. destruct skip; [injection E as <-; right; apply HA; left; auto|].
      destruct (hget _ _ _); [|discriminate]. cbn [unwrap bind] in E. destruct (to_money _); cbn [bind] in E; try discriminate.
      injection E as <-. left. cbn. rewrite app_length. auto. }
  assert (R : (length (real (p :: ps)) = length (real [p]) + length (real ps))%nat).
  { unfold real. cbn [filter]. destruct (kind_eqb _ _); reflexivity. }
  destruct (IH (fun q Hq => HA q (or_intror Hq)) s1 s' H) as [[L F]|[F|L]].
  - rewrite F. destruct K as [[K1 K2]|K]; [left; split; [lia|congruence]|right; left; auto].
  - right. left. auto.
  - destruct K as [[K1 K2]|K]; [right; right; lia|].
    (* an account noted earlier is not forgotten: only replaced *)
    assert (F : forall ps s s', (forall p, In p ps -> A (p_account p)) -> A (fst (bs_fill s)) -> foldM (bal_step skip) s ps = Ok s' -> A (fst (bs_fill s'))).
    { clear. induction ps as [|p ps IH]; intros s s' HA Hs H; cbn [foldM] in H; [injection H as <-; auto|].
      destruct (bal_step skip s p) as [s1| |] eqn:E; cbn [bind] in H; try discriminate. eapply (IH s1); eauto; [intros; apply HA; right; auto|].
      pose proof (HA p (or_introl eq_refl)) as Ap. clear H IH. unfold bal_step in E. destruct (negb _); [injection E as <-; auto|]. destruct (p_amount p).
      - destruct (hget _ _ _); [|discriminate]. cbn [unwrap bind] in E. destruct (negb skip && _); [discriminate|]. destruct (post_value _ _); cbn [bind] in E; try discriminate. injection E as <-. auto.
      - destruct (p_balance p); [|injection E as <-; auto]. destruct skip; [injection E as <-; auto|].
        destruct (hget _ _ _); [|discriminate]. cbn [unwrap bind] in E. destruct (to_money _); cbn [bind] in E; try discriminate. injection E as <-. auto. }
    right. left. eapply F; [|exact K|exact H]. intros; apply HA; right; auto.
Qed.
Lemma txn_means (A : str -> Prop) ord skip t b b' : (forall p, In p (t_postings t) -> A (p_account p)) -> onsame A b b' ->
  agree (fun x y => fst x = fst y /\ onsame A (snd x) (snd y)) (txn_balance ord skip t b) (txn_balance ord skip t b').
Proof.
  intros HA H. unfold txn_balance. destruct (total_balance _ _); cbn [bind]; try reflexivity. destruct (negb _); [reflexivity|].
  set (f := fun bb => {| bs_bals := bb; bs_tb := bal_new; bs_out := []; bs_fill := (L "this will never be used", None) |}).
  change (agree (fun x y => fst x = fst y /\ onsame A (snd x) (snd y))
    (s <- foldM (bal_step skip) (f b) (t_postings t) ;; (match (length (real (t_postings t)) - length (bs_out s))%nat with
       | O => if can_be_zero (bs_tb s) then Ok (bs_tb s, set_postings t (bs_out s ++ non_real (t_postings t)), bs_bals s) else Err (ELedger TransactionIsNotBalanced)
       | S O => '(bals', out) <- fill_loop t (fst (bs_fill s)) (snd (bs_fill s)) (ord (bal_neg (bs_tb s))) (bs_bals s, bs_out s) ;; Ok (bal_new, set_postings t (out ++ non_real (t_postings t)), bals')
       | _ => Err (ELedger (TooManyEmptyPostings (length (real (t_postings t)) - length (bs_out s))))
       end))
    (s <- foldM (bal_step skip) (f b') (t_postings t) ;; (match (length (real (t_postings t)) - length (bs_out s))%nat with
       | O => if can_be_zero (bs_tb s) then Ok (bs_tb s, set_postings t (bs_out s ++ non_real (t_postings t)), bs_bals s) else Err (ELedger TransactionIsNotBalanced)
       | S O => '(bals', out) <- fill_loop t (fst (bs_fill s)) (snd (bs_fill s)) (ord (bal_neg (bs_tb s))) (bs_bals s, bs_out s) ;; Ok (bal_new, set_postings t (out ++ non_real (t_postings t)), bals')
       | _ => Err (ELedger (TooManyEmptyPostings (length (real (t_postings t)) - length (bs_out s))))
       end))).
  assert (S0 : agree (stmeans A) (foldM (bal_step skip) (f b) (t_postings t)) (foldM (bal_step skip) (f b') (t_postings t))).
  { apply (agree_foldM (stmeans A)); [intros s s' p Hp HS; apply step_means; auto|]. repeat (split; auto). }
  pose proof (fill_noted A skip (t_postings t) HA (f b)) as FN.
  destruct (foldM (bal_step skip) (f b) (t_postings t)) as [s|e|e], (foldM (bal_step skip) (f b') (t_postings t)) as [s'|e'|e']; try contradiction; cbn [bind]; try exact S0.
  specialize (FN s eq_refl). destruct S0 as (B & T & O & F). rewrite <- T, <- O, <- F.
  destruct (length (real (t_postings t)) - length (bs_out s))%nat as [|[|k]] eqn:En; [| |reflexivity].
  - destruct (can_be_zero _); [cbn; auto|reflexivity].
  - assert (Af : A (fst (bs_fill s))). { destruct FN as [[FN _]|[FN|FN]]; auto; cbn [f bs_out length] in FN; lia. }
    eapply agree_bind; [apply fill_means; [exact Af|exact B]|]. intros [b1 out] [b1' out'] [E S1]. cbn in E, S1. subst out'. cbn. auto.
Qed.
Lemma all_means (A : str -> Prop) w skip ts : (forall t p, In t ts -> In p (t_postings t) -> A (p_account p)) -> forall site b b' pr pr', onsame A b b' ->
  agree (fun x y => fst (fst x) = fst (fst y) /\ (pr = pr' -> snd x = snd y)) (balance_all w site skip ts b pr) (balance_all w site skip ts b' pr').
Proof.
  induction ts as [|t ts IH]; intros HA site b b' pr pr' H; cbn [balance_all]; [cbn; auto|].
  destruct (unwrap (t_date t)); cbn [bind]; try reflexivity.
  eapply agree_bind; [apply (txn_means A); [intros p Hp; eapply HA; eauto; left; auto|exact H]|]. intros [[x t1] b1] [[x' t1'] b1'] [E S1]. cbn in E, S1. injection E as <- <-.
  destruct (implicit_price _ _); cbn [bind]; try reflexivity. eapply agree_bind; [apply IH; [intros t0 p Ht Hp; eapply HA; eauto; right; auto|exact S1]|].
  intros [[r b2] p2] [[r' b2'] p2'] [E F]. cbn in *. subst. split; auto. intros ->. auto.
Qed.
Definition known_in (al al' : alist account) (acc : str) : Prop := In acc (map ac_name (l_values al)) /\ In acc (map ac_name (l_values al')).
Lemma fresh_onsame al al' : onsame (known_in al al') (fresh_balances al) (fresh_balances al').
Proof.
  intros acc [H H']. apply fresh_known in H. apply fresh_known in H'. unfold known in *.
  destruct (hget str_eqb acc (fresh_balances al)) eqn:E; [|congruence]. destruct (hget str_eqb acc (fresh_balances al')) eqn:E'; [|congruence].
  rewrite (fresh_keys _ _ _ E), (fresh_keys _ _ _ E'). auto.
Qed.

(** ** Rules *)
Section Rules.
  Context (w : world) (UA UC UP : str -> Prop).
  Definition ameans (s s' : astate) : Prop :=
    means w ac_name ac_aliases UA (as_accs s) (as_accs s') /\ cmeans w UC (as_curs s) (as_curs s') /\ pmeans w UP (as_pays s) (as_pays s').
  Definition line_used (ap : rposting) : Prop :=
    UA (rp_account ap) /\ (forall y, rp_payee ap = Some y -> UP y) /\ (forall q c, rp_money ap = Some (q, c) -> UC c) /\
    (forall e n c, rp_expr ap = Some e -> build_root w e = Ok n -> names_commodity n c -> UC c).
  Lemma ensured_unwrap {T} (name : T -> str) (aliases : T -> list str) mk (U : str -> Prop) (l l' : alist T) n : (forall n, name (mk n) = n) -> (forall n, aliases (mk n) = []) -> U n -> means w name aliases U l l' ->
    exists l1 l1' e e', ensure w (l_insert w name aliases) mk l n = Ok l1 /\ ensure w (l_insert w name aliases) mk l' n = Ok l1' /\ means w name aliases U l1 l1' /\
      get_unwrap w n l1 = Ok e /\ get_unwrap w n l1' = Ok e' /\ name e' = name e.
  Proof using Type.
    intros MN MA Un Hm. pose proof Hm as (B & B' & _). exists (put w name aliases mk n l), (put w name aliases mk n l').
    pose proof (put_means w name aliases mk MN MA U n l l' Un Hm) as Hp.
    destruct (put_grows w name aliases mk MN MA n l B) as [_ R]. destruct (put_grows w name aliases mk MN MA n l' B') as [_ R'].
    destruct (means_unwrap w name aliases U n _ _ Un Hp R R') as (e & e' & E & E' & H & _). exists e, e'.
    split; [apply ensure_is_put; auto|]. split; [apply ensure_is_put; auto|]. auto.
  Qed.
  Lemma auto_posting_means t p s s' ap : line_used ap -> ameans s s' ->
    agree (fun x y => fst x = fst y /\ ameans (snd x) (snd y)) (auto_posting w t p s ap) (auto_posting w t p s' ap).
  Proof using Type.
    intros (Ua & Up & Uc & Ue) (S1 & S2 & S3). unfold auto_posting.
    destruct (ensured_unwrap ac_name ac_aliases account_from UA (as_accs s) (as_accs s') (rp_account ap)) as (al & al' & a & a' & E1 & E2 & HA & E3 & E4 & Hn); auto.
    unfold ensure_acc, acc_insert. rewrite E1, E2. cbn [bind].
    eapply (agree_bind (fun x y => fst x = fst y /\ pmeans w UP (snd x) (snd y))).
    { destruct (rp_payee ap) as [y|]; [|cbn; auto].
      destruct (ensured_unwrap py_name py_aliases payee_from UP (as_pays s) (as_pays s') y) as (pl & pl' & e & e' & F1 & F2 & HP & F3 & F4 & Hy); auto.
      unfold ensure_pay, pay_insert. rewrite F1, F2. cbn [bind]. rewrite F3, F4. cbn. rewrite Hy. auto. }
    intros [pay pl] [pay' pl'] [E HP]. cbn in E, HP. subst pay'. rewrite E3, E4. cbn [bind].
    eapply (agree_bind (evsame w UC)).
    { destruct (rp_money ap) as [[q c]|] eqn:Em.
      - destruct c as [|x c].
        + destruct (p_amount p) as [m|]; [|reflexivity]. cbn [unwrap bind]. destruct (m_commodity m); [|reflexivity]. cbn. split; auto.
        + destruct (ensured_unwrap cu_name cu_aliases currency_from UC (as_curs s) (as_curs s') (x :: c)) as (c1 & c1' & e & e' & F1 & F2 & HC & F3 & F4 & Hc); eauto.
          unfold ensure_cur, cur_insert. rewrite F1, F2. cbn [bind]. rewrite F3, F4. cbn. rewrite Hc. split; auto.
      - destruct (rp_expr ap) as [e|] eqn:Ee; [|reflexivity]. cbn [unwrap bind]. unfold eval_value_expression. destruct (build_root w e) as [n| |] eqn:En; cbn [bind]; try reflexivity.
        eapply agree_bind; [apply (eval_means w UC t n); [intros c Hc; eapply Ue; eauto|exact S2]|]. intros [v c] [v' c'] [E Sc]. cbn in E, Sc. subst v'. destruct v; try reflexivity; try (split; auto; fail).
        destruct (p_amount p); [|reflexivity]. split; auto. }
    intros [m cs] [m' cs'] [E HC]. cbn in E, HC. subst m'. cbn. rewrite Hn. split; auto. split; auto.
  Qed.
  Lemma auto_postings_means t p aps : Forall line_used aps -> forall s s', ameans s s' ->
    agree (fun x y => fst x = fst y /\ ameans (snd x) (snd y)) (auto_postings w t p s aps) (auto_postings w t p s' aps).
  Proof using Type.
    induction 1 as [|ap aps HU _ IH]; intros s s' S; cbn [auto_postings]; [cbn; auto|]. eapply agree_bind; [apply auto_posting_means; auto|].
    intros [x s1] [x' s1'] [E S1]. cbn [fst snd] in E, S1. subst x'. eapply agree_bind; [apply IH; eauto|]. intros [xs s2] [xs' s2'] [E S2]. cbn in *. subst xs'. auto.
  Qed.
  Definition rule_used (x : node * txn rposting) : Prop := (forall c, names_commodity (fst x) c -> UC c) /\ Forall line_used (t_postings (snd x)).
  Lemma auto_scan_means t x todo : rule_used x -> forall s s' dn extra, ameans s s' ->
    agree (fun a b => fst a = fst b /\ ameans (snd a) (snd b)) (auto_scan w t (fst x) (snd x) s dn todo extra) (auto_scan w t (fst x) (snd x) s' dn todo extra).
  Proof using Type.
    intros [HU HL]. induction todo as [|p todo IH]; intros s s' dn extra S; cbn [auto_scan]; [cbn; auto|]. destruct (negb (is_from_txn (p_origin p))); [apply IH; auto|].
    eapply agree_bind; [apply (filter_expression_means w UC); [exact HU|apply S]|].
    intros [b c] [b' c'] [E Sc]. cbn in E, Sc. subst b'. assert (S1 : ameans (with_curs s c) (with_curs s' c')) by (destruct S as (S1 & S2 & S3); split; auto).
    destruct b; [|apply IH; auto]. eapply agree_bind; [apply auto_postings_means; [exact HL|exact S1]|]. intros [new s2] [new' s2'] [E S2]. cbn in E, S2. subst new'. apply IH; auto.
  Qed.
  Lemma auto_all_means autos ts : Forall rule_used autos -> forall s s', ameans s s' ->
    agree (fun x y => fst x = fst y /\ ameans (snd x) (snd y)) (auto_all w autos ts s) (auto_all w autos ts s').
  Proof using Type.
    intros F. induction ts as [|t ts IH]; intros s s' S; cbn [auto_all]; [cbn; auto|].
    eapply agree_bind.
    { apply (agree_foldM (fun a b : txn posting * astate => fst a = fst b /\ ameans (snd a) (snd b)) (auto_one w) (auto_one w)); [|cbn; auto].
      intros [t0 s0] [t0' s0'] x Hx [E S0]. cbn in E, S0. subst t0'. rewrite Forall_forall in F. unfold auto_one. eapply agree_bind; [apply auto_scan_means; auto|].
      intros [[ps ex] s1] [[ps' ex'] s1'] [E S1]. cbn in E, S1. injection E as <- <-. cbn. auto. }
    intros [t1 s1] [t1' s1'] [E S1]. cbn in E, S1. subst t1'. eapply agree_bind; [apply IH; eauto|]. intros [r s2] [r' s2'] [E S2]. cbn in *. subst r'. auto.
  Qed.
End Rules.

(** ** The ledger *)
Definition same_entries (w : world) (o : opts) (l l' : pledger) (lg lg' : ledger) : Prop :=
  lg_txns lg' = lg_txns lg /\ cmeans w (uses_commodity w o l) (lg_commodities lg) (lg_commodities lg') /\ pmeans w (payee_used l) (lg_payees lg) (lg_payees lg') /\
  (same_rates w l l' -> lg_prices lg' = lg_prices lg).
Lemma found_mention w l cs al pays c : names_ok w l cs al pays -> clear_names w l -> mentions_commodity l c -> nm w cu_name c cs = commodity_meant w l c.
Proof.
  intros N C Hc. unfold nm. destruct (l_get w c cs) as [x|e|e] eqn:E.
  - destruct (proj1 (no_acs _ _ _ _ _ N) c x E) as [D|(D & m & Hm & Lm & ->)]; [unfold commodity_meant; rewrite D; auto|].
    apply mentioned_commodity in Hm. cbn. transitivity (commodity_meant w l m); [|apply (cn_commodities _ _ C); auto].
    unfold commodity_meant. destruct (l_get w m (pl_commodities l)) as [y| |] eqn:Ey; auto. destruct (D y). eapply get_lower; eauto.
  - unfold commodity_meant. destruct (l_get w c (pl_commodities l)) as [x| |] eqn:D; auto. rewrite (proj1 (no_gcs _ _ _ _ _ N) _ _ D) in E. discriminate.
  - unfold commodity_meant. destruct (l_get w c (pl_commodities l)) as [x| |] eqn:D; auto. rewrite (proj1 (no_gcs _ _ _ _ _ N) _ _ D) in E. discriminate.
Qed.
Lemma rates_mean w l l' cs al pays cs' al' pays' : names_ok w l cs al pays -> names_ok w l' cs' al' pays' -> clear_names w l -> clear_names w l' -> same_rates w l l' ->
  mapM (price_of w cs') (pl_prices l') = mapM (price_of w cs) (pl_prices l).
Proof.
  intros N N' C C' [E S]. rewrite E. apply mapM_ext_in. intros p Hp.
  assert (K : forall c, c = pp_commodity p \/ c = pp_other p -> exists x x', l_get w c cs = Ok x /\ l_get w c cs' = Ok x' /\ cu_name x' = cu_name x).
  { intros c Hc. assert (Hm : mentions_commodity l c) by (left; exists p; auto). assert (Hm' : mentions_commodity l' c) by (left; exists p; rewrite E; auto).
    destruct (no_rcs _ _ _ _ _ N c) as (x & Ex & _); [apply commodity_names_iff; left; exists p; tauto|]. destruct (no_rcs _ _ _ _ _ N' c) as (x' & Ex' & _); [apply commodity_names_iff; left; exists p; rewrite E; tauto|].
    exists x, x'. split; auto. split; auto. rewrite <- (nm_got w cu_name _ _ _ Ex), <- (nm_got w cu_name _ _ _ Ex').
    rewrite (found_mention w l cs al pays), (found_mention w l' cs' al' pays'); eauto. }
  destruct (K _ (or_introl eq_refl)) as (x & x' & E1 & E1' & H1). destruct (K _ (or_intror eq_refl)) as (y & y' & E2 & E2' & H2).
  unfold price_of. rewrite (get_unwrap_ok _ _ _ _ E1), (get_unwrap_ok _ _ _ _ E1'), (get_unwrap_ok _ _ _ _ E2), (get_unwrap_ok _ _ _ _ E2'). cbn. congruence.
Qed.
Lemma both_known al al' ts : Forall (accounts_in al) ts -> Forall (accounts_in al') ts -> forall t p, In t ts -> In p (t_postings t) -> known_in al al' (p_account p).
Proof.
  intros F F' t p Ht Hp. rewrite Forall_forall in F, F'. specialize (F t Ht). specialize (F' t Ht). unfold accounts_in in *. rewrite Forall_forall in F, F'. split; auto.
Qed.
Lemma rules_used w o l nodes : mapM (fun a => build_root w (get_filter_query a)) (rules l) = Ok nodes ->
  Forall (rule_used w (mentions_account l) (uses_commodity w o l) (payee_used l)) (combine nodes (rules l)).
Proof.
  intros H. apply Forall_forall. intros [n t] Hx. pose proof (in_combine_r _ _ _ _ Hx) as Ht.
  assert (Hn : build_root w (get_filter_query t) = Ok n).
  { apply mapM_ok_Forall2 in H. clear -H Hx. revert Hx. induction H as [|a b xs ys H F IH]; cbn; [intros []|]. intros [E|E]; [injection E as <- <-; exact H|auto]. }
  assert (Hl : In t (pl_txns l)) by (unfold rules in Ht; apply filter_In in Ht; tauto).
  split; cbn [fst snd].
  - intros c Hc. right. left. exists t, n. auto.
  - apply Forall_forall. intros p Hp. split; [exists t, p; auto|]. split; [intros y Hy; left; exists t, p; auto|]. split.
    + intros q c Hm. left. exists t, p, q. auto.
    + intros e m c He Hm Hc. right. left. exists t, m. split; auto. split; auto. right. exists p, e. auto.
Qed.
Lemma ledger_means w o skip l l' : world_ok w -> journal_ok w l -> journal_ok w l' -> means_same w o l l' -> clear_uses w o l -> clear_uses w o l' ->
  agree (same_entries w o l l') (to_ledger w skip l) (to_ledger w skip l').
Proof.
  intros W J J' M C C'. rewrite !to_ledger_phases.
  pose proof (read_phase_spec w l W J) as RS. pose proof (read_phase_spec w l' W J') as RS'.
  destruct (names_exist w l W J) as (cs & al & pays & E1 & E2 & E3 & N). destruct (names_exist w l' W J') as (cs' & al' & pays' & E1' & E2' & E3' & N').
  assert (TM : mapM (txn_of_raw w (w_ord w 4 _ (l_values al)) al pays cs) (pl_txns l) = mapM (txn_of_raw w (w_ord w 4 _ (l_values al')) al' pays' cs') (pl_txns l')).
  { apply (txns_mean w o l l' M C C' cs cs' al al' pays pays' N N'); [apply W|apply W|apply J]. }
  unfold read_phase in *. rewrite E1, E2, E3 in *. rewrite E1', E2', E3' in *. cbn [bind] in *. rewrite <- TM in *.
  assert (PO : forall cs l al pays, names_ok w l cs al pays -> exists ps, mapM (price_of w cs) (pl_prices l) = Ok ps).
  { clear. intros cs l al pays N. apply mapM_total. intros p Hp. destruct (price_of_spec _ _ _ _ _ _ N Hp) as (pr & -> & _). eauto. }
  assert (RM : same_rates w l l' -> mapM (price_of w cs') (pl_prices l') = mapM (price_of w cs) (pl_prices l)).
  { apply (rates_mean w l l' cs al pays cs' al' pays' N N'); [apply C|apply C']. }
  destruct (PO _ _ _ _ N) as (ps & EP). destruct (PO _ _ _ _ N') as (ps' & EP'). clear PO. rewrite EP, EP' in *. cbn [bind] in *.
  assert (PS0 : same_rates w l l' -> ps' = ps) by (intros X; specialize (RM X); congruence).
  destruct (mapM _ (pl_txns l)) as [raw|e|e] eqn:ER; cbn [bind] in *; [|reflexivity|reflexivity].
  destruct RS as [(cs0 & al0 & pays0 & p0 & raw0 & H & [_ _ R])|[H _]]; [|discriminate]. injection H as <- <- <- <- <-.
  destruct RS' as [(cs0 & al0 & pays0 & p0 & raw0 & H & [_ _ R'])|[H _]]; [|discriminate]. injection H as <- <- <- <- <-.
  destruct (raw_parts _ _ _ _ _ _ R) as (T1 & T2 & T3 & T4 & T5 & T6). cbn in T1, T2, T3, T4, T5, T6.
  destruct (raw_parts _ _ _ _ _ _ R') as (T1' & T2' & _). cbn in T1', T2'.
  unfold balance_phase. set (rts := flat_map (fun x : raw_result => fst (fst x)) raw) in *.
  pose proof (sort_txns_perm rts) as PS.
  assert (A1 : Forall (accounts_in al) (sort_txns rts)). { eapply Permutation_Forall; [exact PS|]. eapply reads_accounts; eauto. }
  assert (A1' : Forall (accounts_in al') (sort_txns rts)). { eapply Permutation_Forall; [exact PS|]. eapply reads_accounts; eauto. }
  assert (G1 : Forall good_txn (sort_txns rts)) by (eapply Permutation_Forall; eauto).
  assert (D1 : all_dated (sort_txns rts)) by (eapply Permutation_Forall; eauto).
  pose proof (commodities_mean w o l l' M C C' cs cs' al al' pays pays' N N') as MC.
  pose proof (accounts_mean w o l l' M C C' cs cs' al al' pays pays' N N') as MA.
  pose proof (payees_mean w o l l' M C C' cs cs' al al' pays pays' N N') as MP.
  pose proof (balance_all_spec w skip W (sort_txns rts) 8 (fresh_balances al) (ps ++ flat_map snd raw) (fresh_good al) G1 D1 (accounts_known _ _ A1)) as B1.
  pose proof (balance_all_spec w skip W (sort_txns rts) 8 (fresh_balances al') (ps' ++ flat_map snd raw) (fresh_good al') G1 D1 (accounts_known _ _ A1')) as B1'.
  pose proof (all_means (known_in al al') w skip (sort_txns rts) (both_known _ _ _ A1 A1') 8 _ _ (ps ++ flat_map snd raw) (ps' ++ flat_map snd raw) (fresh_onsame al al')) as BA.
  destruct B1 as [(ts1 & b1 & prs & EB & LR & _)|(e & v & EB & _)], B1' as [(ts1' & b1' & prs' & EB' & LR' & _)|(e' & v' & EB' & _)]; rewrite EB, EB' in BA |- *; cbn [bind agree fst] in BA |- *; try contradiction; [|exact BA].
  destruct BA as [BA BP]. subst ts1'. assert (BP' : same_rates w l l' -> (ps' ++ flat_map snd raw) ++ prs' = (ps ++ flat_map snd raw) ++ prs). { intros X. symmetry. apply BP. rewrite (PS0 X). reflexivity. } rewrite T2. fold (rules l). destruct (rules l) as [|r0 rs0] eqn:Hr.
  { cbn. split; [reflexivity|]. split; [exact MC|]. split; [exact MP|exact BP']. }
  rewrite <- Hr. destruct (mapM (fun a => build_root w (get_filter_query a)) (rules l)) as [nodes|e|e] eqn:EN; cbn [bind]; try reflexivity.
  pose proof (rules_used w o l nodes EN) as RU.
  set (s0 := {| as_accs := al; as_curs := cs; as_pays := pays |}). set (s0' := {| as_accs := al'; as_curs := cs'; as_pays := pays' |}).
  assert (AM : ameans w (mentions_account l) (uses_commodity w o l) (payee_used l) s0 s0') by (split; [exact MA|split; [exact MC|exact MP]]).
  assert (SO : as_ok w s0) by (destruct N; split; [|split]; cbn; auto). assert (SO' : as_ok w s0') by (destruct N'; split; [|split]; cbn; auto).
  pose proof (auto_all_means w _ _ _ (combine nodes (rules l)) ts1 RU s0 s0' AM) as AA.
  destruct (auto_all w (combine nodes (rules l)) ts1 s0) as [[ts2 s]|e|e] eqn:EA, (auto_all w (combine nodes (rules l)) ts1 s0') as [[ts2' s']|e'|e'] eqn:EA'; try contradiction; cbn [bind]; try exact AA.
  destruct AA as [E AM2]. cbn in E, AM2. subst ts2'.
  destruct (auto_all_spec _ _ _ _ _ _ SO EA) as (_ & _ & K & _). destruct (auto_all_spec _ _ _ _ _ _ SO' EA') as (_ & _ & K' & _).
  assert (A2 : Forall (accounts_in (as_accs s)) ts2) by (apply K; eapply ledger_run_accounts; eauto).
  assert (A2' : Forall (accounts_in (as_accs s')) ts2) by (apply K'; eapply ledger_run_accounts; eauto).
  eapply agree_bind; [apply (all_means (known_in (as_accs s) (as_accs s')) w skip ts2 (both_known _ _ _ A2 A2') _ _ _ _ _ (fresh_onsame _ _))|].
  intros [[ts3 b3] p3] [[ts3' b3'] p3'] [E EP3]. cbn in E, EP3. subst ts3'. cbn. split; [reflexivity|]. split; [apply AM2|]. split; [apply AM2|]. intros X. symmetry. apply EP3. symmetry. auto.
Qed.
