(** Properties C10-C19: balancing transactions. *)
From Verif Require Import Base Money Txn Price Ledger BaseFacts Spec MoneyFacts SpecTxn TxnFacts TxnFacts2 PropMoney.
From Coq Require Import Lia Lqa.
Open Scope Qc_scope.

(** ** Concrete transactions for the examples *)
Definition ex_posting (acc : str) (m : option money) (b : option money) (k : option cost) (kd : kind) : posting :=
  {| p_account := acc; p_amount := m; p_balance := b; p_cost := k; p_kind := kd; p_comments := [];
     p_tags := []; p_payee := Some (L "shop"); p_origin := FromTransaction |}.
Definition ex_txn (ps : list posting) : txn posting :=
  {| t_date := Some 100%Z; t_edate := None; t_cleared := CUnknown; t_code := None; t_desc := L "shop";
     t_payee := None; t_postings := ps; t_comments := []; t_type := TReal; t_tags := [] |}.
Definition qz (z : Z) : Qc := Q2Qc (inject_Z z).
Definition e_ (z : Z) : option money := Some (M (qz z) eur).
Definition u_ (z : Z) : option money := Some (M (qz z) usd).
Definition acA := L "Assets:A".
Definition acB := L "Assets:B".
Definition acE := L "Expenses:E".
Definition ex_bals : balances := [(acA, bal_of (M (qz 7) eur)); (acB, bal_new); (acE, bal_new)].
Definition ord_id (b : balance) : balance := b.
(** 10 EUR bought at 2 USD each, an asserted posting, an assignment, a bracketed pair, a parenthesised posting. *)
Definition ex_full : txn posting := ex_txn
  [ex_posting acA (e_ 10) (e_ 17) (Some (CPerUnit (M (qz 2) usd))) Real;
   ex_posting acB (u_ (-20)) None None Real;
   ex_posting acE None (u_ 5) None Real;
   ex_posting acB (u_ (-5)) None None Real;
   ex_posting acA (e_ 1) None None VirtualMustBalance;
   ex_posting acE (e_ (-1)) None None VirtualMustBalance;
   ex_posting acE (e_ 99) None None Virtual].
(** Two commodities and an elided posting. *)
Definition ex_elided : txn posting := ex_txn
  [ex_posting acE (e_ 10) None None Real; ex_posting acB None None None Real;
   ex_posting acE (u_ (-3)) None None Real].
Example ex_bals_good : good_bals ex_bals.
Proof.
  intros acc b. unfold ex_bals, hget. repeat (destruct (str_eqb acc _); [intros H; inv H; repeat constructor|]).
  - apply (built_of (M (qz 7) eur)).
  - discriminate.
Qed.
Example ex_full_good : good_txn ex_full /\ good_txn ex_elided.
Proof.
  split; intros p; simpl; intros H; repeat (destruct H as [<-|H]; [unfold good_posting; simpl; auto|]); contradiction.
Qed.
Definition is_ok {A} (r : res A) : bool := match r with Ok _ => true | _ => false end.
Example ex_full_accepted : is_ok (txn_balance ord_id false ex_full ex_bals) = true /\
  forallb (fun p => negb (elided false p)) (t_postings ex_full) = true.
Proof. split; vm_compute; reflexivity. Qed.
Example ex_elided_accepted : is_ok (txn_balance ord_id false ex_elided ex_bals) = true /\
  filter (elided false) (t_postings ex_elided) = [ex_posting acB None None None Real].
Proof. split; vm_compute; reflexivity. Qed.
Example ord_id_ok : order_ok ord_id.
Proof. intros b. apply Permutation_refl. Qed.

(** ** C10 *)
Theorem C10_accepted_balances : forall ord skip t bals b t' bals',
  order_ok ord -> good_bals bals -> good_txn t ->
  (forall p, In p (t_postings t) -> elided skip p = false) ->
  txn_balance ord skip t bals = Ok (b, t', bals') ->
  let v := group_value Real (t_postings t') in
  (balanced v \/ exchange v) /\ (forall c, bal_amt b c = v c) /\
  (forall c0, (forall c, c <> c0 -> v c = 0) -> v c0 = 0).
Proof.
  intros ord skip t bals b t' bals' Ho Hg Ht He H v.
  apply txn_balance_accepted in H; auto. destruct H as [_ (kept & fills & Hp & _ & _ & Hm) _ _ _ _].
  rewrite (filter_none _ _ He) in Hm. destruct Hm as (-> & Hf & Hb & _).
  assert (Hv : forall c, v c = group_value Real kept c).
  { intros c. unfold v. rewrite Hp. simpl. rewrite group_value_app, group_value_non_real. ring. }
  assert (Hfine : balanced v \/ exchange v).
  { unfold balanced, exchange in *. setoid_rewrite Hv. exact Hf. }
  split; auto. split; [intros c; rewrite Hv; auto|].
  intros c0 Hc. destruct Hfine as [Hz|[(c1 & H1) (c2 & H2)]]; auto. exfalso.
  assert (E1 : c1 = c0).
  { destruct (str_eq_dec c1 c0); auto. rewrite Hc in H1 by auto. apply Qclt_not_eq in H1. congruence. }
  assert (E2 : c2 = c0).
  { destruct (str_eq_dec c2 c0); auto. rewrite Hc in H2 by auto. apply Qclt_not_eq in H2. congruence. }
  subst. apply (Qclt_not_eq 0 0); auto. eapply Qclt_trans; eauto.
Qed.
Print Assumptions C10_accepted_balances.

Lemma keeps_values ps ps' :
  Forall2 keeps ps ps' -> (forall p, In p ps -> p_amount p <> None) ->
  forall k c, group_value k ps' c = group_value k ps c.
Proof.
  induction 1 as [|p p' ps ps' Hk _ IH]; intros Ha k c; auto.
  rewrite !group_value_cons, IH by (intros; apply Ha; right; auto). f_equal.
  destruct Hk as (_ & _ & H3 & H4 & _ & _ & _ & _ & H9). unfold posting_value. rewrite H3, H4, H9; auto.
  apply Ha. left. auto.
Qed.
Lemma group_value_filter k f ps c :
  (forall p, In p ps -> f p = false -> p_kind p <> k \/ p_amount p = None) ->
  group_value k (filter f ps) c = group_value k ps c.
Proof.
  induction ps as [|p ps IH]; intros H; auto. simpl. rewrite group_value_cons.
  destruct (f p) eqn:E.
  - rewrite group_value_cons, IH; auto. intros; apply H; auto. right; auto.
  - rewrite IH by (intros; apply H; auto; right; auto).
    assert (posting_value k c p = 0) as ->; [|ring].
    destruct (H p (or_introl eq_refl) E) as [Hk|Hk]; unfold posting_value.
    + destruct (p_amount p); auto. destruct (kind_eqb_spec (p_kind p) k); [contradiction|auto].
    + rewrite Hk. auto.
Qed.

(** When every real posting states its amount, the sums are those of the transaction as written. *)
Theorem C10_as_written : forall ord skip t bals b t' bals',
  order_ok ord -> good_bals bals -> good_txn t ->
  (forall p, In p (t_postings t) -> p_kind p = Real -> p_amount p <> None) ->
  txn_balance ord skip t bals = Ok (b, t', bals') ->
  forall c, group_value Real (t_postings t') c = group_value Real (t_postings t) c.
Proof.
  intros ord skip t bals b t' bals' Ho Hg Ht Ha H c.
  assert (He : forall p, In p (t_postings t) -> elided skip p = false).
  { intros p Hp. unfold elided. specialize (Ha p Hp). destruct (p_kind p), (p_amount p); auto. destruct Ha; auto. }
  apply txn_balance_accepted in H; auto. destruct H as [_ (kept & fills & Hp & Hk & _ & Hm) _ _ _ _].
  rewrite (filter_none _ _ He) in Hm. destruct Hm as (-> & _).
  rewrite Hp. simpl. rewrite group_value_app, group_value_non_real.
  rewrite (keeps_values _ _ Hk).
  - rewrite group_value_filter; [ring|]. intros p Hi Hf. left. unfold given in Hf. rewrite He in Hf by auto.
    intros E. rewrite E in Hf. discriminate.
  - intros p Hi. apply filter_In in Hi. destruct Hi as [Hi Hf]. apply Ha; auto. unfold given in Hf.
    destruct (kind_eqb_spec (p_kind p) Real); auto. discriminate.
Qed.
Print Assumptions C10_as_written.

(** ** C11 *)
Theorem C11_elided_filled : forall ord skip t bals b t' bals' p,
  order_ok ord -> good_bals bals -> good_txn t ->
  filter (elided skip) (t_postings t) = [p] ->
  txn_balance ord skip t bals = Ok (b, t', bals') ->
  exists kept fills,
    t_postings t' = kept ++ fills ++ non_real (t_postings t) /\
    Forall2 keeps (filter (given skip) (t_postings t)) kept /\
    (* the filled postings are on the account and payee of the elided one *)
    (forall q, In q fills -> p_account q = p_account p /\ p_payee q = p_payee p /\ p_kind q = Real /\
                             p_cost q = None /\ p_balance q = None) /\
    (* one for each commodity that is not balanced yet, with the opposite of what is there *)
    NoDup (map p_amount fills) /\
    (forall m, In (Some m) (map p_amount fills) <->
       exists q c, m = M q c /\ q = - group_value Real kept c /\ q <> 0) /\
    (forall c, ~ exists q1 q2 m1 m2 f1 f2 f3, fills = f1 ++ q1 :: f2 ++ q2 :: f3 /\
       p_amount q1 = Some m1 /\ p_amount q2 = Some m2 /\ m_commodity m1 = Some c /\ m_commodity m2 = Some c) /\
    (* and then everything sums to zero *)
    (forall c, group_value Real (t_postings t') c = 0).
Proof.
  intros ord skip t bals b t' bals' p Ho Hg Ht He H.
  apply txn_balance_accepted in H; auto. destruct H as [_ (kept & fills & Hp & Hk & _ & Hm) _ _ _ _].
  rewrite He in Hm. destruct Hm as (-> & amounts & -> & Hnd & Ham).
  exists kept, (map (fun ac => fill_posting t (p_account p) (p_payee p) (M (fst ac) (snd ac))) amounts).
  split; auto. split; auto. split; [|split; [|split; [|split]]].
  - intros q Hq. apply in_map_iff in Hq. destruct Hq as (x & <- & _). repeat split.
  - rewrite map_map. simpl. clear -Hnd. induction amounts as [|[q c] l IH]; [constructor|].
    simpl in *. inv Hnd. constructor; auto. intros Hi. apply in_map_iff in Hi. destruct Hi as ([q' c'] & E & Hi).
    simpl in E. inv E. apply H1. apply in_map_iff. exists (q, c). auto.
  - intros m. rewrite map_map. simpl. rewrite in_map_iff. split.
    + intros ([q c] & E & Hi). simpl in E. inv E. apply Ham in Hi. exists q, c. tauto.
    + intros (q & c & -> & E & Hn). exists (q, c). split; auto. apply Ham. auto.
  - intros c (q1 & q2 & m1 & m2 & f1 & f2 & f3 & E & E1 & E2 & C1 & C2).
    assert (Hc : map (fun q => match p_amount q with Some (M _ c) => c | _ => [] end)
                   (map (fun ac => fill_posting t (p_account p) (p_payee p) (M (fst ac) (snd ac))) amounts) = map snd amounts).
    { rewrite map_map. reflexivity. }
    rewrite <- Hc, E in Hnd. rewrite map_app in Hnd. simpl in Hnd. rewrite map_app in Hnd. simpl in Hnd.
    rewrite E1, E2 in Hnd. destruct m1 as [|a1 c1], m2 as [|a2 c2]; try discriminate. inv C1. inv C2.
    apply NoDup_remove_2 in Hnd. apply Hnd. rewrite !in_app_iff. simpl. auto.
  - intros c. rewrite Hp, !group_value_app, group_value_non_real.
    assert (K : group_value Real (map (fun ac => fill_posting t (p_account p) (p_payee p) (M (fst ac) (snd ac))) amounts) c
                = - group_value Real kept c); [|rewrite K; ring].
    unfold group_value at 1. rewrite map_map. unfold posting_value. simpl.
    assert (HA : forall q c, In (q, c) amounts -> q = - group_value Real kept c) by (intros; apply Ham; auto).
    assert (HB : - group_value Real kept c <> 0 -> In (- group_value Real kept c, c) amounts) by (intros; apply Ham; auto).
    set (r := - group_value Real kept c) in *.
    assert (K : forall l, NoDup (map snd l) -> (forall q, In (q, c) l -> q = r) ->
        ~ In c (map snd l) /\ qsum (map (fun x : Qc * str => if str_eqb (snd x) c then fst x else 0) l) = 0 \/
        In c (map snd l) /\ qsum (map (fun x : Qc * str => if str_eqb (snd x) c then fst x else 0) l) = r).
    { clear. induction l as [|[q c'] l IH]; intros Hn Hq; simpl; [left; auto|]. inv Hn.
      destruct (IH H2) as [[Hi Hs]|[Hi Hs]]; [intros; apply Hq; right; auto| |]; unfold qsum in *; rewrite Hs;
        destruct (str_eqb_spec c' c); subst.
      - right. split; auto. rewrite (Hq q); [ring|left; auto].
      - left. split; [intros [?|?]; auto|ring].
      - contradiction.
      - right. split; auto. ring. }
    destruct (K amounts Hnd) as [[Hi ->]|[_ ->]]; auto.
    + intros q Hq. apply (HA q c Hq).
    + destruct (Qc_eq_dec r 0) as [->|Hr]; auto. exfalso. apply Hi. apply in_map_iff. exists (r, c). auto.
Qed.
Print Assumptions C11_elided_filled.

(** ** C12 *)
Theorem C12_verdict : forall ord skip t bals,
  good_bals bals -> good_txn t -> (forall p, In p (t_postings t) -> known bals (p_account p)) ->
  forall v, spec_verdict skip t (run_amt bals) v <-> outcome (txn_balance ord skip t bals) v.
Proof.
  intros ord skip t bals Hg Ht Hk v. destruct (verdict_correct ord skip t bals Hg Ht Hk) as [(v0 & H0) Hall].
  split; auto. intros H. pose proof (Hall v0 H0) as H1.
  assert (v = v0) as ->; auto.
  destruct v, v0; simpl in *; repeat match goal with E : exists _, _ |- _ => destruct E end; congruence.
Qed.
Print Assumptions C12_verdict.

Theorem C12_always_a_verdict : forall skip t bals,
  good_bals bals -> good_txn t -> (forall p, In p (t_postings t) -> known bals (p_account p)) ->
  exists v, spec_verdict skip t (run_amt bals) v.
Proof. intros. apply (verdict_correct ord_id); auto. Qed.
Print Assumptions C12_always_a_verdict.

Theorem C12_never_aborts : forall ord skip t bals e,
  good_bals bals -> good_txn t -> (forall p, In p (t_postings t) -> known bals (p_account p)) ->
  txn_balance ord skip t bals <> Panic e.
Proof.
  intros ord skip t bals e Hg Ht Hk H. destruct (verdict_correct ord skip t bals Hg Ht Hk) as [(v0 & H0) Hall].
  specialize (Hall v0 H0). destruct v0; simpl in Hall;
    repeat match goal with E : exists _, _ |- _ => destruct E end; congruence.
Qed.
Print Assumptions C12_never_aborts.

(** Every kind of verdict occurs. *)
Definition ex_wrong : txn posting := ex_txn [ex_posting acA (e_ 1) (e_ 9) None Real; ex_posting acB None None None Real].
Definition ex_two : txn posting :=
  ex_txn [ex_posting acA None None None Real; ex_posting acB None None None Real; ex_posting acE (e_ 1) None None Real].
Example C12_cases :
  (forall p, In p (t_postings ex_full ++ t_postings ex_elided ++ t_postings ex_wrong ++ t_postings ex_two) ->
             known ex_bals (p_account p)) /\
  outcome (txn_balance ord_id false ex_full ex_bals) Accepted /\
  outcome (txn_balance ord_id false ex_wrong ex_bals) NotBalanced /\
  outcome (txn_balance ord_id true ex_wrong ex_bals) Accepted /\
  outcome (txn_balance ord_id false ex_two ex_bals) (TooManyElided 2).
Proof.
  split.
  - simpl. intros p Hp. repeat (destruct Hp as [<-|Hp]; [discriminate|]); contradiction.
  - repeat split; try (eexists; vm_compute; reflexivity); vm_compute; reflexivity.
Qed.

(** ** C13 *)
Theorem C13_nothing_altered : forall ord skip t bals b t' bals',
  order_ok ord -> good_bals bals -> good_txn t ->
  txn_balance ord skip t bals = Ok (b, t', bals') ->
  same_header t t' /\
  exists kept fills,
    t_postings t' = kept ++ fills ++ non_real (t_postings t) /\
    Forall2 keeps (filter (given skip) (t_postings t)) kept /\
    (fills <> [] -> exists p, filter (elided skip) (t_postings t) = [p] /\
       forall q, In q fills -> p_account q = p_account p /\ p_payee q = p_payee p /\ p_kind q = Real /\
                               p_cost q = None /\ p_balance q = None).
Proof.
  intros ord skip t bals b t' bals' Ho Hg Ht H. pose proof H as H0.
  apply txn_balance_accepted in H; auto. destruct H as [Hh (kept & fills & Hp & Hk & _ & Hm) _ _ _ _].
  split; auto. exists kept, fills. split; auto. split; auto. intros Hne.
  destruct (filter (elided skip) (t_postings t)) as [|p [|]].
  - tauto.
  - exists p. split; auto. destruct Hm as (_ & amounts & -> & _). intros q Hq. apply in_map_iff in Hq.
    destruct Hq as (x & <- & _). repeat split.
  - destruct Hm.
Qed.
Print Assumptions C13_nothing_altered.

(** ** C14 *)
Theorem C14_assertions_enforced : forall ord t bals b t' bals' k1 p k2 a c,
  order_ok ord -> good_bals bals -> good_txn t ->
  txn_balance ord false t bals = Ok (b, t', bals') ->
  t_postings t' = k1 ++ p :: k2 -> p_kind p = Real -> p_balance p = Some (M a c) ->
  run_amt bals (p_account p) c + account_sum (k1 ++ [p]) (p_account p) c = a.
Proof.
  intros ord t bals b t' bals' k1 p k2 a c Ho Hg Ht H E Hr Hb.
  apply txn_balance_accepted in H; auto. destruct H as [_ (kept & fills & Hp & _ & Ha & _) _ _ _ _].
  specialize (Ha eq_refl). rewrite Hp, app_assoc in E. set (rs := kept ++ fills) in *.
  assert (K : exists k2', rs = k1 ++ p :: k2').
  { clear -E Hr. revert k1 E. induction rs as [|x rs IH]; intros k1 E.
    - exfalso. simpl in E. assert (Hi : In p (non_real (t_postings t))) by (rewrite E; apply in_app_iff; right; left; auto).
      unfold non_real in Hi. apply filter_In in Hi. rewrite Hr in Hi. destruct Hi; discriminate.
    - destruct k1 as [|y k1].
      + inv E. exists rs. auto.
      + inv E. destruct (IH _ H1) as (k2' & ->). exists k2'. auto. }
  destruct K as (k2' & K). eapply Ha; eauto.
Qed.
Print Assumptions C14_assertions_enforced.
Example C14_case : exists b t' bals', txn_balance ord_id false ex_full ex_bals = Ok (b, t', bals') /\
  nth_error (map p_balance (t_postings t')) 0 = Some (e_ 17) /\
  nth_error (map p_balance (t_postings t')) 2 = Some (u_ 5).
Proof. do 3 eexists. split; [vm_compute; reflexivity|split; reflexivity]. Qed.

(** With checks off, a transaction gets the same verdict, the same postings (up to the assertion
    itself) and the same running balances as if no assertion had been written. *)
Theorem C14_unchecked_assertions_are_ignored : forall ord t bals,
  txn_balance ord true (unassert_txn t) bals =
  match txn_balance ord true t bals with
  | Ok (b, t', bals') => Ok (b, unassert_txn t', bals')
  | Err e => Err e
  | Panic e => Panic e
  end.
Proof. exact unassert_irrelevant. Qed.
Print Assumptions C14_unchecked_assertions_are_ignored.

(** ** C15 *)
Lemma out_extends skip ps : forall s s', foldM (bal_step skip) s ps = Ok s' -> exists k, bs_out s' = bs_out s ++ k.
Proof.
  induction ps as [|x ps IH]; intros s s' H; simpl in H.
  - inv H. exists []. rewrite app_nil_r. auto.
  - bind_inv H. apply IH in H. destruct H as (k & ->).
    assert (K : bs_out a = bs_out s \/ exists m, bs_out a = bs_out s ++ [pushed x m]).
    { unfold bal_step in Hb. destruct (kind_eqb (p_kind x) Real); simpl negb in Hb; [|inv Hb; auto].
      destruct (p_amount x) as [m|].
      - bind_inv Hb. destruct (_ && _); [discriminate|]. bind_inv Hb. inv Hb. simpl. eauto.
      - destruct (p_balance x); [destruct skip|]; try (inv Hb; auto; fail).
        bind_inv Hb. bind_inv Hb. inv Hb. simpl. eauto. }
    destruct K as [->|(m & ->)]; eauto. rewrite <- app_assoc. eauto.
Qed.

Theorem C15_assignment : forall ord t bals b t' bals' pre p post bal,
  order_ok ord -> good_bals bals -> good_txn t ->
  t_postings t = pre ++ p :: post -> p_kind p = Real -> p_amount p = None -> p_balance p = Some bal ->
  txn_balance ord false t bals = Ok (b, t', bals') ->
  exists before p' after m,
    t_postings t' = before ++ p' :: after /\ Forall2 keeps (filter (given false) pre) before /\
    keeps p p' /\ p_amount p' = Some m /\
    forall c,
      (* the amount is the asserted balance minus the running balance just before ... *)
      money_amt m c = money_amt bal c - (run_amt bals (p_account p) c + account_sum before (p_account p) c) /\
      (* ... and the running balance just after is the asserted one *)
      run_amt bals (p_account p) c + account_sum (before ++ [p']) (p_account p) c = money_amt bal c.
Proof.
  intros ord t bals b t' bals' pre p post bal Ho Hg Ht Ep Hk Em Eb H.
  assert (HF : Forall good_posting (t_postings t)) by (apply Forall_forall; exact Ht).
  unfold txn_balance in H. bind_inv H. destruct (can_be_zero a); simpl negb in H; [|discriminate].
  bind_inv H. rename a0 into s. fold (init_state bals) in Hb0.
  assert (Hout : exists r, t_postings t' = bs_out s ++ r).
  { destruct (length (real (t_postings t)) - length (bs_out s))%nat as [|[|n]]; [| |discriminate].
    - destruct (can_be_zero (bs_tb s)); inv H. simpl. eauto.
    - bind_inv H. destruct a0 as [b2 o2]. inv H. apply fill_out in Hb1. subst o2. simpl. rewrite <- app_assoc. eauto. }
  rewrite Ep in Hb0, HF. rewrite foldM_app in Hb0. bind_inv Hb0. rename a0 into s1. simpl in Hb0. bind_inv Hb0.
  rename a0 into s2. apply Forall_app in HF. destruct HF as [HF1 HF2]. inv HF2.
  pose proof (loop_inv_holds _ _ _ _ Hg HF1 Hb1) as I1.
  pose proof (loop_step _ _ _ _ _ _ I1 H2 Hb2) as I2.
  destruct (out_extends _ _ _ _ Hb0) as (k & Hk2). destruct Hout as (r & Hr).
  unfold bal_step in Hb2. rewrite Hk, Em, Eb in Hb2. simpl in Hb2. bind_inv Hb2.
  destruct (hget str_eqb (p_account p) (bs_bals s1)) as [old|] eqn:Eo; simpl in Hb3; inv Hb3. rename a0 into old.
  bind_inv Hb2. rename a0 into m. inv Hb2. simpl in *.
  destruct I1 as [Ig Ik Ir _ _ Ikp _ _ _]. 
  assert (Hbo : built old) by (eapply Ig; eauto).
  assert (Hm : forall c, money_amt m c = money_amt bal c - run_amt (bs_bals s1) (p_account p) c).
  { intros c. destruct (to_money_spec (bal_sub (bal_of bal) old)) as [(m' & Hm1 & Hm2)|[Hx _]].
    - apply wf_sub; [apply wf_of|apply built_wf; auto].
    - rewrite Hb3 in Hm1. inv Hm1. rewrite Hm2. rewrite bal_amt_sub by (try apply wf_of; apply built_wf; auto).
      rewrite bal_amt_of. unfold run_amt. rewrite Eo. auto.
    - congruence. }
  exists (bs_out s1), (pushed p m), (k ++ r), m.
  split; [rewrite Hr, Hk2, <- !app_assoc; reflexivity|]. split; auto.
  split; [unfold keeps, pushed; simpl; rewrite Hk; repeat split; auto; congruence|]. split; auto.
  intros c. split; [rewrite Hm, Ir; auto|].
  rewrite account_sum_app, account_sum_cons. unfold account_sum at 2. simpl. unfold posting_to. simpl.
  rewrite str_eqb_refl, Hm, Ir. ring.
Qed.
Print Assumptions C15_assignment.
(** The assignment of the example: 5 USD minus nothing. *)
Example C15_case : exists b t' bals', txn_balance ord_id false ex_full ex_bals = Ok (b, t', bals') /\
  nth_error (map p_amount (t_postings t')) 2 = Some (Some (M (qz 5) usd)).
Proof. do 3 eexists. split; [vm_compute; reflexivity|]. simpl. do 3 f_equal. Qed.

(** If the difference spans several commodities the transaction is rejected. *)
Theorem C15_several_commodities_rejected : forall ord t bals pre p post bal s c1 c2,
  good_bals bals -> good_txn t -> (forall q, In q (t_postings t) -> known bals (p_account q)) ->
  t_postings t = pre ++ p :: post -> p_kind p = Real -> p_amount p = None -> p_balance p = Some bal ->
  spec_steps false (start (run_amt bals)) pre (Some s) ->
  c1 <> c2 -> money_amt bal c1 <> s_run s (p_account p) c1 -> money_amt bal c2 <> s_run s (p_account p) c2 ->
  txn_balance ord false t bals = Err (ELedger TransactionIsNotBalanced).
Proof.
  intros ord t bals pre p post bal s c1 c2 Hg Ht Hk Ep Hr Em Eb Hs Hc H1 H2.
  assert (K : spec_steps false (start (run_amt bals)) (t_postings t) None).
  { rewrite Ep. clear -Hs Hr Em Eb Hc H1 H2. remember (Some s) as r. induction Hs; inv Heqr.
    - apply sr_stop. eapply ss_unassignable; eauto.
    - simpl. eapply sr_cons; eauto. }
  destruct (verdict_correct ord false t bals Hg Ht Hk) as [_ Hall].
  assert (HF : Forall good_posting (t_postings t)) by (apply Forall_forall; exact Ht).
  destruct (virtual_total _ HF) as (vb & Hv & Hvb & Hva).
  destruct (can_be_zero vb) eqn:Ez.
  - apply (Hall NotBalanced). apply sv_assertion; auto. apply (can_be_zero_fine _ _ Hvb Hva). auto.
  - apply (Hall NotBalanced). apply sv_virtual. intros F. apply (can_be_zero_fine _ _ Hvb Hva) in F. congruence.
Qed.
Print Assumptions C15_several_commodities_rejected.
Example C15_several_case :
  txn_balance ord_id false (ex_txn [ex_posting acA None (u_ 3) None Real; ex_posting acB None None None Real]) ex_bals
    = Err (ELedger TransactionIsNotBalanced).
Proof. vm_compute. reflexivity. Qed.

(** ** C16 *)
Theorem C16_one_transaction : forall ord skip t bals b t' bals',
  order_ok ord -> good_bals bals -> good_txn t ->
  txn_balance ord skip t bals = Ok (b, t', bals') ->
  good_bals bals' /\ (forall acc, known bals' acc <-> known bals acc) /\
  forall acc c, run_amt bals' acc c = run_amt bals acc c + account_sum (t_postings t') acc c.
Proof.
  intros. apply txn_balance_accepted in H2; auto. destruct H2. auto.
Qed.
Print Assumptions C16_one_transaction.

Lemma balance_all_run w : world_ok w -> forall skip ts site bals prices ts' bals' prices',
  good_bals bals -> Forall good_txn ts ->
  balance_all w site skip ts bals prices = Ok (ts', bals', prices') ->
  good_bals bals' /\ (forall acc, known bals' acc <-> known bals acc) /\
  forall acc c, run_amt bals' acc c = run_amt bals acc c + account_sum (flat_map t_postings ts') acc c.
Proof.
  intros Hw skip. induction ts as [|t ts IH]; intros site bals prices ts' bals' prices' Hg HF H; simpl in H.
  - inv H. repeat split; auto. intros. unfold account_sum. simpl. ring.
  - inv HF. bind_inv H. bind_inv H. destruct a0 as [[b t1] bals1]. bind_inv H. bind_inv H. destruct a1 as [[r' bals2] prices2]. inv H.
    destruct (C16_one_transaction _ _ _ _ _ _ _ (fun b => proj1 Hw site _ b) Hg H2 Hb0) as (G1 & K1 & R1).
    apply IH in Hb2; auto. destruct Hb2 as (G2 & K2 & R2). split; auto. split.
    + intros acc. rewrite K2. auto.
    + intros acc c. simpl. rewrite R2, R1, account_sum_app. ring.
Qed.

Theorem C16_running_balances : forall w skip site ts bals prices ts' bals' prices',
  world_ok w -> good_bals bals -> Forall good_txn ts ->
  balance_all w site skip ts bals prices = Ok (ts', bals', prices') ->
  forall acc c, run_amt bals' acc c = run_amt bals acc c + account_sum (flat_map t_postings ts') acc c.
Proof. intros. eapply balance_all_run; eauto. Qed.
Print Assumptions C16_running_balances.

Definition w0 : world :=
  {| w_lower := ascii_lower; w_numeric := fun _ => false; w_rx := fun _ _ => false; w_rx_ok := fun _ => true;
     w_width := None; w_read := fun _ => None; w_glob := fun _ => None; w_two_timer := fun _ => None; w_now := 0%Z;
     w_ord := fun _ _ l => l |}.
Lemma ascii_lower_idem s : ascii_lower (ascii_lower s) = ascii_lower s.
Proof.
  unfold ascii_lower. rewrite map_map. apply map_ext. intros c.
  destruct ((65 <=? c) && (c <=? 90))%N eqn:E; [|rewrite E; auto].
  apply andb_prop in E. destruct E as [E1 E2]. apply N.leb_le in E1, E2.
  replace ((65 <=? c + 32) && (c + 32 <=? 90))%N with false; auto. symmetry. apply andb_false_iff. right. apply N.leb_gt. lia.
Qed.
Example w0_ok : world_ok w0.
Proof. split; [intros; apply Permutation_refl|apply ascii_lower_idem]. Qed.
Example C16_case : is_ok (balance_all w0 0 false [ex_full; ex_elided] ex_bals []) = true.
Proof. vm_compute. reflexivity. Qed.

(** ** C17 *)
Theorem C17_idempotent : forall ord ord' skip t bals b t' bals',
  order_ok ord -> good_bals bals -> good_txn t ->
  txn_balance ord skip t bals = Ok (b, t', bals') ->
  exists b2 bals2, txn_balance ord' skip t' bals = Ok (b2, t', bals2) /\
    same_amounts b2 b /\ (forall acc c, run_amt bals2 acc c = run_amt bals' acc c).
Proof.
  intros. destruct (balance_twice ord ord' skip t bals b t' bals') as (b2 & bals2 & H3 & H4 & H5 & _); auto.
  exists b2, bals2. auto.
Qed.
Print Assumptions C17_idempotent.

(** ** C18 *)
Theorem C18_bracketed_postings_must_balance : forall ord skip t bals r,
  good_txn t -> txn_balance ord skip t bals = Ok r ->
  balanced (virtual_group (t_postings t)) \/ exchange (virtual_group (t_postings t)).
Proof.
  intros ord skip t bals r Ht H.
  assert (HF : Forall good_posting (t_postings t)) by (apply Forall_forall; exact Ht).
  destruct (virtual_total _ HF) as (vb & Hv & Hvb & Hva).
  unfold txn_balance in H. rewrite Hv in H. simpl in H.
  destruct (can_be_zero vb) eqn:Ez; [|discriminate]. apply (can_be_zero_fine _ _ Hvb Hva). auto.
Qed.
Print Assumptions C18_bracketed_postings_must_balance.

Theorem C18_parenthesised_postings_are_irrelevant : forall ord skip t bals,
  txn_balance ord skip (paren_free t) bals =
  match txn_balance ord skip t bals with
  | Ok (b, t', bals') => Ok (b, paren_free t', bals')
  | Err e => Err e
  | Panic e => Panic e
  end.
Proof. exact paren_irrelevant. Qed.
Print Assumptions C18_parenthesised_postings_are_irrelevant.
Example C18_case : length (t_postings ex_full) = 7%nat /\ length (t_postings (paren_free ex_full)) = 6%nat.
Proof. split; reflexivity. Qed.

(** Without a negative amount at a per-unit cost, bracketed postings are valued as real ones. *)
Theorem C18_same_valuation_partial : forall ps c,
  (forall p m a, In p ps -> p_kind p = VirtualMustBalance -> p_amount p = Some m ->
                 p_cost p = Some (CPerUnit a) -> 0 <= m_amount m) ->
  virtual_group ps c = group_value VirtualMustBalance ps c.
Proof.
  intros ps c. induction ps as [|p ps IH]; intros H; auto.
  unfold virtual_group, group_value in *. simpl. rewrite IH by (intros; eapply H; eauto; right; auto). f_equal.
  unfold posting_value. destruct (p_amount p) as [m|] eqn:Em; auto.
  destruct (kind_eqb_spec (p_kind p) VirtualMustBalance); auto. unfold virtual_value.
  destruct (p_cost p) as [[a|a]|] eqn:Ek; auto. simpl.
  specialize (H p m a (or_introl eq_refl) e Em Ek).
  destruct (qc_neg_spec (m_amount m)) as [En|En]; auto. exfalso. qlra.
Qed.
Print Assumptions C18_same_valuation_partial.

(** Selling with brackets is rejected although the same real transaction is accepted. *)
Definition ex_sale (k : kind) : txn posting := ex_txn
  [ex_posting acA (e_ (-1)) None (Some (CPerUnit (M (qz 2) usd))) k; ex_posting acB (u_ 2) None None k].
Theorem C18_same_valuation_refuted : exists t, good_txn t /\
  balanced (group_value VirtualMustBalance (t_postings t)) /\
  txn_balance ord_id true t ex_bals = Err (ELedger TransactionIsNotBalanced) /\
  is_ok (txn_balance ord_id true (ex_sale Real) ex_bals) = true /\ t = ex_sale VirtualMustBalance.
Proof.
  exists (ex_sale VirtualMustBalance). split.
  - intros p; simpl; intros H; repeat (destruct H as [<-|H]; [unfold good_posting; simpl; auto|]); contradiction.
  - split; [|split; [|split]]; try (vm_compute; reflexivity).
    intros c. change (qz (-1) * (if str_eqb usd c then qz 2 else 0) + ((if str_eqb usd c then qz 2 else 0) + 0) = 0).
    destruct (str_eqb usd c); apply Qc_is_canon; reflexivity.
Qed.
Print Assumptions C18_same_valuation_refuted.

(** ** C19 *)
(** A transaction as written is plain when it has one elided real posting, or all its real postings
    state an amount in one and the same commodity. *)
Definition plain (skip : bool) (t : txn posting) : Prop :=
  (exists p, filter (elided skip) (t_postings t) = [p]) \/
  (exists c0, forall p, In p (t_postings t) -> p_kind p = Real ->
                exists m, p_amount p = Some m /\ (m_commodity m = Some c0 \/ m = MZero)).

Lemma plain_sums_to_zero ord skip t bals b t' bals' :
  order_ok ord -> good_bals bals -> good_txn t -> plain skip t ->
  (forall p, In p (t_postings t) -> p_cost p = None) ->
  txn_balance ord skip t bals = Ok (b, t', bals') ->
  (forall c, group_value Real (t_postings t') c = 0) /\ (forall p, In p (t_postings t') -> p_cost p = None).
Proof.
  intros Ho Hg Ht Hp Hc H. split.
  - destruct Hp as [(p & Hp)|(c0 & Hp)].
    + destruct (C11_elided_filled _ _ _ _ _ _ _ _ Ho Hg Ht Hp H) as (kept & fills & _ & _ & _ & _ & _ & _ & Hz). auto.
    + assert (Ha : forall p, In p (t_postings t) -> p_kind p = Real -> p_amount p <> None).
      { intros p Hi Hk. destruct (Hp p Hi Hk) as (m & -> & _). discriminate. }
      assert (He : forall p, In p (t_postings t) -> elided skip p = false).
      { intros p Hi. unfold elided. specialize (Ha p Hi). destruct (p_kind p), (p_amount p); auto. destruct Ha; auto. }
      pose proof (C10_as_written _ _ _ _ _ _ _ Ho Hg Ht Ha H) as Hw.
      destruct (C10_accepted_balances _ _ _ _ _ _ _ Ho Hg Ht He H) as (_ & _ & Hone).
      assert (Hother : forall c, c <> c0 -> group_value Real (t_postings t') c = 0).
      { intros c Hne. rewrite Hw. unfold group_value. apply qsum_zero. intros x Hx. apply in_map_iff in Hx.
        destruct Hx as (p & <- & Hi). unfold posting_value. destruct (p_amount p) as [m|] eqn:Em; auto.
        destruct (kind_eqb_spec (p_kind p) Real); auto. rewrite Hc by auto. simpl.
        destruct (Hp p Hi e) as (m' & Em' & Hm). rewrite Em in Em'. inv Em'. destruct Hm as [Hm| ->]; auto.
        destruct m' as [|a c']; auto. inv Hm. simpl. destruct (str_eqb_spec c0 c); congruence. }
      intros c. destruct (str_eq_dec c c0); [subst; apply Hone; auto|auto].
  - apply txn_balance_accepted in H; auto. destruct H as [_ (kept & fills & Hpo & Hk & _ & Hm) _ _ _ _].
    intros p Hi. rewrite Hpo in Hi. rewrite !in_app_iff in Hi. destruct Hi as [Hi|[Hi|Hi]].
    + clear -Hi Hk Hc. assert (HF : forall q, In q (filter (given skip) (t_postings t)) -> p_cost q = None).
      { intros q Hq. apply filter_In in Hq. apply Hc. tauto. }
      induction Hk; [destruct Hi|]. destruct Hi as [<-|Hi].
      * destruct H as (_ & _ & -> & _). apply HF. left. auto.
      * apply IHHk; auto. intros; apply HF; right; auto.
    + destruct (filter (elided skip) (t_postings t)) as [|q [|]].
      * destruct Hm as [-> _]. destruct Hi.
      * destruct Hm as (_ & am & -> & _). apply in_map_iff in Hi. destruct Hi as (x & <- & _). auto.
      * destruct Hm.
    + unfold non_real in Hi. apply filter_In in Hi. apply Hc. tauto.
Qed.

(** The sum over a list of accounts without repetition that has every account of the postings. *)
Lemma sum_over_accounts ps accs c :
  NoDup accs -> (forall p, In p ps -> In (p_account p) accs) -> (forall p, In p ps -> p_cost p = None) ->
  qsum (map (fun acc => account_sum ps acc c) accs) = group_value Real ps c.
Proof.
  intros Hn. induction ps as [|p ps IH]; intros Ha Hc.
  - apply qsum_zero. intros x Hx. apply in_map_iff in Hx. destruct Hx as (y & <- & _). auto.
  - rewrite group_value_cons, <- IH by (intros; first [apply Ha|apply Hc]; right; auto).
    assert (K : forall l, NoDup l -> qsum (map (fun acc => posting_to acc c p) l) =
                  if existsb (str_eqb (p_account p)) l then posting_value Real c p else 0).
    { clear IH Ha. intros l. induction l as [|a l IHl]; intros Hl; simpl; auto. inv Hl. unfold qsum in *. rewrite IHl by auto.
      unfold posting_to, posting_value in *. rewrite (Hc p (or_introl eq_refl)). simpl value_at_cost.
      destruct (str_eqb_spec (p_account p) a); simpl.
      - subst. replace (existsb (str_eqb (p_account p)) l) with false.
        + destruct (p_amount p); [destruct (kind_eqb (p_kind p) Real); simpl|]; ring.
        + symmetry. apply not_true_is_false. intros E. apply existsb_exists in E. destruct E as (y & Hy & Ey).
          apply str_eqb_eq in Ey. subst. auto.
      - destruct (p_amount p); [destruct (kind_eqb (p_kind p) Real); simpl|]; try ring; destruct (existsb _ l); ring. }
    replace (posting_value Real c p) with (qsum (map (fun acc => posting_to acc c p) accs)).
    + clear. induction accs as [|a l IHl]; simpl; [ring|]. unfold qsum in *. rewrite IHl, account_sum_cons. ring.
    + rewrite K by auto. replace (existsb (str_eqb (p_account p)) accs) with true; auto. symmetry.
      apply existsb_exists. exists (p_account p). split; [apply Ha; left; auto|apply str_eqb_refl].
Qed.

(** The running balances of all accounts, starting from nothing. *)
Theorem C19_double_entry : forall w skip site ts bals prices ts' bals' prices' accs c,
  world_ok w -> (forall acc b, hget str_eqb acc bals = Some b -> b = bal_new) ->
  Forall good_txn ts -> Forall (plain skip) ts ->
  (forall t p, In t ts -> In p (t_postings t) -> p_cost p = None) ->
  balance_all w site skip ts bals prices = Ok (ts', bals', prices') ->
  NoDup accs -> (forall t p, In t ts' -> In p (t_postings t) -> In (p_account p) accs) ->
  qsum (map (fun acc => run_amt bals' acc c) accs) = 0.
Proof.
  intros w skip site ts bals prices ts' bals' prices' accs c Hw Hb0 HF HP Hc H Hn Ha.
  assert (Hg : good_bals bals) by (intros acc b E; rewrite (Hb0 _ _ E); constructor).
  pose proof (C16_running_balances _ _ _ _ _ _ _ _ _ Hw Hg HF H) as HR.
  assert (Hz : group_value Real (flat_map t_postings ts') c = 0 /\
               forall p, In p (flat_map t_postings ts') -> p_cost p = None).
  { clear Ha HR Hn Hb0. revert site bals prices ts' H Hg. induction ts as [|t ts IH]; intros site bals prices ts' H Hg; simpl in H.
    - inv H. split; auto. intros p [].
    - inv HF. inv HP. bind_inv H. bind_inv H. destruct a0 as [[b t1] bals1]. bind_inv H. bind_inv H. destruct a1 as [[r' bals2] prices2]. inv H.
      assert (Ho : order_ok (w_ord w site (bkey * money)%type)) by (intros x; apply (proj1 Hw)).
      destruct (plain_sums_to_zero _ _ _ _ _ _ _ Ho Hg H2 H4 (fun p => Hc t p (or_introl eq_refl)) Hb0) as [Z1 C1].
      destruct (C16_one_transaction _ _ _ _ _ _ _ Ho Hg H2 Hb0) as (G1 & _ & _).
      assert (Hc' : forall t0 p, In t0 ts -> In p (t_postings t0) -> p_cost p = None).
      { intros t0 p Ht0. apply Hc. right. auto. }
      destruct (IH H3 H5 Hc' _ _ _ _ Hb2 G1) as [Z2 C2].
      simpl. split.
      + rewrite group_value_app, Z1, Z2. ring.
      + intros p Hp. apply in_app_iff in Hp. destruct Hp; auto. }
  destruct Hz as [Hz Hcost]. rewrite <- Hz.
  rewrite <- (sum_over_accounts _ accs) by (auto; intros p Hp; apply in_flat_map in Hp; destruct Hp as (t & Ht & Hp); eauto).
  f_equal. apply map_ext. intros acc. rewrite HR. unfold run_amt. destruct (hget str_eqb acc bals) eqn:E.
  - rewrite (Hb0 _ _ E). unfold bal_amt. simpl. ring.
  - ring.
Qed.
Print Assumptions C19_double_entry.
Definition ex_plain : txn posting :=
  ex_txn [ex_posting acE (e_ 10) None None Real; ex_posting acA (e_ (-10)) None None Real].
Example C19_case : plain false ex_plain /\ plain false ex_elided /\
  is_ok (balance_all w0 0 false [ex_plain; ex_elided] [(acA, bal_new); (acB, bal_new); (acE, bal_new)] []) = true.
Proof.
  split; [|split; [left; eexists; vm_compute; reflexivity|vm_compute; reflexivity]].
  right. exists eur. intros p; simpl. intros [<-|[<-|[]]] _; eexists; split; try reflexivity; left; reflexivity.
Qed.
