(** Facts for reports in another commodity (C81). *)
From Coq Require Import Lia Sorting.Sorted.
From Verif Require Import Base BaseFacts Numerals Money Alist Comment Txn Expr Filter Price Tokens Ledger Reports Spec MoneyFacts SpecList SpecTxn TxnFacts SpecLedger
  LedgerFacts LedgerFacts2 LedgerFacts3 PropAlist PropLedger SpecQuery SpecReports ReportFacts ReportFacts2 ReportFacts3 PropReports SpecPrice PropPrice SpecBook BookFacts PropBook PropBook2 SpecExchange.
Open Scope Qc_scope.

(** ** Amounts at rates *)
Lemma qsum_add {A} (f g : A -> Qc) l : qsum (map (fun x => f x + g x) l) = qsum (map f l) + qsum (map g l).
Proof. induction l as [|x l IH]; cbn [map]; rewrite ?qsum_cons; [change (qsum []) with 0; ring|]. rewrite IH. ring. Qed.
Lemma changed_ext rates cur v u c : (forall k, v k = u k) -> changed rates cur v c = changed rates cur u c.
Proof.
  intros H. unfold changed. destruct (str_eqb c cur).
  - rewrite H. f_equal. f_equal. apply map_ext. intros kr. rewrite H. auto.
  - destruct (existsb _ _); auto.
Qed.
Lemma changed_add rates cur v u c : changed rates cur (fun k => v k + u k) c = changed rates cur v c + changed rates cur u c.
Proof.
  unfold changed. destruct (str_eqb c cur).
  - rewrite (map_ext _ (fun kr => snd kr * v (fst kr) + snd kr * u (fst kr))) by (intros; ring). rewrite qsum_add. ring.
  - destruct (existsb _ _); ring.
Qed.
Lemma changed_zero rates cur c : changed rates cur (fun _ => 0) c = 0.
Proof.
  unfold changed. destruct (str_eqb c cur); [|destruct (existsb _ _); auto].
  rewrite qsum_zero; [ring|]. intros x Hx. apply in_map_iff in Hx. destruct Hx as (y & <- & _). ring.
Qed.
Lemma existsb_key c (rates : list (str * Qc)) : existsb (str_eqb c) (map fst rates) = match hget str_eqb c rates with Some _ => true | None => false end.
Proof.
  induction rates as [|[k r] rates IH]; cbn; auto. destruct (str_eqb c k); auto.
Qed.
Lemma sum_one (rates : list (str * Qc)) a k : NoDup (map fst rates) ->
  qsum (map (fun kr => snd kr * money_amt (M a k) (fst kr)) rates) = match hget str_eqb k rates with Some r => a * r | None => 0 end.
Proof.
  induction rates as [|[k0 r] rates IH]; intros N; cbn [map hget fst snd]; [reflexivity|]. inversion N as [|? ? N1 N2]; subst. rewrite qsum_cons, IH by auto.
  cbn [money_amt]. destruct (str_eqb_spec k k0) as [->|X].
  - assert (E : hget str_eqb k0 rates = None).
    { destruct (hget str_eqb k0 rates) eqn:E; auto. exfalso. apply N1. pose proof (existsb_key k0 rates) as Y. rewrite E in Y. apply existsb_exists in Y. destruct Y as (z & Z1 & Z2).
      destruct (str_eqb_spec k0 z); congruence. }
    rewrite E. ring.
  - destruct (hget str_eqb k rates); ring.
Qed.
Lemma converted_changed rates cur ms c : NoDup (map fst rates) -> ~ In cur (map fst rates) ->
  converted (fun k => hget str_eqb k rates) cur ms c = changed rates cur (moneys_amt ms) c.
Proof.
  intros N C. induction ms as [|m ms IH].
  - rewrite (changed_ext rates cur (moneys_amt []) (fun _ => 0)) by reflexivity. rewrite changed_zero. reflexivity.
  - rewrite (changed_ext rates cur (moneys_amt (m :: ms)) (fun k => money_amt m k + moneys_amt ms k)) by (intros k; unfold moneys_amt; cbn [map]; apply qsum_cons).
    rewrite changed_add, <- IH. unfold converted. cbn [map]. rewrite qsum_cons. f_equal. clear IH. destruct m as [|a k].
    + symmetry. apply changed_zero.
    + unfold changed. rewrite sum_one, existsb_key by auto. cbn [money_amt]. destruct (str_eqb_spec c cur) as [->|X].
      * rewrite str_eqb_refl. destruct (hget str_eqb k rates) eqn:E.
        -- destruct (str_eqb_spec k cur) as [->|]; [|ring]. exfalso. apply C. pose proof (existsb_key cur rates) as Y. rewrite E in Y. apply existsb_exists in Y.
           destruct Y as (z & Z1 & Z2). destruct (str_eqb_spec cur z); congruence.
        -- destruct (str_eqb k cur); ring.
      * destruct (str_eqb_spec cur c) as [|_]; [congruence|]. destruct (str_eqb_spec k c) as [->|]; [destruct (hget str_eqb c rates); auto|].
        destruct (hget str_eqb k rates); destruct (hget str_eqb c rates); auto.
Qed.

(** ** The prices of the ledger *)
Lemma directive_prices w l al cs pays ts dir costs : plain_journal w l -> journal_read w l al cs pays ts dir costs -> dir = map (stated_price w l) (pl_prices l).
Proof.
  intros P J. pose proof (jr_prices _ _ _ _ _ _ _ _ J) as F.
  assert (H : forall p pr, In p (pl_prices l) -> directive_price w cs p pr -> pr = stated_price w l p).
  { intros p [d a q b] Hp (x & y & X & Y & E1 & E2 & E3 & E4). cbn in *. subst. unfold stated_price. f_equal; eapply commodity_found; eauto; left; exists p; auto. }
  clear J. induction F as [|p pr l0 l1 R F IH]; cbn; auto. rewrite (H p pr) by (auto; left; auto). f_equal. apply IH. intros. apply H; auto. right. auto.
Qed.
Lemma total_price k q a : q <> 0 -> a * q = k -> a = k / q.
Proof. intros N <-. field. auto. Qed.
Lemma cost_prices w l al cs pays ts dir costs : plain_journal w l -> journal_read w l al cs pays ts dir costs ->
  costs = flat_map (fun t => flat_map (paid_price w l t) (t_postings t)) (pl_txns l).
Proof.
  intros P J. pose proof (jr_costs _ _ _ _ _ _ _ _ J) as F. unfold costed in F. rewrite (proj1 (journal_all w l P)) in F.
  assert (H : forall t p pr d, In t (pl_txns l) -> In p (t_postings t) -> t_date t = Some d -> implied_price w cs d p pr -> paid_price w l t p = [pr]).
  { intros t p [d a q b] d0 Ht Hp D (q0 & c & k & kc & x & y & M1 & M2 & X & Y & E1 & E2 & E3 & E4). cbn in *. subst. unfold paid_price. rewrite D, M1, M2. f_equal.
    assert (A1 : mentions_commodity l c) by (right; exists t, p, q0; auto). assert (A2 : mentions_commodity l kc) by (right; exists t, p, k; auto).
    f_equal; try (symmetry; eapply commodity_found; eauto). destruct (rp_cost_type p) as [[]|]; [|auto|contradiction]. symmetry. apply total_price; tauto. }
  clear J P. revert costs F. induction (pl_txns l) as [|t ts' IH]; intros costs F; cbn [flat_map] in *; [inversion F; auto|].
  apply Forall2_app_inv_l in F. destruct F as (c1 & c2 & F1 & F2 & ->). rewrite <- (IH) with (costs := c2); auto; [|intros; eapply H; eauto; right; auto]. f_equal.
  assert (H' : forall p pr d, In p (t_postings t) -> t_date t = Some d -> implied_price w cs d p pr -> paid_price w l t p = [pr]) by (intros; eapply H; eauto; left; auto).
  clear H IH F2. revert c1 F1. induction (t_postings t) as [|p ps IH]; intros c1 F1; cbn [filter map flat_map] in *; [inversion F1; auto|].
  destruct (has_cost p) eqn:Hc; cbn [map] in F1.
  - inversion F1 as [|? pr ? c3 (d & D & I) F3]; subst. cbn in *. rewrite (H' p pr d) by (auto; left; auto). cbn. f_equal. apply IH; auto. intros. eapply H'; eauto; right; auto.
  - assert (E : paid_price w l t p = []) by (unfold paid_price; unfold has_cost in Hc; destruct (rp_cost p); [discriminate|]; destruct (t_date t), (rp_money p) as [[]|]; auto).
    rewrite E. cbn. apply IH; auto. intros. eapply H'; eauto; right; auto.
Qed.
(** What a balanced transaction leaves. *)
Lemma balanced_left w l skip run t t1 t2 prs c : plain_txn w l t t1 -> ledger_txn skip run t1 t2 prs -> group_value Real (t_postings t2) c = left_over w l t c.
Proof.
  intros PT (V & _ & (kept & fills & E & F2 & HF & HE) & _ & _ & _). pose proof (proj1 (verdict_plain _ _ _ _ _ _ _ PT V) eq_refl) as (_ & IO).
  destruct PT as (_ & F & P).
  assert (GA : forall p, In p (filter (given skip) (t_postings t1)) -> p_amount p <> None).
  { intros p Hp. apply filter_In in Hp. destruct Hp as [Hp G]. assert (B : p_balance p = None).
    { clear -F Hp. induction F as [|x y ps ps' R F IH]; destruct Hp; subst; [apply R|auto]. }
    unfold given, elided in G. rewrite B in G. destruct (p_kind p), (p_amount p); discriminate. }
  assert (EV : group_value Real kept c = kind_value w l Real t c).
  { rewrite (group_keeps _ _ c F2 GA), <- group_given. apply real_group. auto. }
  assert (GN : group_value Real (filter (fun p => negb (kind_eqb (p_kind p) Real)) (t_postings t1)) c = 0).
  { unfold group_value. apply qsum_zero. intros x Hx. apply in_map_iff in Hx. destruct Hx as (p & <- & Hx). apply filter_In in Hx. destruct Hx as [_ Hx]. unfold posting_value.
    destruct (kind_eqb (p_kind p) Real); [discriminate|]. destruct (p_amount p); auto. }
  assert (GF : group_value Real fills c = qsum (map (amount_in c) fills)).
  { unfold group_value. f_equal. apply map_ext_in. intros q Hq. destruct (HF q Hq) as (K & C & _). unfold posting_value, amount_in. rewrite K, C. destruct (p_amount q); auto. }
  assert (GS : group_value Real (t_postings t2) c = group_value Real kept c + group_value Real fills c).
  { rewrite E. unfold group_value in *. rewrite !map_app, !qsum_app. rewrite GN. ring. }
  rewrite GS, EV, GF. unfold left_over. pose proof (elided_open w l skip _ _ F) as EL. destruct (filter (elided skip) (t_postings t1)) as [|p r] eqn:Ef.
  - destruct (filter open_posting (t_postings t)); [|discriminate]. assert (fills = []) as ->; [|cbn; change (qsum []) with 0; ring].
    destruct fills as [|q fs]; auto. destruct (HF q) as (_ & _ & _ & _ & _ & p & X & _); [left; auto|discriminate].
  - destruct (filter open_posting (t_postings t)); [discriminate|]. destruct (HE ltac:(discriminate)) as [N I].
    assert (S : qsum (map (amount_in c) fills) = - group_value Real kept c).
    { rewrite <- (fills_sum (fun k => - group_value Real kept k) c (map p_amount fills)); auto.
      - rewrite map_map. reflexivity.
      - intros x Hx. apply in_map_iff in Hx. destruct Hx as (q & <- & Hq). apply (HF q Hq). }
    rewrite S, EV. ring.
Qed.
Lemma exchange_ext d v u prs : (forall c, v c = u c) -> exchange_price d v prs -> exchange_price d u prs.
Proof.
  intros E. assert (T : forall c k, two_left v c k <-> two_left u c k).
  { intros c k. unfold two_left. rewrite !E. split; intros (H1 & H2 & H3 & H4); do 3 (split; auto); intros x X1 X2; [rewrite <- E|rewrite E]; auto. }
  intros [(-> & H)|(pr & -> & H1 & H2 & H3 & H4)]; [left; split; auto; intros c k X; apply (H c k), T; auto|].
  right. exists pr. rewrite <- !E. rewrite <- T. auto.
Qed.
Lemma ledger_prices w l skip lg : parsed w l -> plain_journal w l -> ledger_built w skip l lg -> journal_prices w l (lg_prices lg).
Proof.
  intros Hp P B. destruct (journal_all w l P) as [_ R0]. destruct B as [ts dir costs sorted run imps _ _ JR DS _ LR EP|]; [|congruence].
  pose proof (read_all _ _ _ _ _ _ _ _ P JR) as F.
  assert (D : Forall (fun u => exists d, t_date u = Some d) (pl_txns l)) by (apply Forall_forall; intros t Ht; eapply plain_dated; eauto).
  destruct (date_order _ D) as (us & DU).
  assert (FU : Forall2 (plain_txn w l) us sorted) by (eapply sort_related; eauto; intros u t (X & _); auto).
  assert (K : exists prss, imps = concat prss /\ Forall2 (fun t prs => exchange_price (t_date t) (left_over w l t) prs) us prss).
  { clear - LR FU. revert us FU. induction LR as [|run run' t t' prs ts ts' prices LT _ LR IH]; intros us FU; inversion FU as [|u ? us' ? PT FU']; subst; [exists []; auto|].
    destruct (IH us' FU') as (prss & -> & G). exists (prs :: prss). split; auto. constructor; auto.
    pose proof (fun c => balanced_left w l skip run u t t' prs c PT LT) as X. destruct LT as (_ & _ & _ & _ & _ & EX & _). destruct PT as (D & _). rewrite <- D.
    eapply exchange_ext; [|exact EX]. auto. }
  destruct K as (prss & -> & G). exists us, prss. split; auto. split; auto. rewrite EP. rewrite (directive_prices _ _ _ _ _ _ _ _ P JR), (cost_prices _ _ _ _ _ _ _ _ P JR). auto.
Qed.
(** No price of the ledger is zero, if none of the journal is. *)
Lemma prices_nonzero w l ps p : plain_journal w l -> no_zero_price l -> journal_prices w l ps -> In p ps -> pr_amount p <> 0.
Proof.
  intros PJ [Z1 Z2] (us & prss & _ & F & ->) Hi. rewrite !in_app_iff in Hi. destruct Hi as [Hi|[Hi|Hi]].
  - apply in_map_iff in Hi. destruct Hi as (x & <- & Hx). cbn. auto.
  - apply in_flat_map in Hi. destruct Hi as (t & Ht & Hi). apply in_flat_map in Hi. destruct Hi as (x & Hx & Hi). unfold paid_price in Hi.
    destruct (t_date t); [|destruct Hi]. destruct (rp_money x) as [[q c]|] eqn:Em; [|destruct Hi]. destruct (rp_cost x) as [[k y]|] eqn:Ek; [|destruct Hi].
    destruct Hi as [<-|[]]. cbn. pose proof (Z2 t x k y Ht Hx Ek) as Zk. destruct (rp_cost_type x) as [[]|] eqn:Et; auto.
    assert (Zq : q <> 0).
    { intros ->. destruct (pj_postings _ _ PJ t x Ht Hx) as (_ & _ & _ & N). apply N. exists c, (k, y). auto. }
    intros E. apply Zk. rewrite <- (Qcmult_div_r k q Zq) at 1. unfold Qcdiv in *. rewrite E. ring.
  - apply in_concat in Hi. destruct Hi as (prs & H1 & H2). clear - F H1 H2. induction F as [|t x us prss E F IH]; [destruct H1|]. destruct H1 as [->|H1]; auto.
    destruct E as [(-> & _)|(pr & -> & _ & _ & Pos & _)]; [destruct H2|]. destruct H2 as [->|[]]. intros E. rewrite E in Pos. exact (Qclt_not_eq _ _ Pos eq_refl).
Qed.
(** The rates of the code. *)
Lemma rates_found w site cur ps mults : world_ok w -> conversion w site cur (w_now w) ps = Ok mults -> rates_into ps (w_now w) cur mults.
Proof.
  intros Hw E. pose proof (C35_one_rate_each _ _ _ _ _ _ Hw E) as N.
  assert (G : forall k r, In (k, r) mults -> hget str_eqb k mults = Some r) by (intros k r Hi; apply In_hget; auto; apply str_eqb_spec).
  constructor; auto.
  - intros k. rewrite <- (C35_convertible_iff_connected _ _ _ _ _ _ Hw E k). split.
    + intros Hi. apply in_map_iff in Hi. destruct Hi as ([k' r] & <- & Hi). exists r. apply G. auto.
    + intros (r & H). pose proof (existsb_key k mults) as Y. rewrite H in Y. apply existsb_exists in Y. destruct Y as (z & Y1 & Y2). destruct (str_eqb_spec k z); [subst; auto|discriminate].
  - intros k r Hi. eapply C34_chain_of_prices; eauto.
  - intros k r Hi. eapply C36_shortest_in_time; eauto.
Qed.
Lemma rates_not_cur ps today cur rates : rates_into ps today cur rates -> ~ In cur (map fst rates).
Proof. intros R Hi. apply (ri_linked _ _ _ _ R) in Hi. tauto. Qed.
