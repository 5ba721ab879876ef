(** C95: the same journal in other units, reports in another commodity. *)
From Coq Require Import Lia.
From Verif Require Import Base BaseFacts Numerals Money Alist Comment Txn Expr Filter Price Tokens Ledger Reports App Spec MoneyFacts SpecList SpecTxn TxnFacts SpecLedger
  TokenFacts JournalFacts LedgerFacts LedgerFacts2 LedgerFacts3 PropTxn PropLedger SpecQuery SpecExpr ExprFacts PropExpr PropQuery SpecReports ReportFacts ReportFacts2 ReportFacts3 PropReports PropApp
  SpecText SpecDates SpecTokens SpecJournal JournalRead PropJournal SpecLayout PropLayout SpecBook BookFacts PropBook PropBook2 SpecAsk PropAsk SpecPrice SpecExchange ExchangeFacts PropExchange
  SpecAgree PropAgree SpecJoin PropTokens PropJoin SpecScale PropScale SpecScale2.
Open Scope Qc_scope.

Lemma inv_zero : / (Q2Qc 0) = Q2Qc 0.
Proof. apply Qc_is_canon. reflexivity. Qed.
Lemma div_times (x a u : Qc) : u <> 0 -> x / (a * u) = x / a / u.
Proof.
  intros U. destruct (Qc_eq_dec a 0) as [->|N]; [|field; auto]. replace (0 * u) with (Q2Qc 0) by ring. unfold Qcdiv. rewrite inv_zero. ring.
Qed.
Lemma div_div (x a u : Qc) : u <> 0 -> x / (a / u) = x / a * u.
Proof.
  intros U. destruct (Qc_eq_dec a 0) as [->|N]; [|field; auto]. replace (0 / u) with (Q2Qc 0) by (unfold Qcdiv; ring). unfold Qcdiv. rewrite inv_zero. ring.
Qed.

Lemma pairs_flip {A B} (R : A -> B -> Prop) xs ys : Forall2 R xs ys -> Forall2 (fun y x => R x y) ys xs.
Proof. induction 1; auto. Qed.

(** ** Prices, chains and rates in other units *)
Record price_in_units (k : str -> Qc) (p p' : price) : Prop := {
  ru_date : pr_date p' = pr_date p;
  ru_com : pr_com p' = pr_com p;
  ru_cur : pr_cur p' = pr_cur p;
  ru_amount : pr_amount p' = pr_amount p * k (pr_cur p) / k (pr_com p);
}.
Definition back (k : str -> Qc) (c : str) : Qc := / k c.
Section Rates.
  Context (k : str -> Qc) (KN : forall c, k c <> 0).
  Lemma back_not_zero c : back k c <> 0.
  Proof using KN. unfold back. intros E. apply (KN c). assert (H : k c * / k c = 1) by (field; repeat split; auto). rewrite E in H. exfalso. assert (Z : k c * 0 = 0) by ring. rewrite Z in H. discriminate H. Qed.
  Lemma price_back p p' : price_in_units k p p' -> price_in_units (back k) p' p.
  Proof using KN. intros [H1 H2 H3 H4]. constructor; auto. unfold back. rewrite H4, H2, H3. field. repeat split; auto; discriminate. Qed.
  Lemma same_pair_units p p' q q' : price_in_units k p p' -> price_in_units k q q' -> same_pair p' q' <-> same_pair p q.
  Proof using Type. intros [_ A1 A2 _] [_ B1 B2 _]. unfold same_pair. rewrite A1, A2, B1, B2. tauto. Qed.
  Lemma usable_units today ps ps' p' : Forall2 (price_in_units k) ps ps' -> usable today ps' p' -> exists p, usable today ps p /\ price_in_units k p p'.
  Proof using Type.
    intros F (pre' & post' & -> & D & A & B). apply Forall2_app_inv_r in F as (pre & rest & F1 & F2 & ->). inversion F2 as [|p x post y HP F3 E1 E2]; subst.
    exists p. split; auto. exists pre, post. split; auto. split; [rewrite <- (ru_date _ _ _ HP); auto|]. split.
    - intros q Hq SP Dq. destruct (in_pairs (fun a b => price_in_units k b a) pre' pre q) as (q' & Hq' & HQ); auto; [apply pairs_flip; auto|].
      rewrite <- (ru_date _ _ _ HQ), <- (ru_date _ _ _ HP). apply A; auto; [|rewrite (ru_date _ _ _ HQ); auto]. apply (same_pair_units q q' p p'); auto.
    - intros q Hq SP Dq. destruct (in_pairs (fun a b => price_in_units k b a) post' post q) as (q' & Hq' & HQ); auto; [apply pairs_flip; auto|].
      rewrite <- (ru_date _ _ _ HQ), <- (ru_date _ _ _ HP). apply B; auto; [|rewrite (ru_date _ _ _ HQ); auto]. apply (same_pair_units q q' p p'); auto.
  Qed.
  Context (V V' : price -> Prop) (VV : forall p', V' p' -> exists p, V p /\ price_in_units k p p').
  Lemma connected_units t c : connected V' t c -> connected V t c.
  Proof using VV.
    induction 1 as [|p' Hp H IH|p' Hp H IH]; [constructor| |]; destruct (VV p' Hp) as (p & HP & [_ A1 A2 _]); rewrite A1, A2 in *; [apply co_forwards|apply co_backwards]; auto.
  Qed.
  Lemma chain_units t c r : chain V' t c r -> chain V t c (r * k c / k t).
  Proof using VV KN.
    induction 1 as [|p' r Hp H IH|p' r Hp N H IH].
    - replace (1 * k t / k t) with (Q2Qc 1) by (field; repeat split; auto). constructor.
    - destruct (VV p' Hp) as (p & HP & [_ A1 A2 A3]). rewrite A1, A2, A3 in *. replace (pr_amount p * k (pr_cur p) / k (pr_com p) * r * k (pr_com p) / k t) with (pr_amount p * (r * k (pr_cur p) / k t)) by (field; repeat split; auto).
      apply ch_forwards; auto.
    - destruct (VV p' Hp) as (p & HP & [_ A1 A2 A3]). rewrite A1, A2, A3 in *. assert (N' : pr_amount p <> 0) by (intros E; apply N; rewrite E; unfold Qcdiv; ring).
      replace (r / (pr_amount p * k (pr_cur p) / k (pr_com p)) * k (pr_cur p) / k t) with (r * k (pr_com p) / k t / pr_amount p) by (field; repeat split; auto). apply ch_backwards; auto.
  Qed.
  Lemma timed_units t date c d n r : timed V' t date c d n r -> timed V t date c d n (r * k c / k t).
  Proof using VV KN.
    induction 1 as [|c d d' n r H IH|p' n r Hp H IH|p' n r Hp H IH].
    - replace (1 * k t / k t) with (Q2Qc 1) by (field; repeat split; auto). constructor.
    - apply ti_wait. auto.
    - destruct (VV p' Hp) as (p & HP & [A0 A1 A2 A3]). rewrite A0, A1, A2, A3 in *. replace (pr_amount p * k (pr_cur p) / k (pr_com p) * r * k (pr_com p) / k t) with (pr_amount p * (r * k (pr_cur p) / k t)) by (field; repeat split; auto).
      apply ti_forwards; auto.
    - destruct (VV p' Hp) as (p & HP & [A0 A1 A2 A3]). rewrite A0, A1, A2, A3 in *.
      replace (r / (pr_amount p * k (pr_cur p) / k (pr_com p)) * k (pr_cur p) / k t) with (r * k (pr_com p) / k t / pr_amount p); [apply ti_backwards; auto|].
      rewrite (div_div _ _ (k (pr_com p))), (div_times _ _ (k (pr_cur p))) by auto.
      replace (r * k (pr_com p) / k t / pr_amount p) with (r / pr_amount p * k (pr_com p) / k t) by (unfold Qcdiv; ring). generalize (r / pr_amount p). intros y. field. repeat split; auto.
  Qed.
End Rates.

Definition rates_back (k : str -> Qc) (cur : str) (rates : list (str * Qc)) : list (str * Qc) := map (fun x => (fst x, snd x * k (fst x) / k cur)) rates.
Lemma rates_units k ps ps' today cur rates : (forall c, k c <> 0) -> Forall2 (price_in_units k) ps ps' -> rates_into ps' today cur rates -> rates_into ps today cur (rates_back k cur rates).
Proof.
  intros KN F [H1 H2 H3 H4].
  assert (VV : forall p', usable today ps' p' -> exists p, usable today ps p /\ price_in_units k p p') by (intros p'; apply usable_units; auto).
  assert (F' : Forall2 (price_in_units (back k)) ps' ps).
  { apply pairs_flip in F. eapply forall2_weaken; [|exact F]. intros a b. apply price_back. auto. }
  assert (WW : forall p, usable today ps p -> exists p', usable today ps' p' /\ price_in_units (back k) p' p) by (intros p; apply usable_units; auto).
  assert (FST : map fst (rates_back k cur rates) = map fst rates) by (unfold rates_back; rewrite map_map; apply map_ext; auto).
  constructor.
  - rewrite FST. auto.
  - intros c. rewrite FST, H2. split; intros [N C]; split; auto; [apply (connected_units k _ _ VV)|apply (connected_units (back k) _ _ WW)]; auto.
  - intros c r Hr. apply in_map_iff in Hr as ([c0 r0] & E & Hr). cbn [fst snd] in E. assert (c0 = c) by congruence. subst c0. assert (r = r0 * k c / k cur) as -> by congruence.
    apply (chain_units k KN _ _ VV). auto.
  - intros c r Hr. apply in_map_iff in Hr as ([c0 r0] & E & Hr). cbn [fst snd] in E. assert (c0 = c) by congruence. subst c0. assert (r = r0 * k c / k cur) as -> by congruence.
    destruct (H4 c r0 Hr) as (d & n & (p' & Hp & Hd & Hc) & T & Mi). exists d, n. split.
    + destruct (VV p' Hp) as (p & HP & [A0 A1 A2 _]). exists p. rewrite A0 in Hd. rewrite A1, A2 in Hc. auto.
    + split; [apply (timed_units k KN _ _ VV); auto|]. intros n' r' T'. apply (timed_units (back k) (back_not_zero k KN) _ _ WW) in T'. eapply Mi. exact T'.
Qed.
Lemma existsb_map_fst (c : str) k cur rates : existsb (str_eqb c) (map fst (rates_back k cur rates)) = existsb (str_eqb c) (map fst rates).
Proof. unfold rates_back. rewrite map_map. auto. Qed.
Lemma changed_units k rates cur v v' c : (forall c, k c <> 0) -> (forall c, v' c = k c * v c) -> changed rates cur v' c = k c * changed (rates_back k cur rates) cur v c.
Proof.
  intros KN E. unfold changed. rewrite existsb_map_fst. destruct (str_eqb_spec c cur) as [->|N].
  - assert (S : qsum (map (fun kr => snd kr * v' (fst kr)) rates) = k cur * qsum (map (fun kr => snd kr * v (fst kr)) (rates_back k cur rates))).
    { induction rates as [|[a r] rates IH]; cbn [map rates_back]; [change (qsum []) with 0; ring|]. fold (rates_back k cur rates). rewrite !qsum_cons, IH. cbn [fst snd]. rewrite E. field. auto. }
    rewrite S, E. ring.
  - destruct (existsb (str_eqb c) (map fst rates)); [ring|apply E].
Qed.

Section Prices.
  Context (k : str -> Qc) (w : world) (l l' : pledger) (U : in_other_units k w l l') (PU : prices_in_units k w l l').
  Lemma unit_not_zero c : k c <> 0.
  Proof using U. apply pos_not_zero. apply U. Qed.
  Lemma unit_left t t' c : txn_in_units k w l t t' -> left_over w l' t' c = k c * left_over w l t c.
  Proof using U.
    intros T. unfold left_over. pose proof (unit_open k w l _ _ (proj2 (proj2 T))) as O. inversion O; [apply (unit_kind k w l l' U); auto|ring].
  Qed.
  Lemma unit_two v v' c d : (forall c, v' c = k c * v c) -> two_left v' c d <-> two_left v c d.
  Proof using U.
    intros E. assert (Z : forall c, v' c = 0 <-> v c = 0) by (intros x; rewrite E; apply times_zero, U). unfold two_left. rewrite !Z.
    split; intros (A & B & C & D); do 3 (split; auto); intros x X1 X2; apply Z; auto.
  Qed.
  Lemma unit_exchange date v v' prs' : (forall c, v' c = k c * v c) -> exchange_price date v' prs' -> exists prs, exchange_price date v prs /\ Forall2 (price_in_units k) prs prs'.
  Proof using U.
    intros E [(-> & H)|(p' & -> & H1 & H2 & H3 & H4)].
    - exists []. split; auto. left. split; auto. intros c d X. apply (H c d). apply (unit_two v v' c d E). auto.
    - pose proof unit_not_zero as KN. pose proof (ou_positive _ _ _ _ U) as KP.
      exists [{| pr_date := pr_date p'; pr_com := pr_com p'; pr_amount := pr_amount p' * k (pr_com p') / k (pr_cur p'); pr_cur := pr_cur p' |}]. split.
      + right. eexists. split; [reflexivity|]. cbn [pr_date pr_com pr_amount pr_cur]. split; [apply (unit_two v v' _ _ E); auto|]. split; auto.
        assert (X : k (pr_cur p') * (pr_amount p' * k (pr_com p') / k (pr_cur p')) = k (pr_com p') * pr_amount p') by (field; auto). split.
        * apply (times_pos (k (pr_cur p'))); auto. rewrite X. apply times_pos; auto.
        * rewrite !E in H4. replace (v (pr_com p') * (pr_amount p' * k (pr_com p') / k (pr_cur p'))) with ((k (pr_com p') * v (pr_com p') * pr_amount p') / k (pr_cur p')) by (field; auto).
          rewrite H4. field. auto.
      + constructor; auto. constructor; cbn [pr_date pr_com pr_amount pr_cur]; auto. field. split; auto.
  Qed.
  Lemma unit_paid t t' p p' : txn_in_units k w l t t' -> posting_in_units k w l p p' -> Forall2 (price_in_units k) (paid_price w l t p) (paid_price w l' t' p').
  Proof using U.
    intros T [H1 H2 H3 H4 H5 H6 H7]. pose proof unit_not_zero as KN. unfold paid_price. rewrite (proj1 T), H3, H4, H5. unfold cost_in_units.
    destruct (t_date t) as [d|]; auto. destruct (rp_money p) as [[q n]|]; cbn [option_map]; auto. unfold in_units at 1. cbn [fst snd].
    destruct (rp_cost p) as [[x m]|]; auto. destruct (unit_meant k w l l' U) as [_ MC].
    destruct (rp_cost_type p) as [[]|]; unfold in_units; cbn [fst snd]; (constructor; [|auto]); constructor; cbn [pr_date pr_com pr_amount pr_cur]; rewrite ?MC; auto.
    - rewrite (Qcmult_comm (k (commodity_meant w l n)) q), div_times by auto. unfold Qcdiv. ring.
    - unfold Qcdiv. ring.
    - unfold Qcdiv. ring.
  Qed.
  Lemma pairs_flat {A B C D} (R : A -> B -> Prop) (Q : C -> D -> Prop) f g xs ys : Forall2 R xs ys -> (forall x y, R x y -> Forall2 Q (f x) (g y)) -> Forall2 Q (flat_map f xs) (flat_map g ys).
  Proof using Type. intros F H. induction F; cbn [flat_map]; auto. apply Forall2_app; auto. Qed.
  Lemma unit_journal_prices ps' : parsed w l -> plain_journal w l -> journal_prices w l' ps' -> exists ps, journal_prices w l ps /\ Forall2 (price_in_units k) ps ps'.
  Proof using U PU.
    intros Hp P (us' & prss' & D & E & ->). assert (DA : Forall (fun u => exists d, t_date u = Some d) (pl_txns l)) by (apply Forall_forall; eapply plain_dated; eauto).
    destruct (date_order _ DA) as (us & DS). pose proof (sort_related (txn_in_units k w l) _ us _ us' (fun u t T => proj1 T) (ou_txns _ _ _ _ U) DA DS D) as F.
    assert (X : exists prss, Forall2 (fun t prs => exchange_price (t_date t) (left_over w l t) prs) us prss /\ Forall2 (Forall2 (price_in_units k)) prss prss').
    { clear -U F E. revert prss' E. induction F as [|t t' us us' T F IH]; intros prss' E; inversion E as [|a prs' b r E1 E2]; subst; [exists []; auto|]. destruct (IH _ E2) as (prss & A & B).
      rewrite (proj1 T) in E1. destruct (unit_exchange (t_date t) (left_over w l t) (left_over w l' t') prs') as (prs & X & Y); [intros c; apply unit_left; auto|auto|]. exists (prs :: prss). auto. }
    destruct X as (prss & A & B). exists (map (stated_price w l) (pl_prices l) ++ flat_map (fun t => flat_map (paid_price w l t) (t_postings t)) (pl_txns l) ++ concat prss). split; [exists us, prss; auto|].
    apply Forall2_app; [|apply Forall2_app].
    - destruct (unit_meant k w l l' U) as [_ MC]. clear -PU MC. unfold prices_in_units in PU. induction PU as [|p p' xs ys [H1 H2 H3 H4] F IH]; cbn [map]; constructor; auto.
      constructor; unfold stated_price; cbn [pr_date pr_com pr_amount pr_cur]; rewrite ?MC, ?H2, ?H3; auto.
    - apply (pairs_flat (txn_in_units k w l)); [apply U|]. intros t t' T. apply (pairs_flat (posting_in_units k w l)); [apply T|]. intros p p'. apply unit_paid. auto.
    - clear -B. induction B; cbn [concat]; auto. apply Forall2_app; auto.
  Qed.
  Lemma unit_commodities_back n : mentions_commodity l n -> mentions_commodity l' n.
  Proof using U PU.
    intros [(p & Hp & H)|(t & p & q & Ht & Hp & H)].
    - left. destruct (in_pairs (fun a b => line_in_new_units k w l b a) (pl_prices l') (pl_prices l) p) as (p' & Hp' & X); auto; [apply pairs_flip; exact PU|]. exists p'. split; auto.
      rewrite (lu_commodity _ _ _ _ _ X), (lu_other _ _ _ _ _ X). auto.
    - right. destruct (in_pairs (fun a b => txn_in_units k w l b a) (pl_txns l') (pl_txns l) t) as (t' & Ht' & T); auto; [apply pairs_flip; apply U|].
      destruct (in_pairs (fun a b => posting_in_units k w l b a) (t_postings t') (t_postings t) p) as (p' & Hp' & X); auto; [apply pairs_flip; apply T|].
      destruct X as [_ _ M' _ C B _]. destruct H as [H|[H|H]].
      + exists t', p', (k (commodity_meant w l n) * q). rewrite M', H. auto.
      + unfold cost_in_units in C. rewrite H in C.
        assert (Y : exists q', rp_cost p' = Some (q', n)).
        { rewrite C. destruct (rp_cost_type p) as [[]|]; cbn [fst snd]; [eexists; unfold in_units; cbn; reflexivity| |]; destruct (rp_money p); eexists; cbn; reflexivity. }
        destruct Y as (q' & Y). exists t', p', q'. auto.
      + exists t', p', (k (commodity_meant w l n) * q). rewrite B, H. auto.
  Qed.
  Lemma unit_names x c : names_commodity w l' x c <-> names_commodity w l x c.
  Proof using U PU.
    unfold names_commodity. rewrite (ou_commodities _ _ _ _ U). split; (intros [H|(A & B & C)]; [left; auto|right; do 2 (split; auto)]); [apply (unit_commodities k w l l' U)|apply unit_commodities_back]; auto.
  Qed.
  Lemma unit_rates o cur rates : parsed w l -> plain_journal w l -> rates_asked w o l' cur rates -> rates_asked w o l cur (rates_back k cur rates).
  Proof using U PU.
    intros Hp P. unfold rates_asked. destruct (o_exchange o) as [x|]; [|intros ->; auto]. intros [(-> & H)|(H & ps' & J & R)].
    - left. split; auto. intros c X. apply (H c). apply unit_names. auto.
    - right. split; [apply unit_names; auto|]. destruct (unit_journal_prices ps' Hp P J) as (ps & J' & F). exists ps. split; auto. eapply rates_units; eauto. exact unit_not_zero.
  Qed.
  Lemma unit_no_zero : no_zero_price l -> no_zero_price l'.
  Proof using U PU.
    pose proof unit_not_zero as KN. intros [A B]. split.
    - intros p' Hp. destruct (in_pairs _ _ _ _ PU Hp) as (p & Hp0 & [_ _ _ ->]). specialize (A p Hp0). intros E. apply A.
      replace (pp_quantity p) with (pp_quantity p * k (commodity_meant w l (pp_other p)) / k (commodity_meant w l (pp_commodity p)) * k (commodity_meant w l (pp_commodity p)) / k (commodity_meant w l (pp_other p))) by (field; auto).
      rewrite E. unfold Qcdiv. ring.
    - intros t' p' q x Ht Hp E. destruct (unit_posting k w l l' U t' p' Ht Hp) as (t & p & H1 & H2 & _ & P). rewrite (pu_cost _ _ _ _ _ P) in E. unfold cost_in_units in E.
      destruct (rp_cost p) as [[q0 x0]|] eqn:E0; [|discriminate]. specialize (B t p q0 x0 H1 H2 E0). intros ->.
      assert (Z : k (commodity_meant w l x0) * q0 <> 0) by (intros Z; apply B; apply times_zero in Z; [auto|apply U]).
      assert (G : forall m : Qc * str, Some (fst (in_units k w l (q0, x0)) / k (commodity_meant w l (snd m)), x0) <> Some (Q2Qc 0, x)).
      { intros m X. assert (Y : fst (in_units k w l (q0, x0)) / k (commodity_meant w l (snd m)) = 0) by congruence. unfold in_units in Y. cbn [fst snd] in Y. apply Z.
        replace (k (commodity_meant w l x0) * q0) with (k (commodity_meant w l x0) * q0 / k (commodity_meant w l (snd m)) * k (commodity_meant w l (snd m))) by (field; auto). rewrite Y. ring. }
      destruct (rp_cost_type p) as [[]|].
      + unfold in_units in E. cbn [fst snd] in E. apply Z. congruence.
      + destruct (rp_money p); [exact (G _ E)|]. apply B. congruence.
      + destruct (rp_money p); [exact (G _ E)|]. apply B. congruence.
  Qed.
End Prices.

(** With --exchange: the report of the journal in the new units shows, in the new units, what the accounts are worth at
    rates of the journal in the old ones. *)
Theorem C95_exchange : forall depth w o k file file' l l' flat no_total A, world_ok w -> file_parses depth w file l -> file_parses depth w file' l' ->
  plain_journal w l -> in_other_units k w l l' -> prices_in_units k w l l' -> exit_status (run_cmd depth w CCheck o file) = 0%Z ->
  asked_accounts w (o_query o) A -> (flat = true -> can_be_cut w o l) -> no_zero_price l ->
  exists r' lines' cur rates, run_cmd depth w (CBalance flat no_total) o file' = Ok lines' /\ balance_printed r' lines' /\ rates_asked w o l cur rates /\
    (if flat then
       ascending (map br_label (bp_rows r')) /\ forall cut, cut_to_depth o cut ->
       (forall row, In row (bp_rows r') -> shown_amounts (br_moneys row) /\ br_moneys row <> [] /\
          forall c, moneys_amt (br_moneys row) c = k c * changed rates cur (asked_total w o l A (fun n => str_eqb (cut n) (br_label row))) c) /\
       (forall a c, changed rates cur (asked_total w o l A (fun n => str_eqb (cut n) a)) c <> 0 -> In a (map br_label (bp_rows r')))
     else
       exists accs, ascending accs /\
         Forall2 (fun a row => br_indent row = levels a /\ (exists part more, own_part a part /\ br_label row = part ++ more) /\
           (forall d, o_depth o = Some d -> (levels a <= d)%nat) /\ shown_amounts (br_moneys row) /\ br_moneys row <> [] /\
           (~ begins_with_colon a -> forall c, moneys_amt (br_moneys row) c = k c * changed rates cur (asked_total w o l A (inside a)) c)) accs (bp_rows r')) /\
    (bp_total r' <> None <-> no_total = false /\ (2 <= length (bp_rows r'))%nat) /\
    forall ms c, bp_total r' = Some ms -> moneys_amt ms c = k c * changed rates cur (asked_total w o l A (fun _ => true)) c.
Proof.
  intros depth w o k f f' l l' flat nt A Hw F F' P U PU CH HA HC NZ. pose proof (unit_plain k w l l' U P) as P'. pose proof (unit_not_zero k w l l' U) as KN.
  apply (C73_check depth w o f l Hw F P) in CH. pose proof (proj2 (unit_orders k w l l' U) CH) as CH'.
  assert (Hp : parsed w l) by (destruct F as (c & _ & F); exists depth, (Some f), [f], c; auto).
  assert (HC' : flat = true -> can_be_cut w o l').
  { intros Fl d E. destruct (HC Fl d E) as [D1 D2]. split; auto. intros n Hn. rewrite (proj1 (unit_meant k w l l' U)). apply D2. apply (unit_accounts k w l l' U). auto. }
  destruct (C81_balance depth w o f' l' flat nt A Hw F' P' CH' HA HC' (unit_no_zero k w l l' U PU NZ)) as (r' & lines' & cur & rates & R1 & R2 & R3 & R4 & R5).
  exists r', lines', cur, (rates_back k cur rates). do 2 (split; auto). split; [apply (unit_rates k w l l' U PU); auto|].
  assert (T : forall Q c, changed rates cur (asked_total w o l' A Q) c = k c * changed (rates_back k cur rates) cur (asked_total w o l A Q) c).
  { intros Q c. apply changed_units; auto. intros x. apply (unit_book k w l l' U). }
  split; [|split].
  - destruct flat.
    + destruct R4 as [R4 R6]. split; auto. intros cut C. destruct (R6 cut C) as [R7 R8]. split.
      * intros row Hr. destruct (R7 row Hr) as (X & Y & Z). do 2 (split; auto). intros c. rewrite Z. apply T.
      * intros a c N. apply (R8 a c). rewrite T. intros Z. apply N. apply times_zero in Z; [auto|apply U].
    + destruct R4 as (accs & AS & FR). exists accs. split; auto. eapply forall2_weaken; [|exact FR]. intros a row (H1 & H2 & H3 & H4 & H5 & H6). do 5 (split; auto). intros N c. rewrite (H6 N). apply T.
  - destruct R5 as [R5 _]. rewrite R5. destruct nt; cbn; split; intros [X Y]; split; auto; discriminate.
  - intros ms c E. destruct R5 as [_ R5]. destruct (R5 ms E) as [_ X]. rewrite X. apply T.
Qed.
Print Assumptions C95_exchange.

(** ** Case: euros and dollars become cents, ounces become tenths, each share is split into four *)
Definition small (c : str) : Qc :=
  if str_eqb c (L "EUR") then qz 100 else if str_eqb c (L "USD") then qz 100 else if str_eqb c (L "XAU") then qz 10 else if str_eqb c (L "ACME") then qz 4 else 1.
Lemma small_positive c : 0 < small c.
Proof. unfold small. destruct (str_eqb c (L "EUR")); [reflexivity|]. destruct (str_eqb c (L "USD")); [reflexivity|]. destruct (str_eqb c (L "XAU")); [reflexivity|]. destruct (str_eqb c (L "ACME")); reflexivity. Qed.
Definition small81 : list String.string :=
  ["P 2021-01-05 XAU 500 EUR"; "P 2021-01-20 XAU 600 EUR"; "2021-01-01 Job"; "  Assets:Bank  100000 EUR"; "  Income"; "2021-01-10 Gold"; "  Assets:Gold  30 XAU"; "  Assets:Bank  -15000 EUR";
   "2021-01-12 Shares"; "  Assets:Shares  16 ACME @ 250 USD"; "  Assets:Cash  -4000 USD"; "2021-01-15 Dollars"; "  Assets:Cash  6000 USD"; "  Assets:Bank  -3000 EUR";
   "2021-01-16 Found"; "  Assets:Shells  7 SHELL"; "  Income"]%string.
Definition w95x : world :=
  {| w_lower := ascii_lower; w_numeric := fun _ => false; w_rx := fun rx s => occurs rx s; w_rx_ok := fun _ => true; w_width := None;
     w_read := fun p => if str_eqb p (L "./large") then Some (text t81) else if str_eqb p (L "./small") then Some (text small81) else None;
     w_glob := fun _ => None; w_two_timer := fun _ => None; w_now := 800000%Z; w_ord := fun _ _ l => l |}.
Definition l95x (f : String.string) : pledger := get pl_new (tokenize_file 2 w95x (L (String.append "./" f))).
Definition price_check (k : str -> Qc) (w : world) (l : pledger) (p p' : parsed_price) : bool :=
  Z.eqb (pp_date p') (pp_date p) && str_eqb (pp_commodity p') (pp_commodity p) && str_eqb (pp_other p') (pp_other p) &&
  qc_eqb (pp_quantity p') (pp_quantity p * k (commodity_meant w l (pp_other p)) / k (commodity_meant w l (pp_commodity p))).
Lemma price_check_ok k w l p p' : price_check k w l p p' = true -> line_in_new_units k w l p p'.
Proof.
  unfold price_check. intros H. apply andb_prop in H. destruct H as [H H4]. apply andb_prop in H. destruct H as [H H3]. apply andb_prop in H. destruct H as [H1 H2].
  constructor; [apply Z.eqb_eq; auto|apply str_eqb_eq; auto|apply str_eqb_eq; auto|]. match type of H4 with qc_eqb ?a ?b = true => destruct (qc_eqb_spec a b) as [E|]; [exact E|discriminate H4] end.
Qed.
Lemma prices_named k w l l' : prices_in_units k w l l' -> forall p', In p' (pl_prices l') -> exists p, In p (pl_prices l) /\ pp_commodity p' = pp_commodity p /\ pp_other p' = pp_other p.
Proof. intros F p' Hp. destruct (in_pairs _ _ _ _ F Hp) as (p & Hp0 & [_ A B _]). exists p. auto. Qed.
Lemma parses95x f : match tokenize_file 2 w95x (L (String.append "./" f)) with Ok l => l95x f = l | _ => False end -> file_parses 2 w95x (L (String.append "./" f)) (l95x f).
Proof. intros H. apply file_parses_iff. destruct (tokenize_file 2 w95x (L (String.append "./" f))); subst; auto; destruct H. Qed.
Definition worth95 (f : String.string) : res (list str) := run_cmd 2 w95x (CBalance true false) (ask_in "eur" []) (L (String.append "./" f)).
Example C95_case_exchange : world_ok w95x /\ file_parses 2 w95x (L "./large") (l95x "large") /\ file_parses 2 w95x (L "./small") (l95x "small") /\ plain_journal w95x (l95x "large") /\
  in_other_units small w95x (l95x "large") (l95x "small") /\ prices_in_units small w95x (l95x "large") (l95x "small") /\
  exit_status (run_cmd 2 w95x CCheck (ask_in "eur" []) (L "./large")) = 0%Z /\
  asked_accounts w95x (o_query (ask_in "eur" [])) (fun _ => true) /\ can_be_cut w95x (ask_in "eur" []) (l95x "large") /\ no_zero_price (l95x "large") /\
  worth95 "large" = Ok (map L ["          820.00 EUR  Assets:Bank"; "           10.00 EUR  Assets:Cash"; "          180.00 EUR  Assets:Gold"; "           20.00 EUR  Assets:Shares";
     "          7.00 SHELL  Assets:Shells"; "        -1000.00 EUR"; "         -7.00 SHELL  Income"; "--------------------"; "           30.00 EUR"]%string) /\
  worth95 "small" = Ok (map L ["        82000.00 EUR  Assets:Bank"; "         1000.00 EUR  Assets:Cash"; "        18000.00 EUR  Assets:Gold"; "         2000.00 EUR  Assets:Shares";
     "          7.00 SHELL  Assets:Shells"; "      -100000.00 EUR"; "         -7.00 SHELL  Income"; "--------------------"; "         3000.00 EUR"]%string).
Proof.
  assert (PU : prices_in_units small w95x (l95x "large") (l95x "small")) by (eapply pairs_check_ok; [apply price_check_ok|]; vm_compute; reflexivity).
  split; [split; [intros; apply Permutation_refl|exact ascii_lower_idem]|]. split; [apply parses95x; vm_compute; reflexivity|]. split; [apply parses95x; vm_compute; reflexivity|].
  split; [apply plain_check_ok; vm_compute; reflexivity|]. split.
  - constructor; [exact small_positive|vm_compute; reflexivity|vm_compute; reflexivity|exact (prices_named _ _ _ _ PU)|].
    eapply pairs_check_ok; [apply txn_check_ok|]. vm_compute. reflexivity.
  - split; [exact PU|]. split; [vm_compute; reflexivity|]. split; [constructor|]. split; [intros d E; discriminate E|]. split; [apply zero_check_ok; vm_compute; reflexivity|].
    split; vm_compute; reflexivity.
Qed.
