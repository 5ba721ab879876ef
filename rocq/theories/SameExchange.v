(** Facts for C79, continued: amounts at the prices of the journal. *)
From Coq Require Import Lia.
From Verif Require Import Base BaseFacts Numerals Money Alist Comment Txn Expr Filter Price Tokens Ledger Reports Spec MoneyFacts SpecList SpecTxn TxnFacts SpecLedger AlistFacts JournalFacts
  LedgerFacts LedgerFacts2 EvalFacts SpecQuery SpecReports ReportFacts ReportFacts2 SpecPrice PriceFacts PropPrice SpecBook SpecSame SameFacts SameRead SameFacts2.
Open Scope Qc_scope.

(** ** The same prices, in either direction *)
Lemma same_price_sym p p' : same_price p p' -> same_price p' p.
Proof. intros [->|(A & B & C & D)]; [left; auto|right]. rewrite Qcmult_comm. auto. Qed.
Lemma same_price_date p p' : same_price p p' -> pr_date p' = pr_date p.
Proof. intros [->|(A & _)]; auto. Qed.
Lemma same_price_pair p p' q q' : same_price p p' -> same_price q q' -> same_pair p q -> same_pair p' q'.
Proof.
  intros [->|(_ & A & B & _)] [->|(_ & C & D & _)] [[E F]|[E F]]; unfold same_pair; try rewrite A, B; try rewrite C, D; rewrite ?E, ?F; auto.
Qed.
Lemma prices_sym ps ps' : Forall2 same_price ps ps' -> Forall2 same_price ps' ps.
Proof. induction 1; constructor; auto using same_price_sym. Qed.
Lemma F2_in_l {A B} (R : A -> B -> Prop) l l' a : Forall2 R l l' -> In a l -> exists b, In b l' /\ R a b.
Proof. induction 1 as [|x y l l' H F IH]; intros []; [subst; exists y; split; [left|]; auto|]. destruct IH as (b & Hb & Hr); auto. exists b. split; [right|]; auto. Qed.
Lemma F2_in_r {A B} (R : A -> B -> Prop) l l' b : Forall2 R l l' -> In b l' -> exists a, In a l /\ R a b.
Proof. induction 1 as [|x y l l' H F IH]; intros []; [subst; exists x; split; [left|]; auto|]. destruct IH as (a & Ha & Hr); auto. exists a. split; [right|]; auto. Qed.
Lemma usable_same date ps ps' p : Forall2 same_price ps ps' -> usable date ps p -> exists p', usable date ps' p' /\ same_price p p'.
Proof.
  intros F (pre & post & -> & D & H1 & H2). apply Forall2_app_inv_l in F. destruct F as (pre' & r & F1 & F2 & ->). inversion F2 as [|? p' ? post' E F3]; subst.
  exists p'. split; auto. exists pre', post'. split; auto. split; [rewrite (same_price_date _ _ E); auto|]. split.
  - intros q' Hq S Dq. destruct (F2_in_r _ _ _ _ F1 Hq) as (q & Hi & Eq). rewrite (same_price_date _ _ Eq), (same_price_date _ _ E) in *. apply H1; auto.
    eapply same_price_pair; [apply same_price_sym; exact Eq|apply same_price_sym; exact E|auto].
  - intros q' Hq S Dq. destruct (F2_in_r _ _ _ _ F3 Hq) as (q & Hi & Eq). rewrite (same_price_date _ _ Eq), (same_price_date _ _ E) in *. apply H2; auto.
    eapply same_price_pair; [apply same_price_sym; exact Eq|apply same_price_sym; exact E|auto].
Qed.
Lemma connected_same date ps ps' t c : Forall2 same_price ps ps' -> connected (usable date ps) t c -> connected (usable date ps') t c.
Proof.
  intros F. induction 1 as [|p U C IH|p U C IH]; [constructor| |]; destruct (usable_same _ _ _ _ F U) as (p' & U' & [->|(_ & A & B & _)]).
  - apply co_forwards; auto.
  - rewrite <- B. apply co_backwards; auto. rewrite A. auto.
  - apply co_backwards; auto.
  - rewrite <- A. apply co_forwards; auto. rewrite B. auto.
Qed.
Lemma values_same date ps ps' v : Forall2 same_price ps ps' -> (forall c, v c <> 0) -> (forall p, usable date ps p -> v (pr_com p) = pr_amount p * v (pr_cur p)) ->
  forall p, usable date ps' p -> v (pr_com p) = pr_amount p * v (pr_cur p).
Proof.
  intros F N H p' U'. destruct (usable_same _ _ _ _ (prices_sym _ _ F) U') as (p & U & [->|(_ & A & B & D)]); auto.
  specialize (H p U). rewrite <- A, <- B. rewrite H.
  transitivity (pr_amount p' * pr_amount p * v (pr_cur p)); [rewrite D; ring|ring].
Qed.
Lemma rates_same w w' site site' cur date ps ps' : world_ok w -> world_ok w' -> Forall2 same_price ps ps' -> one_value date ps ->
  exists m m', conversion w site cur date ps = Ok m /\ conversion w' site' cur date ps' = Ok m' /\ forall c, hget str_eqb c m = hget str_eqb c m'.
Proof.
  intros W W' F (v & N & H). pose proof (values_same date ps ps' v F N H) as H'.
  assert (O : forall w site ps, world_ok w -> (forall p, usable date ps p -> v (pr_com p) = pr_amount p * v (pr_cur p)) -> exists m, conversion w site cur date ps = Ok m /\
     forall c q, hget str_eqb c m = Some q -> q = v c / v cur).
  { intros w0 s0 qs H0 V. assert (A : PropPrice.agree (usable date qs) v).
    { intros p Up. split; [|auto]. intros Z. apply (N (pr_com p)). rewrite (V p Up), Z. ring. }
    destruct (C38_consistent_prices_partial w0 w0 s0 s0 cur date qs v H0 H0 A (N cur)) as (m & m2 & E & _ & R). exists m. split; auto. intros c q Hq. apply (R c). auto. }
  destruct (O w site ps W H) as (m & E & V). destruct (O w' site' ps' W' H') as (m' & E' & V'). exists m, m'. split; auto. split; auto.
  pose proof (C35_convertible_iff_connected _ _ _ _ _ _ W E) as K. pose proof (C35_convertible_iff_connected _ _ _ _ _ _ W' E') as K'.
  intros c. destruct (hget str_eqb c m) as [q|] eqn:Eq.
  - assert (X : exists q', hget str_eqb c m' = Some q').
    { apply K'. destruct (proj1 (K c)) as [X1 X2]; [eauto|]. split; auto. eapply connected_same; eauto. }
    destruct X as (q' & X). rewrite X. f_equal. rewrite (V _ _ Eq), (V' _ _ X). auto.
  - destruct (hget str_eqb c m') as [q'|] eqn:Eq'; auto. exfalso.
    assert (X : exists q, hget str_eqb c m = Some q).
    { apply K. destruct (proj1 (K' c)) as [X1 X2]; [eauto|]. split; auto. eapply connected_same; [apply prices_sym; exact F|auto]. }
    destruct X. congruence.
Qed.

(** ** The same amounts at the same rates *)
Lemma converted_rates r r' cur ms c : (forall k, r k = r' k) -> converted r cur ms c = converted r' cur ms c.
Proof. intros H. unfold converted. f_equal. apply map_ext. intros m. destruct m; auto. rewrite H. reflexivity. Qed.
Lemma converted_perm r cur ms ms' c : Permutation ms ms' -> converted r cur ms c = converted r cur ms' c.
Proof. intros P. unfold converted. apply qsum_perm. apply Permutation_map. auto. Qed.
Lemma convert_same m m' cur b b' : (forall k, hget str_eqb k m = hget str_eqb k m') -> good_bal b -> Permutation b b' ->
  exists x x', convert_balance b m cur = Ok x /\ convert_balance b' m' cur = Ok x' /\ good_bal x /\ bsame x x'.
Proof.
  intros H G P. pose proof (good_perm _ _ G P) as G'. destruct (convert_balance_ok m cur b G) as (x & E & X1 & X2). destruct (convert_balance_ok m' cur b' G') as (x' & E' & X1' & X2').
  exists x, x'. split; auto. split; auto. split; auto. apply same_amounts; auto. intros c. rewrite X2, X2'.
  rewrite (converted_rates _ (fun k => hget str_eqb k m') cur _ c H). apply converted_perm. apply Permutation_map. auto.
Qed.

(** ** The report *)
Lemma select_between w op n cs0 ts : buildable w cu_name cu_aliases cs0 -> forall cs sel cs1, between w n cs0 cs -> select_txns w op n ts cs = Ok (sel, cs1) -> between w n cs0 cs1.
Proof.
  intros B. induction ts as [|t ts IH]; cbn [select_txns]; intros cs sel cs1 H E; [inv E; auto|]. bind_inv E. destruct a as [ps c1]. bind_inv E. destruct a as [l c2]. injection E as <- <-.
  assert (X : between w n cs0 c1).
  { clear - B H Hb. revert cs ps c1 H Hb. induction (t_postings t) as [|p qs IHq]; cbn [select_postings]; intros cs ps c1 H Hb; [inv Hb; auto|].
    pose proof (filter_between w op n t p cs0 cs B H) as F. destruct (filter_posting w op n t p cs0) as [[b c]|e|x].
    - destruct F as (c2 & F & H2). rewrite F in Hb. cbn [bind] in Hb. bind_inv Hb. destruct a as [l c3]. injection Hb as <- <-. eapply IHq; eauto.
    - rewrite F in Hb. discriminate.
    - rewrite F in Hb. discriminate. }
  eapply IH; eauto.
Qed.
Lemma between_known w n cs cs1 x c : buildable w cu_name cu_aliases cs -> between w n cs cs1 -> l_get w x cs = Ok c -> l_get w x cs1 = Ok c.
Proof. intros B [-> | ->] H; auto. apply (reg_ok w (olits n) cs B). auto. Qed.
Lemma select_known w o op n ts ts' cs cs' x : (forall m, n = Some m -> no_any m) \/ ts = ts' -> cssame w cs cs' -> Forall2 same_txn ts ts' ->
  (exists c, l_get w x cs = Ok c) \/ ts = ts' ->
  both (fun y y' => Forall2 selsame (fst y) (fst y') /\ l_get w x (snd y') = l_get w x (snd y)) (select_txns w op n ts cs) (select_txns (with_order w o) op n ts' cs').
Proof.
  intros H S F K. pose proof (select_either w o op n ts ts' cs cs' H S F) as E. destruct (select_txns w op n ts cs) as [[sel c1]|e|e] eqn:E1, (select_txns (with_order w o) op n ts' cs') as [[sel' c1']|e'|e'] eqn:E2; cbn in *; auto.
  split; auto. destruct K as [(c & K)|<-].
  - destruct S as (B & B' & G). rewrite (between_known w n cs c1 x c); auto; [|eapply select_between; [exact B|left; auto|exact E1]].
    assert (X : between (with_order w o) n cs' c1') by (eapply select_between; [apply buildable_order; exact B'|left; auto|exact E2]).
    change (l_get (with_order w o) x c1' = Ok c). eapply between_known; [apply buildable_order; exact B'|exact X|]. change (l_get w x cs' = Ok c). rewrite G. auto.
  - pose proof (select_txns_same w o op n ts cs cs' S) as T. rewrite E1, E2 in T. apply T.
Qed.
Lemma conv_same w w' site site' m m' cur vb vb' : world_ok w -> world_ok w' -> (forall k, hget str_eqb k m = hget str_eqb k m') -> good_map vb -> good_map vb' ->
  Forall2 esame (stable_sort name_le vb) (stable_sort name_le vb') ->
  exists x x', conv_entries w site m cur vb = Ok x /\ conv_entries w' site' m' cur vb' = Ok x' /\ Forall2 esame (stable_sort name_le x) (stable_sort name_le x').
Proof.
  intros W W' R G G' F.
  assert (T : forall w site m vb, world_ok w -> good_map vb -> exists x, conv_entries w site m cur vb = Ok x).
  { clear. intros w site m vb W [_ G]. induction vb as [|[a b] vb IH]; [exists []; reflexivity|]. unfold conv_entries in *. cbn [mapM].
    destruct IH as (x & IH); [intros; apply (G a0); right; auto|]. rewrite IH. cbn [fst snd].
    destruct (convert_balance_ok m cur (w_ord w site _ b)) as (y & -> & _); [eapply good_perm; [apply (G a); left; reflexivity|symmetry; apply W]|cbn [bind]; eauto]. }
  destruct (T w site m vb W G) as (x & E). destruct (T w' site' m' vb' W' G') as (x' & E'). exists x, x'. split; auto. split; auto.
  destruct (conv_entries_ok w site m cur vb x W G E) as (K & Gx & C). destruct (conv_entries_ok w' site' m' cur vb' x' W' G' E') as (K' & Gx' & C').
  destruct (sorted_entries vb (proj1 G)) as [P _]. destruct (sorted_entries vb' (proj1 G')) as [P' _].
  apply sorted_esame; auto.
  - intros a. rewrite K, K'. assert (Y : hkeys (stable_sort name_le vb) = hkeys (stable_sort name_le vb')).
    { clear - F. induction F as [|x y l l' [H _] F IH]; cbn; auto. unfold hkeys in IH. rewrite H, IH. auto. }
    assert (X : In a (hkeys (stable_sort name_le vb)) <-> In a (hkeys vb)) by (split; apply Permutation_in; apply Permutation_map; [|symmetry]; auto).
    assert (X' : In a (hkeys (stable_sort name_le vb')) <-> In a (hkeys vb')) by (split; apply Permutation_in; apply Permutation_map; [|symmetry]; auto).
    rewrite <- X, <- X', Y. tauto.
  - intros a b b' c I I'. destruct (F2_in_r _ _ _ _ C I) as ([a0 b0] & J & Ea & Eb). destruct (F2_in_r _ _ _ _ C' I') as ([a0' b0'] & J' & Ea' & Eb'). cbn [fst snd] in *. subst a0 a0'. rewrite Eb, Eb'.
    assert (Q : bsame b0 b0').
    { pose proof (Permutation_in _ (Permutation_sym P) J) as J1. destruct (F2_in_l _ _ _ _ F J1) as ([k z] & Hz & Ek & Bz). cbn [fst snd] in *. subst k.
      assert (Z : z = b0'); [|subst; auto]. pose proof (Permutation_in _ P' Hz) as J2. pose proof (In_hget _ str_eqb_spec a _ _ (proj1 G') J2) as U1. pose proof (In_hget _ str_eqb_spec a _ _ (proj1 G') J') as U2. congruence. }
    rewrite (converted_rates _ (fun k => hget str_eqb k m') cur _ c R). apply converted_perm. apply Permutation_map. apply Q.
Qed.
Lemma nil_rates (m m' : list (str * Qc)) : (forall k, hget str_eqb k m = hget str_eqb k m') -> m = [] -> m' = [].
Proof. intros H ->. destruct m' as [|[k q] m']; auto. specialize (H k). cbn in H. rewrite str_eqb_refl in H. discriminate. Qed.
Lemma exchange_same w o op flat tot site site' lg lg' x : world_ok w -> world_ok (with_order w o) -> same_ledger w lg lg' ->
  buildable w cu_name cu_aliases (lg_commodities lg) -> buildable w cu_name cu_aliases (lg_commodities lg') -> plain_query w op \/ lg_txns lg = lg_txns lg' ->
  o_exchange op = Some x -> (exists c, l_get w x (lg_commodities lg) = Ok c) \/ lg_txns lg = lg_txns lg' -> one_value (w_now w) (lg_prices lg) ->
  both same_report (balance_report w site op flat tot lg) (balance_report (with_order w o) site' op flat tot lg').
Proof.
  intros W W' L B B' Q X K V. unfold balance_report. rewrite X. rewrite query_node_order. destruct (query_node w op) as [n|e|e] eqn:En; cbn [bind]; auto; try exact I.
  eapply both_bind.
  { apply (select_known w o op n (lg_txns lg) (lg_txns lg') _ _ x); [destruct Q as [Q|Q]; [left; intros m ->; apply Q; auto|right; exact Q]|split; auto; split; auto; apply L|apply L|exact K]. }
  intros [sel cs] [sel' cs'] [S Y]. cbn [fst snd] in S, Y.
  assert (P : Permutation (flat_map snd sel) (flat_map snd sel')) by (induction S; cbn; auto; apply Permutation_app; auto).
  eapply both_bind; [unfold account_balances; apply account_same; exact P|]. intros bals bals' M. cbn [bind].
  eapply both_bind with (R := fun x y => (good_map x /\ good_map y) /\ Forall2 esame (stable_sort name_le x) (stable_sort name_le y)).
  { pose proof M as (G & G' & _). destruct flat.
    - pose proof (flat_same w (with_order w o) site site' (o_depth op) bals bals' W W' M) as H.
      destruct (flat_balances w site (o_depth op) bals) as [r| |] eqn:E, (flat_balances (with_order w o) site' (o_depth op) bals') as [r'| |] eqn:E'; cbn in *; auto.
      split; auto. split; [apply (flat_balances_ok w W site _ bals r E G)|apply (flat_balances_ok _ W' site' _ bals' r' E' G')].
    - change ((good_map (tree_balances w site bals) /\ good_map (tree_balances (with_order w o) site' bals')) /\ Forall2 esame (stable_sort name_le (tree_balances w site bals)) (stable_sort name_le (tree_balances (with_order w o) site' bals'))).
      split; [split; [apply (tree_balances_ok w W site bals G)|apply (tree_balances_ok _ W' site' bals' G')]|apply tree_same; auto]. }
  intros vb vb' [[Gv Gv'] F]. change (l_get (with_order w o) x cs') with (l_get w x cs'). rewrite Y. destruct (l_get w x cs) as [c|e|e] eqn:Ec.
  - destruct (rates_same w (with_order w o) (100 + site) (100 + site') (cu_name c) (w_now w) (lg_prices lg) (lg_prices lg') W W' (sl_prices _ _ _ L) V) as (m & m' & E & E' & R).
    change (w_now (with_order w o)) with (w_now w). rewrite E, E'. cbn [bind].
    destruct (conv_same w (with_order w o) (103 + site) (103 + site') m m' (cu_name c) vb vb' W W' R Gv Gv' F) as (x1 & x1' & E1 & E1' & F1).
    unfold conv_entries in E1, E1'. rewrite E1, E1'. cbn [bind].
    set (rows := print_rows _ w _ _ _ _). set (rows' := print_rows _ (with_order w o) _ _ _ _).
    assert (RR : Forall2 same_row rows rows') by (unfold rows, rows'; rewrite <- (F2_length _ _ _ F1); apply print_same; auto).
    rewrite <- (F2_length _ _ _ RR). destruct (tot && _); [|split; cbn; auto].
    pose proof (total_same w (with_order w o) (104 + site) (104 + site') bals bals' W W' M) as T.
    assert (GT : good_bal (sum_balances (map snd (w_ord w (104 + site) _ bals)))).
    { assert (G0 : good_map (w_ord w (104 + site) _ bals)) by (eapply good_map_perm; [symmetry; apply W|apply M]).
      pose proof (sum_entries_ok (fun _ => true) _ (proj2 G0)) as [Z _]. assert (FE : forall l : balances, filter (fun _ => true) l = l) by (induction l as [|y l IH]; cbn; congruence). rewrite FE in Z. auto. }
    set (tt := sum_balances (map snd (w_ord w (104 + site) _ bals))) in *. set (tt' := sum_balances (map snd (w_ord (with_order w o) (104 + site') _ bals'))) in *.
    eapply both_bind with (R := bsame).
    { destruct m as [|q m0].
      - rewrite (nil_rates [] m' R eq_refl). exact T.
      - destruct m' as [|q' m0']; [symmetry in R; exfalso|].
        + assert (D : q :: m0 = []); [|discriminate]. apply (nil_rates [] (q :: m0)); auto. 
        + cbn [unwrap bind]. unfold get_unwrap. change (l_get (with_order w o) x cs') with (l_get w x cs'). rewrite Y, Ec. cbn [bind].
          destruct (convert_same (q :: m0) (q' :: m0') (cu_name c) (w_ord w (105 + site) _ tt) (w_ord (with_order w o) (105 + site') _ tt') R) as (z & z' & -> & -> & _ & Z).
          * eapply good_perm; [exact GT|symmetry; apply W].
          * rewrite (proj1 W). rewrite (proj1 W'). apply T.
          * exact Z. }
    intros z z' Z. cbn. split; cbn; auto. rewrite (bsame_zero _ _ (proj2 Z)). destruct (bal_is_zero z'); auto. apply Permutation_map. rewrite (proj1 W), (proj1 W'). apply Z.
  - cbn [bind]. pose proof (report_same w (with_order w o) op flat tot site site' bals bals' vb vb' W W' M F) as R. cbv zeta in R.
    destruct (tot && _); destruct (tot && _); exact R.
  - exact I.
Qed.
