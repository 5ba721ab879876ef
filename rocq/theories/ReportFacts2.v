(** Facts about the reports, continued: what a whole report shows. *)
From Coq Require Import Lia Sorting.Sorted.
From Verif Require Import Base BaseFacts Numerals Money Alist AlistFacts Txn Expr Filter Price Tokens Ledger Reports Spec MoneyFacts SpecList SpecTxn SpecLedger
  TxnFacts LedgerFacts LedgerFacts2 LedgerFacts3 TokenFacts JournalFacts EvalFacts SpecQuery SpecReports ReportFacts PropLedger PropQuery.
Open Scope Qc_scope.

(** ** The selected postings *)
Lemma filter_extends w o n t p cs b cs' : buildable w cu_name cu_aliases cs -> filter_posting w o n t p cs = Ok (b, cs') ->
  buildable w cu_name cu_aliases cs' /\ extends w cs cs'.
Proof.
  intros B H. assert (R : buildable w cu_name cu_aliases cs /\ extends w cs cs) by (split; [exact B|apply extends_refl]).
  unfold filter_posting in H. destruct (_ && _); [inv H; auto|]. bind_inv H. destruct a; [inv H; auto|]. bind_inv H. destruct a; [inv H; auto|].
  destruct n as [n|]; [|inv H; auto]. unfold filter_expression in H. bind_inv H. destruct a as [v c1]. destruct v; inv H.
  eapply eval_extends; eauto.
Qed.
Lemma select_extends w o n ts : forall cs sel cs', buildable w cu_name cu_aliases cs -> select_txns w o n ts cs = Ok (sel, cs') ->
  buildable w cu_name cu_aliases cs' /\ extends w cs cs'.
Proof.
  assert (G : forall t ps cs l cs', buildable w cu_name cu_aliases cs -> select_postings w o n t ps cs = Ok (l, cs') ->
    buildable w cu_name cu_aliases cs' /\ extends w cs cs').
  { intros t. induction ps as [|p ps IH]; cbn [select_postings]; intros cs l cs' B H.
    - inv H. split; [exact B|apply extends_refl].
    - bind_inv H. destruct a as [b c1]. bind_inv H. destruct a as [l1 c2]. inv H.
      destruct (filter_extends _ _ _ _ _ _ _ _ B Hb) as [B1 E1]. destruct (IH _ _ _ B1 Hb0) as [B2 E2]. split; auto. eapply extends_trans; eauto. }
  induction ts as [|t ts IH]; cbn [select_txns]; intros cs sel cs' B H.
  - inv H. split; [exact B|apply extends_refl].
  - bind_inv H. destruct a as [b c1]. bind_inv H. destruct a as [l1 c2]. inv H.
    destruct (G _ _ _ _ _ B Hb) as [B1 E1]. destruct (IH _ _ _ B1 Hb0) as [B2 E2]. split; auto. eapply extends_trans; eauto.
Qed.
Lemma selection_map {A B} (f : A -> B) (P : B -> Prop) (Q : A -> Prop) l l' : (forall x, Q x <-> P (f x)) -> selection Q l l' -> selection P (map f l) (map f l').
Proof. intros E H. induction H; cbn; constructor; auto; rewrite <- E; auto. Qed.
Lemma selection_app {A} (P : A -> Prop) a a' b b' : selection P a a' -> selection P b b' -> selection P (a ++ b) (a' ++ b').
Proof. intros H1 H2. induction H1; cbn; auto; constructor; auto. Qed.

Lemma made_dated w lg : world_ok w -> made_from w lg ->
  lists_built w lg /\ forall t, In t (lg_txns lg) -> exists d, t_date t = Some d.
Proof.
  intros Hw (skip & j & Hp & H). pose proof (parsed_ok w j Hp) as J. pose proof (to_ledger_built w skip j lg Hw J H) as B.
  split; [destruct B; auto|]. intros t Ht.
  destruct (C26_date_order w skip j lg Hw Hp H) as (P & _ & _).
  assert (Hi : In (header t) (map header (journal_txns j))) by (eapply Permutation_in; [symmetry; exact P|apply in_map; auto]).
  apply in_map_iff in Hi. destruct Hi as (t0 & E & Hi). apply filter_In in Hi. destruct Hi as [Hi R].
  pose proof (jo_txns w j J) as D. rewrite Forall_forall in D. apply D in Hi.
  unfold header in E. injection E as E1 _ _ _ _. unfold rtxn_ok, is_real_txn in *. destruct (t_type t0); try discriminate.
  destruct Hi as [(d & Hd) _]. exists d. congruence.
Qed.
Lemma select_adds_none w o q ts cs sel cs' : adds_no_commodity w q -> select_txns w o q ts cs = Ok (sel, cs') -> cs' = cs.
Proof.
  intros N. assert (F : forall t p cs b cs', filter_posting w o q t p cs = Ok (b, cs') -> cs' = cs).
  { intros t p cs0 b cs1 H. unfold filter_posting in H. destruct (_ && _); [inv H; auto|]. bind_inv H. destruct a; [inv H; auto|]. bind_inv H. destruct a; [inv H; auto|].
    destruct q as [n|]; [|inv H; auto]. unfold filter_expression in H. bind_inv H. destruct a as [v cs2]. destruct v; inv H. eapply N; eauto. }
  assert (S : forall t ps cs l cs', select_postings w o q t ps cs = Ok (l, cs') -> cs' = cs).
  { intros t ps. induction ps as [|p ps IH]; intros cs0 l cs1 H; cbn [select_postings] in H; [inv H; auto|]. bind_inv H. destruct a as [b1 k1]. bind_inv H. destruct a as [b2 k2]. inv H.
    apply IH in Hb0. apply F in Hb. congruence. }
  revert cs sel cs'. induction ts as [|t ts IH]; intros cs sel cs' H; cbn [select_txns] in H; [inv H; auto|]. bind_inv H. destruct a as [b1 k1]. bind_inv H. destruct a as [b2 k2]. inv H.
  apply IH in Hb0. apply S in Hb. congruence.
Qed.
Lemma select_reported w o q lg sel cs : world_ok w -> made_from w lg -> select_txns w o q (lg_txns lg) (lg_commodities lg) = Ok (sel, cs) ->
  reported_postings w o q lg (flat_map (fun s => map (Datatypes.pair (fst s)) (snd s)) sel) /\
  (extends w (lg_commodities lg) cs /\ (adds_no_commodity w q -> cs = lg_commodities lg)) /\
  Forall2 (fun t s => fst s = t /\ selection (reported w o q (lg_commodities lg) t) (t_postings t) (snd s)) (lg_txns lg) sel.
Proof.
  intros Hw M H. destruct (made_dated w lg Hw M) as [(B1 & B2 & B3) D].
  pose proof (C40_report_selection w o q _ _ sel cs B2 D H) as S. destruct (select_extends _ _ _ _ _ _ _ B2 H) as [_ E].
  split; [|split; [split; [auto|intros N; eapply select_adds_none; eauto]|auto]]. unfold reported_postings, ledger_postings. clear - S.
  induction S as [|t s ts sel [E S0] S IH]; cbn [flat_map]; [constructor|]. apply selection_app; auto. rewrite E.
  eapply selection_map; [|exact S0]. cbn. tauto.
Qed.
Lemma sel_postings (sel : list (txn posting * list posting)) : map snd (flat_map (fun s => map (Datatypes.pair (fst s)) (snd s)) sel) = flat_map snd sel.
Proof. induction sel as [|s sel IH]; cbn; auto. rewrite map_app, IH, map_map. cbn. rewrite map_id. auto. Qed.
Lemma amounts_subtotal ps P c : moneys_amt (amounts_of ps P) c = subtotal ps P c.
Proof.
  unfold moneys_amt, amounts_of, subtotal. induction (filter (fun p => P (p_account p)) ps) as [|p l IH]; [reflexivity|]. cbn [flat_map map].
  rewrite qsum_cons, map_app, qsum_app, IH. apply (f_equal (fun x => x + _)). unfold amount_in. destruct (p_amount p); [|reflexivity]. cbn [map]. rewrite qsum_cons. change (qsum []) with 0. apply Qcplus_0_r.
Qed.
Lemma converted_id cur ms c : converted (fun _ => None) cur ms c = moneys_amt ms c.
Proof. reflexivity. Qed.

(** ** Converted entries *)
Definition conv_entries (w : world) (site : nat) (mults : list (str * Qc)) (cur : str) (vb : balances) : res balances :=
  mapM (fun e => b <- convert_balance (w_ord w site _ (snd e)) mults cur ;; Ok (fst e, b)) vb.
Lemma conv_entries_ok w site mults cur vb vb1 : world_ok w -> good_map vb -> conv_entries w site mults cur vb = Ok vb1 ->
  hkeys vb1 = hkeys vb /\ good_map vb1 /\
  Forall2 (fun x y => fst y = fst x /\ forall c, bal_amt (snd y) c = converted (fun k => hget str_eqb k mults) cur (map snd (snd x)) c) vb vb1.
Proof.
  intros Hw G H. assert (K : hkeys vb1 = hkeys vb /\ (forall a b, In (a, b) vb1 -> good_bal b) /\
    Forall2 (fun x y => fst y = fst x /\ forall c, bal_amt (snd y) c = converted (fun k => hget str_eqb k mults) cur (map snd (snd x)) c) vb vb1).
  { destruct G as [_ G]. revert vb1 H. unfold conv_entries. induction vb as [|[a b] vb IH]; cbn [mapM]; intros vb1 H.
    - inv H. split; [reflexivity|]. split; [intros x y []|constructor].
    - bind_inv H. bind_inv H. inv H. rename a0 into e, a1 into rest. bind_inv Hb. inv Hb. rename a0 into b1.
      assert (Gb : good_bal b) by (apply (G a); left; auto).
      assert (Pb : Permutation (w_ord w site _ b) b) by apply Hw.
      assert (Go : good_bal (w_ord w site _ b)) by (eapply good_perm; [exact Gb|symmetry; exact Pb]).
      destruct (convert_balance_ok mults cur _ Go) as (b' & E & Gb' & Ea). cbn [snd] in Hb1. rewrite E in Hb1. inv Hb1.
      destruct (IH (fun x y X => G x y (or_intror X)) rest Hb0) as (I1 & I2 & I3). split; [cbn; f_equal; exact I1|]. split.
      + intros x y [X|X]; [inv X; auto|eauto].
      + constructor; auto. cbn [fst snd]. split; auto. intros c. rewrite Ea. apply converted_same. intros c'. rewrite !moneys_bal.
        unfold bal_amt. apply qsum_perm. apply Permutation_map. auto. }
  destruct K as (K1 & K2 & K3). split; auto. split; auto. split; auto. rewrite K1. apply G.
Qed.
Lemma forall2_in_r {A B} (R : A -> B -> Prop) l l' y : Forall2 R l l' -> In y l' -> exists x, In x l /\ R x y.
Proof. induction 1; intros []; subst; [eexists; split; [left; reflexivity|auto]|]. destruct (IHForall2 H1) as (z & Z1 & Z2). eexists; split; [right; exact Z1|auto]. Qed.

Lemma ord_nil w s (b : balance) : world_ok w -> map snd (w_ord w s _ b) = [] -> b = [].
Proof.
  intros Hw X. apply map_eq_nil in X. assert (P : Permutation (w_ord w s _ b) b) by apply Hw. rewrite X in P. apply Permutation_nil in P. auto.
Qed.

Lemma forall2_weaken {A B} (R Q : A -> B -> Prop) l l' : (forall x y, R x y -> Q x y) -> Forall2 R l l' -> Forall2 Q l l'.
Proof. induction 2; constructor; auto. Qed.
(** ** The body of a balance report *)
(** [m]: the balances by account; [vb1]: the entries to print; [tot]: the total. *)
Lemma report_parts w site o flat tot lg r : world_ok w -> made_from w lg -> balance_report w site o flat tot lg = Ok r ->
  exists q tps rate cur bals vb vb1,
    report_data w o lg q tps rate cur /\ foldM add_posting [] (map snd tps) = Ok bals /\
    (if flat then flat_balances w site (o_depth o) bals else Ok (tree_balances w site bals)) = Ok vb /\
    (good_map vb -> good_map vb1 /\ hkeys vb1 = hkeys vb /\
       Forall2 (fun x y => fst y = fst x /\ forall c, bal_amt (snd y) c = converted rate cur (map snd (snd x)) c) vb vb1) /\
    bp_rows r = print_rows (length (stable_sort name_le vb1)) w (1000 + site) flat (o_depth o) (stable_sort name_le vb1) /\
    (bp_total r <> None <-> tot = true /\ (2 <= length (bp_rows r))%nat) /\
    (forall ms, bp_total r = Some ms -> (ms = [MZero] \/ shown_amounts ms /\ ms <> []) /\
       forall c, moneys_amt ms c = converted rate cur (amounts_of (map snd tps) (fun _ => true)) c).
Proof.
  intros Hw M H. unfold balance_report in H. bind_inv H. rename a into q. rename Hb into Hq.
  bind_inv H. destruct a as [sel cs]. rename Hb into Hs. bind_inv H. rename a into bals. rename Hb into Hbals.
  bind_inv H. rename a into vb. rename Hb into Hvb. bind_inv H. destruct a as [mults vb1]. rename Hb into Hconv.
  destruct (select_reported w o q lg sel cs Hw M Hs) as (R1 & (R2 & R2') & _).
  set (tps := flat_map (fun s => map (Datatypes.pair (fst s)) (snd s)) sel) in *.
  assert (Etp : map snd tps = flat_map snd sel) by apply sel_postings.
  unfold account_balances in Hbals. rewrite <- Etp in Hbals.
  destruct (account_balances_ok _ _ _ Hbals) as (G1 & G2 & _ & _); [split; [constructor|intros ? ? []]|].
  assert (HR : exists cur, report_rates w o lg cs (fun k => hget str_eqb k mults) cur /\
    (good_map vb -> good_map vb1 /\ hkeys vb1 = hkeys vb /\
       Forall2 (fun x y => fst y = fst x /\ forall c, bal_amt (snd y) c = converted (fun k => hget str_eqb k mults) cur (map snd (snd x)) c) vb vb1) /\
    forall x, mults <> [] -> o_exchange o = Some x -> forall c, get_unwrap w x cs = Ok c -> cur = cu_name c).
  { assert (Id : mults = [] -> vb1 = vb -> forall cur, good_map vb -> good_map vb1 /\ hkeys vb1 = hkeys vb /\
       Forall2 (fun x y => fst y = fst x /\ forall c, bal_amt (snd y) c = converted (fun k => hget str_eqb k mults) cur (map snd (snd x)) c) vb vb1).
    { intros -> -> cur G. split; auto. split; auto. cbn [hget]. clear. induction vb; constructor; auto. split; auto. intros c. rewrite converted_id, moneys_bal. auto. }
    destruct (o_exchange o) as [x|] eqn:Ex.
    - destruct (l_get w x cs) as [c|e|p] eqn:El; [| |discriminate].
      + bind_inv Hconv. bind_inv Hconv. inv Hconv. exists (cu_name c). split; [|split].
        * eapply rates_found; eauto.
        * intros G. destruct (conv_entries_ok w (103 + site) mults (cu_name c) vb vb1 Hw G Hb0) as (K1 & K2 & K3). auto.
        * intros x0 _ E c0 Hc. inv E. unfold get_unwrap in Hc. rewrite El in Hc. inv Hc. auto.
      + inv Hconv. exists []. split; [|split; [apply Id; auto|congruence]]. apply (rates_unknown w o lg cs x); auto. intros c. congruence.
    - inv Hconv. exists []. split; [|split; [apply Id; auto|congruence]]. apply rates_none; auto. }
  destruct HR as (cur & HR & HV & Hcur).
  exists q, tps, (fun k => hget str_eqb k mults), cur, bals, vb, vb1.
  split; [constructor; eauto|]. split; auto. split; auto. split; auto.
  set (rows := print_rows _ _ _ _ _ _) in *.
  destruct (tot && Nat.ltb 1 (length rows)) eqn:Et.
  - apply andb_prop in Et. destruct Et as [-> Et]. apply Nat.ltb_lt in Et.
    set (total := sum_balances (map snd (w_ord w (104 + site) _ bals))) in *.
    assert (P0 : Permutation (w_ord w (104 + site) _ bals) bals) by apply Hw.
    assert (T : good_bal total /\ forall c, bal_amt total c = moneys_amt (amounts_of (map snd tps) (fun _ => true)) c).
    { destruct (sum_entries_ok (fun _ => true) (w_ord w (104 + site) _ bals)) as [S1 S2].
      - intros a b Hi. eapply G1. eapply Permutation_in; [exact P0|exact Hi].
      - assert (F : filter (fun x : str * balance => true) (w_ord w (104 + site) _ bals) = w_ord w (104 + site) _ bals).
        { generalize (w_ord w (104 + site) _ bals). induction l; cbn; congruence. }
        rewrite F in S1, S2. split; [exact S1|]. intros c. unfold total. rewrite S2, (entries_sum_perm _ _ bals) by auto. rewrite G2, amounts_subtotal.
        change (entries_sum (fun _ => true) [] c) with 0. ring. }
    destruct T as [T1 T2]. bind_inv H. inv H. rename a into total'. rename Hb into Ht.
    assert (T' : good_bal total' /\ forall c, bal_amt total' c = converted (fun k => hget str_eqb k mults) cur (amounts_of (map snd tps) (fun _ => true)) c).
    { destruct mults as [|mu mults'] eqn:Em.
      - inv Ht. split; [exact T1|exact T2].
      - rewrite <- Em in *. bind_inv Ht. bind_inv Ht. rename a into x, a0 into c0.
        assert (Ex : o_exchange o = Some x) by (destruct (o_exchange o); inv Hb; auto).
        assert (Ec : cur = cu_name c0) by (eapply Hcur; eauto; rewrite Em; discriminate). rewrite <- Ec in Ht.
        assert (Pt : Permutation (w_ord w (105 + site) _ total) total) by apply Hw.
        destruct (convert_balance_ok mults cur (w_ord w (105 + site) _ total)) as (b' & E & Gb & Ea); [eapply good_perm; [exact T1|symmetry; exact Pt]|].
        rewrite E in Ht. inv Ht. split; auto. intros c. rewrite Ea. apply converted_same. intros c'. rewrite <- T2. rewrite moneys_bal.
        unfold bal_amt. apply qsum_perm, Permutation_map. auto. }
    destruct T' as [T3 T4]. cbn [bp_rows bp_total]. split; auto. split; [split; [intros _; split; [auto|lia]|discriminate]|].
    intros ms E. inv E. destruct (bal_is_zero total') eqn:Z.
    + split; auto. intros c. rewrite <- T4. unfold moneys_amt. cbn [map]. rewrite qsum_cons. change (money_amt MZero c) with 0. change (qsum []) with 0.
      rewrite (proj1 (good_zero_amt _ T3) Z c). ring.
    + assert (Pt : Permutation (w_ord w (106 + site) _ total') total') by apply Hw.
      split; [right; split|].
      * apply good_shown. eapply good_perm; [exact T3|symmetry; exact Pt].
      * intros X. apply ord_nil in X; auto. subst total'. discriminate.
      * intros c. rewrite moneys_bal, <- T4. unfold bal_amt. apply qsum_perm, Permutation_map. auto.
  - inv H. cbn [bp_rows bp_total]. split; auto. split; [|discriminate].
    split; [congruence|]. intros [-> X]. rewrite andb_true_l in Et. apply Nat.ltb_ge in Et. fold rows in X. lia.
Qed.

(** ** Order of names *)
Definition lt_name (a b : str) : Prop := str_ltb a b = true.
Lemma lt_name_trans a b c : lt_name a b -> lt_name b c -> lt_name a c.
Proof.
  unfold lt_name. rewrite !str_ltb_leb. intros [A1 A2] [B1 B2]. split; [eapply str_leb_trans; eauto|]. intros ->. apply A2. apply str_leb_antisym; auto.
Qed.
Lemma sorted_ascending l : StronglySorted lt_name l <-> ascending l.
Proof.
  split.
  - induction 1 as [|a l S IH F]; [exact I|]. destruct l as [|b l]; [exact I|]. inversion F; subst. split; auto.
  - induction l as [|a l IH]; intros H; [constructor|]. assert (H' : ascending l) by (destruct l; [exact I|apply H]).
    specialize (IH H'). constructor; auto. destruct l as [|b l]; [constructor|]. destruct H as [H _]. constructor; auto.
    inversion IH as [|? ? _ F]; subst. eapply Forall_impl; [|exact F]. intros z Hz. eapply lt_name_trans; eauto.
Qed.
Lemma sorted_entries m : NoDup (hkeys m) -> Permutation (stable_sort name_le m) m /\ StronglySorted lt_name (hkeys (stable_sort name_le m)).
Proof.
  intros Hn. assert (P : Permutation (stable_sort name_le m) m) by apply stable_sort_perm. split; auto.
  assert (S : StronglySorted (fun a b => name_le a b = true) (stable_sort name_le m)) by
    (apply stable_sort_sorted; [intros; apply str_leb_total|intros a b c; apply str_leb_trans]).
  assert (N : NoDup (hkeys (stable_sort name_le m))) by (eapply Permutation_NoDup; [|exact Hn]; symmetry; apply Permutation_map; auto).
  clear P Hn. unfold hkeys in *. induction S as [|x l S IH F]; cbn [map] in *; constructor; inversion N as [|? ? N1 N2]; subst; [auto|].
  apply Forall_forall. intros y Hy. apply in_map_iff in Hy. destruct Hy as (e & <- & Hy). rewrite Forall_forall in F. specialize (F e Hy).
  apply str_ltb_leb. split; [exact F|]. intros E. apply N1. rewrite E. apply in_map. auto.
Qed.

Inductive sublist {A} : list A -> list A -> Prop :=
| sub_nil : sublist [] []
| sub_keep x l l' : sublist l l' -> sublist (x :: l) (x :: l')
| sub_drop x l l' : sublist l l' -> sublist l (x :: l').
Lemma sublist_in {A} (l l' : list A) x : sublist l l' -> In x l -> In x l'.
Proof. induction 1; cbn; intros; tauto. Qed.
Lemma sublist_map {A B} (f : A -> B) l l' : sublist l l' -> sublist (map f l) (map f l').
Proof. induction 1; cbn; constructor; auto. Qed.
Lemma sublist_sorted {A} (R : A -> A -> Prop) l l' : sublist l l' -> StronglySorted R l' -> StronglySorted R l.
Proof.
  induction 1; intros S; auto; inversion S; subst; auto. constructor; auto. rewrite Forall_forall in *. intros y Hy. apply H3. eapply sublist_in; eauto.
Qed.
Lemma sublist_app_l {A} (pre l l' : list A) : sublist l l' -> sublist l (pre ++ l').
Proof. induction pre; cbn; auto. intros. constructor. auto. Qed.
Lemma sublist_refl {A} (l : list A) : sublist l l.
Proof. induction l; constructor; auto. Qed.

(** ** The rows of the tree *)
Lemma leaf_own a : own_part a (leaf a).
Proof.
  unfold own_part, leaf. pose proof (split_nonempty a) as N0. change (split_char c_colon a) with (parts a) in N0.
  pose proof (app_removelast_last [] N0) as E. split.
  - apply (parts_no_colon a). set (z := last (parts a) []) in *. rewrite E. apply in_or_app. right. left. reflexivity.
  - pose proof (join_split a) as J. change (split_char c_colon a) with (parts a) in J. rewrite E in J.
    assert (G : forall (rl : list str) z, join [c_colon] (rl ++ [z]) = a -> a = z \/ exists parent, a = parent ++ L ":" ++ z).
    { intros [|x l] z H; [left; symmetry; exact H|]. right. rewrite join_app in H by discriminate. exists (join [c_colon] (x :: l)). symmetry. exact H. }
    exact (G _ _ J).
Qed.
Lemma nparts_levels a : nparts a = levels a.
Proof. symmetry. apply levels_parts. Qed.
Definition absorbed (g : balances) : str := flat_map (fun x => [c_colon] ++ leaf (fst x)) g.
Lemma collapse_groups account : forall rest n text text' rest', collapse account n text rest = (text', rest') ->
  exists g, rest = g ++ rest' /\ text' = text ++ absorbed g /\ map (fun x => nparts (fst x)) g = seq (n + 1) (length g).
Proof.
  induction rest as [|[name b] rest IH]; intros n text text' rest'; cbn [collapse]; intros H.
  - inv H. exists []; split; [reflexivity|]; split; [symmetry; apply app_nil_r|reflexivity].
  - destruct (Nat.eqb_spec (nparts name) (n + 1)) as [En|]; cbn [negb] in H; [|inv H; exists []; split; [reflexivity|]; split; [symmetry; apply app_nil_r|reflexivity]].
    destruct (sibling_ahead _ _ _); [inv H; exists []; split; [reflexivity|]; split; [symmetry; apply app_nil_r|reflexivity]|].
    apply IH in H. destruct H as (g & -> & -> & E). exists ((name, b) :: g). split; [reflexivity|]. split.
    + unfold absorbed. cbn [flat_map fst]. rewrite <- !app_assoc. auto.
    + cbn [map length seq fst]. rewrite E, En. f_equal. f_equal. lia.
Qed.
Definition tree_row (w : world) (e : str * balance) (g : balances) (r : brow) : Prop :=
  br_indent r = nparts (fst e) /\ br_label r = leaf (fst e) ++ absorbed g /\ exists s, br_moneys r = map snd (w_ord w s _ (snd e)).
Inductive grouped (w : world) (d : option nat) : balances -> list brow -> Prop :=
| gr_nil : grouped w d [] []
| gr_skip a b l rows : (exists k, d = Some k /\ (k < nparts a)%nat) \/ bal_is_zero b = true -> grouped w d l rows -> grouped w d ((a, b) :: l) rows
| gr_row a b g l r rows : (forall k, d = Some k -> (nparts a <= k)%nat) -> bal_is_zero b = false -> tree_row w (a, b) g r ->
    map (fun x => nparts (fst x)) g = seq (nparts a + 1) (length g) ->
    grouped w d l rows -> grouped w d ((a, b) :: g ++ l) (r :: rows).
Lemma print_grouped f w site d l : (length l <= f)%nat -> grouped w d l (print_rows f w site false d l).
Proof.
  revert site l. induction f as [|f IH]; intros site l Hl; [destruct l; [constructor|cbn in Hl; lia]|].
  destruct l as [|[a b] l]; cbn [print_rows]; [constructor|]. cbn in Hl.
  destruct (match d with Some k => Nat.ltb k (nparts a) | None => false end) eqn:Ed.
  - apply gr_skip; [|apply IH; lia]. left. destruct d as [k|]; [|discriminate]. apply Nat.ltb_lt in Ed. eauto.
  - destruct (bal_is_zero b) eqn:Z; [apply gr_skip; [auto|apply IH; lia]|].
    destruct (collapse a (nparts a) (leaf a) l) as [text rest'] eqn:Ec. destruct (collapse_groups _ _ _ _ _ _ Ec) as (g & -> & -> & E).
    apply gr_row; auto.
    + intros k ->. apply Nat.ltb_ge in Ed. auto.
    + split; auto. split; auto. cbn [br_moneys]. eauto.
    + apply IH. rewrite app_length in Hl. lia.
Qed.
Lemma grouped_rows w d l rows : grouped w d l rows -> exists es, sublist es l /\
  Forall2 (fun e r => bal_is_zero (snd e) = false /\ (forall k, d = Some k -> (nparts (fst e) <= k)%nat) /\ exists g, tree_row w e g r) es rows.
Proof.
  induction 1 as [|a b l rows H G (es & I1 & I2)|a b g l r rows Hd Hz T Hg G (es & I1 & I2)].
  - exists []. split; constructor.
  - exists es. split; [constructor|]; auto.
  - exists ((a, b) :: es). split; [constructor; apply sublist_app_l; auto|]. constructor; auto. cbn [fst snd]. eauto.
Qed.
(** Every entry within the depth is at the head of a row or in the label of one. *)
Lemma grouped_all w l rows : grouped w None l rows -> forall a b, In (a, b) l -> bal_is_zero b = false ->
  exists r, In r rows /\ ((exists g, tree_row w (a, b) g r) \/
    exists x y, br_label r = x ++ L ":" ++ leaf a ++ y /\ (br_indent r < nparts a)%nat).
Proof.
  induction 1 as [|a0 b0 l rows H G IH|a0 b0 g l r rows Hd Hz T Hg G IH]; intros a b Hi Hb; [destruct Hi| |].
  - destruct Hi as [E|Hi]; [|auto]. inv E. destruct H as [(k & X & _)|X]; congruence.
  - destruct Hi as [E|Hi]; [inv E; exists r; split; [left; auto|left; eauto]|]. apply in_app_or in Hi. destruct Hi as [Hi|Hi].
    + exists r. split; [left; auto|]. right. destruct T as (T1 & T2 & _). cbn [fst] in *. apply in_split in Hi. destruct Hi as (g1 & g2 & ->).
      exists (leaf a0 ++ absorbed g1), (absorbed g2). split.
      * rewrite T2. unfold absorbed. rewrite flat_map_app. cbn [flat_map fst]. rewrite <- !app_assoc. auto.
      * rewrite T1. assert (X : In (nparts a) (seq (nparts a0 + 1) (length (g1 ++ (a, b) :: g2)))).
        { rewrite <- Hg. rewrite map_app. apply in_or_app. right. left. auto. }
        apply in_seq in X. lia.
    + destruct (IH a b Hi Hb) as (r' & R1 & R2). exists r'. split; [right|]; auto.
Qed.

(** ** When nothing is collapsed *)
Lemma between_prefix a z s : str_leb a z = true -> str_leb z (a ++ s) = true -> exists r, z = a ++ r.
Proof.
  revert z. induction a as [|x a IH]; intros z H1 H2; [exists z; auto|].
  destruct z as [|y z]; [discriminate|]. unfold str_leb in *. cbn in *.
  destruct (N.compare_spec x y) as [->|Hl|Hl]; [|rewrite (proj2 (N.compare_gt_iff y x)) in H2; [discriminate|lia]|discriminate].
  rewrite N.compare_refl in H2. destruct (IH z) as (r & ->); [| |exists r; auto]; unfold str_leb; auto.
Qed.
Lemma sibling_found account n r name2 : forall l1 l2, r = l1 ++ name2 :: l2 -> (forall x, In x l1 -> starts_with account (fst x) = true) ->
  starts_with account (fst name2) = true -> nparts (fst name2) = (n + 1)%nat -> sibling_ahead account n r = true.
Proof.
  revert r. intros r l1. revert r. induction l1 as [|[x bx] l1 IH]; intros r l2 -> H1 H2 H3; cbn [app sibling_ahead].
  - destruct name2 as [m bm]. cbn [fst] in *. rewrite H2, H3, Nat.eqb_refl. auto.
  - pose proof (H1 (x, bx) (or_introl eq_refl)) as X. cbn [fst] in X. rewrite X. cbn [negb]. destruct (Nat.eqb _ _); auto.
    eapply IH; eauto. intros y Hy. apply H1. right. auto.
Qed.
(** Listed names [l], ascending: every parent is listed and has another child. *)
Definition bushy (l : list str) : Prop :=
  forall p x, In (p ++ L ":" ++ x) l -> filter (N.eqb c_colon) x = [] ->
    In p l /\ exists y, y <> x /\ filter (N.eqb c_colon) y = [] /\ In (p ++ L ":" ++ y) l.
Definition plain_name (n : str) : Prop := Forall (fun c => (58 <= c)%N) n.
Lemma no_collapse l0 account b rest n text : StronglySorted lt_name (hkeys (l0 ++ (account, b) :: rest)) ->
  bushy (hkeys (l0 ++ (account, b) :: rest)) -> Forall plain_name (hkeys (l0 ++ (account, b) :: rest)) -> n = nparts account ->
  collapse account n text rest = (text, rest).
Proof.
  intros S B Pn ->. destruct rest as [|[name bn] r]; [reflexivity|]. cbn [collapse].
  destruct (Nat.eqb_spec (nparts name) (nparts account + 1)) as [En|]; cbn [negb]; auto.
  set (full := l0 ++ (account, b) :: (name, bn) :: r) in *.
  assert (In_name : In name (hkeys full)) by (unfold full, hkeys; rewrite map_app; apply in_or_app; right; right; left; auto).
  destruct (leaf_own name) as [Lx [E|(p & E)]].
  { exfalso. rewrite E, !nparts_levels in En. unfold levels in En. rewrite Lx in En. cbn in En. lia. }
  set (x := leaf name) in *. clearbody x.
  rewrite E in In_name. destruct (B p x In_name Lx) as (Ip & y & Hyx & Ly & Iy).
  (* order facts in the sorted list *)
  assert (Hsplit : forall z, In z (hkeys full) -> lt_name account z -> z = name \/ In z (hkeys r)).
  { intros z Hz Hlt. unfold full, hkeys in Hz. rewrite map_app in Hz. cbn [map fst] in Hz. apply in_app_or in Hz.
    assert (Hirr : ~ lt_name z z) by (unfold lt_name; rewrite str_ltb_leb; tauto).
    destruct Hz as [Hz|[Hz|[Hz|Hz]]]; auto; exfalso.
    - unfold full, hkeys in S. rewrite map_app in S. cbn [map fst] in S. clear - S Hz Hlt Hirr.
      induction (map fst l0) as [|k ks IH]; [destruct Hz|]. cbn [app] in S. inversion S as [|? ? S1 S2]; subst. destruct Hz as [->|Hz]; [|auto].
      rewrite Forall_forall in S2. apply Hirr. eapply lt_name_trans; [|exact Hlt]. apply S2. apply in_or_app. right. left. auto.
    - subst z. auto. }
  assert (Hsplit' : forall z, In z (hkeys full) -> lt_name z name -> str_leb z account = true).
  { intros z Hz Hlt. destruct (str_leb z account) eqn:L1; auto. exfalso.
    assert (L2 : lt_name account z).
    { apply str_ltb_leb. destruct (str_leb_total account z) as [X|X]; [|congruence]. split; auto. intros ->. rewrite str_leb_refl in L1. discriminate. }
    destruct (Hsplit z Hz L2) as [->|Hr].
    - unfold lt_name in Hlt. rewrite str_ltb_leb in Hlt. tauto.
    - unfold full, hkeys in S. rewrite map_app in S. cbn [map fst] in S. clear - S Hr Hlt.
      induction (map fst l0) as [|k ks IH]; cbn [app] in S; inversion S as [|? ? S1 S2]; subst; auto.
      inversion S1 as [|? ? S3 S4]; subst. rewrite Forall_forall in S4. specialize (S4 z Hr). pose proof (lt_name_trans _ _ _ S4 Hlt) as X.
      unfold lt_name in X. rewrite str_ltb_leb in X. tauto. }
  assert (Hlt_pre : forall q s, s <> [] -> lt_name q (q ++ s)).
  { intros q s Hs. apply str_ltb_leb. split.
    - unfold str_leb. induction q as [|c q IH]; cbn; [destruct s; auto; congruence|]. rewrite N.compare_refl. auto.
    - intros X. apply (f_equal (@length _)) in X. rewrite app_length in X. destruct s; [congruence|cbn in X; lia]. }
  assert (Hp : account = p).
  { assert (L1 : str_leb p account = true).
    { apply Hsplit'; auto. rewrite E. apply Hlt_pre. discriminate. }
    assert (L2 : lt_name account name).
    { unfold full, hkeys in S. rewrite map_app in S. cbn [map fst] in S. clear - S. induction (map fst l0) as [|k ks IH]; cbn [app] in S; inversion S as [|? ? S1 S2]; subst; auto.
      inversion S2; auto. }
    destruct (between_prefix p account (L ":" ++ x)) as (s & Es); auto.
    { rewrite <- E. unfold lt_name in L2. rewrite str_ltb_leb in L2. tauto. }
    destruct s as [|c s]; [rewrite app_nil_r in Es; auto|]. exfalso.
    assert (Hc : c = c_colon).
    { assert (C1 : (58 <= c)%N).
      { rewrite Forall_forall in Pn. assert (Ia : In account (hkeys full)) by (unfold full, hkeys; rewrite map_app; apply in_or_app; right; left; auto).
        specialize (Pn account Ia). unfold plain_name in Pn. rewrite Es in Pn. apply Forall_app in Pn. destruct Pn as [_ Pn]. inversion Pn; auto. }
      rewrite Es, E in L2. unfold lt_name, str_ltb in L2. clear - L2 C1.
      assert (X : str_cmp (p ++ c :: s) (p ++ L ":" ++ x) = str_cmp (c :: s) (L ":" ++ x)).
      { clear L2. induction p as [|k p IH]; [reflexivity|]. cbn [app str_cmp]. rewrite N.compare_refl. auto. }
      rewrite X in L2. cbn in L2. destruct (N.compare_spec c 58); try discriminate; [auto|lia]. }
    subst c. rewrite E, Es, !nparts_levels in En. change (c_colon :: s) with (L ":" ++ s) in En. rewrite !levels_app in En.
    pose proof (levels_pos s). assert (levels x = 1%nat) by (unfold levels; rewrite Lx; auto). lia. }
  subst p.
  assert (Iy' : In (account ++ L ":" ++ y) (hkeys r)).
  { destruct (Hsplit _ Iy) as [X|X]; auto; [apply Hlt_pre; discriminate|]. exfalso. apply Hyx. rewrite E in X. apply app_inv_head in X. inv X. auto. }
  apply in_map_iff in Iy'. destruct Iy' as ([n2 b2] & E2 & Iy'). cbn [fst] in E2. subst n2.
  apply in_split in Iy'. destruct Iy' as (r1 & r2 & Er).
  rewrite (sibling_found account (nparts account) r (account ++ L ":" ++ y, b2) r1 r2); auto.
  - intros [z bz] Hz. cbn [fst]. apply starts_with_iff. apply (between_prefix account z (L ":" ++ y)).
    + assert (X : In z (hkeys r)) by (rewrite Er; unfold hkeys; rewrite map_app; apply in_or_app; left; apply (in_map fst _ (z, bz)); auto).
      unfold full, hkeys in S. rewrite map_app in S. cbn [map fst] in S. clear - S X.
      induction (map fst l0) as [|k ks IH]; cbn [app] in S; inversion S as [|? ? S1 S2]; subst; auto. rewrite Forall_forall in S2.
      specialize (S2 z (or_intror X)). unfold lt_name in S2. rewrite str_ltb_leb in S2. tauto.
    + unfold full, hkeys in S. rewrite map_app in S. cbn [map fst] in S. rewrite Er, map_app in S. cbn [map fst] in S.
      apply (in_map fst) in Hz. cbn [fst] in Hz. clear - S Hz.
      induction (map fst l0) as [|k ks IH]; cbn [app] in S; inversion S as [|? ? S1 S2]; subst; auto.
      inversion S1 as [|? ? S3 S4]; subst. clear - S3 Hz. induction (map fst r1) as [|k ks IH]; [destruct Hz|]. cbn [app] in S3. inversion S3 as [|? ? S5 S6]; subst.
      destruct Hz as [->|Hz]; auto. rewrite Forall_forall in S6. specialize (S6 (account ++ L ":" ++ y)).
      assert (X : lt_name z (account ++ L ":" ++ y)) by (apply S6; apply in_or_app; right; left; auto). unfold lt_name in X. rewrite str_ltb_leb in X. tauto.
  - cbn [fst]. apply starts_with_iff. eauto.
  - cbn [fst]. rewrite !nparts_levels, levels_app. assert (levels y = 1%nat) by (unfold levels; rewrite Ly; auto). lia.
Qed.
Lemma print_all w d : forall f site l0 l, (length l <= f)%nat ->
  StronglySorted lt_name (hkeys (l0 ++ l)) -> bushy (hkeys (l0 ++ l)) -> Forall plain_name (hkeys (l0 ++ l)) ->
  forall a b, In (a, b) l -> bal_is_zero b = false -> (forall k, d = Some k -> (nparts a <= k)%nat) ->
  exists r s, In r (print_rows f w site false d l) /\ br_indent r = nparts a /\ br_label r = leaf a /\ br_moneys r = map snd (w_ord w s _ b).
Proof.
  induction f as [|f IH]; intros site l0 l Hl S B Pn a b Hi Hz Hd; [destruct l; [destruct Hi|cbn in Hl; lia]|].
  destruct l as [|[a0 b0] l]; [destruct Hi|]. cbn [print_rows]. cbn in Hl.
  assert (Hrec : In (a, b) l -> exists r s, In r (print_rows f w (Datatypes.S site) false d l) /\ br_indent r = nparts a /\ br_label r = leaf a /\ br_moneys r = map snd (w_ord w s _ b)).
  { intros Hi'. apply (IH (Datatypes.S site) (l0 ++ [(a0, b0)]) l); auto; try lia; rewrite <- app_assoc; auto. }
  destruct (match d with Some k => Nat.ltb k (nparts a0) | None => false end) eqn:Ed.
  - destruct Hi as [E|Hi]; [|auto]. inv E. destruct d as [k|]; [|discriminate]. apply Nat.ltb_lt in Ed. specialize (Hd k eq_refl). lia.
  - destruct (bal_is_zero b0) eqn:Z; [destruct Hi as [E|Hi]; [inv E; congruence|auto]|].
    rewrite (no_collapse l0 a0 b0 l (nparts a0) (leaf a0) S B Pn eq_refl).
    destruct Hi as [E|Hi].
    + inv E. eexists. exists site. split; [left; reflexivity|]. cbn. auto.
    + destruct (Hrec Hi) as (r & s & R1 & R2). exists r, s. split; [right; auto|auto].
Qed.

(** ** Ancestors *)
Lemma split_colon a r : parts (a ++ L ":" ++ r) = parts a ++ parts r.
Proof.
  unfold parts. induction a as [|x a IH]; [reflexivity|]. cbn [app split_char]. rewrite IH. destruct (x =? c_colon)%N; [reflexivity|].
  pose proof (split_nonempty a). destruct (split_char c_colon a); [congruence|reflexivity].
Qed.
Lemma prefixes_from_app l1 l2 : forall pre, incl (prefixes_from pre l1) (prefixes_from pre (l1 ++ l2)).
Proof. induction l1 as [|x l1 IH]; intros pre y; cbn; [tauto|]. intros [H|H]; auto. right. apply IH. auto. Qed.
Lemma prefixes_ancestor a n : inside a n = true -> no_lead n -> In a (prefixes n).
Proof.
  intros H N. apply inside_iff in H. destruct H as [->|(r & ->)]; [apply prefixes_self; auto|].
  unfold prefixes. rewrite split_colon. apply prefixes_from_app. apply prefixes_self. intros r' E. apply (N (r' ++ L ":" ++ r)). rewrite E, <- app_assoc. auto.
Qed.
Lemma subtotal_ext ps P Q c : (forall p, In p ps -> P (p_account p) = Q (p_account p)) -> subtotal ps P c = subtotal ps Q c.
Proof.
  induction ps as [|p ps IH]; intros H; [reflexivity|]. rewrite !subtotal_cons, (H p (or_introl eq_refl)), IH; auto. intros x Hx. apply H. right. auto.
Qed.
Lemma subtotal_none ps P c : (forall p, In p ps -> P (p_account p) = false) -> subtotal ps P c = 0.
Proof.
  induction ps as [|p ps IH]; intros H; [reflexivity|]. rewrite !subtotal_cons, (H p (or_introl eq_refl)), IH; [ring|]. intros x Hx. apply H. right. auto.
Qed.
Lemma subtotal_some ps P c : subtotal ps P c <> 0 -> exists p, In p ps /\ P (p_account p) = true.
Proof.
  intros H. destruct (existsb (fun p => P (p_account p)) ps) eqn:E; [apply existsb_exists in E; auto|]. exfalso. apply H. apply subtotal_none.
  intros p Hp. destruct (P (p_account p)) eqn:F; auto. assert (X : existsb (fun p => P (p_account p)) ps = true) by (apply existsb_exists; eauto). congruence.
Qed.
Lemma shown_perm w s (b : balance) : world_ok w -> good_bal b -> shown_amounts (map snd (w_ord w s _ b)) /\
  (bal_is_zero b = false -> map snd (w_ord w s _ b) <> []) /\ forall c, moneys_amt (map snd (w_ord w s _ b)) c = bal_amt b c.
Proof.
  intros Hw G. assert (P : Permutation (w_ord w s _ b) b) by apply Hw. split; [|split].
  - apply good_shown. eapply good_perm; [exact G|symmetry; exact P].
  - intros Z X. apply ord_nil in X; auto. subst. discriminate.
  - intros c. rewrite moneys_bal. unfold bal_amt. apply qsum_perm, Permutation_map. auto.
Qed.
Lemma converted_amounts rate cur b ps P c : (forall c, bal_amt b c = subtotal ps P c) ->
  converted rate cur (map snd b) c = converted rate cur (amounts_of ps P) c.
Proof. intros H. apply converted_same. intros c'. rewrite moneys_bal, amounts_subtotal. auto. Qed.
Lemma empty_good : good_map [].
Proof. split; [constructor|intros ? ? []]. Qed.

(** ** Rows of a tree report *)
Lemma tree_report w site o tot lg r : world_ok w -> made_from w lg -> balance_report w site o false tot lg = Ok r ->
  exists q tps rate cur es, report_data w o lg q tps rate cur /\ StronglySorted lt_name (hkeys es) /\ (forall a b, In (a, b) es -> good_bal b) /\
    grouped w (o_depth o) es (bp_rows r) /\
    bp_rows r = print_rows (length es) w (1000 + site) false (o_depth o) es /\
    (forall a b, In (a, b) es -> (~ begins_with_colon a -> forall c, bal_amt b c = converted rate cur (amounts_of (map snd tps) (inside a)) c) /\
       exists p, In p (map snd tps) /\ (p_account p = a \/ In a (prefixes (p_account p)))) /\
    (forall a c, (forall p, In p (map snd tps) -> ~ begins_with_colon (p_account p)) -> subtotal (map snd tps) (inside a) c <> 0 -> In a (hkeys es)) /\
    (o_exchange o = None -> forall a b, In (a, b) es -> bal_is_zero b = false) /\
    (forall ms, bp_total r = Some ms -> forall c, moneys_amt ms c = converted rate cur (amounts_of (map snd tps) (fun _ => true)) c).
Proof.
  intros Hw M H. destruct (report_parts _ _ _ _ _ _ _ Hw M H) as (q & tps & rate & cur & bals & vb & vb1 & RD & HB & HV & HC & HR & _ & HTT).
  exists q, tps, rate, cur, (stable_sort name_le vb1). inv HV.
  destruct (account_balances_ok _ _ _ HB empty_good) as (G1 & G2 & G3 & _).
  destruct (tree_balances_ok w Hw site bals G1) as (T1 & T2 & T3 & T4).
  destruct (HC T1) as (C1 & C2 & C3). destruct (sorted_entries vb1 (proj1 C1)) as [P S].
  assert (Hin : forall a b, In (a, b) (stable_sort name_le vb1) -> exists b0, In (a, b0) (tree_balances w site bals) /\ forall c, bal_amt b c = converted rate cur (map snd b0) c).
  { intros a b Hi. eapply Permutation_in in Hi; [|exact P]. destruct (forall2_in_r _ _ _ _ C3 Hi) as ([a0 b0] & I1 & E1 & E2). cbn [fst snd] in *. subst a0. eauto. }
  split; auto. split; auto. split; [intros a b Hi; eapply C1; eapply Permutation_in; eauto|].
  split; [rewrite HR; apply print_grouped; auto|]. split; auto. split; [|split; [|split; [|intros ms Em; apply (HTT ms Em)]]].
  - intros a b Hi. destruct (Hin a b Hi) as (b0 & I1 & E). split.
    + intros Hl c. rewrite E. apply converted_amounts. intros c'. destruct (T2 a b0 I1) as [_ X].
      rewrite X by (intros r' Er; apply Hl; exists r'; auto). rewrite G2. change (entries_sum (inside a) [] c') with 0. ring.
    + assert (K : In a (hkeys (tree_balances w site bals))) by (apply (in_map fst _ (a, b0)); auto).
      destruct (T4 a K) as (n & N1 & N2). apply G3 in N1. destruct N1 as [[]|(p & P1 & <-)]. exists p. split; auto.
  - intros a c Hl Hc. destruct (subtotal_some _ _ _ Hc) as (p & P1 & P2).
    assert (K : In a (hkeys (tree_balances w site bals))).
    { apply T3.
      - exists (p_account p). split; [apply G3; right; eauto|]. apply prefixes_ancestor; auto. intros r' Er. apply (Hl p P1). exists r'. auto.
      - exists c. rewrite G2. change (entries_sum (inside a) [] c) with 0. rewrite Qcplus_0_l. auto. }
    rewrite <- C2 in K. eapply Permutation_in; [|exact K]. apply Permutation_map. symmetry. auto.
  - intros Ex a b Hi. destruct (Hin a b Hi) as (b0 & I1 & E). destruct (T2 a b0 I1) as [Z _].
    assert (Gb0 : good_bal b0) by (eapply T1; eauto). assert (Gb : good_bal b) by (eapply C1; eapply Permutation_in; eauto).
    destruct (bal_is_zero b) eqn:Zb; auto. exfalso.
    assert (X : bal_is_zero b0 = true); [|congruence]. apply good_zero_amt; auto. intros c. rewrite <- moneys_bal, <- converted_id with (cur := cur).
    destruct RD as [_ _ (cs & _ & _ & RR)]. assert (rate = fun _ => None) as -> by (inversion RR; congruence). rewrite <- E. apply good_zero_amt; auto.
Qed.
(** ** Rows of a flat report *)
Lemma flat_zero w site m r : flat_balances w site (Some O) m = Ok r -> r = [].
Proof.
  unfold flat_balances. set (b0 := nonzero _). destruct b0 as [|x b0]; [cbn; congruence|]. intros H. exfalso.
  assert (P : Permutation (stable_sort name_le (map (fun x => (truncate_name 0 (fst x), snd x)) (x :: b0))) (map (fun x => (truncate_name 0 (fst x), snd x)) (x :: b0))) by apply stable_sort_perm.
  remember (stable_sort name_le _) as l eqn:El. clear El. destruct l as [|[a v] l].
  - apply Permutation_nil in P. discriminate.
  - assert (Hi : In (a, v) (map (fun x => (truncate_name 0 (fst x), snd x)) (x :: b0))) by (eapply Permutation_in; [exact P|left; auto]).
    apply in_map_iff in Hi. destruct Hi as (y & E & _). inv E. cbn in H. discriminate.
Qed.
Lemma flat_report w site o tot lg r : world_ok w -> made_from w lg -> balance_report w site o true tot lg = Ok r ->
  exists q tps rate cur es, report_data w o lg q tps rate cur /\ StronglySorted lt_name (hkeys es) /\ (forall a b, In (a, b) es -> good_bal b) /\
    Forall2 (fun x r => br_label r = fst x /\ br_indent r = O /\ exists s, br_moneys r = map snd (w_ord w s _ (snd x))) (nonzero es) (bp_rows r) /\
    (forall a b, In (a, b) es -> forall c, bal_amt b c = converted rate cur (amounts_of (map snd tps) (fun n => str_eqb (cut_to (o_depth o) n) a)) c) /\
    (forall a c, subtotal (map snd tps) (fun n => str_eqb (cut_to (o_depth o) n) a) c <> 0 -> In a (hkeys es)) /\
    (forall c, qsum (map (fun x => bal_amt (snd x) c) es) = converted rate cur (amounts_of (map snd tps) (fun _ => true)) c) /\
    (forall ms, bp_total r = Some ms -> forall c, moneys_amt ms c = converted rate cur (amounts_of (map snd tps) (fun _ => true)) c).
Proof.
  intros Hw M H. destruct (report_parts _ _ _ _ _ _ _ Hw M H) as (q & tps & rate & cur & bals & vb & vb1 & RD & HB & HV & HC & HR & _ & HTT).
  exists q, tps, rate, cur, (stable_sort name_le vb1).
  destruct (account_balances_ok _ _ _ HB empty_good) as (G1 & G2 & G3 & _).
  destruct (flat_balances_ok w Hw site _ bals vb HV G1) as (T1 & T2 & T3 & T4 & T5).
  destruct (HC T1) as (C1 & C2 & C3). destruct (sorted_entries vb1 (proj1 C1)) as [P S].
  assert (G2' : forall P c, entries_sum P bals c = subtotal (map snd tps) P c).
  { intros Q c. rewrite G2. change (entries_sum Q [] c) with 0. ring. }
  split; auto. split; auto. split; [intros a b Hi; eapply C1; eapply Permutation_in; eauto|]. split; [|split; [|split; [|split; [|intros ms Em; apply (HTT ms Em)]]]].
  - rewrite HR. apply print_flat; auto. intros a b k Hi Hd.
    assert (K : In a (hkeys vb)) by (rewrite <- C2; apply (in_map fst _ (a, b)); eapply Permutation_in; [exact P|exact Hi]).
    destruct k as [|k]; [rewrite Hd in HV; apply flat_zero in HV; subst vb; destruct K|].
    destruct (T5 a K) as (n & _ & ->). rewrite Hd. cbn [cut_to]. rewrite nparts_levels. eapply shortened_levels; [lia|apply truncate_shortened].
  - intros a b Hi c. eapply Permutation_in in Hi; [|exact P]. destruct (forall2_in_r _ _ _ _ C3 Hi) as ([a0 b0] & I1 & E1 & E2). cbn [fst snd] in *. subst a0.
    rewrite E2. apply converted_amounts. intros c'. rewrite (T2 a b0 I1), G2'. auto.
  - intros a c Hc. assert (K : In a (hkeys vb)) by (apply T4; exists c; rewrite G2'; auto).
    rewrite <- C2 in K. eapply Permutation_in; [|exact K]. apply Permutation_map. symmetry. auto.
  - intros c. transitivity (qsum (map (fun x => bal_amt (snd x) c) vb1)); [apply qsum_perm, Permutation_map; auto|].
    transitivity (converted rate cur (concat (map (fun x => map snd (snd x)) vb)) c).
    + rewrite converted_concat, map_map. f_equal. clear - C3. induction C3 as [|x y l l' [_ E] F IH]; cbn [map]; auto. rewrite IH, E. auto.
    + apply converted_same. intros c'. rewrite amounts_subtotal, <- G2'. unfold moneys_amt. 
      transitivity (entries_sum (fun _ => true) vb c'); [|rewrite T3; apply entries_sum_ext; auto].
      clear. unfold entries_sum. induction vb as [|x vb IH]; [reflexivity|]. cbn [map concat filter]. rewrite map_app, qsum_app, qsum_cons, IH. f_equal.
      fold (moneys_amt (map snd (snd x)) c'). apply moneys_bal.
Qed.
