(** Lemmas about automated transactions and about the whole ledger. *)
From Coq Require Import Lia Sorting.Sorted.
From Verif Require Import Base BaseFacts Numerals Money Alist Comment Txn Peg Grammar Dates Expr Filter Tokens Price
  Ledger Spec MoneyFacts SpecTxn TxnFacts TxnFacts2 PropTxn TokenFacts SpecList AlistFacts JournalFacts SpecLedger LedgerFacts.
Open Scope Z_scope.

Lemma extends_grows {T} w (l l' : alist T) : extends w l l' <-> grows w l l'.
Proof. reflexivity. Qed.
Lemma extends_refl {T} w (l : alist T) : extends w l l.
Proof. apply grows_refl. Qed.
Lemma extends_trans {T} w (a b c : alist T) : extends w a b -> extends w b c -> extends w a c.
Proof. apply grows_trans. Qed.

(** ** Expressions only extend the commodities *)
Definition cs_ok (w : world) (cs : alist currency) : Prop := buildable w cu_name cu_aliases cs.
Lemma any_loop_extends w ev ps : forall cs b cs',
  (forall p cs v cs', cs_ok w cs -> ev p cs = Ok (v, cs') -> cs_ok w cs' /\ extends w cs cs') ->
  cs_ok w cs -> any_loop ev ps cs = Ok (b, cs') -> cs_ok w cs' /\ extends w cs cs'.
Proof.
  intros cs b cs' Hev. revert cs. induction ps as [|p ps IH]; intros cs B H; cbn in H.
  - inv H. split; auto. apply extends_refl.
  - bind_inv H. destruct a as [v cs1]. destruct (Hev _ _ _ _ B Hb) as [B1 G1].
    destruct v; try discriminate. destruct b0.
    + inv H. auto.
    + destruct (IH _ B1 H) as [B2 G2]. split; auto. eapply extends_trans; eauto.
Qed.
Lemma eval_extends w n : forall p t cs v cs',
  cs_ok w cs -> eval w n p t cs = Ok (v, cs') -> cs_ok w cs' /\ extends w cs cs'.
Proof.
  induction n; intros p t cs v cs' B H; cbn [eval] in H;
    try (inv H; split; [auto|apply extends_refl]); try (bind_inv H; inv H; split; [auto|apply extends_refl]).
  - destruct (lwf_get_cases w cu_name cur cs (buildable_lwf w cu_name cu_aliases cs B)) as [(e & Hi & E)|E]; rewrite E in H; inv H.
    + split; [auto|apply extends_refl].
    + destruct (insert_new_grows w cu_name cu_aliases (currency_from cur) cs B) as [G R]; auto.
      * cbn. rewrite E. discriminate.
      * split; [apply buildable_insert; auto|exact G].
  - bind_inv H. destruct a as [v1 cs1]. destruct (IHn _ _ _ _ _ B Hb) as [B1 G1].
    destruct op; try (bind_inv H; inv H; auto).
    destruct a as [b cs2]. inv H1. 
    destruct (any_loop_extends w _ _ _ _ _ (fun p cs v cs' => IHn p t cs v cs') B1 Hb0) as [B2 G2].
    split; auto. eapply extends_trans; eauto.
  - bind_inv H. destruct a as [v1 cs1]. bind_inv H. destruct a as [v2 cs2]. bind_inv H. inv H.
    destruct (IHn1 _ _ _ _ _ B Hb) as [B1 G1]. destruct (IHn2 _ _ _ _ _ B1 Hb0) as [B2 G2].
    split; auto. eapply extends_trans; eauto.
Qed.

(** ** The state of the rules *)
Definition as_ok (w : world) (s : astate) : Prop :=
  buildable w ac_name ac_aliases (as_accs s) /\ cs_ok w (as_curs s) /\ buildable w py_name py_aliases (as_pays s).
Definition as_le (w : world) (s s' : astate) : Prop :=
  extends w (as_accs s) (as_accs s') /\ extends w (as_curs s) (as_curs s') /\ extends w (as_pays s) (as_pays s').
Lemma as_le_refl w s : as_le w s s.
Proof. split; [apply extends_refl|split; apply extends_refl]. Qed.
Lemma as_le_trans w a b c : as_le w a b -> as_le w b c -> as_le w a c.
Proof. intros (A1 & A2 & A3) (B1 & B2 & B3). split; [|split]; eapply extends_trans; eauto. Qed.

Lemma ensure_acc_ok w l n : buildable w ac_name ac_aliases l ->
  exists l', ensure_acc w l n = Ok l' /\ buildable w ac_name ac_aliases l' /\ extends w l l' /\ resolves w l' n.
Proof. apply (ensure_ok w ac_name ac_aliases account_from (fun _ => eq_refl) (fun _ => eq_refl)). Qed.
Lemma ensure_cur_ok w l n : buildable w cu_name cu_aliases l ->
  exists l', ensure_cur w l n = Ok l' /\ buildable w cu_name cu_aliases l' /\ extends w l l' /\ resolves w l' n.
Proof. apply (ensure_ok w cu_name cu_aliases currency_from (fun _ => eq_refl) (fun _ => eq_refl)). Qed.
Lemma ensure_pay_ok w l n : buildable w py_name py_aliases l ->
  exists l', ensure_pay w l n = Ok l' /\ buildable w py_name py_aliases l' /\ extends w l l' /\ resolves w l' n.
Proof. apply (ensure_ok w py_name py_aliases payee_from (fun _ => eq_refl) (fun _ => eq_refl)). Qed.

Lemma auto_posting_spec w t p s ap q s' : as_ok w s -> auto_posting w t p s ap = Ok (q, s') ->
  as_ok w s' /\ as_le w s s' /\ In (p_account q) (map ac_name (l_values (as_accs s'))) /\
  forall from upto, as_le w from s -> as_le w s' upto -> rule_posting w from upto t p ap q.
Proof.
  intros (B1 & B2 & B3) H. unfold auto_posting in H. 
  destruct (ensure_acc_ok w (as_accs s) (rp_account ap) B1) as (al & E1 & B1' & G1 & (a & Ra & Ia)).
  rewrite E1 in H. cbn [bind] in H.
  assert (P : exists pay pl, match rp_payee ap with
                | Some x => pl <- ensure_pay w (as_pays s) x ;;
                            y <- get_unwrap w x pl ;; Ok (Some (py_name y), pl)
                | None => Ok (p_payee p, as_pays s)
                end = Ok (pay, pl) /\ buildable w py_name py_aliases pl /\ extends w (as_pays s) pl /\
                match rp_payee ap with
                | Some x => exists y, l_get w x pl = Ok y /\ pay = Some (py_name y)
                | None => pay = p_payee p
                end).
  { destruct (rp_payee ap) as [x|].
    - destruct (ensure_pay_ok w (as_pays s) x B3) as (pl & -> & B & G & (y & Ry & Iy)). cbn [bind].
      rewrite (get_unwrap_ok _ _ _ _ Ry). cbn. do 2 eexists. split; [reflexivity|]. split; [auto|]. split; auto. eauto.
    - do 2 eexists. split; [reflexivity|]. split; [auto|]. split; [apply extends_refl|auto]. }
  destruct P as (pay & pl & EP & B3' & G3 & HP). rewrite EP in H. cbn [bind] in H.
  rewrite (get_unwrap_ok _ _ _ _ Ra) in H. cbn [bind] in H. bind_inv H. destruct a0 as [m cs]. inv H.
  assert (M : cs_ok w cs /\ extends w (as_curs s) cs /\
     forall from upto, extends w from (as_curs s) -> extends w cs upto -> rule_amount w from upto t p ap m).
  { unfold rule_amount. destruct (rp_money ap) as [[q0 c]|].
    - destruct c as [|c0 c].
      + bind_inv Hb. bind_inv Hb. inv Hb. split; auto. split; [apply extends_refl|]. intros from upto _ _.
        destruct (p_amount p) as [m0|]; [|discriminate]. inv Hb0. destruct a0 as [|x y]; [discriminate|]. inv Hb1.
        eexists _, _. split; reflexivity.
      + destruct (ensure_cur_ok w (as_curs s) (c0 :: c) B2) as (cs1 & E & B & G & (x & Rx & Ix)).
        rewrite E in Hb. cbn [bind] in Hb. rewrite (get_unwrap_ok _ _ _ _ Rx) in Hb. inv Hb.
        split; auto. split; auto. intros from upto _ U. exists x. split; auto. apply U. auto.
    - bind_inv Hb. unfold eval_value_expression in Hb. bind_inv Hb. bind_inv Hb. destruct a2 as [v cs2].
      destruct (eval_extends _ _ _ _ _ _ _ B2 Hb2) as [B G].
      assert (Ee : rp_expr ap = Some a0). { destruct (rp_expr ap); inv Hb0. auto. }
      destruct v; try discriminate.
      + bind_inv Hb. inv Hb. split; auto. split; auto. intros from upto F U. exists a0, a1. split; auto. split; auto.
        right. exists q, a2. split; [exists (as_curs s), cs; auto|]. split; auto. destruct (p_amount p); inv Hb3; auto.
      + inv Hb. split; auto. split; auto. intros from upto F U. exists a0, a1. split; auto. split; auto.
        left. exists (as_curs s), cs. auto. }
  destruct M as (B2' & G2 & HM).
  split; [split; [|split]; cbn; auto|]. split; [split; [|split]; cbn; auto|].
  split. { cbn. apply in_map. auto. }
  intros from upto (F1 & F2 & F3) (U1 & U2 & U3). cbn in U1, U2, U3. unfold rule_posting. cbn.
  split. { exists a. split; auto. apply U1. auto. }
  split. { destruct (rp_payee ap); auto. destruct HP as (y & Ry & ->). exists y. split; auto. apply U3. auto. }
  split. { exists m. split; auto. }
  auto 10.
Qed.
Lemma known_le w s s' n : as_le w s s' -> In n (map ac_name (l_values (as_accs s))) -> In n (map ac_name (l_values (as_accs s'))).
Proof.
  intros (G & _) H. apply in_map_iff in H. destruct H as (a & <- & Ha). apply in_map. apply G. auto.
Qed.
Lemma auto_postings_spec w t p aps : forall s qs s', as_ok w s -> auto_postings w t p s aps = Ok (qs, s') ->
  as_ok w s' /\ as_le w s s' /\ Forall (fun q => In (p_account q) (map ac_name (l_values (as_accs s')))) qs /\
  forall from upto, as_le w from s -> as_le w s' upto -> Forall2 (rule_posting w from upto t p) aps qs.
Proof.
  induction aps as [|ap aps IH]; intros s qs s' B H; cbn in H.
  - inv H. split; auto. split; [apply as_le_refl|]. split; constructor.
  - bind_inv H. destruct a as [x s1]. bind_inv H. destruct a as [xs s2]. inv H.
    destruct (auto_posting_spec _ _ _ _ _ _ _ B Hb) as (B1 & G1 & K1 & R1).
    destruct (IH _ _ _ B1 Hb0) as (B2 & G2 & K2 & R2).
    split; auto. split; [eapply as_le_trans; eauto|]. split.
    + constructor; auto. eapply known_le; eauto.
    + intros from upto F U. constructor.
      * apply R1; auto. eapply as_le_trans; eauto.
      * apply R2; auto. eapply as_le_trans; eauto.
Qed.
Lemma add_tags_tagged tags p : add_tags tags p = tagged tags p.
Proof. reflexivity. Qed.

Lemma auto_scan_spec w t query rule todo : forall s done extra ps ex s',
  as_ok w s -> auto_scan w t query rule s done todo extra = Ok (ps, ex, s') ->
  as_ok w s' /\ as_le w s s' /\
  exists tg ad, ps = done ++ tg /\ ex = extra ++ ad /\
    Forall (fun q => In (p_account q) (map ac_name (l_values (as_accs s')))) ad /\
    forall from upto, as_le w from s -> as_le w s' upto -> rule_pass w from upto query rule t done todo tg ad.
Proof.
  induction todo as [|p r IH]; intros s done extra ps ex s' B H; cbn [auto_scan] in H.
  - inv H. split; auto. split; [apply as_le_refl|]. exists [], []. rewrite !app_nil_r. repeat (split; auto). constructor.
  - destruct (is_from_txn (p_origin p)) eqn:Eo; cbn [negb] in H.
    + bind_inv H. destruct a as [b cs]. unfold filter_expression in Hb. bind_inv Hb. destruct a as [v cs1].
      destruct v as [| |b0| | | | | |]; try discriminate. inv Hb.
      destruct B as (B1 & B2 & B3). destruct (eval_extends _ _ _ _ _ _ _ B2 Hb0) as [B2' G2].
      assert (BB : as_ok w (with_curs s cs)) by (split; [|split]; cbn; auto).
      assert (GG : as_le w s (with_curs s cs)) by (split; [|split]; cbn; auto; apply extends_refl).
      assert (No : p_origin p = FromTransaction) by (destruct (p_origin p); cbn in *; congruence).
      destruct b.
      * bind_inv H. destruct a as [new s2].
        destruct (auto_postings_spec _ _ _ _ _ _ _ BB Hb) as (B4 & G4 & K4 & R4).
        apply IH in H; auto. destruct H as (B5 & G5 & tg & ad & -> & -> & K5 & R5).
        split; auto. split; [eapply as_le_trans; [exact GG|]; eapply as_le_trans; eauto|].
        exists (tagged (flat_map get_tags (t_comments rule)) p :: tg), (new ++ ad). rewrite <- !app_assoc. split; auto. split; auto.
        split.
        { apply Forall_app. split; auto. eapply Forall_impl; [|exact K4]. cbn. intros q Hq. eapply known_le; eauto. }
        intros from upto F U. eapply rp_matched; auto.
        -- exists (as_curs s), cs. split; [apply F|]. split; auto. 
           eapply extends_trans; [apply G4|]. eapply extends_trans; [apply G5|apply U].
        -- rewrite <- (add_tags_tagged). apply R4.
           ++ eapply as_le_trans; eauto.
           ++ eapply as_le_trans; eauto.
        -- rewrite <- (add_tags_tagged). apply R5; auto. eapply as_le_trans; [exact F|]. eapply as_le_trans; eauto.
      * apply IH in H; auto. destruct H as (B5 & G5 & tg & ad & -> & -> & K5 & R5).
        split; auto. split; [eapply as_le_trans; eauto|].
        exists (p :: tg), ad. rewrite <- !app_assoc. split; auto. split; auto. split; auto.
        intros from upto F U. eapply rp_unmatched; auto.
        -- exists (as_curs s), cs. split; [apply F|]. split; auto. eapply extends_trans; [apply G5|apply U].
        -- apply R5; auto. eapply as_le_trans; eauto.
    + apply IH in H; auto. destruct H as (B5 & G5 & tg & ad & -> & -> & K5 & R5).
      split; auto. split; auto. exists (p :: tg), ad. rewrite <- !app_assoc. split; auto. split; auto. split; auto.
      intros from upto F U. apply rp_automated; auto. destruct (p_origin p); cbn in *; congruence.
Qed.

Lemma rules_known w s s' (ps : list posting) : as_le w s s' ->
  Forall (fun q => In (p_account q) (map ac_name (l_values (as_accs s)))) ps ->
  Forall (fun q => In (p_account q) (map ac_name (l_values (as_accs s')))) ps.
Proof. intros G. apply Forall_impl. intros q Hq. eapply known_le; eauto. Qed.
Lemma pass_accounts w from upto query rule t done todo tg ad :
  rule_pass w from upto query rule t done todo tg ad -> map p_account tg = map p_account todo.
Proof. induction 1; cbn; auto; try congruence. subst. cbn. congruence. Qed.
Lemma Forall_map_accounts (P : str -> Prop) (l l' : list posting) : map p_account l = map p_account l' ->
  Forall (fun q => P (p_account q)) l' -> Forall (fun q => P (p_account q)) l.
Proof. intros E H. rewrite <- Forall_map in *. rewrite E. auto. Qed.

Lemma rules_pass_spec w rs : forall t s t' s', as_ok w s -> foldM (auto_one w) (t, s) rs = Ok (t', s') ->
  as_ok w s' /\ as_le w s s' /\
  (Forall (fun q => In (p_account q) (map ac_name (l_values (as_accs s)))) (t_postings t) ->
   Forall (fun q => In (p_account q) (map ac_name (l_values (as_accs s')))) (t_postings t')) /\
  forall from upto, as_le w from s -> as_le w s' upto -> rules_pass w from upto rs t t'.
Proof.
  induction rs as [|[query rule] rs IH]; intros t s t' s' B H; cbn [foldM] in H.
  - inv H. split; auto. split; [apply as_le_refl|]. split; auto. intros. constructor.
  - bind_inv H. destruct a as [t1 s1]. unfold auto_one in Hb. bind_inv Hb. destruct a as [[ps ex] s2]. inv Hb.
    cbn [fst snd] in Hb0. destruct (auto_scan_spec _ _ _ _ _ _ _ _ _ _ _ B Hb0) as (B1 & G1 & tg & ad & -> & -> & K1 & R1).
    cbn [app] in H. apply IH in H; auto. destruct H as (B2 & G2 & K2 & R2). split; auto.
    split; [eapply as_le_trans; eauto|]. split.
    + intros K. apply K2. cbn. apply Forall_app. split; auto.
      eapply (Forall_map_accounts (fun n => In n (map ac_name (l_values (as_accs s1))))).
      * eapply pass_accounts. apply (R1 s s1); apply as_le_refl.
      * eapply rules_known; eauto.
    + intros from upto F U. econstructor.
      * apply R1; auto. eapply as_le_trans; eauto.
      * apply R2; auto. eapply as_le_trans; eauto.
Qed.
Lemma auto_all_spec w rs ts : forall s ts' s', as_ok w s -> auto_all w rs ts s = Ok (ts', s') ->
  as_ok w s' /\ as_le w s s' /\
  (Forall (fun t => Forall (fun q => In (p_account q) (map ac_name (l_values (as_accs s)))) (t_postings t)) ts ->
   Forall (fun t => Forall (fun q => In (p_account q) (map ac_name (l_values (as_accs s')))) (t_postings t)) ts') /\
  forall from upto, as_le w from s -> as_le w s' upto -> Forall2 (rules_pass w from upto rs) ts ts'.
Proof.
  induction ts as [|t ts IH]; intros s ts' s' B H; cbn [auto_all] in H.
  - inv H. split; auto. split; [apply as_le_refl|]. split; auto.
  - bind_inv H. destruct a as [t1 s1]. bind_inv H. destruct a as [r' s2]. inv H.
    destruct (rules_pass_spec _ _ _ _ _ _ B Hb) as (B1 & G1 & K1 & R1).
    destruct (IH _ _ _ B1 Hb0) as (B2 & G2 & K2 & R2).
    split; auto. split; [eapply as_le_trans; eauto|]. split.
    + intros K. inv K. constructor; [eapply rules_known; eauto|]. apply K2.
      eapply Forall_impl; [|exact H2]. intros t0 Ht0. eapply rules_known; eauto.
    + intros from upto F U. constructor.
      * apply R1; auto. eapply as_le_trans; eauto.
      * apply R2; auto. eapply as_le_trans; eauto.
Qed.

(** ** What rules leave alone *)
Lemma pass_good w from upto query rule t done todo tg ad :
  rule_pass w from upto query rule t done todo tg ad -> Forall good_posting todo -> Forall good_posting (tg ++ ad).
Proof.
  intros H. assert (X : Forall good_posting todo -> Forall good_posting tg /\ Forall good_posting ad).
  { induction H; intros F.
    - split; constructor.
    - inv F. destruct IHrule_pass; auto.
    - inv F. destruct IHrule_pass; auto.
    - inv F. destruct IHrule_pass as [I1 I2]; auto. split; [constructor; auto|].
      apply Forall_app. split; auto. clear -H2. induction H2; constructor; auto.
      destruct H as (_ & _ & _ & _ & _ & H & _). unfold good_posting. rewrite H. auto. }
  intros F. apply Forall_app. auto.
Qed.
Lemma rules_pass_good w from upto rs t t' : rules_pass w from upto rs t t' ->
  same_header t t' /\ (good_txn t -> good_txn t').
Proof.
  induction 1.
  - split; [repeat split|auto].
  - destruct IHrules_pass as [I1 I2]. split.
    + unfold same_header in *. cbn in I1. exact I1.
    + intros G. apply I2. unfold good_txn. cbn. apply Forall_forall. eapply pass_good; [exact H|]. apply Forall_forall. exact G.
Qed.

(** ** Sorting by date *)
Lemma date_le_total (a b : txn posting) : (date_of a <=? date_of b) = true \/ (date_of b <=? date_of a) = true.
Proof. rewrite !Z.leb_le. lia. Qed.
Lemma sort_txns_perm ts : Permutation ts (sort_txns ts).
Proof. symmetry. apply stable_sort_perm. Qed.

Definition all_dated {P} (ts : list (txn P)) : Prop := Forall (fun t => t_date t <> None) ts.
Lemma sort_txns_sorted ts : all_dated ts -> date_sorted ts (sort_txns ts).
Proof.
  intros HD. split; [apply sort_txns_perm|]. split.
  - assert (HD' : all_dated (sort_txns ts)).
    { unfold all_dated. eapply Permutation_Forall; [apply sort_txns_perm|exact HD]. }
    assert (S : StronglySorted (fun a b : txn posting => (date_of a <=? date_of b) = true) (sort_txns ts)).
    { apply stable_sort_sorted; [exact date_le_total|]. intros a b c. rewrite !Z.leb_le. lia. }
    induction S as [|a l S IH F]; [constructor|]. inv HD'. constructor; auto.
    rewrite Forall_forall in *. intros x Hx. specialize (F x Hx). specialize (H2 x Hx). apply Z.leb_le in F.
    unfold not_after, date_of in *. destruct (t_date a), (t_date x); congruence.
  - intros d.
    set (z := {| t_date := Some d; t_edate := None; t_cleared := CUnknown; t_code := None; t_desc := []; t_payee := None;
                 t_postings := @nil posting; t_comments := []; t_type := TReal; t_tags := [] |}).
    assert (E : forall l : list (txn posting), all_dated l -> filter (dated d) l =
       filter (fun b => (date_of z <=? date_of b) && (date_of b <=? date_of z)) l).
    { intros l HL. apply filter_ext_in. intros t Ht. unfold all_dated in HL. rewrite Forall_forall in HL. specialize (HL t Ht).
      unfold dated, date_of. cbn. destruct (t_date t) as [d'|]; [|congruence].
      destruct (Z.eqb_spec d' d), (Z.leb_spec d d'), (Z.leb_spec d' d); cbn; auto; lia. }
    rewrite !E; auto.
    + apply (stable_sort_stable (fun a b : txn posting => (date_of a <=? date_of b))). intros a b c. rewrite !Z.leb_le. lia.
    + unfold all_dated. eapply Permutation_Forall; [apply sort_txns_perm|exact HD].
Qed.

(** ** The parts of the read phase *)
Lemma raw_parts w al pays cs ts raw : Forall2 (raw_ok w al pays cs) ts raw ->
  let rts := flat_map (fun x : raw_result => fst (fst x)) raw in
  Forall2 (reads_txn w al pays cs) (filter is_real_txn ts) rts /\
  flat_map (fun x : raw_result => snd (fst x)) raw = filter is_rule ts /\
  all_dated rts /\ Forall good_txn rts /\
  (forall t p, In t rts -> In p (t_postings t) -> p_origin p = FromTransaction) /\
  Forall2 (fun dp pr => exists d, fst dp = Some d /\ implied_price w cs d (snd dp) pr)
    (flat_map (fun t => map (Datatypes.pair (t_date t)) (filter has_cost (t_postings t))) (filter is_real_txn ts))
    (flat_map snd raw).
Proof.
  induction 1 as [|t r ts raw H _ IH]; cbn.
  - repeat split; try constructor. intros t p [].
  - destruct IH as (I1 & I2 & I3 & I4 & I5 & I6). unfold raw_ok in H.
    assert (Er : is_real_txn t = match t_type t with TReal => true | _ => false end) by reflexivity.
    assert (Eu : is_rule t = match t_type t with TAutomated => true | _ => false end) by reflexivity.
    rewrite Er, Eu. clear Er Eu.
    destruct (t_type t) eqn:Et; [|subst r; cbn|contradiction].
    + destruct H as (t' & prs & d & -> & Ed & R & _ & G & O & P). cbn. split; [constructor; auto|]. split; auto.
      split.
      { constructor; auto. destruct R as [R _]. unfold header in R. inv R. congruence. }
      split; [constructor; auto|]. split.
      { intros t0 p [<-|Ht0] Hp; eauto. }
      apply Forall2_app; auto. clear -P Ed. rewrite Ed. induction P; cbn; constructor; auto. exists d. auto.
    + split; auto. split; [f_equal; auto|]. auto.
Qed.

Lemma fresh_keys al acc b : hget str_eqb acc (fresh_balances al) = Some b -> b = bal_new.
Proof.
  unfold fresh_balances. induction (l_values al) as [|a l IH]; cbn; [discriminate|].
  destruct (str_eqb acc (ac_name a)); [congruence|auto].
Qed.
Lemma fresh_known al acc : In acc (map ac_name (l_values al)) -> known (fresh_balances al) acc.
Proof.
  unfold fresh_balances, known. induction (l_values al) as [|a l IH]; cbn; [intros []|].
  destruct (str_eqb_spec acc (ac_name a)); [congruence|]. intros [E|H]; [congruence|auto].
Qed.
Lemma fresh_good al : good_bals (fresh_balances al).
Proof. intros acc b E. rewrite (fresh_keys _ _ _ E). constructor. Qed.
Lemma fresh_zero al acc c : run_amt (fresh_balances al) acc c = 0%Qc.
Proof.
  unfold run_amt. destruct (hget str_eqb acc (fresh_balances al)) eqn:E; auto. rewrite (fresh_keys _ _ _ E). reflexivity.
Qed.
Definition accounts_in (al : alist account) (t : txn posting) : Prop :=
  Forall (fun q => In (p_account q) (map ac_name (l_values al))) (t_postings t).
Lemma reads_accounts w al pays cs ts ts' : Forall2 (reads_txn w al pays cs) ts ts' -> Forall (accounts_in al) ts'.
Proof.
  induction 1 as [|t t' ts ts' (_ & H & _) _ IH]; constructor; auto. unfold accounts_in. clear -H.
  induction H as [|p p' ps ps' H _ IH]; constructor; auto.
  destruct H as (_ & _ & _ & _ & _ & a & -> & Ha & _). apply in_map. auto.
Qed.

(** ** Transactions after balancing *)
Lemma ledger_txn_good skip run t t' prs : ledger_txn skip run t t' prs -> good_txn t -> good_txn t'.
Proof.
  intros (_ & _ & (kept & fills & E & K & F & _) & _) G p Hp. rewrite E in Hp. rewrite !in_app_iff in Hp.
  destruct Hp as [Hp|[Hp|Hp]].
  - assert (X : Forall good_posting (filter (given skip) (t_postings t))).
    { apply Forall_forall. intros q Hq. apply filter_In in Hq. apply G. tauto. }
    clear -K Hp X. induction K as [|q q' l l' H _ IH]; [destruct Hp|]. inv X. destruct Hp as [<-|Hp]; auto.
    destruct H as (_ & _ & C & _ & _ & _ & _ & A1 & A2). unfold good_posting in *. rewrite C.
    destruct (p_cost q); auto. destruct H2 as [H4 H5]. split; auto. rewrite A2; auto. destruct (p_amount q); congruence.
  - apply F in Hp. unfold good_posting. destruct Hp as (_ & -> & _). auto.
  - apply filter_In in Hp. apply G. tauto.
Qed.
Lemma ledger_txn_accounts skip run t t' prs al : ledger_txn skip run t t' prs -> accounts_in al t -> accounts_in al t'.
Proof.
  intros (_ & _ & (kept & fills & E & K & F & _) & _) G. unfold accounts_in in *. rewrite E, !Forall_app. split; [|split].
  - assert (X : Forall (fun q => In (p_account q) (map ac_name (l_values al))) (filter (given skip) (t_postings t))).
    { rewrite Forall_forall in *. intros q Hq. apply filter_In in Hq. apply G. tauto. }
    clear -K X. induction K as [|q q' l l' H _ IH]; constructor; inv X; auto. destruct H as (-> & _). auto.
  - rewrite Forall_forall in *. intros q Hq. apply F in Hq. destruct Hq as (_ & _ & _ & _ & _ & p & Hp & -> & _).
    apply G. assert (X : In p (filter (elided skip) (t_postings t))) by (rewrite Hp; left; auto). apply filter_In in X. tauto.
  - rewrite Forall_forall in *. intros q Hq. apply filter_In in Hq. apply G. tauto.
Qed.
Lemma ledger_run_good skip run ts ts' prs : ledger_run skip run ts ts' prs -> Forall good_txn ts -> Forall good_txn ts'.
Proof. induction 1; intros F; inv F; constructor; auto. eapply ledger_txn_good; eauto. Qed.
Lemma ledger_run_accounts skip run ts ts' prs al : ledger_run skip run ts ts' prs -> Forall (accounts_in al) ts -> Forall (accounts_in al) ts'.
Proof. induction 1; intros F; inv F; constructor; auto. eapply ledger_txn_accounts; eauto. Qed.
Lemma same_header_dated ts ts' : Forall2 same_header ts ts' -> all_dated ts -> all_dated ts'.
Proof. unfold all_dated. induction 1; intros F; inv F; constructor; auto. destruct H as (-> & _). auto. Qed.
Lemma accounts_known al ts : Forall (accounts_in al) ts ->
  forall t p, In t ts -> In p (t_postings t) -> known (fresh_balances al) (p_account p).
Proof.
  intros F t p Ht Hp. apply fresh_known. rewrite Forall_forall in F. specialize (F t Ht). unfold accounts_in in F.
  rewrite Forall_forall in F. auto.
Qed.

(** ** The whole construction *)
Lemma mention_account l n : In n (account_names l) -> mentions_account l n.
Proof.
  intros H. apply account_names_iff in H. destruct H as (p & H & ->). unfold all_postings in H. apply in_flat_map in H.
  destruct H as (t & Ht & Hp). exists t, p. auto.
Qed.
Lemma mention_payee l n : In n (payee_names l) -> mentions_payee l n.
Proof.
  intros H. apply payee_names_iff in H. destruct H as (p & H & E). unfold all_postings in H. apply in_flat_map in H.
  destruct H as (t & Ht & Hp). exists t, p. auto.
Qed.
Lemma mention_commodity l n : In n (commodity_names l) -> mentions_commodity l n.
Proof.
  intros H. apply commodity_names_iff in H. destruct H as [(p & Hp & H)|(p & q & H & E)].
  - left. exists p. tauto.
  - right. unfold all_postings in H. apply in_flat_map in H. destruct H as (t & Ht & Hp). exists t, p, q. tauto.
Qed.
Lemma in_eqb n (l : list str) : existsb (str_eqb n) l = true -> In n l.
Proof. intros H. apply existsb_exists in H. destruct H as (x & Hx & E). apply str_eqb_eq in E. subst. auto. Qed.
Lemma new_names w l cs al pays : names_ok w l cs al pays ->
  named_after w account_from (mentions_account l) (pl_accounts l) al /\
  named_after w currency_from (mentions_commodity l) (pl_commodities l) cs /\
  payees_after w (mentions_payee l) (pl_payees l) pays.
Proof.
  intros [_ _ _ _ _ _ _ _ _ [C1 C2] [A1 A2] [P1 P2]]. split; [split|split; split].
  - intros k e E. destruct (A1 k e E) as [X|(X & m & Y & Z)]; auto. right. split; auto. exists m. split; auto. apply mention_account. auto.
  - intros e E. destruct (A2 e E) as [X|(m & Y & Z)]; auto. right. exists m. split; auto. apply mention_account. auto.
  - intros k e E. destruct (C1 k e E) as [X|(X & m & Y & Z)]; auto. right. split; auto. exists m. split; auto. apply mention_commodity. auto.
  - intros e E. destruct (C2 e E) as [X|(m & Y & Z)]; auto. right. exists m. split; auto. apply mention_commodity. auto.
  - intros k e E. destruct (P1 k e E) as [X|(X & m & Y & Z)]; auto. right. split; auto. exists m. split; auto. apply mention_payee. auto.
  - intros e E. destruct (P2 e E) as [X|(m & Y & Z)]; auto. right. exists m. split; auto. apply mention_payee. auto.
Qed.
Lemma found_names w l cs al pays : names_ok w l cs al pays ->
  (forall n, mentions_account l n -> exists e, l_get w n al = Ok e) /\
  (forall n, mentions_commodity l n -> exists e, l_get w n cs = Ok e) /\
  (forall n, mentions_payee l n -> exists e, l_get w n pays = Ok e).
Proof.
  intros N. split; [|split].
  - intros n (t & p & Ht & Hp & <-). destruct (no_ral _ _ _ _ _ N (rp_account p)) as (e & E & _); eauto.
    apply account_names_iff. exists p. split; auto. eapply in_all_postings; eauto.
  - intros n H. destruct (no_rcs _ _ _ _ _ N n) as (e & E & _); eauto. apply commodity_names_iff.
    destruct H as [(p & Hp & H)|(t & p & q & Ht & Hp & H)].
    + left. exists p. tauto.
    + right. exists p, q. split; [eapply in_all_postings; eauto|tauto].
  - intros n (t & p & Ht & Hp & E0). destruct (no_rpays _ _ _ _ _ N n) as (e & E & _); eauto.
    apply payee_names_iff. exists p. split; auto. eapply in_all_postings; eauto.
Qed.
Lemma to_ledger_plain w skip l : world_ok w -> journal_ok w l -> rules l = [] ->
  (exists lg, to_ledger w skip l = Ok lg /\ ledger_built w skip l lg) \/
  (exists e v, to_ledger w skip l = Err e /\ verdict_error v e /\ ledger_refused w skip l v) \/
  (to_ledger w skip l = Panic PDivZero /\ exists t p, In t (pl_txns l) /\ In p (t_postings t) /\ zero_total_cost p).
Proof.
  intros Hw J Hr. rewrite to_ledger_phases.
  destruct (read_phase_spec w l Hw J) as [(cs & al & pays & prices1 & raw & -> & [N P R])|(-> & Z)]; [|right; right; auto].
  cbn [bind]. destruct (raw_parts _ _ _ _ _ _ R) as (T1 & T2 & T3 & T4 & T5 & T6). cbn in T1, T2, T3, T4, T5, T6.
  unfold balance_phase. rewrite T2. fold (rules l). rewrite Hr.
  set (rts := flat_map (fun x : raw_result => fst (fst x)) raw) in *.
  pose proof (sort_txns_sorted rts T3) as DS.
  assert (PS : Permutation rts (sort_txns rts)) by apply DS.
  assert (JR : journal_read w l al cs pays rts prices1 (flat_map snd raw)).
  { destruct (found_names _ _ _ _ _ N) as (F1 & F2 & F3). destruct (new_names _ _ _ _ _ N) as (W1 & W2 & W3). constructor; auto; apply N. }
  destruct (balance_all_spec w skip Hw (sort_txns rts) 8 (fresh_balances al) (prices1 ++ flat_map snd raw))
    as [(ts' & bals' & prs & E & LR & G)|(e & v & E & V & S)].
  - apply fresh_good.
  - eapply Permutation_Forall; eauto.
  - eapply Permutation_Forall; eauto.
  - apply accounts_known. eapply Permutation_Forall; [exact PS|]. eapply reads_accounts; eauto.
  - left. rewrite E. cbn [bind]. eexists. split; [reflexivity|]. eapply lb_plain; cbn; eauto.
    + destruct N. split; auto.
    + apply fresh_zero.
    + rewrite app_assoc. auto.
  - right. left. rewrite E. cbn. exists e, v. split; auto. split; auto.
    exists al, cs, pays, rts, prices1, (flat_map snd raw), (sort_txns rts), (run_amt (fresh_balances al)).
    split; auto. split; auto. split; auto. apply fresh_zero.
Qed.

Lemma to_ledger_built w skip l lg : world_ok w -> journal_ok w l -> to_ledger w skip l = Ok lg -> ledger_built w skip l lg.
Proof.
  intros Hw J H.
  destruct (rules l) as [|r0 rs0] eqn:Hr.
  { destruct (to_ledger_plain w skip l Hw J Hr) as [(lg' & E & B)|[(e & v & E & _)|(E & _)]]; congruence. }
  rewrite to_ledger_phases in H.
  destruct (read_phase_spec w l Hw J) as [(cs & al & pays & prices1 & raw & E0 & [N P R])|(E0 & Z)]; rewrite E0 in H; [|discriminate].
  cbn [bind] in H. destruct (raw_parts _ _ _ _ _ _ R) as (T1 & T2 & T3 & T4 & T5 & T6). cbn in T1, T2, T3, T4, T5, T6.
  unfold balance_phase in H. rewrite T2 in H. fold (rules l) in H. 
  set (rts := flat_map (fun x : raw_result => fst (fst x)) raw) in *.
  pose proof (sort_txns_sorted rts T3) as DS.
  assert (PS : Permutation rts (sort_txns rts)) by apply DS.
  assert (JR : journal_read w l al cs pays rts prices1 (flat_map snd raw)).
  { destruct (found_names _ _ _ _ _ N) as (F1 & F2 & F3). destruct (new_names _ _ _ _ _ N) as (W1 & W2 & W3). constructor; auto; apply N. }
  assert (G1 : Forall good_txn (sort_txns rts)) by (eapply Permutation_Forall; eauto).
  assert (D1 : all_dated (sort_txns rts)) by (eapply Permutation_Forall; eauto).
  assert (A1 : Forall (accounts_in al) (sort_txns rts)).
  { eapply Permutation_Forall; [exact PS|]. eapply reads_accounts; eauto. }
  destruct (balance_all_spec w skip Hw (sort_txns rts) 8 (fresh_balances al) (prices1 ++ flat_map snd raw)
             (fresh_good al) G1 D1 (accounts_known _ _ A1))
    as [(ts1 & bals' & prs & E & LR & G)|(e & v & E & V & S)]; rewrite E in H; [|discriminate].
  cbn [bind] in H. rewrite Hr in H. rewrite <- Hr in H.
  assert (HH : exists nodes ts2 s ts3 b prices4,
     mapM (fun a => build_root w (get_filter_query a)) (rules l) = Ok nodes /\
     auto_all w (combine nodes (rules l)) ts1 {| as_accs := al; as_curs := cs; as_pays := pays |} = Ok (ts2, s) /\
     balance_all w (8 + 2 * length (sort_txns rts)) skip ts2 (fresh_balances (as_accs s)) ((prices1 ++ flat_map snd raw) ++ prs) = Ok (ts3, b, prices4) /\
     lg = {| lg_accounts := as_accs s; lg_commodities := as_curs s; lg_txns := ts3; lg_prices := prices4; lg_payees := as_pays s |}).
  { bind_inv H. bind_inv H. destruct a0 as [ts2 s]. bind_inv H. destruct a0 as [[ts3 b] prices4]. inv H. exists a, ts2, s, ts3, b, prices4. auto. }
  destruct HH as (nodes & ts2 & s & ts3 & b & prices4 & M & AA & B2 & ->). clear H.
  assert (SO : as_ok w {| as_accs := al; as_curs := cs; as_pays := pays |}).
  { destruct N. split; [|split]; cbn; auto. }
  destruct (auto_all_spec _ _ _ _ _ _ SO AA) as (SO' & LE & K & RP).
  assert (A2 : Forall (accounts_in (as_accs s)) ts2). { apply K. eapply ledger_run_accounts; eauto. }
  assert (RP' := RP _ _ (as_le_refl _ _) (as_le_refl _ _)).
  assert (G2 : Forall good_txn ts2 /\ all_dated ts2).
  { pose proof (ledger_run_good _ _ _ _ _ LR G1) as G1'.
    pose proof (same_header_dated _ _ (run_headers _ _ _ _ _ LR) D1) as D1'. clear -RP' G1' D1'.
    induction RP'; [split; constructor|]. inv G1'. inv D1'. destruct IHRP'; auto. apply rules_pass_good in H.
    destruct H as [SH GG]. split; constructor; auto. destruct SH as (-> & _). auto. }
  destruct G2 as [G2 D2].
  destruct (balance_all_spec w skip Hw ts2 (8 + 2 * length (sort_txns rts)) (fresh_balances (as_accs s)) ((prices1 ++ flat_map snd raw) ++ prs)
             (fresh_good _) G2 D2 (accounts_known _ _ A2))
    as [(ts3' & bals3 & prs3 & E3 & LR3 & G3)|(e & v & E3 & V & S)]; [|congruence].
  rewrite E3 in B2. inv B2.
  destruct s as [sal scs spays].
  eapply lb_rules with (ts := rts) (run := run_amt (fresh_balances al)) (run' := run_amt (fresh_balances sal)) (queries := nodes) (ts2 := ts2);
    cbn; eauto.
  - congruence.
  - apply fresh_zero.
  - apply mapM_ok_Forall2. exact M.
  - apply fresh_zero.
  - apply LE.
  - apply LE.
  - apply LE.
  - rewrite <- !app_assoc. auto.
Qed.
