(** Lemmas about journals that call declared accounts and commodities by other names (C90). *)
From Coq Require Import Lia Permutation.
From Verif Require Import Base BaseFacts Numerals Money Alist Comment Txn Peg Grammar Dates Expr Filter Tokens Price Ledger Spec SpecList AlistFacts JournalFacts SpecLedger SpecSame SpecSpell
  LedgerFacts LedgerFacts2 LedgerFacts3 SameFacts RemarkFacts.

Section Spell.
  Context (w : world) (l l' : pledger) (fa fc : bool).

  Lemma account_get n n' al : account_spelled w l fa n n' -> extends w (pl_accounts l) al -> l_get w n al = l_get w n' al.
  Proof using Type.
    unfold account_spelled. destruct fa; [|intros ->; auto]. intros [(x & E & E') _] [G _]. rewrite (G _ _ E), (G _ _ E'). auto.
  Qed.
  Lemma commodity_get n n' cs : commodity_spelled w l fc n n' -> extends w (pl_commodities l) cs -> l_get w n cs = l_get w n' cs.
  Proof using Type.
    unfold commodity_spelled. destruct fc; [|intros ->; auto]. intros [[-> ->]|(_ & _ & x & E & E')] [G _]; auto. rewrite (G _ _ E), (G _ _ E'). auto.
  Qed.
  Lemma account_ensure n n' al : account_spelled w l fa n n' -> extends w (pl_accounts l) al -> ensure_acc w al n = ensure_acc w al n'.
  Proof using Type.
    unfold account_spelled. destruct fa; [|intros ->; auto]. intros [(x & E & E') _] [G _]. unfold ensure_acc, ensure. rewrite (G _ _ E), (G _ _ E'). auto.
  Qed.
  Lemma commodity_ensure n n' cs : commodity_spelled w l fc n n' -> extends w (pl_commodities l) cs -> ensure_cur w cs n = ensure_cur w cs n'.
  Proof using Type.
    unfold commodity_spelled. destruct fc; [|intros ->; auto]. intros [[-> ->]|(_ & _ & x & E & E')] [G _]; auto. unfold ensure_cur, ensure. rewrite (G _ _ E), (G _ _ E'). auto.
  Qed.
  Lemma commodity_nil n n' : commodity_spelled w l fc n n' -> (n = [] <-> n' = []).
  Proof using Type. unfold commodity_spelled. destruct fc; [|intros ->; tauto]. intros [[-> ->]|(A & B & _)]; tauto. Qed.

  Lemma account_unknown n n' : account_spelled w l fa n n' -> ends_with (L "unknown") (w_lower w n) = ends_with (L "unknown") (w_lower w n').
  Proof using Type. unfold account_spelled. destruct fa; [intros [_ H]; auto|intros ->; auto]. Qed.
  Lemma either (b : bool) : b = true \/ b = false.
  Proof using Type. clear. destruct b; auto. Qed.
  (** ** The lists of names *)
  Lemma spelled_postings ts ts' : Forall2 (txn_spelled w l fa fc) ts ts' -> Forall2 (posting_spelled w l fa fc) (all_postings ts) (all_postings ts').
  Proof using Type. unfold all_postings. induction 1 as [|t t' ts ts' H F IH]; cbn [flat_map]; [constructor|]. apply Forall2_app; auto. apply H. Qed.
  Lemma f2_in_l {A B} (P : A -> B -> Prop) xs ys x : Forall2 P xs ys -> In x xs -> exists y, In y ys /\ P x y.
  Proof using Type. induction 1 as [|a b xs ys H F IH]; [intros []|]; intros [->|Hx]; [exists b; cbn; auto|]. destruct (IH Hx) as (y & Hy & HP). exists y. cbn. auto. Qed.
  Lemma f2_in_r {A B} (P : A -> B -> Prop) xs ys y : Forall2 P xs ys -> In y ys -> exists x, In x xs /\ P x y.
  Proof using Type. induction 1 as [|a b xs ys H F IH]; [intros []|]; intros [->|Hy]; [exists a; cbn; auto|]. destruct (IH Hy) as (x & Hx & HP). exists x. cbn. auto. Qed.
  Lemma money_in m m' q c : money_spelled w l fc m m' -> m = Some (q, c) -> exists c', m' = Some (q, c') /\ commodity_spelled w l fc c c'.
  Proof using Type. intros H ->. destruct m' as [[q' c']|]; cbn in H; [|contradiction]. destruct H as [-> H]. eauto. Qed.
  Lemma money_in' m m' q c : money_spelled w l fc m m' -> m' = Some (q, c) -> exists c', m = Some (q, c') /\ commodity_spelled w l fc c' c.
  Proof using Type. intros H ->. destruct m as [[q' c']|]; cbn in H; [|contradiction]. destruct H as [-> H]. eauto. Qed.
  Context (W : world_ok w) (J : journal_ok w l) (R : respelled w fa fc l l').
  Lemma account_names_l n : In n (account_names l) -> exists n', In n' (account_names l') /\ account_spelled w l fa n n'.
  Proof using R.
    destruct R as (_ & _ & _ & _ & F). apply spelled_postings in F. rewrite account_names_iff. intros (p & Hp & ->). destruct (f2_in_l _ _ _ _ F Hp) as (p' & Hp' & H).
    exists (rp_account p'). split; [apply account_names_iff; eauto|apply H].
  Qed.
  Lemma account_names_r n' : In n' (account_names l') -> exists n, In n (account_names l) /\ account_spelled w l fa n n'.
  Proof using R.
    destruct R as (_ & _ & _ & _ & F). apply spelled_postings in F. rewrite account_names_iff. intros (p & Hp & ->). destruct (f2_in_r _ _ _ _ F Hp) as (p' & Hp' & H).
    exists (rp_account p'). split; [apply account_names_iff; eauto|apply H].
  Qed.
  Lemma commodity_names_l n : In n (commodity_names l) -> exists n', In n' (commodity_names l') /\ commodity_spelled w l fc n n'.
  Proof using R.
    destruct R as (_ & _ & _ & FP & F). apply spelled_postings in F. rewrite commodity_names_iff. intros [(p & Hp & H)|(p & q & Hp & H)].
    - destruct (f2_in_l _ _ _ _ FP Hp) as (p' & Hp' & _ & _ & H1 & H2).
      destruct H as [->| ->]; eexists; (split; [apply commodity_names_iff; left; exists p'; split; [auto|]|]); [left; reflexivity|exact H2|right; reflexivity|exact H1].
    - destruct (f2_in_l _ _ _ _ F Hp) as (p' & Hp' & _ & H1 & H2 & H3 & _).
      destruct H as [H|[H|H]]; [destruct (money_in _ _ _ _ H3 H) as (c' & E & HC)|destruct (money_in _ _ _ _ H2 H) as (c' & E & HC)|destruct (money_in _ _ _ _ H1 H) as (c' & E & HC)];
        exists c'; (split; [apply commodity_names_iff; right; exists p', q; auto|exact HC]).
  Qed.
  Lemma commodity_names_r n : In n (commodity_names l') -> exists n', In n' (commodity_names l) /\ commodity_spelled w l fc n' n.
  Proof using R.
    destruct R as (_ & _ & _ & FP & F). apply spelled_postings in F. rewrite commodity_names_iff. intros [(p & Hp & H)|(p & q & Hp & H)].
    - destruct (f2_in_r _ _ _ _ FP Hp) as (p' & Hp' & _ & _ & H1 & H2).
      destruct H as [->| ->]; eexists; (split; [apply commodity_names_iff; left; exists p'; split; [auto|]|]); [left; reflexivity|exact H2|right; reflexivity|exact H1].
    - destruct (f2_in_r _ _ _ _ F Hp) as (p' & Hp' & _ & H1 & H2 & H3 & _).
      destruct H as [H|[H|H]]; [destruct (money_in' _ _ _ _ H3 H) as (c' & E & HC)|destruct (money_in' _ _ _ _ H2 H) as (c' & E & HC)|destruct (money_in' _ _ _ _ H1 H) as (c' & E & HC)];
        exists c'; (split; [apply commodity_names_iff; right; exists p', q; auto|exact HC]).
  Qed.

  Lemma ensure_all_known {T} (ins : T -> alist T -> alist T) mk ns (al : alist T) : (forall n, In n ns -> exists x, l_get w n al = Ok x) ->
    foldM (ensure w ins mk) al ns = Ok al.
  Proof using Type.
    induction ns as [|n ns IH]; intros H; cbn [foldM]; [auto|]. destruct (H n) as (x & E); [left; auto|]. unfold ensure at 1. rewrite E. cbn [bind]. apply IH. intros m Hm. apply H. right. auto.
  Qed.
  Lemma ensure_cur_nil cs ns : cs_ok w cs -> (forall n, In n ns -> n = [] \/ exists x, l_get w n cs = Ok x) ->
    foldM (ensure_cur w) cs ns = if existsb (str_eqb []) ns then ensure_cur w cs [] else Ok cs.
  Proof using Type.
    intros B. induction ns as [|n ns IH]; intros H; cbn [foldM existsb]; [auto|]. destruct (str_eqb_spec [] n) as [<-|N].
    - cbn [orb]. destruct (ensure_cur_ok w cs [] B) as (cs' & E & B' & [G _] & (x & Ex & _)). rewrite E. cbn [bind]. apply ensure_all_known.
      intros m Hm. destruct (H m) as [->|(y & Ey)]; [right; auto|eauto|eauto].
    - destruct (H n) as [->|(x & E)]; [left; auto|congruence|]. unfold ensure_cur at 1, ensure at 1. rewrite E. cbn [bind orb]. apply IH. intros m Hm. apply H. right. auto.
  Qed.
  Lemma accounts_same : foldM (ensure_acc w) (pl_accounts l) (w_ord w 1 _ (account_names l)) = foldM (ensure_acc w) (pl_accounts l') (w_ord w 1 _ (account_names l')).
  Proof using W R.
    destruct W as [Hp _]. destruct R as (EA & _ & _ & _ & F). rewrite <- EA. destruct (either fa) as [EF|EF].
    - unfold ensure_acc. rewrite !ensure_all_known; auto.
      + intros n Hn. apply (Permutation_in _ (Hp 1%nat _ _)) in Hn. apply account_names_r in Hn. destruct Hn as (m & _ & Hm). rewrite EF in Hm. destruct Hm as [(x & _ & E) _]. eauto.
      + intros n Hn. apply (Permutation_in _ (Hp 1%nat _ _)) in Hn. apply account_names_l in Hn. destruct Hn as (m & _ & Hm). rewrite EF in Hm. destruct Hm as [(x & E & _) _]. eauto.
    - replace (account_names l') with (account_names l); auto. unfold account_names. apply spelled_postings in F. revert F. generalize (@nil str). generalize (all_postings (pl_txns l)), (all_postings (pl_txns l')).
      intros ps ps' acc F. revert acc. induction F as [|p p' ps ps' H F IH]; intros acc; cbn [fold_left]; [auto|]. destruct H as (H & _). rewrite EF in H. cbn in H. rewrite H. apply IH.
  Qed.
  Lemma commodities_same : foldM (ensure_cur w) (pl_commodities l) (w_ord w 0 _ (commodity_names l)) = foldM (ensure_cur w) (pl_commodities l') (w_ord w 0 _ (commodity_names l')).
  Proof using W J R.
    destruct W as [Hp _]. pose proof R as (_ & EC & _ & FP & F). rewrite <- EC. pose proof (jo_commodities _ _ J) as B. destruct (either fc) as [EF|EF].
    - rewrite !ensure_cur_nil; auto.
      + assert (existsb (str_eqb []) (w_ord w 0 _ (commodity_names l)) = existsb (str_eqb []) (w_ord w 0 _ (commodity_names l'))) as ->; auto.
        apply eq_true_iff_eq. rewrite !existsb_exists. split; intros (n & Hn & E); apply (Permutation_in _ (Hp 0%nat _ _)) in Hn; destruct (str_eqb_spec [] n) as [<-|]; try discriminate E; exists []; (split; [|auto]);
          apply (Permutation_in _ (Permutation_sym (Hp 0%nat _ _))).
        * apply commodity_names_l in Hn. destruct Hn as (m & Hm & H). apply commodity_nil in H. destruct H as [H _]. rewrite H in Hm by reflexivity. exact Hm.
        * apply commodity_names_r in Hn. destruct Hn as (m & Hm & H). apply commodity_nil in H. destruct H as [_ H]. rewrite H in Hm by reflexivity. exact Hm.
      + intros n Hn. apply (Permutation_in _ (Hp 0%nat _ _)) in Hn. apply commodity_names_r in Hn. destruct Hn as (m & _ & H). rewrite EF in H. destruct H as [[_ ->]|(_ & _ & x & _ & E)]; eauto.
      + intros n Hn. apply (Permutation_in _ (Hp 0%nat _ _)) in Hn. apply commodity_names_l in Hn. destruct Hn as (m & _ & H). rewrite EF in H. destruct H as [[-> _]|(_ & _ & x & E & _)]; eauto.
    - replace (commodity_names l') with (commodity_names l); auto. unfold commodity_names. apply spelled_postings in F.
      assert (forall m m' s, money_spelled w l fc m m' -> opt_cur m s = opt_cur m' s) as MS.
      { intros [[q c]|] [[q' c']|] s H; cbn in H; try contradiction; auto. rewrite EF in H. cbn in H. destruct H as [_ ->]. auto. }
      replace (fold_left (fun s p => opt_cur (rp_balance p) (opt_cur (rp_cost p) (opt_cur (rp_money p) s))) (all_postings (pl_txns l')) [])
        with (fold_left (fun s p => opt_cur (rp_balance p) (opt_cur (rp_cost p) (opt_cur (rp_money p) s))) (all_postings (pl_txns l)) []).
      + generalize (fold_left (fun s p => opt_cur (rp_balance p) (opt_cur (rp_cost p) (opt_cur (rp_money p) s))) (all_postings (pl_txns l)) []). revert FP. generalize (pl_prices l), (pl_prices l').
        intros ps ps' FP. induction FP as [|p p' ps ps' (_ & _ & H1 & H2) FP IH]; intros acc; cbn [fold_left]; [auto|]. rewrite EF in H1, H2. cbn in H1, H2. rewrite H1, H2. apply IH.
      + revert F. generalize (@nil str). generalize (all_postings (pl_txns l)), (all_postings (pl_txns l')).
        intros ps ps' acc F. revert acc. induction F as [|p p' ps ps' (_ & H1 & H2 & H3 & _) F IH]; intros acc; cbn [fold_left]; [auto|].
        rewrite (MS _ _ acc H1), (MS _ _ _ H2), (MS _ _ _ H3). apply IH.
  Qed.
  Lemma payees_same : payee_names l = payee_names l'.
  Proof using R.
    destruct R as (_ & _ & _ & _ & F). apply spelled_postings in F. unfold payee_names. revert F. generalize (@nil str). generalize (all_postings (pl_txns l)), (all_postings (pl_txns l')).
    intros ps ps' acc F. revert acc. induction F as [|p p' ps ps' H F IH]; intros acc; cbn [fold_left]; [auto|]. destruct H as (_ & _ & _ & _ & _ & _ & _ & _ & ->). apply IH.
  Qed.

  (** ** Reading the contents *)
  Lemma price_same cs p p' : extends w (pl_commodities l) cs -> price_spelled w l fc p p' -> price_of w cs p = price_of w cs p'.
  Proof using Type.
    intros G (E1 & E2 & H1 & H2). unfold price_of, get_unwrap. rewrite (commodity_get _ _ _ H1 G), (commodity_get _ _ _ H2 G), E1, E2. auto.
  Qed.
  Lemma money_same cs m m' : extends w (pl_commodities l) cs -> money_spelled w l fc m m' ->
    match m with Some m => x <- money_of_raw w cs m ;; Ok (Some x) | None => Ok None end = match m' with Some m => x <- money_of_raw w cs m ;; Ok (Some x) | None => Ok None end.
  Proof using Type.
    intros G H. destruct m as [[q c]|], m' as [[q' c']|]; cbn in H; try contradiction; auto. destruct H as [-> H]. unfold money_of_raw, get_unwrap. cbn [fst snd]. rewrite (commodity_get _ _ _ H G). auto.
  Qed.
  Lemma bind_same {A B} (r r' : res A) (f f' : A -> res B) : r = r' -> (forall a, f a = f' a) -> bind r f = bind r' f'.
  Proof using Type. intros -> H. destruct r'; cbn; auto. Qed.
  Lemma cost_same cs date p p' : extends w (pl_commodities l) cs -> money_spelled w l fc (rp_money p) (rp_money p') -> money_spelled w l fc (rp_cost p) (rp_cost p') -> rp_cost_type p = rp_cost_type p' ->
    match rp_cost p with Some c => '(k, pr) <- cost_of_raw w cs date p c ;; Ok (Some k, [pr]) | None => Ok (None, []) end =
    match rp_cost p' with Some c => '(k, pr) <- cost_of_raw w cs date p' c ;; Ok (Some k, [pr]) | None => Ok (None, []) end.
  Proof using Type.
    intros G HM HC ET. destruct (rp_cost p) as [[q c]|], (rp_cost p') as [[q' c']|]; cbn in HC; try contradiction; auto. destruct HC as [-> HC]. apply bind_same; auto.
    unfold cost_of_raw. rewrite <- ET. destruct (rp_money p) as [[m d]|], (rp_money p') as [[m' d']|]; cbn in HM; try contradiction; auto. destruct HM as [-> HM].
    cbn [unwrap bind fst snd]. unfold get_unwrap. rewrite (commodity_get _ _ _ HM G), (commodity_get _ _ _ HC G). auto.
  Qed.
  Lemma posting_same accs al pays cs date desc tt p p' : extends w (pl_accounts l) al -> extends w (pl_commodities l) cs -> posting_spelled w l fa fc p p' ->
    posting_of_raw w accs al pays cs date desc tt p = posting_of_raw w accs al pays cs date desc tt p'.
  Proof using Type.
    intros GA GC (HA & HM & HC & HB & ET & EC & EE & EK & EP). unfold posting_of_raw. rewrite EP, EC, EK. apply bind_same; auto. intros pay. apply bind_same.
    { unfold posting_account. rewrite (account_get _ _ _ HA GA), (account_unknown _ _ HA). auto. }
    intros acc. apply bind_same; [apply money_same; auto|]. intros amt. apply bind_same; [apply cost_same; auto|]. intros [k prs]. apply bind_same; [apply money_same; auto|auto].
  Qed.
  Definition raw_same (x x' : list (txn posting) * list (txn rposting) * list price) : Prop :=
    fst (fst x) = fst (fst x') /\ Forall2 (txn_spelled w l fa fc) (snd (fst x)) (snd (fst x')) /\ snd x = snd x'.
  Lemma mapM_length {A B} (f : A -> res B) xs : forall ys, mapM f xs = Ok ys -> length ys = length xs.
  Proof using Type. induction xs as [|x xs IH]; intros ys H; cbn [mapM] in H; [inv H; auto|]. bind_inv H. bind_inv H. inv H. cbn. rewrite (IH _ Hb0). auto. Qed.
  Lemma mapM_f2 {A B} (P : A -> A -> Prop) (f : A -> res B) xs ys : Forall2 P xs ys -> (forall x y, P x y -> f x = f y) -> mapM f xs = mapM f ys.
  Proof using Type. intros F H. induction F as [|x y xs ys HP F IH]; cbn [mapM]; [auto|]. rewrite (H _ _ HP), IH. auto. Qed.
  Lemma txn_same accs al pays cs t t' : extends w (pl_accounts l) al -> extends w (pl_commodities l) cs -> txn_spelled w l fa fc t t' ->
    agree raw_same (txn_of_raw w accs al pays cs t) (txn_of_raw w accs al pays cs t').
  Proof using Type.
    intros GA GC H. pose proof H as (ET & ED & EE & EC & EO & ES & EP & EM & EG & F). unfold txn_of_raw. rewrite <- ET, <- ED, <- EE, <- EO, <- ES, <- EM.
    destruct (t_type t); [| |cbn; repeat split; constructor].
    - destruct (t_date t) as [d|]; [|cbn; auto]. cbn [unwrap bind].
      rewrite (mapM_f2 _ _ _ _ F (fun p p' => posting_same accs al pays cs d (t_desc t) (flat_map get_tags (t_comments t)) p p' GA GC)).
      destruct (mapM _ (t_postings t')) as [ps|e|e]; cbn [bind]; [|cbn; auto..]. destruct (is_balanced _); cbn; auto. repeat split. constructor.
    - cbn. repeat split. constructor; auto.
  Qed.

  (** ** Rules *)
  Definition above (s : astate) : Prop := as_ok w s /\ extends w (pl_accounts l) (as_accs s) /\ extends w (pl_commodities l) (as_curs s).
  Lemma above_le s s' : above s -> as_ok w s' -> as_le w s s' -> above s'.
  Proof using Type. intros (B & GA & GC) B' (G1 & G2 & G3). split; [auto|]. split; eapply extends_trans; eauto. Qed.
  Lemma auto_posting_same t p s ap ap' : above s -> posting_spelled w l fa fc ap ap' -> auto_posting w t p s ap = auto_posting w t p s ap'.
  Proof using Type.
    intros ((B1 & B2 & B3) & GA & GC) (HA & HM & _ & _ & ET & EC & EE & EK & EP). unfold auto_posting. rewrite EP, EK, EE, (account_ensure _ _ _ HA GA).
    destruct (ensure_acc_ok w (as_accs s) (rp_account ap') B1) as (al & E & _ & G & _). rewrite E. cbn [bind].
    apply bind_same; auto. intros [pay pl]. apply bind_same. { unfold get_unwrap. rewrite (account_get _ _ al HA); auto. eapply extends_trans; eauto. }
    intros acc. apply bind_same; auto. destruct (rp_money ap) as [[q c]|], (rp_money ap') as [[q' c']|]; cbn in HM; try contradiction; auto. destruct HM as [-> HM].
    pose proof (commodity_nil _ _ HM) as HN. destruct c as [|c0 c], c' as [|c0' c']; auto; [destruct HN as [HN _]; discriminate (HN eq_refl)|destruct HN as [_ HN]; discriminate (HN eq_refl)|].
    rewrite (commodity_ensure _ _ _ HM GC). destruct (ensure_cur_ok w (as_curs s) (c0' :: c') B2) as (cs & E' & _ & G' & _). rewrite E'. cbn [bind]. unfold get_unwrap.
    rewrite (commodity_get _ _ cs HM); auto. eapply extends_trans; eauto.
  Qed.
  Lemma auto_postings_same t p aps aps' : Forall2 (posting_spelled w l fa fc) aps aps' -> forall s, above s -> auto_postings w t p s aps = auto_postings w t p s aps'.
  Proof using Type.
    induction 1 as [|ap ap' aps aps' H F IH]; intros s A; cbn [auto_postings]; [auto|]. rewrite <- (auto_posting_same t p s ap ap'); auto. destruct (auto_posting w t p s ap) as [[x s1]|e|e] eqn:E; cbn [bind]; auto.
    pose proof A as [B _]. destruct (auto_posting_spec _ _ _ _ _ _ _ B E) as (B1 & G1 & _). rewrite (IH s1); auto. eapply above_le; eauto.
  Qed.
  Lemma auto_scan_same t query r r' todo : txn_spelled w l fa fc r r' -> forall s done extra, above s -> auto_scan w t query r s done todo extra = auto_scan w t query r' s done todo extra.
  Proof using Type.
    intros H. induction todo as [|p todo IH]; intros s done extra A; cbn [auto_scan]; [auto|]. destruct (negb _); [auto|].
    destruct (filter_expression w query p (set_postings t (done ++ p :: todo)) (as_curs s)) as [[b cs]|e|e] eqn:E; cbn [bind]; auto. unfold filter_expression in E. bind_inv E. destruct a as [v cs1].
    destruct v as [| |b0| | | | | |]; try discriminate. inv E. pose proof A as ((B1 & B2 & B3) & _). destruct (eval_extends _ _ _ _ _ _ _ B2 Hb) as [B2' G2].
    assert (A' : above (with_curs s cs)). { eapply above_le; [exact A|split; [|split]; cbn; auto|split; [|split]; cbn; auto; apply extends_refl]. }
    pose proof H as (_ & _ & _ & _ & _ & _ & _ & EM & _ & F). rewrite <- EM. destruct b; [|apply IH; auto].
    rewrite <- (auto_postings_same _ _ _ _ F _ A').
    destruct (auto_postings w (set_postings t (done ++ add_tags (flat_map get_tags (t_comments r)) p :: todo)) (add_tags (flat_map get_tags (t_comments r)) p) (with_curs s cs) (t_postings r)) as [[new s2]|e|e] eqn:E2; cbn [bind]; auto.
    pose proof A' as [B' _]. destruct (auto_postings_spec _ _ _ _ _ _ _ B' E2) as (B4 & G4 & _). apply IH. eapply above_le; eauto.
  Qed.
  Lemma auto_rules_same rs rs' : Forall2 (fun x y => fst x = fst y /\ txn_spelled w l fa fc (snd x) (snd y)) rs rs' -> forall t s, above s ->
    foldM (auto_one w) (t, s) rs = foldM (auto_one w) (t, s) rs'.
  Proof using Type.
    induction 1 as [|[q r] [q' r'] rs rs' [E H] F IH]; intros t s A; cbn [foldM]; [auto|]. cbn [fst snd] in E, H. subst q'. unfold auto_one at 1 3. cbn [fst snd].
    rewrite <- (auto_scan_same t q r r' (t_postings t) H s [] [] A). destruct (auto_scan w t q r s [] (t_postings t) []) as [[[ps ex] s1]|e|e] eqn:E; cbn [bind]; auto.
    pose proof A as [B _]. destruct (auto_scan_spec _ _ _ _ _ _ _ _ _ _ _ B E) as (B1 & G1 & _). apply IH. eapply above_le; eauto.
  Qed.
  Lemma auto_all_same rs rs' : Forall2 (fun x y => fst x = fst y /\ txn_spelled w l fa fc (snd x) (snd y)) rs rs' -> forall ts s, above s -> auto_all w rs ts s = auto_all w rs' ts s.
  Proof using Type.
    intros F. induction ts as [|t ts IH]; intros s A; cbn [auto_all]; [auto|]. rewrite <- (auto_rules_same _ _ F t s A). destruct (foldM (auto_one w) (t, s) rs) as [[t' s1]|e|e] eqn:E; cbn [bind]; auto.
    pose proof A as [B _]. destruct (rules_pass_spec _ _ _ _ _ _ B E) as (B1 & G1 & _). rewrite (IH s1); auto. eapply above_le; eauto.
  Qed.

  Lemma spelled_ledger skip : to_ledger w skip l = to_ledger w skip l'.
  Proof using W J R.
    destruct (names_exist w l W J) as (cs & al & pays & E1 & E2 & E3 & N). unfold to_ledger. rewrite <- accounts_same, <- commodities_same, <- payees_same. pose proof R as (_ & _ & EP & FP & F). rewrite <- EP.
    rewrite E1. cbn [bind]. rewrite E2. cbn [bind]. rewrite E3. cbn [bind].
    pose proof (no_gcs _ _ _ _ _ N) as GC. pose proof (no_gal _ _ _ _ _ N) as GA. apply extends_grows in GC. apply extends_grows in GA.
    rewrite (mapM_f2 _ _ _ _ FP (fun p p' => price_same cs p p' GC)). destruct (mapM (price_of w cs) (pl_prices l')) as [prs|e|e]; cbn [bind]; auto.
    pose proof (agree_mapM _ raw_same _ _ _ _ F (fun t t' => txn_same (w_ord w 4 _ (l_values al)) al pays cs t t' GA GC)) as AR.
    destruct (mapM (txn_of_raw w _ al pays cs) (pl_txns l)) as [raw|e|e], (mapM (txn_of_raw w _ al pays cs) (pl_txns l')) as [raw'|e'|e']; cbn in AR; try contradiction; cbn [bind]; [|congruence..].
    assert (T : flat_map (fun x : list (txn posting) * list (txn rposting) * list price => fst (fst x)) raw = flat_map (fun x => fst (fst x)) raw').
    { induction AR as [|x y raw raw' (H & _) AR IH]; cbn [flat_map]; [auto|]. rewrite H, IH. auto. }
    assert (PR : flat_map (snd (A := list (txn posting) * list (txn rposting)) (B := list price)) raw = flat_map snd raw').
    { clear T. induction AR as [|x y raw raw' (_ & _ & H) AR IH]; cbn [flat_map]; [auto|]. rewrite H, IH. auto. }
    assert (FR : Forall2 (txn_spelled w l fa fc) (flat_map (fun x : list (txn posting) * list (txn rposting) * list price => snd (fst x)) raw) (flat_map (fun x => snd (fst x)) raw')).
    { clear T PR. induction AR as [|x y raw raw' (_ & H & _) AR IH]; cbn [flat_map]; [constructor|]. apply Forall2_app; auto. }
    rewrite T, PR. destruct (balance_all _ _ _ _ _ _) as [[[ts1 bals] prices3]|e|e]; cbn [bind]; auto. revert FR. generalize (flat_map (fun x : list (txn posting) * list (txn rposting) * list price => snd (fst x)) raw).
    generalize (flat_map (fun x : list (txn posting) * list (txn rposting) * list price => snd (fst x)) raw'). intros rs' rs FR.
    assert (EN : mapM (fun a => build_root w (get_filter_query a)) rs = mapM (fun a => build_root w (get_filter_query a)) rs').
    { eapply mapM_f2; [exact FR|]. intros r r' H. unfold get_filter_query. destruct H as (_ & _ & _ & _ & _ & -> & _). auto. }
    rewrite EN. inversion FR as [|r r' rs0 rs0' H0 F0]; auto.
    rewrite <- H, <- H1 in *. destruct (mapM _ (r' :: rs0')) as [nodes|e|e] eqn:EM; cbn [bind]; auto.
    assert (LEN : length nodes = length (r' :: rs0')). { eapply mapM_length; exact EM. }
    rewrite (auto_all_same (combine nodes (r :: rs0)) (combine nodes (r' :: rs0'))); auto.
    - clear - FR LEN. revert LEN. revert FR. generalize (r :: rs0), (r' :: rs0'). intros a b F. revert nodes. induction F as [|x y a b HP F IH]; intros [|n ns] L; cbn [combine]; try constructor; auto.
    - split; [split; [|split]; cbn; apply N|]. cbn. auto.
  Qed.
End Spell.
