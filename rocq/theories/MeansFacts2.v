(** Facts for C94, continued: reading and balancing. *)
From Coq Require Import Lia.
From Verif Require Import Base BaseFacts Numerals Money Alist Comment Txn Expr Filter Price Tokens TokenFacts Ledger Reports Spec MoneyFacts SpecList SpecTxn TxnFacts SpecLedger AlistFacts JournalFacts
  LedgerFacts LedgerFacts2 EvalFacts SpecBook SpecSame SameFacts SameFacts3 SpecMeans MeansFacts.
Open Scope Qc_scope.

(** ** The lists of names *)
Lemma found_use w o l cs al pays c : names_ok w l cs al pays -> clear_uses w o l -> uses_commodity w o l c -> nm w cu_name c cs = commodity_meant w l c.
Proof.
  intros N C Hc. unfold nm. destruct (l_get w c cs) as [x|e|e] eqn:E.
  - destruct (proj1 (no_acs _ _ _ _ _ N) c x E) as [D|(D & m & Hm & Lm & ->)]; [unfold commodity_meant; rewrite D; auto|].
    apply mentioned_commodity in Hm. cbn. transitivity (commodity_meant w l m).
    + unfold commodity_meant. destruct (l_get w m (pl_commodities l)) as [y| |] eqn:Ey; auto. destruct (D y). eapply get_lower; eauto.
    + symmetry. destruct Hc as [Hc|Hc].
      * apply (cn_commodities _ _ (cu_names _ _ _ C)); auto. right. exact Hc.
      * apply (cu_named _ _ _ C); auto.
  - unfold commodity_meant. destruct (l_get w c (pl_commodities l)) as [x| |] eqn:D; auto. rewrite (proj1 (no_gcs _ _ _ _ _ N) _ _ D) in E. discriminate.
  - unfold commodity_meant. destruct (l_get w c (pl_commodities l)) as [x| |] eqn:D; auto. rewrite (proj1 (no_gcs _ _ _ _ _ N) _ _ D) in E. discriminate.
Qed.
Lemma found_account w l cs al pays n : names_ok w l cs al pays -> clear_names w l -> mentions_account l n -> nm w ac_name n al = account_meant w l n.
Proof.
  intros N C Hn. destruct (no_ral _ _ _ _ _ N n) as (x & E & _); [apply mentioned_account; auto|]. rewrite (nm_got _ _ _ _ _ E).
  destruct (proj1 (no_aal _ _ _ _ _ N) n x E) as [D|(D & m & Hm & Lm & ->)]; [unfold account_meant; rewrite D; auto|].
  apply mentioned_account in Hm. cbn. transitivity (account_meant w l m); [|apply (cn_accounts _ _ C); auto].
  unfold account_meant. destruct (l_get w m (pl_accounts l)) as [y| |] eqn:Ey; auto. destruct (D y). eapply get_lower; eauto.
Qed.
Lemma found_payee w l cs al pays n : names_ok w l cs al pays -> clear_names w l -> mentions_payee l n -> payee_stands w l n (nm w py_name n pays).
Proof.
  intros N C Hn. destruct (no_rpays _ _ _ _ _ N n) as (x & E & _); [apply mentioned_payee; auto|]. rewrite (nm_got _ _ _ _ _ E).
  destruct (proj1 (no_apays _ _ _ _ _ N) n x E) as [D|(D & m & Hm & Lm & Z)]; [left; eauto|]. apply mentioned_payee in Hm.
  assert (X : m = n). { destruct (cn_payees _ _ C n m Hn Hm) as [->|(y & Ey)]; auto. destruct (D y). auto. }
  subst m. right. split; auto. destruct Z as [[Z1 Z2]|[Z1 ->]]; [left; eauto|right; auto].
Qed.
Lemma stands_once w l n m m' : clear_names w l -> mentions_payee l n -> payee_stands w l n m -> payee_stands w l n m' -> m = m'.
Proof.
  intros C Hn [(y & E & ->)|[D Z]] [(y' & E' & ->)|[D' Z']]; try congruence; try (edestruct D; eauto; fail); try (edestruct D'; eauto; fail).
  destruct Z as [(y & I & K & ->)|[K ->]], Z' as [(y' & I' & K' & ->)|[K' ->]]; auto; [|edestruct K'; eauto|edestruct K; eauto].
  f_equal. eapply (cn_patterns _ _ C n); eauto.
Qed.
Lemma found_described w o l cs al pays d : names_ok w l cs al pays -> clear_uses w o l -> describes l d -> ~ mentions_payee l d -> nm w py_name d pays = payee_declared w l d.
Proof.
  intros N C Hd Hn. unfold nm, payee_declared. destruct (l_get w d pays) as [x|e|e] eqn:E.
  - destruct (proj1 (no_apays _ _ _ _ _ N) d x E) as [D|(D & m & Hm & Lm & _)]; [rewrite D; auto|]. apply mentioned_payee in Hm.
    destruct (cu_described _ _ _ C d m Hd (or_intror Hm) (eq_sym Lm)) as [->|(y & Ey)]; [contradiction|]. destruct (D y). auto.
  - destruct (l_get w d (pl_payees l)) as [x| |] eqn:D; auto. rewrite (proj1 (no_gpays _ _ _ _ _ N) _ _ D) in E. discriminate.
  - destruct (l_get w d (pl_payees l)) as [x| |] eqn:D; auto. rewrite (proj1 (no_gpays _ _ _ _ _ N) _ _ D) in E. discriminate.
Qed.
Definition payee_used (l : pledger) (n : str) : Prop := mentions_payee l n \/ describes l n.
Section Two.
  Context (w : world) (o : opts) (l l' : pledger) (M : means_same w o l l') (C : clear_uses w o l) (C' : clear_uses w o l').
  Lemma same_mention_account n : mentions_account l' n <-> mentions_account l n.
  Proof using M. unfold mentions_account. rewrite (sm_txns _ _ _ _ M). tauto. Qed.
  Lemma same_mention_payee n : mentions_payee l' n <-> mentions_payee l n.
  Proof using M. unfold mentions_payee. rewrite (sm_txns _ _ _ _ M). tauto. Qed.
  Lemma same_uses c : uses_commodity w o l' c <-> uses_commodity w o l c.
  Proof using M. unfold uses_commodity, amount_names, rule_names, rules. rewrite (sm_txns _ _ _ _ M). tauto. Qed.
  Lemma same_describes d : describes l' d <-> describes l d.
  Proof using M. unfold describes, journal_txns. rewrite (sm_txns _ _ _ _ M). tauto. Qed.
  Context (cs cs' : alist currency) (al al' : alist account) (pays pays' : alist payee).
  Context (N : names_ok w l cs al pays) (N' : names_ok w l' cs' al' pays').
  Lemma commodities_mean : cmeans w (uses_commodity w o l) cs cs'.
  Proof using M C C' N N'.
    split; [apply N|]. split; [apply N'|]. intros k Hk. rewrite (found_use w o l' cs' al' pays' k N' C'), (found_use w o l cs al pays k N C); auto; [|apply same_uses; auto].
    apply (sm_commodities _ _ _ _ M). auto.
  Qed.
  Lemma accounts_mean : means w ac_name ac_aliases (mentions_account l) al al'.
  Proof using M C C' N N'.
    split; [apply N|]. split; [apply N'|]. intros k Hk. rewrite (found_account w l' cs' al' pays' k N' (cu_names _ _ _ C')), (found_account w l cs al pays k N (cu_names _ _ _ C)); auto; [|apply same_mention_account; auto].
    apply (sm_accounts _ _ _ _ M). auto.
  Qed.
  Lemma payees_mean : pmeans w (payee_used l) pays pays'.
  Proof using M C C' N N'.
    split; [apply N|]. split; [apply N'|]. intros k Hk.
    assert (D : mentions_payee l k \/ ~ mentions_payee l k) by (rewrite <- mentioned_payee; destruct (in_dec (list_eq_dec N.eq_dec) k (payee_names l)); auto).
    destruct D as [D|D].
    - assert (D' : mentions_payee l' k) by (apply same_mention_payee; auto).
      eapply (stands_once w l k); [apply C|auto| |eapply found_payee; eauto; apply C]. apply (sm_payees _ _ _ _ M); auto. eapply found_payee; eauto. apply C'.
    - destruct Hk as [Hk|Hk]; [contradiction|]. rewrite (found_described w o l' cs' al' pays' k), (found_described w o l cs al pays k); auto.
      + apply (sm_descriptions _ _ _ _ M). auto.
      + apply same_describes. auto.
      + rewrite same_mention_payee. auto.
  Qed.

  (** ** Postings *)
  Context (accs accs' : list account) (PA : Permutation accs (l_values al)) (PA' : Permutation accs' (l_values al')).
  Lemma last_claims w0 l0 cs0 al0 pays0 accs0 pay : names_ok w0 l0 cs0 al0 pays0 -> clear_names w0 l0 -> Permutation accs0 (l_values al0) ->
    match fold_left (fun r a => if existsb (fun rx => w_rx w0 rx pay) (ac_payees a) then Some a else r) accs0 None with
    | Some a => claimed_by w0 l0 pay (ac_name a)
    | None => forall a, ~ claimed_by w0 l0 pay a
    end.
  Proof using Type.
    intros N0 C0 P0. destruct (fold_left _ accs0 None) as [a|] eqn:E.
    - destruct (last_match_in (fun a => existsb (fun rx => w_rx w0 rx pay) (ac_payees a)) _ _ _ E) as [[Hi K]|]; [|discriminate]. apply existsb_exists in K. eapply Permutation_in in Hi; [|exact P0].
      destruct K as (rx & K1 & K2). destruct (proj2 (no_aal _ _ _ _ _ N0) a Hi) as [D|(m & _ & _ & ->)]; [|destruct K1]. exists a. split; auto. split; auto. exists rx. auto.
    - intros a (x & Hx & (rx & K1 & K2) & _). assert (Hi : In x accs0).
      { eapply Permutation_in; [symmetry; exact P0|]. apply (no_gal _ _ _ _ _ N0). auto. }
      pose proof (last_match_none (fun a => existsb (fun rx => w_rx w0 rx pay) (ac_payees a)) _ _ E x Hi) as K. cbn beta in K.
      assert (T : existsb (fun rx => w_rx w0 rx pay) (ac_payees x) = true) by (apply existsb_exists; eauto). congruence.
  Qed.
  Lemma claimed_once l0 pay a b : clear_names w l0 -> claimed_by w l0 pay a -> claimed_by w l0 pay b -> a = b.
  Proof using Type. intros C0 (x & I & K & <-) (y & I' & K' & <-). f_equal. eapply (cn_claims _ _ C0 pay); eauto. Qed.
  Lemma posting_account_means n k m : mentions_account l n -> mentions_payee l k -> payee_stands w l k m ->
    exists a a', posting_account w accs al n m = Ok a /\ posting_account w accs' al' n m = Ok a' /\ ac_name a' = ac_name a.
  Proof using M C C' N N' PA PA'.
    intros Hn Hk Hm.
    assert (G : exists a a', l_get w n al = Ok a /\ l_get w n al' = Ok a' /\ ac_name a' = ac_name a).
    { destruct (no_ral _ _ _ _ _ N n) as (a & E & I); [apply mentioned_account; auto|].
      assert (R' : resolves w al' n) by (apply (no_ral _ _ _ _ _ N'), mentioned_account, same_mention_account; auto).
      destruct (means_got w ac_name ac_aliases (mentions_account l) n al al' a Hn accounts_mean E R') as (a' & E' & Hn'). eauto. }
    unfold posting_account. destruct (ends_with _ _); auto.
    pose proof (last_claims w l cs al pays accs m N (cu_names _ _ _ C) PA) as F. pose proof (last_claims w l' cs' al' pays' accs' m N' (cu_names _ _ _ C') PA') as F'.
    destruct (fold_left _ accs None) as [a|], (fold_left _ accs' None) as [a'|].
    - exists a, a'. split; auto. split; auto. apply (sm_claims _ _ _ _ M k m) in F'; auto. eapply claimed_once; eauto. apply C.
    - exfalso. eapply F'. apply (sm_claims _ _ _ _ M k m); eauto.
    - exfalso. eapply F. apply (sm_claims _ _ _ _ M k m); eauto.
    - exact G.
  Qed.
  Lemma commodity_means c : amount_names l c -> exists e e', get_unwrap w c cs = Ok e /\ get_unwrap w c cs' = Ok e' /\ cu_name e' = cu_name e.
  Proof using M C C' N N'.
    intros Hc. destruct (means_unwrap w cu_name cu_aliases (uses_commodity w o l) c cs cs') as (e & e' & E & E' & H & _); eauto.
    - left. auto.
    - exact commodities_mean.
    - apply (no_rcs _ _ _ _ _ N). destruct Hc as (t & p & q & Ht & Hp & K). apply commodity_names_iff. right. exists p, q. split; [eapply in_all_postings; eauto|tauto].
    - apply (no_rcs _ _ _ _ _ N'). destruct Hc as (t & p & q & Ht & Hp & K). apply commodity_names_iff. right. exists p, q. split; [|tauto]. rewrite (sm_txns _ _ _ _ M). eapply in_all_postings; eauto.
  Qed.
  Lemma posting_means t p d : In t (pl_txns l) -> In p (t_postings t) -> rp_payee p <> None ->
    posting_of_raw w accs al pays cs d (t_desc t) (flat_map get_tags (t_comments t)) p = posting_of_raw w accs' al' pays' cs' d (t_desc t) (flat_map get_tags (t_comments t)) p.
  Proof using M C C' N N' PA PA'.
    intros Ht Hp Hy. unfold posting_of_raw. destruct (rp_payee p) as [k|] eqn:Ek; [|congruence].
    assert (Mk : mentions_payee l k) by (exists t, p; auto).
    destruct (means_unwrap w py_name py_aliases (payee_used l) k pays pays' (or_introl Mk) payees_mean) as (y & y' & Ey & Ey' & Hny & _).
    { apply (no_rpays _ _ _ _ _ N), mentioned_payee. auto. }
    { apply (no_rpays _ _ _ _ _ N'), mentioned_payee, same_mention_payee. auto. }
    rewrite Ey, Ey'. cbn [bind]. rewrite Hny.
    assert (St : payee_stands w l k (py_name y)).
    { apply get_unwrap_inv in Ey. rewrite <- (nm_got w py_name k pays y Ey). eapply found_payee; eauto. apply C. }
    destruct (posting_account_means (rp_account p) k (py_name y)) as (a & a' & Ea & Ea' & Ha); auto; [exists t, p; auto|]. rewrite Ea, Ea'. cbn [bind].
    assert (E2 : forall m, rp_money p = Some m \/ rp_cost p = Some m \/ rp_balance p = Some m -> money_of_raw w cs m = money_of_raw w cs' m).
    { intros [q c] Hm. unfold money_of_raw. destruct (commodity_means c) as (e & e' & E & E' & H); [exists t, p, q; auto|]. cbn [snd fst]. rewrite E, E'. cbn. rewrite H. auto. }
    assert (E3 : match rp_money p with Some m => x <- money_of_raw w cs m ;; Ok (Some x) | None => Ok None end = match rp_money p with Some m => x <- money_of_raw w cs' m ;; Ok (Some x) | None => Ok None end).
    { destruct (rp_money p) eqn:E; auto. rewrite E2; auto. }
    assert (E3' : match rp_balance p with Some m => x <- money_of_raw w cs m ;; Ok (Some x) | None => Ok None end = match rp_balance p with Some m => x <- money_of_raw w cs' m ;; Ok (Some x) | None => Ok None end).
    { destruct (rp_balance p) eqn:E; auto. rewrite E2; auto. }
    rewrite E3. apply bind_ext. intros am.
    assert (E5 : match rp_cost p with Some c => '(k, pr) <- cost_of_raw w cs d p c ;; Ok (Some k, [pr]) | None => Ok (None, []) end =
                 match rp_cost p with Some c => '(k, pr) <- cost_of_raw w cs' d p c ;; Ok (Some k, [pr]) | None => Ok (None, []) end).
    { destruct (rp_cost p) as [[q c]|] eqn:Ec; auto. unfold cost_of_raw. destruct (rp_money p) as [[q0 c0]|] eqn:Em; auto. cbn [unwrap bind snd fst].
      destruct (commodity_means c0) as (e & e' & E & E' & H); [exists t, p, q0; auto|]. destruct (commodity_means c) as (f & f' & F & F' & Hf); [exists t, p, q; auto|].
      rewrite E, E', F, F'. cbn [bind]. rewrite H, Hf. auto. }
    rewrite E5. apply bind_ext. intros [k0 pr]. rewrite E3'. apply bind_ext. intros bl. rewrite Ha. auto.
  Qed.
  Lemma mapM_ext_in {A B} (f g : A -> res B) (xs : list A) : (forall x, In x xs -> f x = g x) -> mapM f xs = mapM g xs.
  Proof using Type. intros H. induction xs as [|x xs IH]; cbn; auto. rewrite H by (left; auto). apply bind_ext. intros. rewrite IH; auto. intros. apply H. right. auto. Qed.
  Lemma txns_mean : Forall rtxn_ok (pl_txns l) -> mapM (txn_of_raw w accs al pays cs) (pl_txns l) = mapM (txn_of_raw w accs' al' pays' cs') (pl_txns l').
  Proof using M C C' N N' PA PA'.
    intros J. rewrite (sm_txns _ _ _ _ M). apply mapM_ext_in. intros t Ht. rewrite Forall_forall in J. pose proof (J t Ht) as Jt. unfold rtxn_ok in Jt.
    unfold txn_of_raw. destruct (t_type t); auto. apply bind_ext. intros d. destruct Jt as (_ & pay & F). rewrite Forall_forall in F.
    rewrite (mapM_ext_in (posting_of_raw w accs al pays cs d (t_desc t) (flat_map get_tags (t_comments t))) (posting_of_raw w accs' al' pays' cs' d (t_desc t) (flat_map get_tags (t_comments t)))); auto.
    intros p Hp. apply posting_means; auto. destruct (F p Hp) as (-> & _). discriminate.
  Qed.
End Two.
