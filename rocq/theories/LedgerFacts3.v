(** Lemmas about ledgers, continued: headers, contents, reordering. *)
From Coq Require Import Lia Sorting.Sorted.
From Verif Require Import Base BaseFacts Numerals Money Alist Comment Txn Peg Grammar Dates Expr Filter Tokens Price
  Ledger Spec MoneyFacts SpecTxn TxnFacts TxnFacts2 PropTxn TokenFacts SpecList AlistFacts JournalFacts SpecLedger LedgerFacts LedgerFacts2.
Open Scope Z_scope.

Lemma parsed_ok w l : parsed w l -> journal_ok w l.
Proof. intros (d & f & s & c & H). eapply tokenize_wf; eauto. Qed.

(** ** Headers *)
Lemma same_header_header (t t' : txn posting) : same_header t t' -> header t' = header t.
Proof. intros (H1 & H2 & H3 & H4 & H5 & H6 & H7 & _). unfold header. congruence. Qed.
Lemma Forall2_headers ts ts' : Forall2 same_header ts ts' -> map header ts' = map header ts.
Proof. induction 1; cbn; auto. rewrite (same_header_header _ _ H), IHForall2. auto. Qed.
Lemma same_header_refl (t : txn posting) : same_header t t.
Proof. repeat split. Qed.
Lemma same_header_trans (a b c : txn posting) : same_header a b -> same_header b c -> same_header a c.
Proof. unfold same_header. intuition congruence. Qed.
Lemma Forall2_trans_h (xs ys zs : list (txn posting)) : Forall2 same_header xs ys -> Forall2 same_header ys zs -> Forall2 same_header xs zs.
Proof.
  intros H. revert zs. induction H; intros zs H2; inv H2; constructor; auto. eapply same_header_trans; eauto.
Qed.
Lemma reads_headers w al pays cs ts ts' : Forall2 (reads_txn w al pays cs) ts ts' -> map header ts' = map header ts.
Proof. induction 1 as [|t t' ts ts' [H _] _ IH]; cbn; auto. rewrite IH, H. auto. Qed.
(** The transactions as read, in the order of the ledger. *)
Lemma built_sorted w skip l lg : ledger_built w skip l lg ->
  exists al cs pays ts dir costs sorted, journal_read w l al cs pays ts dir costs /\ date_sorted ts sorted /\
    Forall2 same_header sorted (lg_txns lg) /\
    extends w al (lg_accounts lg) /\ extends w cs (lg_commodities lg) /\ extends w pays (lg_payees lg).
Proof.
  intros [ts dir costs sorted run imps Hr HL JR DS Hz LR EP|al cs pays ts dir costs sorted run ts1 imps q ts2 run' imps' Hr HL JR DS Hz LR Q RP Hz' LR' E1 E2 E3 EP].
  - exists (lg_accounts lg), (lg_commodities lg), (lg_payees lg), ts, dir, costs, sorted. split; auto. split; auto.
    split; [eapply run_headers; eauto|]. split; [apply extends_refl|split; apply extends_refl].
  - exists al, cs, pays, ts, dir, costs, sorted. split; auto. split; auto. split; auto.
    eapply Forall2_trans_h; [eapply run_headers; eauto|]. eapply Forall2_trans_h; [|eapply run_headers; eauto].
    clear -RP. induction RP; constructor; auto. eapply rules_pass_good; eauto.
Qed.
Lemma sorted_headers ts ts' : Forall2 same_header ts ts' -> StronglySorted not_after ts -> StronglySorted not_after ts'.
Proof.
  induction 1 as [|t t' ts ts' H F IH]; intros S; [constructor|]. inv S. constructor; auto.
  clear -H F H3. induction F as [|u u' us us' Hu _ IH]; constructor; inv H3; auto.
  unfold not_after in *. destruct H as (-> & _). destruct Hu as (-> & _). auto.
Qed.
Lemma filter_dated {P} d (ts : list (txn P)) : filter (dated_on d) (map header ts) = map header (filter (dated d) ts).
Proof.
  induction ts as [|t ts IH]; cbn; auto. rewrite IH. unfold dated. destruct (t_date t); auto. destruct (_ =? _); auto.
Qed.

(** ** Contents *)
Lemma includes_refl {A} (R : A -> A -> Prop) xs : (forall x, R x x) -> includes R xs xs.
Proof.
  intros Hr. exists xs, []. rewrite app_nil_r. split; auto. induction xs; constructor; auto.
Qed.
Lemma Forall2_perm_l {A B} (R : A -> B -> Prop) xs xs' ys : Permutation xs xs' -> Forall2 R xs ys ->
  exists ys', Permutation ys ys' /\ Forall2 R xs' ys'.
Proof.
  intros HP. revert ys. induction HP; intros ys H.
  - inv H. exists []. auto.
  - inv H. destruct (IHHP _ H4) as (ys' & P & F). exists (y :: ys'). split; auto.
  - inv H. inv H4. exists (y1 :: y0 :: l'0). split; [constructor|]. auto.
  - destruct (IHHP1 _ H) as (ys1 & P1 & F1). destruct (IHHP2 _ F1) as (ys2 & P2 & F2). exists ys2. split; auto.
    eapply Permutation_trans; eauto.
Qed.
Lemma includes_perm {A B} (R : A -> B -> Prop) xs xs' ys ys' :
  Permutation xs xs' -> Permutation ys ys' -> includes R xs ys -> includes R xs' ys'.
Proof.
  intros H1 H2 (k & r & P & F). destruct (Forall2_perm_l _ _ _ _ H1 F) as (k' & Pk & Fk).
  exists k', r. split; auto. eapply Permutation_trans; [symmetry; exact H2|]. eapply Permutation_trans; [exact P|].
  apply Permutation_app_tail. auto.
Qed.
Lemma includes_app {A B} (R : A -> B -> Prop) xs ys xs' ys' :
  includes R xs ys -> includes R xs' ys' -> includes R (xs ++ xs') (ys ++ ys').
Proof.
  intros (k & r & P & F) (k' & r' & P' & F'). exists (k ++ k'), (r ++ r'). split; [|apply Forall2_app; auto].
  eapply Permutation_trans; [apply Permutation_app; eauto|]. rewrite <- !app_assoc. apply Permutation_app_head.
  rewrite !app_assoc. apply Permutation_app_tail. apply Permutation_app_comm.
Qed.
Lemma includes_more {A B} (R : A -> B -> Prop) xs ys zs : includes R xs ys -> includes R xs (ys ++ zs).
Proof.
  intros (k & r & P & F). exists k, (r ++ zs). split; auto. rewrite app_assoc. apply Permutation_app_tail. auto.
Qed.
Lemma Forall2_compose {A B C} (R : A -> B -> Prop) (S : B -> C -> Prop) (T : A -> C -> Prop) xs ys zs :
  (forall x y z, R x y -> S y z -> T x z) -> Forall2 R xs ys -> Forall2 S ys zs -> Forall2 T xs zs.
Proof. intros H F. revert zs. induction F; intros zs G; inv G; constructor; eauto. Qed.
Lemma includes_trans {A B C} (R : A -> B -> Prop) (S : B -> C -> Prop) (T : A -> C -> Prop) xs ys zs :
  (forall x y z, R x y -> S y z -> T x z) -> includes R xs ys -> includes S ys zs -> includes T xs zs.
Proof.
  intros H (k & r & P & F) (k' & r' & P' & F').
  destruct (Forall2_perm_l _ _ _ _ P F') as (k2 & P2 & F2). apply Forall2_app_inv_l in F2.
  destruct F2 as (a & b & Fa & Fb & ->). exists a, (b ++ r'). split.
  - eapply Permutation_trans; [exact P'|]. rewrite app_assoc. apply Permutation_app_tail. auto.
  - eapply Forall2_compose; eauto.
Qed.
Lemma Forall2_includes {A B} (R : A -> B -> Prop) xs ys : Forall2 R xs ys -> includes R xs ys.
Proof. intros H. exists ys, []. rewrite app_nil_r. auto. Qed.

(** What stays of a posting. *)
Definition stays (p q : posting) : Prop :=
  p_account q = p_account p /\ p_balance q = p_balance p /\ p_cost q = p_cost p /\ p_kind q = p_kind p /\
  (p_amount p <> None -> p_amount q = p_amount p) /\ p_payee q = p_payee p /\
  exists more, p_tags q = p_tags p ++ more.
Lemma stays_refl p : stays p p.
Proof. repeat split. exists []. rewrite app_nil_r. auto. Qed.
Lemma stays_trans p q r : stays p q -> stays q r -> stays p r.
Proof.
  unfold stays. intros (A1 & A2 & A3 & A4 & A5 & A6 & m & A7) (B1 & B2 & B3 & B4 & B5 & B6 & n & B7).
  rewrite B1, B2, B3, B4, B6, B7, A7. repeat (split; auto).
  - intros H. rewrite <- (A5 H). apply B5. rewrite (A5 H). auto.
  - exists (m ++ n). rewrite app_assoc. auto.
Qed.
Lemma keeps_stays p q : keeps p q -> stays p q.
Proof. intros (H1 & H2 & H3 & H4 & _ & H6 & H7 & _ & H5). repeat (split; auto). exists []. rewrite app_nil_r. auto. Qed.
Definition stated (skip : bool) (p : posting) : bool := negb (elided skip p).
Lemma filter_split {A} (f g h : A -> bool) l : (forall x, f x = g x || h x) -> (forall x, g x && h x = false) ->
  Permutation (filter f l) (filter g l ++ filter h l).
Proof.
  intros H1 H2. induction l as [|x l IH]; cbn; auto. specialize (H1 x). specialize (H2 x).
  destruct (f x), (g x), (h x); cbn in *; try discriminate; auto.
  apply Permutation_cons_app. auto.
Qed.
Lemma ledger_txn_includes skip run t t' prs : ledger_txn skip run t t' prs ->
  includes stays (filter (stated skip) (t_postings t)) (t_postings t').
Proof.
  intros (_ & _ & (kept & fills & E & K & _) & _). rewrite E.
  apply (includes_perm stays (filter (given skip) (t_postings t) ++ filter (fun p => negb (kind_eqb (p_kind p) Real)) (t_postings t)) _
           ((kept ++ filter (fun p => negb (kind_eqb (p_kind p) Real)) (t_postings t)) ++ fills)).
  - symmetry. apply filter_split.
    + intros p. unfold stated, given, elided. destruct (p_kind p), (p_amount p), (p_balance p); cbn; auto. destruct skip; auto.
    + intros p. unfold given. destruct (p_kind p); cbn; auto. apply andb_false_r.
  - rewrite <- !app_assoc. apply Permutation_app_head. apply Permutation_app_comm.
  - apply includes_more. apply includes_app.
    + apply Forall2_includes. clear -K. induction K; constructor; auto. apply keeps_stays. auto.
    + apply includes_refl. apply stays_refl.
Qed.
(** After balancing, every real posting has an amount. *)
Definition amounts_given (t : txn posting) : Prop := forall p, In p (t_postings t) -> p_kind p = Real -> p_amount p <> None.
Lemma ledger_txn_amounts skip run t t' prs : ledger_txn skip run t t' prs -> amounts_given t'.
Proof.
  intros (_ & _ & (kept & fills & E & K & F & _) & _) p Hp Hk. rewrite E, !in_app_iff in Hp. destruct Hp as [Hp|[Hp|Hp]].
  - clear -K Hp. induction K; [destruct Hp|]. destruct Hp as [<-|Hp]; auto. apply H.
  - apply F in Hp. tauto.
  - apply filter_In in Hp. rewrite Hk in Hp. destruct Hp; discriminate.
Qed.
Lemma pass_includes w from upto query rule t done todo tg ad :
  rule_pass w from upto query rule t done todo tg ad ->
  Forall2 (fun p q => stays p q /\ p_amount q = p_amount p) todo tg /\ Forall (fun q => p_amount q <> None) ad.
Proof.
  induction 1; try destruct IHrule_pass as [I1 I2]; split; auto; try (constructor; auto using stays_refl).
  - subst. split; [repeat split; eexists; reflexivity|auto].
  - apply Forall_app. split; auto. clear -H2. induction H2; constructor; auto.
    destruct H as (_ & _ & (m & -> & _) & _). discriminate.
Qed.
Lemma rules_pass_includes w from upto rs t t' : rules_pass w from upto rs t t' ->
  includes stays (t_postings t) (t_postings t') /\ (amounts_given t -> amounts_given t').
Proof.
  induction 1.
  - split; auto. apply includes_refl. apply stays_refl.
  - destruct IHrules_pass as [I1 I2]. destruct (pass_includes _ _ _ _ _ _ _ _ _ _ H) as [P1 P2]. split.
    + eapply includes_trans; [exact stays_trans| |exact I1]. cbn. apply includes_more. apply Forall2_includes.
      clear -P1. induction P1; constructor; auto. apply H.
    + intros G. apply I2. intros p Hp Hk. cbn in Hp. apply in_app_iff in Hp. destruct Hp as [Hp|Hp].
      * unfold amounts_given in G. clear -G P1 Hp Hk. revert G. generalize dependent p. induction P1; intros p Hp Hk G; [destruct Hp|].
        destruct Hp as [<-|Hp].
        -- destruct H as [(_ & _ & _ & E & _) ->]. apply G; [left; auto|congruence].
        -- eapply IHP1; eauto. intros. apply G; auto. right. auto.
      * rewrite Forall_forall in P2. auto.
Qed.
Lemma amounts_stated skip t : amounts_given t -> filter (stated skip) (t_postings t) = t_postings t.
Proof.
  intros G. unfold amounts_given in G. induction (t_postings t) as [|p ps IH]; cbn; auto.
  rewrite IH by (intros; apply G; auto; right; auto).
  specialize (G p (or_introl eq_refl)). unfold stated, elided. destruct (p_kind p), (p_amount p); cbn; auto.
  exfalso. apply G; auto.
Qed.
Lemma run_includes skip run ts ts' prs : ledger_run skip run ts ts' prs ->
  Forall2 (fun t t' => header t' = header t /\ includes stays (filter (stated skip) (t_postings t)) (t_postings t') /\ amounts_given t') ts ts'.
Proof.
  induction 1; constructor; auto. split; [apply same_header_header; apply H|].
  split; [eapply ledger_txn_includes; eauto|eapply ledger_txn_amounts; eauto].
Qed.
Lemma built_includes w skip l lg : ledger_built w skip l lg ->
  exists al cs pays ts dir costs sorted, journal_read w l al cs pays ts dir costs /\ date_sorted ts sorted /\
    extends w al (lg_accounts lg) /\ extends w cs (lg_commodities lg) /\ extends w pays (lg_payees lg) /\
    Forall2 (fun t t' => header t' = header t /\ includes stays (filter (stated skip) (t_postings t)) (t_postings t')) sorted (lg_txns lg).
Proof.
  intros [ts dir costs sorted run imps Hr HL JR DS Hz LR EP|al cs pays ts dir costs sorted run ts1 imps q ts2 run' imps' Hr HL JR DS Hz LR Q RP Hz' LR' E1 E2 E3 EP].
  - exists (lg_accounts lg), (lg_commodities lg), (lg_payees lg), ts, dir, costs, sorted. split; auto. split; auto.
    repeat (split; [apply extends_refl|]). apply run_includes in LR. eapply Forall2_impl_in; [exact LR|]. cbn. tauto.
  - exists al, cs, pays, ts, dir, costs, sorted. repeat (split; [auto|]).
    apply run_includes in LR. apply run_includes in LR'.
    eapply Forall2_compose; [|eapply Forall2_compose with (T := fun t t' => header t' = header t /\ amounts_given t'  /\ includes stays (filter (stated skip) (t_postings t)) (t_postings t')); [|exact LR|exact RP]|exact LR'].
    + cbn. intros t u v (A1 & A2 & A3) (B1 & B2 & B3). split; [congruence|].
      rewrite (amounts_stated skip u A2) in B2. eapply includes_trans; [exact stays_trans|exact A3|exact B2].
    + cbn. intros t u v (A1 & A2 & A3) RU. pose proof (rules_pass_includes _ _ _ _ _ _ RU) as [R1 R2].
      split; [|split; auto].
      * apply rules_pass_good in RU. destruct RU as [RU _]. apply same_header_header in RU. congruence.
      * eapply includes_trans; [exact stays_trans|exact A2|exact R1].
Qed.

(** ** Reordering *)
Lemma mapM_perm {A B} (f : A -> res B) l l' r : Permutation l l' -> mapM f l = Ok r ->
  exists r', mapM f l' = Ok r' /\ Permutation r r'.
Proof.
  intros HP H. apply mapM_ok_Forall2 in H. destruct (Forall2_perm_l _ _ _ _ HP H) as (r' & P & F).
  exists r'. split; auto. clear -F. induction F; cbn; auto. rewrite H, IHF. auto.
Qed.
Lemma balance_all_prices w skip : forall ts site bals prices,
  balance_all w site skip ts bals prices =
  match balance_all w site skip ts bals [] with
  | Ok (ts', b, prs) => Ok (ts', b, prices ++ prs)
  | Err e => Err e
  | Panic e => Panic e
  end.
Proof.
  induction ts as [|t ts IH]; intros site bals prices; cbn [balance_all].
  - rewrite app_nil_r. auto.
  - destruct (unwrap (t_date t)) as [z| |]; cbn [bind]; auto. destruct (txn_balance _ skip t bals) as [[[b t'] bals']| |]; cbn [bind]; auto.
    destruct (implicit_price z _) as [prs| |]; cbn [bind]; auto. cbn [app].
    rewrite (IH _ _ (prices ++ prs)), (IH _ _ prs).
    destruct (balance_all w (S (S site)) skip ts bals' []) as [[[ts' b2] p2]| |]; cbn; auto. rewrite app_assoc. auto.
Qed.
Lemma sort_unique (ts ts' : list (txn posting)) : Permutation ts ts' -> all_dated ts -> NoDup (map t_date ts) -> sort_txns ts = sort_txns ts'.
Proof.
  intros HP HD HN.
  assert (HD' : all_dated ts') by (eapply Permutation_Forall; eauto).
  destruct (sort_txns_sorted ts HD) as (P1 & S1 & _). destruct (sort_txns_sorted ts' HD') as (P2 & S2 & _).
  apply (sorted_perm_eq not_after); auto.
  - intros a b Ha Hb. apply (Permutation_in _ (Permutation_sym P1)) in Ha. apply (Permutation_in _ (Permutation_sym P1)) in Hb.
    unfold not_after. destruct (t_date a) eqn:Ea; [|intros []]. destruct (t_date b) eqn:Eb; [|intros []]. intros H1 H2.
    assert (t_date a = t_date b) by (rewrite Ea, Eb; f_equal; lia). clear -HN Ha Hb H.
    induction ts as [|x ts IH]; [destruct Ha|]. cbn in HN. inv HN. destruct Ha as [->|Ha], Hb as [->|Hb]; auto.
    + exfalso. apply H2. rewrite H. apply in_map. auto.
    + exfalso. apply H2. rewrite <- H. apply in_map. auto.
  - eapply Permutation_trans; [symmetry; exact P1|]. eapply Permutation_trans; [exact HP|exact P2].
Qed.
Lemma flat_map_perm {A B} (f : A -> list B) l l' : Permutation l l' -> Permutation (flat_map f l) (flat_map f l').
Proof. intros H. apply Permutation_flat_map. auto. Qed.
Lemma filter_perm {A} (f : A -> bool) l l' : Permutation l l' -> Permutation (filter f l) (filter f l').
Proof.
  induction 1; cbn; auto.
  - destruct (f x); auto.
  - destruct (f x), (f y); auto. constructor.
  - eapply Permutation_trans; eauto.
Qed.

Lemma reordered_outcome w skip l l' : world_ok w -> journal_ok w l -> journal_ok w l' -> reordered w l l' ->
  NoDup (map t_date (journal_txns l)) -> same_outcome (to_ledger w skip l) (to_ledger w skip l').
Proof.
  intros Hw J J' [R1 R2 R3 R4 R5 R6 R7 R8 R9] ND. rewrite !to_ledger_phases.
  assert (RP : forall cs al pays prices1 raw, read_phase w l = Ok (cs, al, pays, prices1, raw) ->
     exists raw', read_phase w l' = Ok (cs, al, pays, prices1, raw') /\ Permutation raw raw').
  { intros cs al pays prices1 raw H. unfold read_phase in *. rewrite R1, R2, R3, R4, R7, R8, R9.
    bind_inv H. rewrite Hb. cbn [bind]. bind_inv H. rewrite Hb0. cbn [bind]. bind_inv H. rewrite Hb1. cbn [bind].
    bind_inv H. rewrite Hb2. cbn [bind]. bind_inv H. inv H.
    destruct (mapM_perm _ _ _ _ R5 Hb3) as (raw' & -> & P). exists raw'. auto. }
  destruct (read_phase_spec w l Hw J) as [(cs & al & pays & prices1 & raw & E & [N P R])|(E & Z)]; rewrite E.
  - destruct (RP _ _ _ _ _ E) as (raw' & E' & PR). rewrite E'. cbn [bind].
    destruct (raw_parts _ _ _ _ _ _ R) as (T1 & T2 & T3 & _). cbn in T1, T2, T3.
    assert (S : sort_txns (flat_map (fun x : raw_result => fst (fst x)) raw) = sort_txns (flat_map (fun x : raw_result => fst (fst x)) raw')).
    { apply sort_unique; auto.
      - apply flat_map_perm. auto.
      - apply reads_headers in T1. fold (journal_txns l) in T1.
        assert (X : forall P (ts : list (txn P)), map (fun h : option Z * option Z * option str * str * list str => fst (fst (fst (fst h)))) (map header ts) = map t_date ts).
        { intros. rewrite map_map. apply map_ext. reflexivity. }
        rewrite <- X, T1, X. exact ND. }
    assert (A : flat_map (fun x : raw_result => snd (fst x)) raw' = flat_map (fun x : raw_result => snd (fst x)) raw).
    { destruct (read_phase_spec w l' Hw J') as [(cs' & al' & pays' & prices1' & raw2 & E2 & [N2 P2 R2'])|(E2 & Z)]; [|congruence].
      rewrite E' in E2. inv E2. destruct (raw_parts _ _ _ _ _ _ R2') as (_ & T2' & _). cbn in T2'.
      rewrite T2, T2'. exact R6. }
    unfold balance_phase. rewrite <- S, A.
    set (ts := sort_txns _). set (autos := flat_map (fun x : raw_result => snd (fst x)) raw).
    pose proof (flat_map_perm snd _ _ PR) as PP.
    rewrite (balance_all_prices w skip ts 8 (fresh_balances al) (prices1 ++ flat_map snd raw)).
    rewrite (balance_all_prices w skip ts 8 (fresh_balances al) (prices1 ++ flat_map snd raw')).
    destruct (balance_all w 8 skip ts (fresh_balances al) []) as [[[ts1 b1] p1]| |]; cbn [bind]; cbn; auto.
    destruct autos as [|a0 autos0].
    + cbn. repeat (split; auto). apply Permutation_app_tail. apply Permutation_app_head. exact PP.
    + destruct (mapM _ (a0 :: autos0)) as [nodes| |]; cbn [bind]; cbn; auto.
      destruct (auto_all w _ ts1 _) as [[ts2 s]| |]; cbn [bind]; cbn; auto.
      match goal with |- context [balance_all w ?a ?b ?c ?d _] => set (site := a) end.
      rewrite (balance_all_prices w skip ts2 site (fresh_balances (as_accs s)) ((prices1 ++ flat_map snd raw) ++ p1)).
      rewrite (balance_all_prices w skip ts2 site (fresh_balances (as_accs s)) ((prices1 ++ flat_map snd raw') ++ p1)).
      destruct (balance_all w site skip ts2 (fresh_balances (as_accs s)) []) as [[[ts3 b3] p3]| |]; cbn [bind]; cbn; auto.
      repeat (split; auto). apply Permutation_app_tail. apply Permutation_app_tail. apply Permutation_app_head. exact PP.
  - destruct (read_phase_spec w l' Hw J') as [(cs' & al' & pays' & prices1' & raw2 & E2 & [N2 P2 R2'])|(E2 & _)].
    + exfalso. unfold read_phase in E, E2. rewrite R1, R2, R3, R4, R7, R8, R9 in E2.
      bind_inv E2. rewrite Hb in E. cbn [bind] in E. bind_inv E2. rewrite Hb0 in E. cbn [bind] in E.
      bind_inv E2. rewrite Hb1 in E. cbn [bind] in E. bind_inv E2. rewrite Hb2 in E. cbn [bind] in E. bind_inv E2.
      destruct (mapM_perm _ _ _ _ (Permutation_sym R5) Hb3) as (r & E3 & _). rewrite E3 in E. discriminate.
    + rewrite E2. cbn. auto.
Qed.
