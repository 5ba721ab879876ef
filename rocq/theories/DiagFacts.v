(** Facts about what is printed when a journal is refused. *)
From Coq Require Import Lia.
From Verif Require Import Base BaseFacts Numerals Money Alist Comment Txn Peg Grammar Dates Expr Filter Tokens Price
  Ledger Reports App Diag NumFacts DisplayFacts Spec SpecText SpecDates MoneyFacts SpecTxn TxnFacts TxnFacts2 PropTxn TokenFacts SpecList AlistFacts JournalFacts SpecLedger
  LedgerFacts LedgerFacts2 LedgerFacts4 DateFacts PropDates SpecLayout PropLayout SpecDiag.

(** ** Texts *)
Lemma posting_text_ok p : exists line, posting_text p = Ok line /\ posting_printed p line.
Proof.
  unfold posting_text, posting_printed. destruct (p_amount p) as [m|].
  - destruct (show_text m) as (x & E & F). rewrite E. cbn [bind]. eexists. split; [reflexivity|].
    exists (pad_right 50 (p_account p)), x. rewrite <- app_assoc. split; auto. split; auto. apply pad_right_at.
  - eexists. split; [reflexivity|]. exists (pad_right 50 (p_account p)), []. rewrite app_nil_r. split; auto. split; auto. apply pad_right_at.
Qed.
Lemma postings_text_ok ps : exists lines, mapM posting_text ps = Ok lines /\ Forall2 posting_printed ps lines.
Proof.
  induction ps as [|p ps (ls & E & F)]; cbn [mapM]; [exists []; auto|].
  destruct (posting_text_ok p) as (l & El & Fl). rewrite El, E. cbn. exists (l :: ls). auto.
Qed.
Lemma txn_text_ok t : t_date t <> None -> exists text, txn_text t = Ok text /\ txn_printed t text.
Proof.
  intros Hd. unfold txn_text, txn_printed. destruct (t_date t) as [day|]; [|congruence]. cbn [unwrap bind].
  destruct (postings_text_ok (t_postings t)) as (ls & -> & F). cbn [bind]. eexists. split; [reflexivity|].
  pose proof (date_text_written day) as W. pose proof (to_ymd_spec day) as S. destruct (to_ymd day) as [[y m] d]. destruct S as [S1 S2].
  exists day, y, m, d, (date_text day), ls. split; auto. split; [apply day_count_spec; auto|]. split; auto.
Qed.
Lemma verdict_printed_ok quoted v e : verdict_error v (ELedger e) -> verdict_printed v (ledger_error_debug quoted e).
Proof.
  destruct v as [| |n]; cbn; intros H; inv H; cbn; auto.
  destruct (N_digits_spec (N.of_nat n)) as (V & A & Ne & Hh). exists (N_digits (N.of_nat n)). split; auto.
  split; [apply only_digits_iff; auto|]. auto.
Qed.
Lemma balance_text_ok b v : wf_bal b -> nz_bal b -> (forall c, bal_amt b c = v c) ->
  exists text, balance_text b = Ok text /\ amounts_run_together v text.
Proof.
  intros Hw Hz Hv. unfold balance_text.
  assert (E : mapM (fun e : bkey * money => show (snd e)) b = mapM show (map snd b)).
  { clear. induction b as [|e b IH]; cbn [mapM map]; auto. rewrite IH. auto. }
  rewrite E. destruct (shows_texts (map snd b)) as (ts & -> & F). cbn [bind]. eexists. split; [reflexivity|].
  exists (map snd b), ts. split; auto. split; auto. split.
  - pose proof (proj1 Hw) as N. clear -Hw Hz N.
    assert (S : forall e, In e b -> exists c a, e = (Some c, M a c)) by (intros; eapply nz_entry_shape; eauto). clear Hw Hz.
    induction b as [|e b IH]; cbn in *; constructor.
    + intros Hi. apply in_map_iff in Hi. destruct Hi as (e' & E & Hi). inv N. apply H1. destruct (S e (or_introl eq_refl)) as (c & a & ->), (S e' (or_intror Hi)) as (c' & a' & ->).
      cbn in E. inv E. apply in_map_iff. exists (Some c, M a c). auto.
    + inv N. apply IH; auto.
  - intros m. split.
    + intros Hi. apply in_map_iff in Hi. destruct Hi as (e & <- & Hi). destruct (nz_entry_shape _ _ Hw Hz Hi) as (c & a & ->).
      apply nz_entry_iff in Hi; auto. destruct Hi as [Ha Hn]. exists c. cbn. rewrite <- Hv, Ha. auto.
    + intros (c & -> & Hn). apply in_map_iff. exists (Some c, M (v c) c). split; auto. apply nz_entry_iff; auto.
Qed.

(** ** The first assertion that fails *)
Lemma assertion_text_ok ord1 ord2 n0 bs s p m a c : order_ok ord1 -> order_ok ord2 -> sim n0 bs s -> known (bs_bals bs) (p_account p) ->
  p_amount p = Some m -> p_balance p = Some (M a c) ->
  exists head, assertion_text ord1 ord2 bs p = Ok head /\ assertion_printed p m a c s head.
Proof.
  intros O1 O2 [Sg Sr St Ss Se] Hk Hm Hb. unfold known in Hk. unfold assertion_text. rewrite Hm, Hb.
  destruct (hget str_eqb (p_account p) (bs_bals bs)) as [old|] eqn:Eo; [|congruence]. cbn [unwrap bind].
  assert (Hbo : built old) by (eapply Sg; eauto).
  assert (Hrun : forall d, s_run s (p_account p) d = bal_amt old d) by (intros; rewrite Sr; apply run_of; auto).
  destruct (show_text (M a c)) as (x & Ex & Fx). rewrite Ex. cbn [bind].
  assert (Wo : wf_bal old) by (apply built_wf; auto).
  assert (W1 : wf_bal (bal_add old (bal_of m))) by (apply wf_add; auto using wf_of).
  assert (W2 : wf_bal (bal_sub (bal_add old (bal_of m)) (bal_of (M a c)))) by (apply wf_sub; auto using wf_of).
  assert (P : forall ord b v, order_ok ord -> wf_bal b -> nz_bal b -> (forall d, bal_amt b d = v d) ->
     exists text, balance_text (ord b) = Ok text /\ amounts_run_together v text).
  { intros ord b v O Hw Hz Hv. apply balance_text_ok.
    - eapply wf_perm; [exact Hw|]. apply Permutation_sym, O.
    - unfold nz_bal in *. eapply Permutation_Forall; [apply Permutation_sym, O|exact Hz].
    - intros d. rewrite (bal_amt_perm _ b); auto. }
  destruct (P ord1 _ (fun d => s_run s (p_account p) d + money_amt m d)%Qc O1 W1 (nz_add _ _)) as (y & Ey & Fy).
  { intros d. rewrite bal_amt_add, bal_amt_of, Hrun by (auto using wf_of). auto. }
  destruct (P ord2 _ (fun d => s_run s (p_account p) d + money_amt m d - money_amt (M a c) d)%Qc O2 W2 (nz_add _ _)) as (z & Ez & Fz).
  { intros d. rewrite bal_amt_sub, bal_amt_add, !bal_amt_of, Hrun by (auto using wf_of). auto. }
  rewrite Ey. cbn [bind]. rewrite Ez. cbn [bind]. eexists. split; [reflexivity|]. exists x, y, z. auto.
Qed.
Lemma assertion_found ord1 ord2 skip p m a c now before : order_ok ord1 -> order_ok ord2 -> forall after n0 bs s,
  sim n0 bs s -> Forall good_posting (before ++ p :: after) ->
  (forall q, In q (before ++ p :: after) -> known (bs_bals bs) (p_account q)) ->
  skip = false -> p_kind p = Real -> p_amount p = Some m -> p_balance p = Some (M a c) ->
  (s_run now (p_account p) c + money_amt m c)%Qc <> a -> spec_steps skip s before (Some now) ->
  exists head, assertion_lines ord1 ord2 skip bs (before ++ p :: after) = Ok head /\ assertion_printed p m a c now head.
Proof.
  intros O1 O2. induction before as [|q before IH]; intros after n0 bs s S G K Sk Kd Hm Hb Hn H; cbn [app assertion_lines] in *.
  - inv H. inv G. pose proof (sim_step false n0 bs now p None S H1 (K p (or_introl eq_refl)) (ss_violated false now p m a c Kd Hm eq_refl Hb Hn)) as E.
    cbn in E. rewrite E. eapply assertion_text_ok; eauto. apply K. left. auto.
  - inv G. inv H. pose proof (sim_step false n0 bs s q (Some s1) S ltac:(assumption) (K q (or_introl eq_refl)) ltac:(assumption)) as (bs' & E & V & R & Kn).
    rewrite E. destruct (kind_eqb_spec (p_kind q) Real) as [Kq|Kq].
    + eapply (IH after (Datatypes.S n0) bs' s1); eauto. intros q' Hq'. apply Kn. apply K. right. auto.
    + eapply (IH after n0 bs' s1); eauto. intros q' Hq'. apply Kn. apply K. right. auto.
Qed.
Lemma assertion_lines_ok ord1 ord2 skip ps : order_ok ord1 -> order_ok ord2 -> forall n0 bs s,
  sim n0 bs s -> Forall good_posting ps -> (forall q, In q ps -> known (bs_bals bs) (p_account q)) ->
  exists head, assertion_lines ord1 ord2 skip bs ps = Ok head /\
    (head = [] \/ exists p m a c now, assertion_fails skip s ps p m a c now).
Proof.
  intros O1 O2. induction ps as [|q ps IH]; intros n0 bs s S G K; cbn [assertion_lines]; [exists []; auto|]. inv G.
  assert (Kq : known (bs_bals bs) (p_account q)) by (apply K; left; auto).
  destruct (spec_step_exists skip n0 bs s q S H1 Kq) as ([s1|] & Hr).
  - pose proof (sim_step skip n0 bs s q (Some s1) S H1 Kq Hr) as (bs' & E & V & R & Kn). rewrite E.
    assert (X : exists n1, sim n1 bs' s1).
    { destruct (kind_eqb_spec (p_kind q) Real) as [Kd|Kd]; eauto. }
    destruct X as (n1 & S1). destruct (IH n1 bs' s1 S1 H2) as (head & Eh & F).
    { intros q' Hq'. apply Kn. apply K. right. auto. }
    exists head. split; auto. destruct F as [F|(p & m & a & c & now & A1 & A2 & A3 & A4 & A5 & before & after & A6 & A7)]; auto.
    right. exists p, m, a, c, now. split; auto. split; auto. split; auto. split; auto. split; auto.
    exists (q :: before), after. split; [rewrite A6; auto|]. eapply sr_cons; eauto.
  - pose proof (sim_step skip n0 bs s q None S H1 Kq Hr) as E. cbn in E. rewrite E. inv Hr.
    + destruct (assertion_text_ok ord1 ord2 n0 bs s q m a c O1 O2 S Kq H0 H4) as (head & Eh & _). exists head. split; auto.
      right. exists q, m, a, c, s. split; auto. split; auto. split; auto. split; auto. split; auto. exists [], ps. split; auto. constructor.
    + exists []. unfold assertion_text. rewrite H0. auto.
Qed.
Lemma balance_stderr_ok ord1 ord2 skip t bals : order_ok ord1 -> order_ok ord2 ->
  good_bals bals -> good_txn t -> (forall p, In p (t_postings t) -> known bals (p_account p)) ->
  exists head, balance_stderr ord1 ord2 skip t bals = Ok head /\
    ((exists p m a c s, fine (virtual_group (t_postings t)) /\ assertion_fails skip (start (run_amt bals)) (t_postings t) p m a c s /\
        assertion_printed p m a c s head) \/
     (head = [] /\ forall p m a c s, fine (virtual_group (t_postings t)) -> ~ assertion_fails skip (start (run_amt bals)) (t_postings t) p m a c s)).
Proof.
  intros O1 O2 Hg Ht Hk. assert (HF : Forall good_posting (t_postings t)) by (apply Forall_forall; exact Ht).
  destruct (virtual_total _ HF) as (vb & Hv & Hvb & Hva).
  pose proof (can_be_zero_fine _ _ Hvb Hva) as Hz. unfold balance_stderr. rewrite Hv. cbn [bind].
  destruct (can_be_zero vb) eqn:Ez; cbn [negb].
  2:{ exists []. split; auto. right. split; auto. intros p m a c s F. apply Hz in F. congruence. }
  assert (F : fine (virtual_group (t_postings t))) by (apply Hz; auto).
  assert (S0 : sim 0 (init_state bals) (start (run_amt bals))).
  { constructor; simpl; auto. constructor. }
  fold (init_state bals). destruct (assertion_lines_ok ord1 ord2 skip (t_postings t) O1 O2 0 _ _ S0 HF Hk) as (head & E & X).
  exists head. split; auto.
  assert (Y : forall p m a c now, assertion_fails skip (start (run_amt bals)) (t_postings t) p m a c now -> assertion_printed p m a c now head).
  { intros p m a c now (A1 & A2 & A3 & A4 & A5 & before & after & A6 & A7). rewrite A6 in HF, E.
    destruct (assertion_found ord1 ord2 skip p m a c now before O1 O2 after 0 _ _ S0 HF) as (head' & E' & Z); auto.
    { intros q Hq. apply Hk. rewrite A6. auto. }
    congruence. }
  destruct X as [X|(p & m & a & c & now & A)].
  - right. split; auto. intros p m a c now _ A. apply Y in A. destruct A as (x & y & z & A & _). congruence.
  - left. exists p, m, a, c, now. auto.
Qed.

(** ** The run up to the culprit *)
Lemma refusal_ok quoted w skip : world_ok w -> forall ts site bals prices e,
  good_bals bals -> Forall good_txn ts -> Forall (fun t => t_date t <> None) ts ->
  (forall t p, In t ts -> In p (t_postings t) -> known bals (p_account p)) ->
  balance_all w site skip ts bals prices = Err e ->
  exists t now v lines, refusal_lines quoted w site skip ts bals = Ok lines /\ verdict_error v e /\
    stopped_at skip (run_amt bals) ts t now v /\ refusal_printed skip now t v lines.
Proof.
  intros Hw. induction ts as [|t ts IH]; intros site bals prices e Hg HF HD Hk H; cbn [balance_all refusal_lines] in *; [discriminate|].
  inv HF. inv HD. destruct (t_date t) as [d|] eqn:Ed; [|congruence]. cbn [unwrap bind] in H.
  assert (Ho : forall k, order_ok (w_ord w k (bkey * money)%type)) by (intros k x; apply (proj1 Hw)).
  assert (Kt : forall p, In p (t_postings t) -> known bals (p_account p)) by (intros p Hp; eapply Hk; eauto; left; auto).
  destruct (verdict_correct (w_ord w site (bkey * money)%type) skip t bals Hg H2 Kt) as [(v & Hv) Hall].
  specialize (Hall v Hv).
  assert (Bad : forall le, txn_balance (w_ord w site (bkey * money)%type) skip t bals = Err (ELedger le) -> v <> Accepted -> verdict_error v (ELedger le) ->
     exists u now v lines,
      match txn_balance (w_ord w site (bkey * money)%type) skip t bals with
      | Ok (_, _, bals') => refusal_lines quoted w (S (S site)) skip ts bals'
      | Err (ELedger e0) => a <- balance_stderr (w_ord w site _) (w_ord w (S site) _) skip t bals ;; x <- txn_text t ;; Ok (a ++ [x; ledger_error_debug quoted e0])
      | Err e0 => Err e0
      | Panic e0 => Panic e0
      end = Ok lines /\ verdict_error v e /\ stopped_at skip (run_amt bals) (t :: ts) u now v /\ refusal_printed skip now u v lines).
  { intros le E Hn V. rewrite E in H |- *. cbn in H. inv H.
    destruct (balance_stderr_ok (w_ord w site _) (w_ord w (S site) _) skip t bals (Ho _) (Ho _) Hg H2 Kt) as (head & Eh & X).
    destruct (txn_text_ok t) as (text & Et & Ft); [congruence|]. exists t, (run_amt bals), v, (head ++ [text; ledger_error_debug quoted le]).
    rewrite Eh. cbn [bind]. rewrite Et. cbn [bind]. split; auto. split; auto. split; [apply sa_here; auto|].
    exists head, text, (ledger_error_debug quoted le). split; auto. split; auto. split; auto. apply verdict_printed_ok. auto. }
  destruct v as [| |n]; cbn in Hall.
  - destruct Hall as (r & E). destruct r as [[b t'] bals']. rewrite E in H |- *. cbn [bind] in H |- *.
    destruct (one_txn _ skip t bals b t' bals' d (w_ord w (S site) (bkey * money)%type b) (Ho _) Hg H2 Ed Hv E (proj1 Hw _ _ _)) as (prs & Ei & LT).
    rewrite Ei in H. cbn [bind] in H. pose proof (txn_balance_accepted _ _ _ _ _ _ _ (Ho _) Hg H2 E) as [_ _ G2 K2 R2 _].
    destruct (balance_all w (S (S site)) skip ts bals' (prices ++ prs)) as [[[r' b2] p2]|e2|x2] eqn:E2; cbn in H; inv H.
    destruct (IH (S (S site)) bals' (prices ++ prs) e G2 H3 H5) as (u & now & v & lines & A1 & A2 & A3 & A4); auto.
    { intros t0 p Ht Hp. apply K2. eapply Hk; eauto. right. auto. }
    exists u, now, v, lines. split; auto. split; auto. split; auto. eapply sa_later; eauto.
  - apply (Bad TransactionIsNotBalanced); auto; [discriminate|reflexivity].
  - apply (Bad (TooManyEmptyPostings n)); auto; [discriminate|reflexivity].
Qed.
Lemma stopped_at_in skip run ts t now v : stopped_at skip run ts t now v -> In t ts.
Proof. induction 1; [left|right]; auto. Qed.
