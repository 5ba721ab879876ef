(** C85: the reports of what the words of the command line ask for, by account, payee or tag. *)
From Coq Require Import Lia Sorting.Sorted.
From Verif Require Import Base BaseFacts Numerals Money Alist Comment Txn Expr Filter Price Tokens Ledger Reports App Spec MoneyFacts SpecList SpecTxn TxnFacts SpecLedger
  TokenFacts JournalFacts LedgerFacts LedgerFacts2 LedgerFacts3 PropTxn PropLedger SpecQuery SpecExpr ExprFacts PropExpr PropQuery SpecReports ReportFacts ReportFacts2 ReportFacts3 PropReports PropApp
  SpecText SpecDates SpecTokens SpecJournal JournalRead PropJournal SpecLayout PropLayout
  SpecBook BookFacts PropBook PropBook2 SpecAsk PropAsk SpecWords SpecAssert AssertFacts PropAssert SpecRules ShownFacts PropRules SpecFind FindFacts.
Open Scope Qc_scope.

(** ** The lines of a transaction of the ledger and the postings they come from *)
Section Sources.
Context (w : world) (l : pledger) (skip : bool) (pay : str -> str).
Definition found_read (t : txn rposting) (p : rposting) (p' : posting) : Prop :=
  stated_read w l p p' /\ (exists n, rp_payee p = Some n /\ p_payee p' = Some (pay n)) /\ p_tags p' = written_tags (t_comments t) p.
Definition found_txn (t : txn rposting) (t' : txn posting) : Prop :=
  stated_txn_named w l t t' /\ Forall2 (found_read t) (t_postings t) (t_postings t') /\ t_tags t' = flat_map get_tags (t_comments t).
(** A posting of the ledger and the line with the posting of the journal. *)
Definition comes_from (t : txn rposting) (q : posting) (x : sourced) : Prop :=
  In (snd x) (t_postings t) /\ fst x = entry_of q /\ (exists n, rp_payee (snd x) = Some n /\ p_payee q = Some (pay n)) /\ p_account q = its_account w l (snd x) /\ p_tags q = line_tags skip t (snd x).
Lemma comes_line F t q x : comes_from t q x -> line_of F (finds w l skip F pay t) q x.
Proof. intros (_ & E & (n & N1 & N2) & A & T). split; auto. unfold posting_wish, finds. rewrite N1, N2, A, T. reflexivity. Qed.
Lemma real_sources t ps ps1 : Forall2 (found_read t) ps ps1 -> incl ps (t_postings t) -> forall now kept, walked w l skip now ps kept -> Forall2 keeps (filter (given skip) ps1) kept ->
  exists xs, real_sourced w l skip now ps xs /\ Forall2 (comes_from t) kept xs.
Proof.
  induction 1 as [|p p' ps ps1 (R & (n & N1 & N2) & T) F IH]; intros IN now kept W K.
  - inversion W; subst. exists []. split; constructor.
  - destruct (given_blank w l skip p p' R) as [_ G]. cbn [filter] in K. rewrite G in K. inversion W as [|? ? ? ? G' W'|? ? ? q ks m G' Q1 Q2 Q3 AM _ W']; subst; rewrite G' in K.
    + destruct (IH (fun x Hx => IN x (or_intror Hx)) _ _ W' K) as (xs & X1 & X2). exists xs. split; auto. apply rs_skip; auto.
    + inversion K as [|? ? ? ? (_ & _ & _ & _ & _ & K6 & K7 & _) K']; subst. destruct (IH (fun x Hx => IN x (or_intror Hx)) _ _ W' K') as (xs & X1 & X2).
      exists ((Real, its_account w l p, m, p) :: xs). split; [apply rs_line; auto|]. constructor; auto.
      split; [apply IN; left; auto|]. split; [cbn; unfold entry_of; rewrite Q1, Q2, Q3; reflexivity|]. split; [exists n; cbn; split; congruence|]. split; [auto|]. cbn [snd]. unfold line_tags.
      apply andb_true_iff in G'. destruct G' as [_ B]. apply negb_true_iff in B. rewrite B, K6, T. unfold written_tags. apply flat_map_app.
Qed.
Lemma virtual_sources t ps ps1 : Forall2 (found_read t) ps ps1 -> incl ps (t_postings t) -> Forall stated_posting ps ->
  Forall2 (comes_from t) (filter (fun p => negb (kind_eqb (p_kind p) Real)) ps1)
    (flat_map (fun p => map (fun e => (e, p)) (written_entry w l p)) (filter (fun p => negb (real_posting p)) ps)).
Proof.
  induction 1 as [|p p' ps ps1 ((A & K & B & M & _) & N & T) F IH]; intros IN P; inversion P as [|? ? (_ & V & _) P']; subst; [constructor|].
  cbn [filter]. unfold real_posting at 1. rewrite K. destruct (kind_eqb (rp_kind p) Real) eqn:E; cbn [negb]; [apply IH; auto; intros x Hx; apply IN; right; auto|].
  cbn [flat_map]. unfold written_entry at 1. destruct (rp_money p) as [[q c]|] eqn:Em.
  - cbn [map app]. constructor; [|apply IH; auto; intros x Hx; apply IN; right; auto]. split; [apply IN; left; auto|]. split; [cbn; unfold entry_of; rewrite A, K, M; reflexivity|]. split; [exact N|]. split; [exact A|].
    cbn [snd]. unfold line_tags, blank, real_posting. rewrite E. cbn [andb]. rewrite T. unfold written_tags. apply flat_map_app.
  - exfalso. apply V; auto. intros X. rewrite X in E. discriminate.
Qed.
Lemma found_lines t t1 t2 run prs now : found_txn t t1 -> (forall a c, run a c = now a c) -> ledger_txn skip run t1 t2 prs ->
  exists xs, sourced_now w l skip now t xs /\ Forall2 (comes_from t) (t_postings t2) xs.
Proof.
  intros (PN & FR & TT) N LT. pose proof PN as ((_ & F & P & CO) & _). pose proof LT as (_ & _ & (kept & fills & E & F2 & HF & HE) & _ & _ & _ & HA).
  assert (W : walked w l skip now (t_postings t) kept).
  { apply (kept_walked w l skip run t1 t2 (fills ++ filter (fun p => negb (kind_eqb (p_kind p) Real)) (t_postings t1)) HA _ _ F CO [] [] kept now); auto; [constructor|].
    intros a x. rewrite N. unfold account_sum. cbn. change (qsum []) with 0. ring. }
  destruct (real_sources t _ _ FR (incl_refl _) now kept W F2) as (rs & R1 & R2). pose proof (virtual_sources t _ _ FR (incl_refl _) P) as VS.
  assert (EL : Forall2 (found_read t) (filter (blank skip) (t_postings t)) (filter (elided skip) (t_postings t1))).
  { clear -FR. induction FR as [|p p' ps ps' R FR IH]; cbn; auto. rewrite (proj1 (given_blank w l skip p p' (proj1 R))). destruct (blank skip p); auto. }
  assert (X : exists xs, Forall2 (comes_from t) fills xs /\ (forall x, In x xs -> filter (blank skip) (t_postings t) = [snd x] /\ fst (fst x) = (Real, its_account w l (snd x))) /\
    NoDup xs /\ forall p, filter (blank skip) (t_postings t) = [p] -> forall m,
       In m (map (fun x => snd (fst x)) xs) <-> exists c, rest_of w l skip now t c <> 0 /\ m = M (rest_of w l skip now t c) c).
  { destruct fills as [|q0 fs] eqn:Efs.
    - exists []. split; [constructor|]. split; [intros x []|]. split; [constructor|]. intros p Ep m. split; [intros []|]. intros (c & Nz & ->). rewrite Ep in EL.
      inversion EL as [|? p1 ? ? _ _ Ex Ey]; subst. destruct HE as [_ I]; [rewrite <- Ey; discriminate|]. apply (I (M (rest_of w l skip now t c) c)).
      exists (rest_of w l skip now t c), c. split; auto. split; auto. unfold rest_of. rewrite (proj2 (walked_sums w l skip now _ _ (fun _ => true) (fun _ => true) c W)). reflexivity.
    - rewrite <- Efs in *. destruct (HF q0) as (_ & _ & _ & _ & _ & p1 & Ep1 & _); [rewrite Efs; left; auto|]. clear Efs q0 fs.
      rewrite Ep1 in EL. inversion EL as [|b ? bs ? Rb EL' Eb Ey]; subst. inversion EL'; subst. symmetry in Eb.
      destruct HE as [ND I]; [rewrite Ep1; discriminate|]. exists (map (fun q => (entry_of q, b)) fills).
      assert (Bi : In b (t_postings t) /\ blank skip b = true) by (assert (X : In b (filter (blank skip) (t_postings t))) by (rewrite Eb; left; auto); apply filter_In in X; exact X).
      destruct Bi as [Bi Bb].
      assert (HQ : forall q, In q fills -> p_kind q = Real /\ p_amount q <> None /\ comes_from t q (entry_of q, b)).
      { intros q Hq. destruct (HF q Hq) as (Q1 & _ & _ & QA & _ & p & X & Q2 & Q3 & _ & Q4). rewrite Ep1 in X. injection X as <-. do 2 (split; auto). destruct Rb as (Rs & (n & N1 & N2) & _).
        split; [exact Bi|]. split; [reflexivity|]. split; [exists n; split; [exact N1|congruence]|]. split; [rewrite Q2; apply Rs|]. cbn [snd]. unfold line_tags. rewrite Bb, app_nil_r. congruence. }
      split; [|split; [|split]].
      + clear -HQ. induction fills as [|q fs IH]; cbn [map]; constructor; [apply HQ; left; auto|apply IH; intros; apply HQ; right; auto].
      + intros x Hx. apply in_map_iff in Hx. destruct Hx as (q & <- & Hq). cbn [snd fst]. split; auto. destruct (HQ q Hq) as (Q1 & _ & _ & _ & _ & Q2 & _). cbn in Q2. unfold entry_of. cbn [fst]. congruence.
      + apply (NoDup_map_inv (fun x : sourced => snd (fst x))). rewrite map_map. cbn [fst snd entry_of]. clear -ND HQ.
        induction fills as [|q fs IH]; [constructor|]. cbn [map] in *. inversion ND as [|? ? N1 N2]; subst. constructor; [|apply IH; auto; intros; apply HQ; right; auto].
        intros X. apply N1. apply in_map_iff in X. destruct X as (z & Z1 & Hz). apply in_map_iff. exists z. split; auto.
        destruct (HQ z) as (_ & A1 & _); [right; auto|]. destruct (HQ q) as (_ & A2 & _); [left; auto|]. destruct (p_amount z), (p_amount q); congruence.
      + intros p Hp m. rewrite map_map. cbn [fst snd entry_of].
        assert (X : In m (map (fun q => match p_amount q with Some m => m | None => MZero end) fills) <-> In (Some m) (map p_amount fills)).
        { rewrite !in_map_iff. split; intros (q & Q1 & Hq); exists q; split; auto; destruct (HQ q Hq) as (_ & A & _); destruct (p_amount q); congruence. }
        rewrite X, I. unfold rest_of. split.
        * intros (a & c & -> & -> & Nz). exists c. rewrite (proj2 (walked_sums w l skip now _ _ (fun _ => true) (fun _ => true) c W)) in *. auto.
        * intros (c & Nz & ->). exists (- value_sum w l skip now (t_postings t) c), c. rewrite (proj2 (walked_sums w l skip now _ _ (fun _ => true) (fun _ => true) c W)). auto. }
  destruct X as (fx & X1 & X2 & X3 & X4). exists (rs ++ fx ++ flat_map (fun p => map (fun e => (e, p)) (written_entry w l p)) (filter (fun p => negb (real_posting p)) (t_postings t))). split.
  - constructor; auto.
  - rewrite E. apply Forall2_app; auto. apply Forall2_app; auto.
Qed.
Lemma found_all us sorted run ts imps now : Forall2 found_txn us sorted -> (forall a c, run a c = now a c) -> ledger_run skip run sorted ts imps ->
  exists ess, all_sourced w l skip now us ess /\ length us = length ts /\
    Forall2 (fun ut es => t_date (snd ut) = t_date (fst ut) /\ t_desc (snd ut) = t_desc (fst ut) /\ Forall2 (comes_from (fst ut)) (t_postings (snd ut)) es) (combine us ts) ess.
Proof.
  intros F N R. revert us now F N. induction R as [run|run run' t1 t2 prs s ts prices LT NR R IH]; intros us now F N; inversion F as [|t ? us' ? PT F']; subst.
  - exists []. repeat split; constructor.
  - destruct (IH us' (after_txn w l skip now t) F') as (ess & I1 & I2 & I3).
    { intros a c. rewrite NR, N, account_counted. unfold after_txn. f_equal. eapply stated_moves; eauto. apply PT. }
    destruct (found_lines t t1 t2 run prs now PT N LT) as (xs & S1 & S2). exists (xs :: ess). split; [constructor; auto|]. split; [cbn; congruence|]. cbn [combine]. constructor; auto. cbn [fst snd].
    destruct LT as (_ & (H1 & _ & _ & _ & H2 & _) & _). destruct PT as (((H3 & _) & H4) & _). split; [congruence|]. split; [congruence|]. auto.
Qed.
End Sources.

(** ** The ledger *)
Definition payee_called (w : world) (pays : alist payee) (n : str) : str := match l_get w n pays with Ok y => py_name y | _ => n end.
Lemma payees_called w l al cs pays ts dir costs : journal_read w l al cs pays ts dir costs -> payees_meant w l (payee_called w pays).
Proof. intros J n. eapply payee_written; eauto. unfold payee_known, payee_called. destruct (l_get w n pays); auto. Qed.
Lemma read_found w l al cs pays ts dir costs : parsed w l -> stated_journal w l -> journal_read w l al cs pays ts dir costs ->
  Forall2 (found_txn w l (payee_called w pays)) (pl_txns l) ts.
Proof.
  intros Hp P J. pose proof (read_stated_named _ _ _ _ _ _ _ _ Hp P J) as F1. pose proof (jr_txns _ _ _ _ _ _ _ _ J) as F. rewrite (proj1 (stated_all w l P)) in F.
  pose proof (jo_txns w l (parsed_ok _ _ Hp)) as OK. pose proof (sj_txns _ _ P) as TY.
  clear -F F1 OK TY. induction F1 as [|t t' ts ts' S F1 IH]; inversion F as [|? ? ? ? (R1 & R2 & R3 & R4) F']; subst; inversion OK as [|? ? O1 O2]; subst; constructor; [|apply IH; auto; intros; apply TY; right; auto].
  split; auto. split; auto. unfold rtxn_ok in O1. rewrite (TY t) in O1 by (left; auto). destruct O1 as (_ & pay & O1). destruct S as ((_ & S & _) & _).
  revert O1 R3 S. clear -R2. induction R2 as [|p p' ps ps' R R2 IH]; intros O1 R3 S; [constructor|].
  inversion O1 as [|? ? (E & _) O1']; inversion R3; inversion S; subst. constructor; [|auto]. split; auto. split; [|auto].
  exists pay. split; auto. destruct R as (_ & _ & _ & _ & (y & Y1 & _ & Y2) & _). rewrite Y1. unfold payee_called. rewrite (Y2 _ E). reflexivity.
Qed.
Lemma ledger_found w l skip lg us : world_ok w -> parsed w l -> stated_journal w l -> to_ledger w skip l = Ok lg -> ledger_built w skip l lg -> date_sorted (pl_txns l) us ->
  exists pay ess al cs ts dir costs, payees_meant w l pay /\ all_sourced w l skip nothing us ess /\ journal_read w l al cs (lg_payees lg) ts dir costs /\ full_txns (lg_txns lg) /\
    (forall F, lines_of F (finds w l skip F pay) us (lg_txns lg) ess) /\
    forall t p, In t (lg_txns lg) -> In p (t_postings t) -> exists n, mentions_account l n /\ p_account p = account_meant w l n.
Proof.
  intros Hw Hp P E B DU. pose proof (stated_whole _ _ _ _ Hw Hp P E B) as LW. destruct (stated_all w l P) as [_ R0].
  destruct B as [ts dir costs sorted run imps _ _ JR DS RZ LR _|]; [|congruence]. set (pay := payee_called w (lg_payees lg)).
  assert (FU : Forall2 (found_txn w l pay) us sorted).
  { apply (sort_related (found_txn w l pay) (pl_txns l) us ts sorted); auto; [intros u t (((X & _) & _) & _); auto|eapply read_found; eauto|eapply stated_dated; eauto]. }
  destruct (found_all w l skip pay us sorted run _ _ nothing FU RZ LR) as (ess & A1 & A2 & A3). exists pay, ess, (lg_accounts lg), (lg_commodities lg), ts, dir, costs.
  split; [eapply payees_called; eauto|]. do 2 (split; auto).
  assert (SRC : forall t q, In t (lg_txns lg) -> In q (t_postings t) -> exists u x, In u us /\ comes_from w l skip pay u q x).
  { intros t q Ht Hq. assert (X : exists u es, In u us /\ Forall2 (comes_from w l skip pay u) (t_postings t) es).
    { clear -A2 A3 Ht. revert A2 A3 Ht. generalize (lg_txns lg) as ts. intros ts. revert us ts. induction ess as [|es ess IH]; intros us ts A2 A3 Ht.
      - destruct us as [|u us], ts as [|t0 ts]; try discriminate A2; [destruct Ht|inversion A3].
      - destruct us as [|u us], ts as [|t0 ts]; try discriminate A2; [destruct Ht|]. cbn [combine] in A3. inversion A3 as [|? ? ? ? (_ & _ & C) A3']; subst. destruct Ht as [->|Ht].
        + exists u, es. split; [left; auto|exact C].
        + destruct (IH us ts) as (u' & es' & H1 & H2); auto. exists u', es'. split; [right|]; auto. }
    destruct X as (u & es & U & C). exists u. clear -C Hq U. induction C as [|q0 x qs xs C0 C IH]; [destruct Hq|]. destruct Hq as [->|Hq]; [exists x; auto|auto]. }
  split; [|split].
  - intros t Ht. destruct (LW t Ht) as [D A]. split; auto. intros p Hi. split; [apply A; auto|]. destruct (SRC t p Ht Hi) as (u & x & _ & _ & _ & (n & _ & Y) & _). congruence.
  - intros F. split; auto. eapply forall2_weaken; [|exact A3]. intros [u t] es (D & N & C). cbn [fst snd] in *. do 2 (split; auto). eapply forall2_weaken; [|exact C]. intros q x. apply comes_line.
  - intros t p Ht Hi. destruct (SRC t p Ht Hi) as (u & x & U & X1 & _ & _ & X2 & _). exists (rp_account (snd x)). split; [|exact X2]. exists u, (snd x). split; auto.
    destruct DU as [PM _]. eapply Permutation_in; [symmetry; exact PM|auto].
Qed.

(** ** C85 *)
(** If the transactions are in order, one after the other by date, the reports of what the words ask for, by account,
    payee or tag, add up and list exactly the postings asked for. *)
Theorem C85_reports : forall depth w o file l us F, world_ok w -> file_parses depth w file l -> stated_journal w l ->
  date_sorted (pl_txns l) us -> all_in_order w l (o_no_balance_check o) nothing us -> found_words w (o_query o) F ->
  exists pay ess, payees_meant w l pay /\ all_sourced w l (o_no_balance_check o) nothing us ess /\
    let Q := finds w l (o_no_balance_check o) F pay in
    (forall flat no_total, o_exchange o = None -> (flat = true -> can_be_cut w o l) ->
       exists r lines, run_cmd depth w (CBalance flat no_total) o file = Ok lines /\ balance_printed r lines /\
         (if flat then flat_cut_shows o (found_total o Q us ess) r else tree_cut_shows o (found_total o Q us ess) r) /\ total_shows (found_total o Q us ess) (negb no_total) r) /\
    exists rows groups, run_cmd depth w CRegister o file = Ok (concat groups) /\ Forall2 (entry_printed (w_width w)) rows groups /\ register_found_shows w o l Q us ess rows.
Proof.
  intros depth w o file l us F Hw HF P DU A HA. pose proof (file_parsed _ _ _ _ HF) as Hp. apply file_parses_iff in HF.
  destruct (stated_outcome w (o_no_balance_check o) l us Hw Hp P DU) as [(_ & lg & E & B)|(N & _)]; [|contradiction]. pose proof (made_plain _ _ _ _ Hp E) as M.
  destruct (ledger_found w l _ lg us Hw Hp P E B DU) as (pay & ess & al & cs & ts & dir & costs & PM & AS & JR & FT & LO & AC).
  exists pay, ess. do 2 (split; auto). cbn zeta. specialize (LO F). split.
  - intros flat nt OX HC. destruct (found_report w (report_site lg) o flat (negb nt) lg F Hw FT HA OX) as (r & Er).
    { intros Ef d Ed. destruct (HC Ef d Ed) as [C1 C2]. split; auto. intros t p Ht Hi. destruct (AC t p Ht Hi) as (n & N1 & ->). auto. }
    destruct (C69_printed depth w o file l lg Hw HF E) as [HP _]. destruct (HP flat nt r Er) as (lines & L1 & L2). exists r, lines. do 2 (split; auto).
    eapply (found_balance w (report_site lg) o flat (negb nt) lg F r); eauto. intros Q c. apply found_totals. exact LO.
  - destruct (found_rows w (report_site lg) o lg F Hw M FT HA) as (rows & R). destruct (C69_printed depth w o file l lg Hw HF E) as [_ HR]. destruct (HR rows R) as (groups & G1 & G2).
    exists rows, groups. do 2 (split; auto). eapply found_register; eauto.
Qed.
Print Assumptions C85_reports.
(** From the text. *)
Theorem C85_from_the_text : forall d w o path s l us F, world_ok w -> blanks_not_numeric w ->
  w_read w path = Some s -> journal_written w pl_new l s -> stated_journal w l ->
  date_sorted (pl_txns l) us -> found_words w (o_query o) F ->
  (all_in_order w l (o_no_balance_check o) nothing us ->
   exists pay ess, payees_meant w l pay /\ all_sourced w l (o_no_balance_check o) nothing us ess /\
     let Q := finds w l (o_no_balance_check o) F pay in
     (forall flat no_total, o_exchange o = None -> (flat = true -> can_be_cut w o l) ->
        exists r lines, run_cmd (S d) w (CBalance flat no_total) o path = Ok lines /\ balance_printed r lines /\
          (if flat then flat_cut_shows o (found_total o Q us ess) r else tree_cut_shows o (found_total o Q us ess) r) /\ total_shows (found_total o Q us ess) (negb no_total) r) /\
     exists rows groups, run_cmd (S d) w CRegister o path = Ok (concat groups) /\ Forall2 (entry_printed (w_width w)) rows groups /\ register_found_shows w o l Q us ess rows) /\
  (~ all_in_order w l (o_no_balance_check o) nothing us -> forall c, c <> CCheck -> exit_status (run_cmd (S d) w c o path) = 1%Z).
Proof.
  intros d w o path s l us F Hw Hb Hr J P DU HA.
  assert (X : file_parses (S d) w path l) by (apply file_parses_iff; eapply C67_file_read_as_written; eauto). split.
  - intros A. eapply C85_reports; eauto.
  - intros N c Hc. eapply C83_refused; eauto. destruct c; auto.
Qed.
Print Assumptions C85_from_the_text.

(** ** A journal that meets the hypotheses *)
(** A payee with an alias; tags of a transaction, of postings, and of a posting whose amount is left open. *)
Definition t85 : list String.string :=
  ["payee Grocer"; "  alias Shop"; "2021-01-02 * Weekly | Shop"; "  ; :holiday:"; "  Expenses:Food  10 EUR"; "  Expenses:Drinks  5 EUR"; "  ; :party:"; "  Assets:Bank"; "  ; :joint:";
   "2021-01-01 Opening"; "  Assets:Bank  50 EUR"; "  ; :joint:"; "  Equity"; "2021-01-03 Bar"; "  Expenses:Drinks  7 EUR"; "  ; :party:"; "  (Budget)  -7 EUR"; "  Assets:Bank"]%string.
Definition l85 : pledger := get pl_new (tokenize_file 2 (w84 t85) (L "book")).
Definition us85 : list (txn rposting) := by_date (pl_txns l85).
Lemma f85 : file_parses 2 (w84 t85) (L "book") l85.
Proof. apply file_parses_iff. vm_compute. reflexivity. Qed.
Lemma p85 : stated_journal (w84 t85) l85.
Proof. apply stated_check_ok. vm_compute. reflexivity. Qed.
Lemma d85 : date_sorted (pl_txns l85) us85.
Proof. apply by_date_sorted. exact (stated_dated _ _ (file_parsed _ _ _ _ f85) p85). Qed.
Lemma o85 : all_in_order (w84 t85) l85 false nothing us85.
Proof. refine (order_of_run 2 (w84 t85) CCheck plain_opts (L "book") l85 us85 (w84_ok _) f85 p85 d85 _). vm_compute. reflexivity. Qed.
Example C85_case : world_ok (w84 t85) /\ file_parses 2 (w84 t85) (L "book") l85 /\ stated_journal (w84 t85) l85 /\ date_sorted (pl_txns l85) us85 /\
  all_in_order (w84 t85) l85 (o_no_balance_check plain_opts) nothing us85 /\
  found_words (w84 t85) (o_query (ask ["@bar"; "or"; "%party"]%string None))
    (fun _ n ts => w_rx (w84 t85) (L "(?i)bar") n || existsb (fun g => w_rx (w84 t85) (L "(?i)party") (tag_name g)) ts) /\
  found_words (w84 t85) (o_query (ask ["%holiday"; "and"; "bank"]%string None))
    (fun a _ ts => existsb (fun g => w_rx (w84 t85) (L "(?i)holiday") (tag_name g)) ts && w_rx (w84 t85) (L "(?i)bank") a) /\
  run_cmd 2 (w84 t85) CRegister (ask ["@bar"; "or"; "%party"]%string None) (L "book") = Ok (map L
    ["2021-01-02 Weekly                                    Expenses:Drinks                            5.00 EUR         5.00 EUR";
     "2021-01-03 Bar                                       Expenses:Drinks                            7.00 EUR        12.00 EUR";
     "                                                     Assets:Bank                               -7.00 EUR         5.00 EUR";
     "                                                     (Budget)                                  -7.00 EUR        -2.00 EUR"]%string) /\
  run_cmd 2 (w84 t85) CRegister (ask ["%holiday"; "and"; "bank"]%string None) (L "book") = Ok (map L
    ["2021-01-02 Weekly                                    Assets:Bank                              -15.00 EUR       -15.00 EUR"]%string) /\
  run_cmd 2 (w84 t85) (CBalance true true) (ask ["@grocer"]%string None) (L "book") = Ok (map L
    ["          -15.00 EUR  Assets:Bank"; "            5.00 EUR  Expenses:Drinks"; "           10.00 EUR  Expenses:Food"]%string).
Proof.
  split; [exact (w84_ok _)|]. split; [exact f85|]. split; [exact p85|]. split; [exact d85|]. split; [exact o85|].
  assert (K' : forall y, ~ In c_slash (L "(?i)" ++ y) -> pattern_ok (w84 t85) (L "(?i)" ++ y)) by (intros y Hy; split; [exact Hy|reflexivity]).
  split; [|split; [|split; [|split]]]; try (vm_compute; reflexivity).
  - exact (fs_or _ _ _ _ _ (fw_payee _ (L "@bar") (L "bar") eq_refl (K' (L "bar") ltac:(cbn; intuition discriminate))) (fw_tag _ (L "%party") (L "party") eq_refl (K' (L "party") ltac:(cbn; intuition discriminate)))).
  - exact (fs_and _ _ _ _ _ (fw_tag _ (L "%holiday") (L "holiday") eq_refl (K' (L "holiday") ltac:(cbn; intuition discriminate))) (fw_account _ (L "bank") _ (PropAsk.plain_word (w84 t85) (L "bank") eq_refl eq_refl eq_refl eq_refl))).
Qed.
(** The tag of a posting whose amount is left open is not found: [:joint:] is written in two transactions. *)
Example C85_open_tag : run_cmd 2 (w84 t85) CRegister (ask ["%joint"]%string None) (L "book") = Ok (map L
    ["2021-01-01 Opening                                   Assets:Bank                               50.00 EUR        50.00 EUR"]%string).
Proof. vm_compute. reflexivity. Qed.
