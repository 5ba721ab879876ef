(** Facts for C84: the lines of a journal with rules and the postings of the ledger. *)
From Coq Require Import Lia.
From Verif Require Import Base BaseFacts Numerals Money Alist Comment Txn Expr Filter Price Tokens Ledger Reports App Spec MoneyFacts SpecList SpecTxn TxnFacts SpecLedger
  TokenFacts AlistFacts JournalFacts LedgerFacts LedgerFacts2 LedgerFacts3 LedgerFacts4 PropTxn PropLedger SpecQuery SpecReports ReportFacts ReportFacts2 ReportFacts3 PropReports PropApp
  SpecBook BookFacts PropBook PropBook2 SpecExpr SpecAsk PropAsk SpecWords PropRuleQuery SpecAssert AssertFacts SpecRules ShownFacts RuleFacts.
Open Scope Qc_scope.

(** The query of a rule. *)
Lemma rule_node w (r : txn rposting) x : rule_says w r x -> exists n, build_root w (get_filter_query r) = Ok n /\ answers w (Some n) (fst x).
Proof.
  intros (_ & ws & N & Q & A). rewrite (rule_query_words _ _ Q).
  set (o := {| o_query := ws; o_begin := None; o_end := None; o_real := false; o_depth := None; o_exchange := None; o_no_balance_check := false |}).
  destruct (asked_nodes w o (fst x) A) as (q & E & NQ & AN). specialize (NQ N). unfold query_node in E. cbn [o o_query] in E.
  destruct (Nat.ltb 2 (utf8_len (preprocess_query ws))); [|congruence]. destruct (build_root w (preprocess_query ws)) as [n| |]; try discriminate. cbn in E. injection E as <-. eauto.
Qed.

Section Lines.
Context (w : world) (l : pledger) (skip : bool).

(** The posting [q] of the ledger is the line [x]. *)
Definition settled (x : line) (q : posting) : Prop :=
  p_kind q = line_kind x /\ p_account q = line_account x /\ p_amount q = Some (line_money x) /\ (exists a c, line_money x = M a c) /\
  match snd x with Some p => stated_read w l p q | None => p_balance q = None /\ p_cost q = None end.
Lemma settled_keeps x q q' : settled x q -> keeps q q' -> settled x q'.
Proof.
  intros (K & A & M0 & E & B) (Q1 & Q2 & Q3 & Q4 & _ & _ & _ & _ & Q5). assert (QA : p_amount q' = p_amount q) by (apply Q5; congruence).
  split; [congruence|]. split; [congruence|]. split; [congruence|]. split; auto. destruct (snd x) as [p|].
  - unfold stated_read in *. rewrite Q1, Q2, Q3, Q4, QA. auto.
  - rewrite Q2, Q3. auto.
Qed.
Lemma settled_kind x q : settled x q -> kind_eqb (p_kind q) Real = real_line x.
Proof. intros (K & _). unfold real_line. congruence. Qed.
Lemma settled_entry x q : settled x q -> entry_of q = fst x.
Proof. intros (K & A & E & _). unfold entry_of. rewrite K, A, E. destruct x as [[[k a] m] b]. reflexivity. Qed.
Lemma settled_value x q c : settled x q -> posting_value Real c q = if real_line x then line_value w l x c else 0.
Proof.
  intros S. pose proof (settled_kind _ _ S) as K. destruct S as (KK & A & E & _ & B). unfold line_value. destruct (snd x) as [p|].
  - rewrite (stated_value w l p q c B). destruct B as (_ & K' & _). unfold real_posting. rewrite <- K', K. auto.
  - destruct B as [_ B]. unfold posting_value. rewrite E, K, B. auto.
Qed.
Lemma settled_bracket xs qs c : Forall2 settled xs qs -> virtual_group qs c = kind_sum w l VirtualMustBalance xs c.
Proof.
  unfold virtual_group, kind_sum. induction 1 as [|x q xs qs S F IH]; [reflexivity|]. cbn [map]. rewrite !qsum_cons, IH. f_equal.
  destruct S as (K & A & E & _ & B). unfold line_value. destruct (snd x) as [p|].
  - pose proof (stated_bracket w l [p] [q] c (Forall2_cons _ _ B (Forall2_nil _))) as SB. unfold virtual_group in SB. cbn [map] in SB. rewrite !qsum_cons in SB. change (qsum []) with 0 in SB.
    rewrite !Qcplus_0_r in SB. rewrite SB. destruct B as (_ & K' & _). rewrite <- K', K. auto.
  - rewrite E, K. destruct B as [_ ->]. auto.
Qed.

(** ** Before the rules *)
Lemma blank_open p : (rp_money p = None -> rp_balance p = None) -> blank skip p = open_posting p.
Proof. intros H. unfold blank, open_posting, real_posting. destruct (rp_money p); auto. rewrite H by auto. auto. Qed.
Lemma written_settled p p' q : stated_read w l p p' -> (rp_kind p <> Real -> rp_money p <> None) -> (p_amount p' <> None -> keeps p' q \/ q = p') ->
  (real_posting p = true -> open_posting p = false) -> Forall2 settled (written_line w l p) [q].
Proof.
  intros R V KQ NO. pose proof R as (RA & RK & RB & RM & RC).
  assert (Em : exists y k, rp_money p = Some (y, k)).
  { destruct (rp_money p) as [[y k]|] eqn:Em; [eauto|]. exfalso. unfold real_posting, open_posting in NO. rewrite Em in NO. destruct (rp_kind p); [specialize (NO eq_refl); discriminate| |]; apply V; auto; discriminate. }
  destruct Em as (y & k & Em). rewrite Em in RM. cbn in RM.
  assert (RQ : stated_read w l p q).
  { destruct KQ as [(Q1 & Q2 & Q3 & Q4 & _ & _ & _ & _ & Q5)| ->]; [congruence| |auto]. rewrite RM in Q5. unfold stated_read. rewrite Q1, Q2, Q3, Q4, Q5, Em by discriminate. unfold stated_read in R. auto. }
  unfold written_line, written_entry. rewrite Em. cbn [map]. constructor; [|constructor]. unfold settled, line_kind, line_account, line_money, entry_kind. cbn [fst snd].
  pose proof RQ as (QA & QK & _ & QM & _). rewrite Em in QM. do 3 (split; auto). split; [eauto|exact RQ].
Qed.
Lemma kept_settled ps ps' : Forall2 (stated_read w l) ps ps' -> Forall stated_posting ps -> Forall (fun p => rp_money p = None -> rp_balance p = None) ps ->
  forall kept, Forall2 keeps (filter (given skip) ps') kept -> Forall2 settled (flat_map (written_line w l) (filter real_posting ps)) kept /\
  forall c, group_value Real kept c = qsum (map (fun p => if kind_eqb (rp_kind p) Real then written_value w l p c else 0) ps).
Proof.
  induction 1 as [|p p' ps ps' R F IH]; intros S B kept K; cbn [filter] in K.
  { inversion K; subst. split; [constructor|reflexivity]. }
  inversion S as [|? ? (_ & V & _) S']; subst. inversion B as [|? ? B1 B2]; subst.
  destruct (given_blank w l skip p p' R) as [_ G]. rewrite G, (blank_open p B1) in K. pose proof R as (_ & RK & _ & RM & _).
  cbn [filter map]. destruct (real_posting p) eqn:Er; cbn [andb] in K.
  - destruct (open_posting p) eqn:Eo; cbn [negb] in K.
    + destruct (IH S' B2 kept K) as [I1 I2]. split.
      * cbn [flat_map]. unfold written_line at 1, written_entry. unfold open_posting in Eo. fold (real_posting p) in Eo. rewrite Er in Eo. destruct (rp_money p); [discriminate|]. exact I1.
      * intros c. rewrite I2, qsum_cons. unfold open_posting in Eo. fold (real_posting p) in *. rewrite Er in *. cbn in Eo. unfold written_value at 2. destruct (rp_money p); [discriminate|]. ring.
    + inversion K as [|? q ? kept' Kq K']; subst. destruct (IH S' B2 kept' K') as [I1 I2].
      assert (SQ : Forall2 settled (written_line w l p) [q]) by (eapply written_settled; eauto). split.
      * cbn [flat_map]. apply (Forall2_app SQ I1).
      * intros c. rewrite group_value_cons, I2, qsum_cons. f_equal. fold (real_posting p). rewrite Er.
        assert (RQ : stated_read w l p q).
        { inversion SQ as [|x ? xs ? SX FX EX]; subst. inversion FX; subst. unfold written_line, written_entry in EX. destruct (rp_money p) as [[]|]; inversion EX; subst. apply SX. }
        rewrite (stated_value w l p q c RQ), Er. auto.
  - destruct (IH S' B2 kept K) as [I1 I2]. split; auto. intros c. rewrite I2, qsum_cons. fold (real_posting p). rewrite Er. ring.
Qed.
Lemma virtual_settled ps ps' : Forall2 (stated_read w l) ps ps' -> Forall stated_posting ps ->
  Forall2 settled (flat_map (written_line w l) (filter (fun p => negb (real_posting p)) ps)) (filter (fun p => negb (kind_eqb (p_kind p) Real)) ps').
Proof.
  induction 1 as [|p p' ps ps' R F IH]; intros S; [constructor|]. inversion S as [|? ? (_ & V & _) S']; subst. cbn [filter]. pose proof R as (_ & RK & _).
  unfold real_posting at 1. rewrite RK. destruct (kind_eqb (rp_kind p) Real) eqn:Er; cbn [negb]; auto. cbn [flat_map].
  apply (Forall2_app (l1:=written_line w l p) (l2:=_) (l1':=[p'])); auto. eapply written_settled; eauto. unfold real_posting. congruence.
Qed.
Lemma lines_first t t1 t2 run prs : stated_txn w l t t1 -> Forall (fun p => rp_money p = None -> rp_balance p = None) (t_postings t) -> ledger_txn skip run t1 t2 prs ->
  exists xs, txn_lines w l t xs /\ Forall2 settled xs (t_postings t2).
Proof.
  intros (_ & F & P & CO) NB (_ & _ & (kept & fills & E & F2 & HF & HE) & _).
  destruct (kept_settled _ _ F P NB kept F2) as [SK GV].
  assert (EL : Forall2 (stated_read w l) (filter open_posting (t_postings t)) (filter (elided skip) (t_postings t1))).
  { clear -F NB. induction F as [|p p' ps ps' R F IH]; inversion NB as [|? ? N1 N2]; subst; cbn; auto. rewrite (proj1 (given_blank w l skip p p' R)), (blank_open p N1). destruct (open_posting p); auto. }
  set (fl := map (fun q => (entry_of q, @None rposting)) fills).
  assert (SF : forall q, In q fills -> exists a c, p_amount q = Some (M a c)).
  { intros q Hq. destruct (HF q Hq) as (_ & _ & _ & QA & _ & p & X & _). destruct HE as [_ I]; [rewrite X; discriminate|].
    destruct (p_amount q) as [m|] eqn:Em; [|congruence]. destruct (proj1 (I m)) as (a & c & -> & _); [|eauto]. rewrite <- Em. apply in_map; auto. }
  exists (flat_map (written_line w l) (filter real_posting (t_postings t)) ++ fl ++ flat_map (written_line w l) (filter (fun p => negb (real_posting p)) (t_postings t))).
  split; [constructor|].
  - intros x Hx. apply in_map_iff in Hx. destruct Hx as (q & <- & Hq). split; auto. destruct (HF q Hq) as (QK & _ & _ & _ & _ & p1 & X & QA & _). rewrite X in EL. inversion EL as [|p ? ps ? R EL' Ep]; subst. inversion EL'; subst.
    exists p. split; auto. cbn. rewrite QK, QA. f_equal. apply R.
  - destruct fills as [|q0 fs] eqn:Efs; [constructor|]. rewrite <- Efs in *. destruct (HF q0) as (_ & _ & _ & _ & _ & p0 & X & _); [rewrite Efs; left; auto|].
    destruct HE as [ND _]; [rewrite X; discriminate|]. apply (NoDup_map_inv (fun x : line => Some (line_money x))). unfold fl. rewrite map_map, <- Efs. clear -ND SF.
    erewrite map_ext_in; [exact ND|]. intros q Hq. destruct (SF q Hq) as (a & c & Em). unfold line_money, entry_of. cbn. rewrite Em. auto.
  - intros p Hp m. rewrite Hp in EL. inversion EL as [|? p1 ? ? Rb EL' Ex Ey]; subst. destruct HE as [_ I]; [rewrite <- Ey; discriminate|].
    assert (X : In m (map line_money fl) <-> In (Some m) (map p_amount fills)).
    { unfold fl. rewrite map_map, !in_map_iff. split; intros (q & E1 & Hq); exists q; split; auto; destruct (SF q Hq) as (a & c & Em); unfold line_money, entry_of in *; cbn in *; rewrite Em in *; congruence. }
    rewrite X, I. unfold kind_value. split.
    + intros (a & c & -> & -> & Nz). exists c. rewrite GV in *. split; auto. intros Z. apply Nz. rewrite Z. ring.
    + intros (c & Nz & ->). exists (- group_value Real kept c), c. rewrite GV. split; auto. split; auto. intros Z. apply Nz. apply (f_equal Qcopp) in Z. rewrite Qcopp_involutive in Z. rewrite Z. ring.
  - rewrite E. apply Forall2_app; auto. apply Forall2_app; [|apply virtual_settled; auto].
    unfold fl. clear - HF SF. induction fills as [|q fs IH]; [constructor|]. cbn [map]. constructor; [|apply IH; intros; [apply HF|apply SF]; right; auto].
    destruct (HF q) as (QK & QC & QB & _); [left; auto|]. destruct (SF q) as (a & c & Em); [left; auto|]. unfold settled, line_kind, line_account, line_money, entry_kind, entry_of. cbn. rewrite Em. do 3 (split; auto). split; eauto.
Qed.

(** ** The rules *)
Context (al : alist account) (cs : alist currency) (pays : alist payee) (ts : list (txn posting)) (dir costs : list price).
Context (CN : clear_names w l) (JR : journal_read w l al cs pays ts dir costs).
Let S0 := {| as_accs := al; as_curs := cs; as_pays := pays |}.
Lemma rule_posting_settled t p x r ap q : In r (rules l) -> In ap (t_postings r) -> rp_money ap <> None -> settled x p -> rule_posting w S0 S0 t p ap q ->
  settled (rule_line w l x ap) q /\ p_origin q = OAutomated.
Proof.
  intros Hr Ha Hm (K & A & E & (a0 & c0 & EM) & B) ((a & A1 & A2) & _ & (m & M1 & M2) & Q1 & Q2 & Q3 & _ & _ & Q4). split; auto.
  assert (RP : In r (pl_txns l)) by (unfold rules in Hr; apply filter_In in Hr; apply Hr).
  assert (XM : m = rule_money w l (line_money x) ap).
  { unfold rule_amount in M2. unfold rule_money. destruct (rp_money ap) as [[q0 k]|] eqn:Em; [|congruence]. rewrite EM. destruct k as [|k0 k].
    - destruct M2 as (a1 & c1 & X & ->). rewrite E, EM in X. injection X as <- <-. auto.
    - destruct M2 as (y & Y & ->). f_equal. eapply stated_commodity; eauto. right. exists r, ap, q0. auto. }
  unfold settled, rule_line, line_kind, line_account, entry_kind. cbn [fst snd]. split; auto. split; [|split; [|split]].
  - rewrite A2. eapply stated_account; eauto. exists r, ap. auto.
  - unfold line_money at 1. cbn [fst snd]. congruence.
  - unfold line_money at 1. cbn [fst snd]. unfold rule_money. rewrite EM. destruct (rp_money ap) as [[q0 [|k0 k]]|]; [eauto|eauto|congruence].
  - auto.
Qed.
Lemma rule_pass_lines n (r : txn rposting) A t more : In r (rules l) -> (forall ap, In ap (t_postings r) -> rp_money ap <> None) -> answers w (Some n) A ->
  Forall (fun p => p_origin p = OAutomated) more ->
  forall xs base, Forall2 settled xs base -> Forall (fun p => p_origin p = FromTransaction) base -> forall done tg ad,
  rule_pass w S0 S0 n r t done (base ++ more) tg ad ->
  exists base', tg = base' ++ more /\ Forall2 settled xs base' /\ Forall (fun p => p_origin p = FromTransaction) base' /\
    Forall2 settled (rule_adds w l (A, t_postings r) xs) ad /\ Forall (fun p => p_origin p = OAutomated) ad.
Proof.
  intros Hr Hm AN FM. induction 1 as [|x p xs base S F IH]; intros FO done tg ad H; cbn [app] in H.
  { destruct (C31_added_not_matched _ _ _ _ _ _ _ _ _ _ H FM) as [-> ->]. exists []. cbn. auto. }
  inversion FO as [|? ? O FO']; subst.
  assert (WO : forall tt b, worth w (as_curs S0) (as_curs S0) n p tt (VBool b) -> A (line_account x) = b).
  { intros tt b (c1 & c2 & _ & EV & _). specialize (AN tt p c1). cbn in AN. rewrite EV in AN. destruct S as (_ & SA & _). rewrite <- SA. congruence. }
  inversion H as [|? ? ? tg' ad' NO H'|? ? ? tg' ad' O' W H'|? ? p' ? new tg' ad' O' W Ep' FN H']; subst.
  - contradiction.
  - destruct (IH FO' _ _ _ H') as (base' & -> & I1 & I2 & I3 & I4). exists (p :: base'). split; auto. split; auto. split; auto. split; auto.
    unfold rule_adds. cbn [flat_map fst]. rewrite (WO _ _ W). exact I3.
  - destruct (IH FO' _ _ _ H') as (base' & -> & I1 & I2 & I3 & I4). set (p' := tagged (flat_map get_tags (t_comments r)) p) in *.
    assert (S' : settled x p') by exact S. exists (p' :: base'). split; auto. split; auto. split; auto.
    assert (N : Forall2 settled (map (rule_line w l x) (t_postings r)) new /\ Forall (fun q => p_origin q = OAutomated) new).
    { clear -FN S' Hr Hm CN JR. assert (X : forall aps, incl aps (t_postings r) -> forall tt new, Forall2 (rule_posting w S0 S0 tt p') aps new ->
        Forall2 settled (map (rule_line w l x) aps) new /\ Forall (fun q => p_origin q = OAutomated) new).
      { intros aps I tt new0 FN0. revert I. induction FN0 as [|ap q aps qs R F IH]; intros I; [split; constructor|].
        destruct IH as [I1 I2]; [intros z Hz; apply I; right; auto|]. assert (Ha : In ap (t_postings r)) by (apply I; left; auto).
        destruct (rule_posting_settled tt p' x r ap q Hr Ha (Hm ap Ha) S' R) as [R1 R2]. split; constructor; auto. }
      eapply X; [apply incl_refl|exact FN]. }
    destruct N as [N1 N2]. split; [|apply Forall_app; auto]. unfold rule_adds. cbn [flat_map fst snd]. rewrite (WO _ _ W). apply Forall2_app; auto.
Qed.
Lemma rules_pass_lines rs : forall rules0 nodes, incl rules0 (rules l) -> (forall r ap, In r rules0 -> In ap (t_postings r) -> rp_money ap <> None) ->
  Forall2 (rule_says w) rules0 rs -> Forall2 (fun r n => build_root w (get_filter_query r) = Ok n) rules0 nodes ->
  forall t t', rules_pass w S0 S0 (combine nodes rules0) t t' ->
  forall xs zs base more, t_postings t = base ++ more -> Forall2 settled xs base -> Forall (fun p => p_origin p = FromTransaction) base ->
    Forall2 settled zs more -> Forall (fun p => p_origin p = OAutomated) more ->
  same_header t t' /\ Forall2 settled (xs ++ zs ++ flat_map (fun r => rule_adds w l r xs) rs) (t_postings t').
Proof.
  induction rs as [|x rs IH]; intros rules0 nodes I Hm FS FN t t' H xs zs base more E SB OB SM OM; inversion FS as [|r ? rules1 ? RS FS']; subst; inversion FN as [|? n ? nodes1 B FN']; subst; cbn [combine] in H.
  - inversion H; subst. split; [repeat split|]. cbn. rewrite app_nil_r, E. apply Forall2_app; auto.
  - inversion H as [|? ? ? ? tg ad ? RP RR]; subst. destruct (rule_node w r x RS) as (n' & B' & AN). assert (n' = n) by congruence. subst n'.
    rewrite E in RP. assert (Hr : In r (rules l)) by (apply I; left; auto).
    destruct (rule_pass_lines n r (fst x) t more Hr (fun ap Ha => Hm r ap (or_introl eq_refl) Ha) AN OM xs base SB OB [] tg ad RP) as (base' & -> & SB' & OB' & SA & OA).
    assert (EX : (fst x, t_postings r) = x). { destruct RS as (-> & _). destruct x. reflexivity. } rewrite EX in SA.
    destruct (IH rules1 nodes1) with (t := set_postings t ((base' ++ more) ++ ad)) (t' := t') (xs := xs) (zs := zs ++ rule_adds w l x xs) (base := base') (more := more ++ ad) as [H1 H2]; auto.
    + intros z Hz. apply I. right. auto.
    + intros r' ap Hr' Ha. apply (Hm r'); auto. right. auto.
    + cbn. rewrite app_assoc. auto.
    + apply Forall2_app; auto.
    + apply Forall_app; auto.
    + split; [exact H1|]. cbn [flat_map]. rewrite <- app_assoc in H2. exact H2.
Qed.
End Lines.

Section Second.
Context (w : world) (l : pledger) (skip : bool).
Notation settled := (settled w l).
(** ** The verdict on a transaction with the lines of the rules *)
Lemma step_line x q s now r : settled x q -> (forall a c, s_run s a c = now a c) -> spec_step skip s q r ->
  match r with
  | Some s' => says_true w l skip now x /\ (forall a c, s_run s' a c = after_line now x a c) /\ s_elided s' = s_elided s /\
      (forall c, s_sum s' c = s_sum s c + if real_line x then line_value w l x c else 0)
  | None => ~ says_true w l skip now x
  end.
Proof.
  intros S N H. pose proof (settled_kind _ _ _ _ S) as RK. pose proof (settled_value w l x q) as SV. pose proof S as (K & A & E & _ & B).
  destruct H as [V|m s' R0 A0 S1 S2 S3 S4|m a c R0 A0 Sk B0 Ne|m b s' R0 A0|b c c' R0 A0|s' R0 A0]; try congruence.
  - assert (RL : real_line x = false) by (rewrite <- RK; destruct (p_kind q); auto; congruence). split; [intros X; congruence|]. split; [|split; auto].
    + intros a c. unfold after_line. rewrite RL. cbn. rewrite N. ring.
    + intros c. rewrite RL. ring.
  - assert (RL : real_line x = true) by (rewrite <- RK, R0; auto). assert (m = line_money x) by congruence. subst m. split; [|split; [|split; auto]].
    + intros _ Sk p q0 k Ep Eb. rewrite Ep in B. destruct B as (_ & _ & BB & _). rewrite Eb in BB. cbn in BB. unfold after_line. rewrite RL, str_eqb_refl. cbn [andb].
      specialize (S1 Sk _ _ BB). rewrite A, N in S1. exact S1.
    + intros a c. rewrite S2, N, A. unfold after_line. rewrite RL. auto.
    + intros c. rewrite S3, <- (SV c S). unfold posting_value. rewrite E, RK, RL. auto.
  - assert (RL : real_line x = true) by (rewrite <- RK, R0; auto). assert (m = line_money x) by congruence. subst m. intros T.
    destruct (snd x) as [p|] eqn:Ep; [|destruct B; congruence]. destruct B as (_ & _ & BB & _). rewrite B0 in BB. destruct (rp_balance p) as [[q0 k]|] eqn:Eb; [|discriminate]. cbn in BB. injection BB as -> ->.
    specialize (T RL Sk p q0 k Ep Eb). apply Ne. etransitivity; [|exact T]. unfold after_line. rewrite RL, str_eqb_refl, A, N. auto.
Qed.
Lemma steps_line xs qs : Forall2 settled xs qs -> forall s now r, (forall a c, s_run s a c = now a c) -> spec_steps skip s qs r ->
  match r with
  | Some s' => lines_true w l skip now xs /\ s_elided s' = s_elided s /\ (forall c, s_sum s' c = s_sum s c + kind_sum w l Real xs c)
  | None => ~ lines_true w l skip now xs
  end.
Proof.
  induction 1 as [|x q xs qs R F IH]; intros s now r N H.
  - inversion H; subst. split; [exact I|]. split; auto. intros c. unfold kind_sum. cbn. change (qsum []) with 0. ring.
  - inversion H as [|? ? ? S|? ? s1 ? ? S H']; subst; pose proof (step_line x q s now _ R N S) as X; cbn iota in X.
    + intros [T _]. contradiction.
    + destruct X as (X1 & X2 & X3 & X4). specialize (IH s1 (after_line now x) r X2 H'). destruct r as [s'|].
      * destruct IH as (Y1 & Y2 & Y3). split; [split; auto|]. split; [congruence|]. intros c. rewrite Y3, X4. unfold kind_sum. cbn [map]. rewrite qsum_cons. unfold real_line. ring.
      * intros [_ T]. contradiction.
Qed.
Lemma verdict_lines ys t run now v : Forall2 settled ys (t_postings t) -> (forall a c, run a c = now a c) -> spec_verdict skip t run v ->
  (v = Accepted <-> lines_in_order w l skip now ys).
Proof.
  intros F N H. assert (EV : forall c, virtual_group (t_postings t) c = kind_sum w l VirtualMustBalance ys c) by (intros c; apply settled_bracket; auto).
  assert (EV' : forall c, kind_sum w l VirtualMustBalance ys c = virtual_group (t_postings t) c) by (intros; auto).
  assert (ER : forall s, spec_steps skip (start run) (t_postings t) (Some s) ->
    lines_true w l skip now ys /\ s_elided s = 0%nat /\ forall c, s_sum s c = kind_sum w l Real ys c).
  { intros s S. destruct (steps_line _ _ F (start run) now _ N S) as (T & E1 & E2). split; auto. split; auto. intros c. rewrite E2. cbn. ring. }
  unfold lines_in_order. destruct H as [V|V S|s V S N1 V2|s V S N1 V2|s V S N1|s n V S N1]; try (destruct (ER s S) as (T & E1 & E2); try lia).
  - split; [discriminate|]. intros [X _]. exfalso. apply V. eapply fine_ext; eauto.
  - pose proof (steps_line _ _ F (start run) now _ N S) as X. split; [discriminate|]. intros (_ & T & _). contradiction.
  - split; auto. intros _. split; [eapply fine_ext; eauto|]. split; auto. eapply fine_ext; eauto.
  - split; [discriminate|]. intros (_ & _ & X). exfalso. apply V2. eapply fine_ext; [|exact X]. auto.
Qed.

(** ** The transaction in the ledger *)
Lemma forall2_filter {A B} (R : A -> B -> Prop) (f : A -> bool) (g : B -> bool) xs ys : (forall x y, R x y -> g y = f x) -> Forall2 R xs ys -> Forall2 R (filter f xs) (filter g ys).
Proof. intros H. induction 1 as [|x y xs ys Rx F IH]; cbn; auto. rewrite (H x y Rx). destruct (f x); auto. Qed.
Lemma shown_second ys t t' run prs : Forall2 settled ys (t_postings t) -> ledger_txn skip run t t' prs ->
  Forall2 settled (filter real_line ys ++ filter (fun x => negb (real_line x)) ys) (t_postings t').
Proof.
  intros F (_ & _ & (kept & fills & E & F2 & HF & _) & _).
  assert (GE : forall x q, settled x q -> elided skip q = false /\ given skip q = real_line x).
  { intros x q S. pose proof (settled_kind _ _ _ _ S) as RK. destruct S as (_ & _ & A & _). assert (EL : elided skip q = false) by (unfold elided; rewrite A; destruct (p_kind q); auto).
    split; auto. unfold given. rewrite EL, RK. apply andb_true_r. }
  assert (fills = []) as ->.
  { destruct fills as [|q fs]; auto. destruct (HF q) as (_ & _ & _ & _ & _ & p & X & _); [left; auto|]. exfalso.
    assert (In p (filter (elided skip) (t_postings t))) as I by (rewrite X; left; auto). apply filter_In in I. destruct I as [I1 I2].
    clear -F GE I1 I2. induction F as [|x q xs qs S F IH]; destruct I1; subst; auto. rewrite (proj1 (GE _ _ S)) in I2. discriminate. }
  rewrite E. cbn [app]. apply Forall2_app.
  - assert (FG : Forall2 settled (filter real_line ys) (filter (given skip) (t_postings t))) by (apply forall2_filter; auto; intros x q S; apply (GE _ _ S)).
    clear -FG F2. revert kept F2. induction FG as [|x q xs qs S F IH]; intros kept F2; inversion F2; subst; constructor; auto. eapply settled_keeps; eauto.
  - apply forall2_filter; auto. intros x q S. rewrite (settled_kind _ _ _ _ S). auto.
Qed.
Definition lines_move (ys : list line) (a c : str) : Qc := qsum (map (fun x => if real_line x && str_eqb a (line_account x) then money_amt (line_money x) c else 0) ys).
Lemma after_lines_move ys : forall now a c, after_lines now ys a c = now a c + lines_move ys a c.
Proof.
  unfold lines_move. induction ys as [|x ys IH]; intros now a c; cbn [after_lines map]; [change (qsum []) with 0; ring|]. rewrite IH, qsum_cons. unfold after_line. ring.
Qed.
Lemma settled_moves ys ps a c : Forall2 settled ys ps -> account_sum ps a c = lines_move ys a c.
Proof.
  unfold account_sum, lines_move. induction 1 as [|x q ys ps S F IH]; [reflexivity|]. cbn [map]. rewrite !qsum_cons, IH. f_equal. unfold posting_to. rewrite (settled_kind _ _ _ _ S).
  destruct S as (_ & A & E & _). rewrite E, A. destruct (real_line x); cbn [andb]; auto. destruct (str_eqb_spec (line_account x) a), (str_eqb_spec a (line_account x)); congruence.
Qed.
Lemma shown_move ys a c : lines_move (filter real_line ys ++ filter (fun x => negb (real_line x)) ys) a c = lines_move ys a c.
Proof.
  unfold lines_move. rewrite map_app, qsum_app. induction ys as [|x ys IH]; [reflexivity|]. cbn [filter map]. destruct (real_line x) eqn:R; cbn [negb map]; rewrite !qsum_cons, <- IH, R; cbn [andb]; ring.
Qed.
Lemma second_run ys t t' run run' prs now : Forall2 settled ys (t_postings t) -> ledger_txn skip run t t' prs -> (forall a c, run a c = now a c) ->
  (forall a c, run' a c = run a c + account_sum (t_postings t') a c) -> forall a c, run' a c = after_lines now ys a c.
Proof. intros F LT N N' a c. rewrite N', N, after_lines_move, (settled_moves _ _ _ _ (shown_second _ _ _ _ _ F LT)), shown_move. auto. Qed.
Lemma run_lines yss ts2 run ts' imps now : Forall2 (fun ys t => Forall2 settled ys (t_postings t)) yss ts2 -> (forall a c, run a c = now a c) -> ledger_run skip run ts2 ts' imps ->
  all_lines_in_order w l skip now yss /\ ledger_lines ts' = map shown_lines yss /\
  forall t p, In t ts' -> In p (t_postings t) -> p_amount p <> None.
Proof.
  intros F N R. revert yss now F N. induction R as [run|run run' t t' prs ts ts' prices LT NR R IH]; intros yss now F N; inversion F as [|ys ? yss' ? S F']; subst.
  - split; [exact I|]. split; [reflexivity|]. intros t p [].
  - destruct (IH yss' (after_lines now ys) F') as (I1 & I2 & I3); [eapply second_run; eauto|].
    pose proof (shown_second _ _ _ _ _ S LT) as SS. split; [split; auto; eapply verdict_lines; eauto; apply LT|]. split.
    + unfold ledger_lines in *. cbn [map]. rewrite I2. f_equal. unfold shown_lines. clear -SS. induction SS as [|x q xs qs S F IH]; [reflexivity|]. cbn [map]. rewrite IH, (settled_entry _ _ _ _ S). auto.
    + intros u p [<-|Hu] Hp; [|eauto]. clear -SS Hp. induction SS as [|x q xs qs S F IH]; destruct Hp; subst; auto. destruct S as (_ & _ & A & _). congruence.
Qed.
Lemma stopped_lines yss ts2 run now v : Forall2 (fun ys t => Forall2 settled ys (t_postings t)) yss ts2 -> (forall a c, run a c = now a c) -> stopped_run skip run ts2 v ->
  ~ all_lines_in_order w l skip now yss.
Proof.
  intros F N R. revert yss now F N. induction R as [run t ts v V Nv|run run' t t' prs ts v LT NR R IH]; intros yss now F N AA; inversion F as [|ys ? yss' ? S F']; subst; destruct AA as (A1 & A2).
  - apply Nv. eapply verdict_lines; eauto.
  - eapply (IH yss' (after_lines now ys)); eauto. eapply second_run; eauto.
Qed.
End Second.
