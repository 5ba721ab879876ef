(** Facts for C91: every posting of a ledger has a payee, and selections follow the wishes. *)
From Coq Require Import Lia.
From Verif Require Import Base BaseFacts Numerals Money Alist Comment Txn Expr Filter Price Tokens Ledger Reports App Spec MoneyFacts SpecList SpecTxn TxnFacts SpecLedger
  TokenFacts JournalFacts LedgerFacts LedgerFacts2 LedgerFacts3 PropTxn PropLedger PropNames SpecQuery SpecExpr ExprFacts PropExpr PropQuery SpecReports ReportFacts ReportFacts2 ReportFacts3 PropReports PropApp
  SpecBook BookFacts PropBook PropBook2 SpecAsk PropAsk SpecWords SpecAssert AssertFacts PropAssert SpecRules ShownFacts SpecFind FindFacts SpecAgree PropAgree SpecSame SpellFacts SpecCombine.
Open Scope Qc_scope.

(** ** Every posting has a payee *)
Definition has_payee (p : posting) : Prop := p_payee p <> None.
Lemma pass_payees w from upto query rule t : forall done todo tg ad, rule_pass w from upto query rule t done todo tg ad -> Forall has_payee todo -> Forall has_payee (tg ++ ad).
Proof.
  intros done todo tg ad H. induction H; intros F.
  - constructor.
  - inv F. constructor; auto.
  - inv F. constructor; auto.
  - inv F. specialize (IHrule_pass H7). apply Forall_app in IHrule_pass. destruct IHrule_pass as [X Y]. cbn. constructor; auto.
    apply Forall_app. split; auto. apply Forall_app. split; auto. apply Forall_forall. intros q Hq.
    match goal with E : Forall2 (rule_posting _ _ _ _ _) _ _ |- _ => rename E into E2 end. clear -E2 Hq H6. induction E2 as [|ap q0 ? ? R E2 IH]; [destruct Hq|]. destruct Hq as [<-|Hq]; [|auto].
    destruct R as (_ & R & _). unfold has_payee in *. destruct (rp_payee ap); [destruct R as (y & _ & ->); discriminate|rewrite R; exact H6].
Qed.
Lemma passes_payees w from upto rs : forall t t', rules_pass w from upto rs t t' -> Forall has_payee (t_postings t) -> Forall has_payee (t_postings t').
Proof. intros t t' H. induction H; auto. intros F. apply IHrules_pass. cbn. eapply pass_payees; eauto. Qed.
Lemma run_payees skip run ts ts' imps : ledger_run skip run ts ts' imps -> Forall (fun t => Forall has_payee (t_postings t)) ts -> Forall (fun t => Forall has_payee (t_postings t)) ts'.
Proof.
  induction 1 as [|run run' t t' prs ts ts' prices T R LR IH]; intros F; inv F; constructor; auto. eapply run_txn_stems; [|exact T|auto].
  intros p q Hp (_ & _ & E & _). unfold has_payee in *. congruence.
Qed.
Lemma ledger_payees w lg : world_ok w -> made_from w lg -> forall t p, In t (lg_txns lg) -> In p (t_postings t) -> p_payee p <> None.
Proof.
  intros Hw (skip & l & HP & H). apply to_ledger_built in H; auto using parsed_ok.
  assert (RD : forall al cs pays ts dir costs, journal_read w l al cs pays ts dir costs -> Forall (fun t => Forall has_payee (t_postings t)) ts).
  { intros al cs pays ts dir costs JR. pose proof (jr_txns _ _ _ _ _ _ _ _ JR) as X. clear -X. induction X as [|t t' us us' (_ & F & _) X IH]; constructor; auto.
    clear -F. induction F as [|p q ps qs R F IH]; constructor; auto. destruct R as (_ & _ & _ & _ & (y & E & _) & _). unfold has_payee. congruence. }
  assert (G : Forall (fun t => Forall has_payee (t_postings t)) (lg_txns lg)).
  { destruct H as [ts dir costs sorted run imps Hr HL JR DS Hz LR EP|al cs pays ts dir costs sorted run ts1 imps q ts2 run' imps' Hr HL JR DS Hz LR QF RP Hz' LR' E1 E2 E3 EP].
    - eapply run_payees; [exact LR|]. destruct DS as [D1 _]. eapply Permutation_Forall; [exact D1|]. eauto.
    - eapply run_payees; [exact LR'|]. assert (F1 : Forall (fun t => Forall has_payee (t_postings t)) ts1).
      { eapply run_payees; [exact LR|]. destruct DS as [D1 _]. eapply Permutation_Forall; [exact D1|]. eauto. }
      clear -RP F1. induction RP as [|t t' us us' R RP IH]; inv F1; constructor; auto. eapply passes_payees; eauto. }
  intros t p Ht Hp. rewrite Forall_forall in G. specialize (G t Ht). rewrite Forall_forall in G. exact (G p Hp).
Qed.

(** ** Equal wishes *)
Lemma posting_wish_same F G p : same_wish F G -> posting_wish F p = posting_wish G p.
Proof. intros H. unfold posting_wish. destruct (p_payee p); auto. Qed.
Lemma filter_same w o o' q q' F F' t p cs : same_but_query o o' -> grants w q F -> grants w q' F' -> same_wish F F' -> p_payee p <> None ->
  filter_posting w o q t p cs = filter_posting w o' q' t p cs.
Proof.
  intros (E1 & E2 & E3 & _) G G' S Hp. unfold filter_posting. rewrite E1, E2, E3.
  assert (X : match q with Some n => filter_expression w n p t cs | None => Ok (true, cs) end = match q' with Some n => filter_expression w n p t cs | None => Ok (true, cs) end).
  { specialize (G t p cs Hp). specialize (G' t p cs Hp). rewrite (posting_wish_same _ _ p S) in G.
    destruct q as [n|], q' as [n'|]; unfold filter_expression; auto; rewrite ?G, ?G'; cbn [bind]; try rewrite G; try rewrite G'; auto. }
  destruct (o_real o' && _); auto. destruct (match o_end o' with Some _ => _ | None => _ end) as [[]| |]; auto. cbn [bind]. destruct (match o_begin o' with Some _ => _ | None => _ end) as [[]| |]; auto.
Qed.
Lemma select_same w o o' q q' F F' ts : same_but_query o o' -> grants w q F -> grants w q' F' -> same_wish F F' ->
  (forall t p, In t ts -> In p (t_postings t) -> p_payee p <> None) -> forall cs, select_txns w o q ts cs = select_txns w o' q' ts cs.
Proof.
  intros B G G' S. induction ts as [|t ts IH]; intros H cs; auto. cbn [select_txns].
  assert (E : forall ps, incl ps (t_postings t) -> forall cs, select_postings w o q t ps cs = select_postings w o' q' t ps cs).
  { induction ps as [|p ps IHp]; intros I cs0; auto. cbn [select_postings]. rewrite (filter_same w o o' q q' F F' t p cs0 B G G' S (H t p (or_introl eq_refl) (I p (or_introl eq_refl)))).
    apply bind_same; auto. intros [b cs1]. rewrite IHp by (intros x Hx; apply I; right; auto). auto. }
  rewrite (E _ (incl_refl _)). apply bind_same; auto. intros [ps cs1]. rewrite IH; auto. intros u p Hu. apply H. right. auto.
Qed.
Lemma asked_same w o o' F F' lg : world_ok w -> made_from w lg -> same_but_query o o' -> found_words w (o_query o) F -> found_words w (o_query o') F' -> same_wish F F' ->
  exists q q', query_node w o = Ok q /\ query_node w o' = Ok q' /\ forall cs, select_txns w o q (lg_txns lg) cs = select_txns w o' q' (lg_txns lg) cs.
Proof.
  intros Hw M B H H' S. destruct (found_nodes w o F H) as (q & Q & G). destruct (found_nodes w o' F' H') as (q' & Q' & G'). exists q, q'. do 2 (split; auto).
  intros cs. eapply select_same; eauto. exact (ledger_payees w lg Hw M).
Qed.

(** ** Selections *)
Lemma selection_narrow {A} (P Q : A -> Prop) l : forall a b, (forall x, In x l -> P x -> Q x) -> selection P l a -> selection Q l b -> subsequence a b.
Proof.
  induction l as [|x l IH]; intros a b I HP HQ; inv HP; inv HQ.
  - constructor.
  - constructor. eapply IH; eauto. intros; apply I; [right|]; auto.
  - exfalso. match goal with N : ~ Q x |- _ => apply N end. apply I; [left|]; auto.
  - constructor. eapply IH; eauto. intros; apply I; [right|]; auto.
  - eapply IH; eauto. intros; apply I; [right|]; auto.
Qed.
Lemma subsequence_app {A} (a b a' b' : list A) : subsequence a b -> subsequence a' b' -> subsequence (a ++ a') (b ++ b').
Proof. induction 1; intros K; cbn; auto; constructor; auto. Qed.
Lemma subsequence_map {A B} (f : A -> B) a b : subsequence a b -> subsequence (map f a) (map f b).
Proof. induction 1; cbn; constructor; auto. Qed.
(** What two selections have together is what their union and their intersection have together. *)
Lemma selection_join {A} (P1 P2 P3 P4 : A -> Prop) l : (forall x, In x l -> (P3 x <-> P1 x \/ P2 x) /\ (P4 x <-> P1 x /\ P2 x)) ->
  forall a b c d, selection P1 l a -> selection P2 l b -> selection P3 l c -> selection P4 l d -> Permutation (c ++ d) (a ++ b).
Proof.
  induction l as [|x l IH]; intros H a b c d Ha Hb Hc Hd.
  - inv Ha. inv Hb. inv Hc. inv Hd. constructor.
  - assert (IH' : forall a b c d, selection P1 l a -> selection P2 l b -> selection P3 l c -> selection P4 l d -> Permutation (c ++ d) (a ++ b)) by (apply IH; intros; apply H; right; auto).
    destruct (H x (or_introl eq_refl)) as [K1 K2]. clear IH H.
    inv Ha; inv Hb; inv Hc; inv Hd; try tauto; cbn [app].
    + constructor. rewrite <- !Permutation_middle. constructor. auto.
    + constructor. auto.
    + rewrite <- Permutation_middle. constructor. auto.
    + auto.
Qed.
