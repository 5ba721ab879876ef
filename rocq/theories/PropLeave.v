(** C99: what automated transactions leave alone, and what they add. *)
From Coq Require Import Lia Sorting.Sorted.
From Verif Require Import Base BaseFacts Numerals Money Alist Comment Txn Expr Filter Price Tokens Ledger Reports App Spec MoneyFacts SpecList SpecTxn TxnFacts SpecLedger
  TokenFacts JournalFacts LedgerFacts LedgerFacts2 LedgerFacts3 PropAlist PropTxn PropLedger SpecQuery SpecExpr ExprFacts PropExpr PropQuery SpecReports ReportFacts ReportFacts2 ReportFacts3 PropReports PropApp
  SpecText SpecDates SpecTokens SpecJournal JournalRead PropJournal SpecLayout PropLayout SpecPrice PropPrice SpecBook BookFacts PropBook PropBook2 SpecAsk PropAsk SpecExchange ExchangeFacts PropExchange
  SpecWords PropRuleQuery SpecAssert AssertFacts PropAssert SpecRules ShownFacts RuleFacts RuleFacts2 PropRules SpecExchange2 PropExchange2 PropAssert2 SpecAgree SpecJoin SpecRename PropRename SpecCarry PropCarry SpecLeave.
From Verif Require PropAgree PropJoin.
Open Scope Qc_scope.

(** ** What the lines of a transaction add up to *)
Definition line_amt (K : kind -> bool) (P : str -> bool) (c : str) (x : line) : Qc :=
  if K (line_kind x) && P (line_account x) then money_amt (line_money x) c else 0.
Definition lines_sum K P c (xs : list line) : Qc := qsum (map (line_amt K P c) xs).
Lemma lines_sum_app K P c xs ys : lines_sum K P c (xs ++ ys) = lines_sum K P c xs + lines_sum K P c ys.
Proof. unfold lines_sum. rewrite map_app, qsum_app. auto. Qed.
Section Lines.
  Context (w : world) (l : pledger) (skip : bool) (K : kind -> bool) (P : str -> bool).
  Lemma written_one p c : lines_sum K P c (written_line w l p) = match rp_money p with Some m => if K (rp_kind p) && P (its_account w l p) then written_in w l m c else 0 | None => 0 end.
  Proof using Type.
    unfold lines_sum, written_line, written_entry. destruct (rp_money p) as [[q k]|]; cbn [map]; [|reflexivity]. rewrite qsum_cons. change (qsum []) with 0.
    unfold line_amt, line_kind, line_account, line_money, entry_kind, its_account, written_in. cbn [fst snd money_amt]. destruct (K (rp_kind p) && P (account_meant w l (rp_account p))); ring.
  Qed.
  Lemma given_lines ps : Forall (fun p => rp_money p = None -> rp_balance p = None) ps -> forall now c,
    given_adds w l skip K P now ps c = lines_sum K P c (flat_map (written_line w l) (filter real_posting ps)).
  Proof using Type.
    induction 1 as [|p ps NB F IH]; intros now c; [reflexivity|]. cbn [given_adds filter]. rewrite IH, (blank_open skip p NB). unfold open_posting. fold (real_posting p).
    destruct (real_posting p) eqn:R; cbn [andb]; [|rewrite Bool.andb_false_r; cbn [andb]; ring]. cbn [flat_map]. rewrite lines_sum_app, written_one. f_equal. rewrite Bool.andb_true_r.
    destruct (rp_money p) as [m|] eqn:E; cbn [negb]; [|rewrite Bool.andb_false_r; reflexivity]. rewrite Bool.andb_true_r. unfold moved. rewrite E. reflexivity.
  Qed.
  Lemma virtual_lines ps c : Forall stated_posting ps -> virtual_adds w l skip K P ps c = lines_sum K P c (flat_map (written_line w l) (filter (fun p => negb (real_posting p)) ps)).
  Proof using Type.
    unfold virtual_adds. induction 1 as [|p ps (_ & V & _) F IH]; [reflexivity|]. cbn [filter]. destruct (real_posting p) eqn:R; cbn [negb]; auto. cbn [map flat_map]. rewrite qsum_cons, IH, lines_sum_app, written_one. f_equal.
    assert (X : rp_money p <> None) by (apply V; intros X; unfold real_posting in R; rewrite X in R; discriminate). unfold moved. destruct (rp_money p); [reflexivity|congruence].
  Qed.
  (** Whatever the transaction adds is what its lines add up to. *)
  Lemma lines_added t xs now c : Forall stated_posting (t_postings t) -> Forall (fun p => rp_money p = None -> rp_balance p = None) (t_postings t) ->
    (length (filter (blank skip) (t_postings t)) <= 1)%nat -> txn_lines w l t xs -> lines_sum K P c xs = txn_adds_to w l skip K P now t c.
  Proof using Type.
    intros SP NB OB [fills A ND I]. unfold txn_adds_to. rewrite adds_split by auto. rewrite !lines_sum_app, <- virtual_lines, <- (given_lines _ NB now) by auto.
    assert (FB : filter (blank skip) (t_postings t) = filter open_posting (t_postings t)).
    { clear -NB. induction NB as [|p ps H F IH]; cbn; auto. rewrite (blank_open skip p H), IH. auto. }
    enough (E : lines_sum K P c fills = blank_adds w l skip (rest_of w l skip now t) K P (t_postings t) c) by (rewrite E; ring). unfold blank_adds. rewrite FB in *. unfold rest_of. rewrite value_written by auto. fold (kind_value w l Real t c).
    destruct (filter open_posting (t_postings t)) as [|p [|p2 ps]] eqn:EO; [| |cbn in OB; lia].
    - destruct fills as [|x f]; [reflexivity|]. destruct (A x) as (_ & p & X & _); [left; auto|]. discriminate.
    - assert (KF : forall x, In x fills -> line_kind x = Real). { intros x Hx. destruct (A x Hx) as (_ & p' & _ & E). exact (f_equal fst E). }
      assert (AF : forall x, In x fills -> line_account x = its_account w l p). { intros x Hx. destruct (A x Hx) as (_ & p' & Ep & E). injection Ep as <-. exact (f_equal snd E). }
      assert (RK : rp_kind p = Real).
      { assert (In p (filter open_posting (t_postings t))) as X by (rewrite EO; left; auto). apply filter_In in X. destruct X as [_ X]. unfold open_posting, real_posting in X. destruct (rp_kind p); auto; discriminate. }
      assert (SF : qsum (map (fun x => money_amt (line_money x) c) fills) = - kind_value w l Real t c) by (apply (fill_amounts w l t fills) with (p := p); try rewrite EO; auto).
      cbn [map]. rewrite qsum_cons. change (qsum []) with 0. rewrite RK, <- SF. unfold lines_sum. clear -KF AF. induction fills as [|x f IH]; [destruct (_ && _); reflexivity|].
      cbn [map]. rewrite !qsum_cons, IH by (intros; (apply AF || apply KF); right; auto). unfold line_amt. rewrite (KF x), (AF x) by (left; auto). destruct (K Real && P (its_account w l p)); ring.
  Qed.
End Lines.
(** Nothing changes when they are shown, the real ones first. *)
Lemma sum_shown o P c xs : qsum (map (fun e : entry => if asked_for o (entry_kind e) && P (snd (fst e)) then money_amt (snd e) c else 0) (shown_lines xs)) = lines_sum (asked_for o) P c xs.
Proof.
  unfold shown_lines, lines_sum. rewrite map_map, map_app, qsum_app.
  change (qsum (map (line_amt (asked_for o) P c) (filter real_line xs)) + qsum (map (line_amt (asked_for o) P c) (filter (fun x => negb (real_line x)) xs)) = qsum (map (line_amt (asked_for o) P c) xs)).
  induction xs as [|x xs IH]; [reflexivity|]. cbn [filter map]. rewrite qsum_cons, <- IH. destruct (real_line x); cbn [negb map]; rewrite qsum_cons; ring.
Qed.
Lemma one_blank w l skip now t : in_order_now w l skip now t -> (length (filter (blank skip) (t_postings t)) <= 1)%nat.
Proof. intros (_ & _ & H). destruct (filter (blank skip) (t_postings t)) as [|x [|y z]]; cbn; auto. contradiction. Qed.
(** What the lines with those of the rules add up to: what the journal adds, and what the rules add. *)
Lemma ruled_total w l skip o rs P c us xss : (forall t p, In t us -> In p (t_postings t) -> stated_posting p /\ (rp_money p = None -> rp_balance p = None)) ->
  Forall2 (txn_lines w l) us xss -> forall now, all_in_order w l skip now us ->
  entries_total o us (map (fun xs => shown_lines (with_rules w l rs xs)) xss) P c =
  total_added w l skip o P now us c + qsum (map (fun tx => if in_window o (fst tx) then lines_sum (asked_for o) P c (flat_map (fun r => rule_adds w l r (snd tx)) rs) else 0) (combine us xss)).
Proof.
  intros HP F. unfold entries_total. induction F as [|t xs us xss T F IH]; intros now IO; [cbn; change (qsum []) with 0; ring|]. destruct IO as [I1 I2].
  cbn [map combine fst snd total_added]. rewrite !qsum_cons, (IH (fun t p Ht Hp => HP t p (or_intror Ht) Hp) _ I2). destruct (in_window o t); [|ring].
  rewrite sum_shown. unfold with_rules. rewrite lines_sum_app, (lines_added w l skip (asked_for o) P t xs now c); [ring| | |eapply one_blank; eauto|auto]; apply Forall_forall; intros p Hp; apply (HP t p); auto; left; auto.
Qed.
(** Nothing, if the rules book nothing that is asked for. *)
Lemma nothing_more w l o rs P c xs : Forall (fun r => forall ap, In ap (snd r) -> asked_for o (rp_kind ap) = false \/ P (account_meant w l (rp_account ap)) = false) rs ->
  lines_sum (asked_for o) P c (flat_map (fun r => rule_adds w l r xs) rs) = 0.
Proof.
  intros H. unfold lines_sum. apply qsum_zero. intros q Hq. apply in_map_iff in Hq. destruct Hq as (x & <- & Hx). apply in_flat_map in Hx. destruct Hx as (r & Hr & Hx). rewrite Forall_forall in H.
  apply in_flat_map in Hx. destruct Hx as (z & _ & Hx). destruct (fst r (line_account z)); [|destruct Hx]. apply in_map_iff in Hx. destruct Hx as (ap & <- & Ha).
  unfold line_amt, rule_line, line_kind, line_account, entry_kind. cbn [fst snd]. destruct (H r Hr ap Ha) as [E|E]; rewrite E; rewrite ?Bool.andb_false_r; auto.
Qed.
(** Rules that multiply add their share of what they are applied to. *)
Lemma lines_money w l t xs x : txn_lines w l t xs -> In x xs -> exists a c, line_money x = M a c.
Proof.
  intros [fills A ND I] Hx. assert (W : forall ps, In x (flat_map (written_line w l) ps) -> exists a c, line_money x = M a c).
  { intros ps H. apply in_flat_map in H. destruct H as (p & _ & H). unfold written_line, written_entry in H. destruct (rp_money p) as [[q k]|]; [|destruct H]. destruct H as [<-|[]]. unfold line_money. cbn. eauto. }
  rewrite !in_app_iff in Hx. destruct Hx as [Hx|[Hx|Hx]]; eauto. destruct (A x Hx) as (_ & p & Ep & _). assert (X : In (line_money x) (map line_money fills)) by (apply in_map; auto). apply (I p Ep) in X. destruct X as (c & _ & ->). eauto.
Qed.
Lemma share_added w l o P c r xs : (forall k, asked_for o k = true) -> (forall ap, In ap (snd r) -> exists q, rp_money ap = Some (q, [])) -> (forall x, In x xs -> exists a k, line_money x = M a k) ->
  lines_sum (asked_for o) P c (rule_adds w l r xs) = lines_sum (asked_for o) (fst r) c xs * rule_share w l P r.
Proof.
  intros K H MX. unfold rule_adds. induction xs as [|x xs IH]; [unfold lines_sum; cbn; change (qsum []) with 0; ring|]. cbn [flat_map]. rewrite lines_sum_app, IH by (intros; apply MX; right; auto).
  change (x :: xs) with ([x] ++ xs). rewrite lines_sum_app. enough (E : lines_sum (asked_for o) P c (if fst r (line_account x) then map (rule_line w l x) (snd r) else []) = lines_sum (asked_for o) (fst r) c [x] * rule_share w l P r) by (rewrite E; ring).
  unfold lines_sum at 2. cbn [map]. rewrite qsum_cons. change (qsum []) with 0. unfold line_amt at 1. rewrite K. cbn [andb]. destruct (fst r (line_account x)); [|unfold lines_sum; cbn; change (qsum []) with 0; ring].
  destruct (MX x (or_introl eq_refl)) as (a & k & EM). rewrite EM. unfold rule_share, lines_sum. clear -K H EM. induction (snd r) as [|ap aps IH]; [cbn; change (qsum []) with 0; ring|]. cbn [map]. rewrite !qsum_cons.
  rewrite IH by (intros; apply H; right; auto). destruct (H ap (or_introl eq_refl)) as (q & E). assert (EF : factor ap = q) by (unfold factor; rewrite E; auto). rewrite EF.
  assert (EL : line_amt (asked_for o) P c (rule_line w l x ap) = if P (account_meant w l (rp_account ap)) then money_amt (M (a * q) k) c else 0).
  { unfold line_amt, rule_line, line_kind, line_account, entry_kind, line_money. cbn [fst snd]. rewrite K. cbn [andb]. unfold rule_money. fold (line_money x). rewrite E, EM. auto. }
  rewrite EL. destruct (P (account_meant w l (rp_account ap))); [|ring]. unfold money_amt. destruct (str_eqb k c); ring.
Qed.
Lemma sum_rules K P c (f : ruling -> list line) rs : lines_sum K P c (flat_map f rs) = qsum (map (fun r => lines_sum K P c (f r)) rs).
Proof. induction rs as [|r rs IH]; [reflexivity|]. cbn [flat_map map]. rewrite lines_sum_app, qsum_cons, IH. auto. Qed.
Lemma multiplied_total w l skip o rs P c us xss : (forall k, asked_for o k = true) -> Forall (fun r => forall ap, In ap (snd r) -> exists q, rp_money ap = Some (q, [])) rs ->
  (forall t p, In t us -> In p (t_postings t) -> stated_posting p /\ (rp_money p = None -> rp_balance p = None)) ->
  Forall2 (txn_lines w l) us xss -> forall now, all_in_order w l skip now us ->
  qsum (map (fun tx => if in_window o (fst tx) then lines_sum (asked_for o) P c (flat_map (fun r => rule_adds w l r (snd tx)) rs) else 0) (combine us xss)) =
  qsum (map (fun r => total_added w l skip o (fst r) now us c * rule_share w l P r) rs).
Proof.
  intros K MR HP F. induction F as [|t xs us xss T F IH]; intros now IO.
  - cbn [combine map total_added]. symmetry. apply qsum_zero. intros q Hq. apply in_map_iff in Hq. destruct Hq as (r & <- & _). ring.
  - destruct IO as [I1 I2]. cbn [map combine fst snd total_added]. rewrite qsum_cons, (IH (fun t p Ht Hp => HP t p (or_intror Ht) Hp) _ I2).
    assert (E : (if in_window o t then lines_sum (asked_for o) P c (flat_map (fun r => rule_adds w l r xs) rs) else 0) =
                qsum (map (fun r => (if in_window o t then txn_adds_to w l skip (asked_for o) (fst r) now t c else 0) * rule_share w l P r) rs)).
    { destruct (in_window o t); [|symmetry; apply qsum_zero; intros q Hq; apply in_map_iff in Hq; destruct Hq as (r & <- & _); ring]. rewrite sum_rules. f_equal. apply map_ext_in. intros r Hr. rewrite Forall_forall in MR.
      rewrite (share_added w l o P c r xs K (MR r Hr) (fun x Hx => lines_money w l t xs x T Hx)). f_equal. apply lines_added; auto; [| |eapply one_blank; eauto]; apply Forall_forall; intros p Hp; apply (HP t p); auto; left; auto. }
    rewrite E, <- qsum_add. f_equal. apply map_ext. intros r. ring.
Qed.

(** ** The journal without its rules *)
Lemma journal_incl l : incl (journal_txns l) (pl_txns l).
Proof. intros t Ht. apply filter_In in Ht. apply Ht. Qed.
Lemma left_stated w l' l : without_rules l' l -> ruled_journal w l -> stated_journal w l'.
Proof.
  intros ((E1 & E2 & E3) & ET) [R1 R2 R3 R4 [P3 P4 P5]].
  assert (IT : forall t, In t (pl_txns l') -> In t (pl_txns l)) by (intros t Ht; rewrite ET in Ht; apply journal_incl; auto).
  assert (MA : forall n, mentions_account l' n -> mentions_account l n) by (intros n (t & p & Ht & X); exists t, p; split; auto).
  assert (MC : forall n, mentions_commodity l' n -> mentions_commodity l n).
  { intros n [(p & Hp & X)|(t & p & q & Ht & X)]; [left; exists p; split; auto|right; exists t, p, q; split; auto]. }
  constructor.
  - intros t Ht. rewrite ET in Ht. apply filter_In in Ht. destruct Ht as [_ Ht]. unfold is_real_txn in Ht. destruct (t_type t); auto; discriminate.
  - intros t p Ht Hp. rewrite ET in Ht. apply (R2 t p Ht Hp).
  - constructor; [| |rewrite E1; auto].
    + intros n m Hn Hm. unfold account_meant. rewrite E1. apply P3; auto.
    + intros n m Hn Hm. unfold commodity_meant. rewrite E2. apply P4; auto.
Qed.
Lemma left_names l' l : without_rules l' l -> same_names l' l.
Proof. intros ((E1 & E2 & _) & _). split; auto. Qed.
Lemma left_sorted l' l us : without_rules l' l -> date_sorted (journal_txns l) us -> date_sorted (pl_txns l') us.
Proof. intros (_ & ->). auto. Qed.
Lemma left_cut w o l' l : without_rules l' l -> can_be_cut w o l -> can_be_cut w o l'.
Proof.
  intros W C d Ed. destruct (C d Ed) as [C1 C2]. split; auto. intros n (t & p & Ht & Hp & En). unfold account_meant. rewrite (proj1 (proj1 W)). apply C2. exists t, p. split; auto. rewrite (proj2 W) in Ht. apply journal_incl. auto.
Qed.
Lemma left_order w skip l' l us : without_rules l' l -> date_sorted (journal_txns l) us -> all_in_order w l' skip nothing us <-> all_in_order w l skip nothing us.
Proof. intros W D. apply (same_order w l l' (left_names _ _ W) skip us nothing nothing); auto using nothing_much. intros t Ht. apply journal_incl, (sorted_incl _ _ D). auto. Qed.
Lemma left_total w skip o l' l us P c : without_rules l' l -> date_sorted (journal_txns l) us -> total_added w l' skip o P nothing us c = total_added w l skip o P nothing us c.
Proof. intros W D. apply (same_total w l l' (left_names _ _ W) skip o P us nothing nothing c); auto using nothing_much. intros t Ht. apply journal_incl, (sorted_incl _ _ D). auto. Qed.
Lemma journal_sorted w l : parsed w l -> ruled_journal w l -> date_sorted (journal_txns l) (by_date (journal_txns l)).
Proof. intros Hp RJ. apply by_date_sorted. apply (ruled_dated w l); auto. Qed.

(** ** The reports of the journal with its rules *)
Lemma ruled_run depth w c o file l us rs : world_ok w -> file_parses depth w file l -> ruled_journal w l ->
  date_sorted (journal_txns l) us -> Forall2 (rule_says w) (rules l) rs -> exit_status (run_cmd depth w c o file) = 0%Z ->
  let skip := match c with CCheck => false | _ => o_no_balance_check o end in
  exists xss, Forall2 (txn_lines w l) us xss /\ all_in_order w l skip nothing us /\ all_lines_in_order w l skip nothing (map (with_rules w l rs) xss).
Proof.
  intros Hw HF RJ DU RS RUN skip. pose proof (file_parsed _ _ _ _ HF) as Hp. destruct (C84_lines_exist w l us) as (xss0 & FX0).
  destruct (ruled_outcome w skip l us rs Hw Hp RJ DU RS) as [(N & _)|(IO & xss & FX & [(N & _)|(LO & _)])].
  - rewrite (C84_refused depth w c o file l us rs xss0 Hw HF RJ DU RS FX0) in RUN; [discriminate RUN|]. left. exact N.
  - rewrite (C84_refused depth w c o file l us rs xss Hw HF RJ DU RS FX) in RUN; [discriminate RUN|]. right. exact N.
  - exists xss. auto.
Qed.
Lemma ruled_flat depth w o file l us rs nt A : world_ok w -> file_parses depth w file l -> ruled_journal w l ->
  date_sorted (journal_txns l) us -> Forall2 (rule_says w) (rules l) rs -> exit_status (run_cmd depth w (CBalance true nt) o file) = 0%Z ->
  asked_accounts w (o_query o) A -> o_exchange o = None -> can_be_cut w o l ->
  exists xss, Forall2 (txn_lines w l) us xss /\ all_in_order w l (o_no_balance_check o) nothing us /\
  let total := fun P => entries_total o us (map (fun xs => shown_lines (with_rules w l rs xs)) xss) (fun n => A n && P n) in
  exists r lines, run_cmd depth w (CBalance true nt) o file = Ok lines /\ balance_printed r lines /\
    flat_cut_shows o total r /\ total_shows total (negb nt) r /\ forall P c, shown_for r P c = total (fun n => P (PropAgree.cut_by o n)) c.
Proof.
  intros Hw HF RJ DU RS RUN HA OX HC. destruct (ruled_run depth w (CBalance true nt) o file l us rs Hw HF RJ DU RS RUN) as (xss & FX & IO & LO). exists xss. do 2 (split; auto). intros total.
  pose proof (file_parsed _ _ _ _ HF) as Hp. apply file_parses_iff in HF. set (skip := o_no_balance_check o) in *.
  destruct (ruled_outcome w skip l us rs Hw Hp RJ DU RS) as [(N & _)|(_ & xss' & FX' & [(N & _)|(_ & lg & al & cs & ts & dir & costs & E & JR & SH & LL & WT)])]; [contradiction| |].
  { exfalso. apply N. exact (all_in_order_same w l skip _ _ (ruled_same w l rs us xss xss' FX FX') nothing nothing (fun _ _ => eq_refl) LO). }
  pose proof (made_plain _ _ _ _ Hp E) as M.
  destruct (shown_report w (report_site lg) o true (negb nt) lg A Hw WT HA OX) as (r & Er).
  { intros _ d Ed. eapply (ledger_named w o l rs us xss' lg); eauto. }
  destruct (C69_printed depth w o file l lg Hw HF E) as [HP _]. destruct (HP true nt r Er) as (lines & L1 & L2). exists r, lines. do 2 (split; auto).
  assert (TT : forall Q c, qsum (map (txn_counted (asked_for o) Q c) (filter (window_of o) (lg_txns lg))) = entries_total o us (map (fun xs => shown_lines (with_rules w l rs xs)) xss) Q c).
  { intros Q c. rewrite (counted_entries o us); auto. rewrite LL. eapply entries_total_same; eauto. }
  destruct (shown_balance w (report_site lg) o true (negb nt) lg A r (entries_total o us (map (fun xs => shown_lines (with_rules w l rs xs)) xss)) Hw M HA OX TT Er) as [F T].
  do 2 (split; auto). intros Q c. destruct (asked_node w o A HA) as (q0 & Q0 & AN). destruct (PropAgree.flat_shown _ _ _ _ _ _ Hw M OX Er) as (q & tps & Q1 & R & FS).
  assert (q = q0) by congruence. subst q. rewrite (FS (PropAgree.cut_by o) Q c) by apply PropAgree.cut_by_cuts. unfold total. rewrite <- TT. eapply reported_asked_totals; eauto.
Qed.
Lemma elsewhere_rulings w o l A rs (P : str -> bool) : Forall2 (rule_says w) (rules l) rs -> rules_elsewhere w o l A -> (forall n, A n = false -> P n = false) ->
  Forall (fun r => forall ap, In ap (snd r) -> asked_for o (rp_kind ap) = false \/ P (account_meant w l (rp_account ap)) = false) rs.
Proof.
  intros RS E HP. unfold rules_elsewhere in E. revert E. generalize (rules l) RS. clear RS. intros rl RS E. induction RS as [|r x rl rs RS1 RS IH]; constructor.
  - intros ap Ha. destruct RS1 as (EP & _). rewrite <- EP in Ha. destruct (E r ap (or_introl eq_refl) Ha) as [X|X]; auto.
  - apply IH. intros r' ap Hr. apply E. right. auto.
Qed.
Lemma elsewhere_total w l skip o A rs (P : str -> bool) us xss c : Forall2 (rule_says w) (rules l) rs -> rules_elsewhere w o l A -> ruled_journal w l -> date_sorted (journal_txns l) us ->
  Forall2 (txn_lines w l) us xss -> all_in_order w l skip nothing us ->
  entries_total o us (map (fun xs => shown_lines (with_rules w l rs xs)) xss) (fun n => A n && P n) c = total_added w l skip o (fun n => A n && P n) nothing us c.
Proof.
  intros RS E RJ D FX IO. rewrite (ruled_total w l skip o rs (fun n => A n && P n) c us xss) with (now := nothing); auto.
  - rewrite qsum_zero; [ring|]. intros q Hq. apply in_map_iff in Hq. destruct Hq as (tx & <- & _). destruct (in_window o (fst tx)); auto. apply nothing_more.
    apply (elsewhere_rulings w o l A rs (fun n => A n && P n)); auto. intros n ->. auto.
  - intros t p Ht Hp. apply (ru_postings _ _ RJ t p); auto. apply (sorted_incl _ _ D). auto.
Qed.

Lemma total_same_P w l skip o us (P Q : str -> bool) c : (forall n, P n = Q n) -> forall now, total_added w l skip o P now us c = total_added w l skip o Q now us c.
Proof.
  intros E. induction us as [|t us IH]; intros now; cbn [total_added]; auto. rewrite IH. f_equal. destruct (in_window o t); auto. unfold txn_adds_to. generalize (rest_of w l skip now t). intros rest.
  generalize now. clear IH now. induction (t_postings t) as [|p ps IH]; intros now; cbn [adds_to]; auto. rewrite IH, E. auto.
Qed.
Lemma entries_total_P o us ess (P Q : str -> bool) c : (forall n, P n = Q n) -> entries_total o us ess P c = entries_total o us ess Q c.
Proof. intros E. unfold entries_total. f_equal. apply map_ext. intros te. destruct (in_window o (fst te)); auto. f_equal. apply map_ext. intros e. rewrite E. auto. Qed.

(** ** C99 *)
(** A journal that is accepted with its rules is accepted without them. *)
Theorem C99_check : forall depth w o file file' l l' rs, world_ok w -> file_parses depth w file l -> file_parses depth w file' l' ->
  ruled_journal w l -> Forall2 (rule_says w) (rules l) rs -> without_rules l' l ->
  exit_status (run_cmd depth w CCheck o file) = 0%Z -> exit_status (run_cmd depth w CCheck o file') = 0%Z.
Proof.
  intros depth w o file file' l l' rs Hw HF HF' RJ RS W RUN. pose proof (journal_sorted w l (file_parsed _ _ _ _ HF) RJ) as D.
  destruct (ruled_run depth w CCheck o file l _ rs Hw HF RJ D RS RUN) as (xss & _ & IO & _). cbn beta iota in IO.
  apply (C83_check depth w o file' l' _ Hw HF' (left_stated _ _ _ W RJ) (left_sorted _ _ _ W D)). apply (left_order w false l' l); auto.
Qed.
Print Assumptions C99_check.
(** If the rules book nothing that is asked for, the report is that of the journal without the rules. *)
Theorem C99_unaffected : forall depth w o file file' l l' rs no_total A, world_ok w -> file_parses depth w file l -> file_parses depth w file' l' ->
  ruled_journal w l -> Forall2 (rule_says w) (rules l) rs -> without_rules l' l -> exit_status (run_cmd depth w (CBalance true no_total) o file) = 0%Z ->
  asked_accounts w (o_query o) A -> rules_elsewhere w o l A -> o_exchange o = None -> can_be_cut w o l ->
  exists r r' lines lines', run_cmd depth w (CBalance true no_total) o file = Ok lines /\ balance_printed r lines /\
    run_cmd depth w (CBalance true no_total) o file' = Ok lines' /\ balance_printed r' lines' /\ same_report r' r.
Proof.
  intros depth w o file file' l l' rs nt A Hw HF HF' RJ RS W RUN HA EL OX HC. pose proof (journal_sorted w l (file_parsed _ _ _ _ HF) RJ) as D.
  destruct (ruled_flat depth w o file l _ rs nt A Hw HF RJ D RS RUN HA OX HC) as (xss & FX & IO & r & lines & R1 & R2 & R3 & R4 & _).
  destruct (stated_flat_cut depth w o file' l' _ nt A Hw HF' (left_stated _ _ _ W RJ) (left_sorted _ _ _ W D)) as (r' & lines' & S1 & S2 & S3 & S4 & _); auto; [apply (left_order w _ l' l); auto|eapply left_cut; eauto|].
  exists r, r', lines, lines'. do 4 (split; auto). eapply (same_flat o o); [auto|exact R3|exact R4|exact S3|exact S4| |]; intros; cbn beta; rewrite (left_total w _ o l' l); auto; symmetry; apply elsewhere_total; auto.
Qed.
Print Assumptions C99_unaffected.
(** In particular rules with postings in parentheses change neither the verdict nor any report of the real postings. *)
Theorem C99_budget : forall depth w o file file' l l' rs no_total A, world_ok w -> file_parses depth w file l -> file_parses depth w file' l' ->
  ruled_journal w l -> Forall2 (rule_says w) (rules l) rs -> without_rules l' l -> (forall r p, In r (rules l) -> In p (t_postings r) -> rp_kind p = Virtual) ->
  (exit_status (run_cmd depth w CCheck o file) = 0%Z <-> exit_status (run_cmd depth w CCheck o file') = 0%Z) /\
  (exit_status (run_cmd depth w CCheck o file') = 0%Z -> o_no_balance_check o = false -> o_real o = true -> asked_accounts w (o_query o) A -> o_exchange o = None -> can_be_cut w o l ->
   exists r r' lines lines', run_cmd depth w (CBalance true no_total) o file = Ok lines /\ balance_printed r lines /\
     run_cmd depth w (CBalance true no_total) o file' = Ok lines' /\ balance_printed r' lines' /\ same_report r' r).
Proof.
  intros depth w o file file' l l' rs nt A Hw HF HF' RJ RS W V. pose proof (journal_sorted w l (file_parsed _ _ _ _ HF) RJ) as D. destruct (C84_budget depth w o file l _ rs Hw HF RJ D RS V) as [B1 B2].
  assert (C : exit_status (run_cmd depth w CCheck o file) = 0%Z <-> exit_status (run_cmd depth w CCheck o file') = 0%Z).
  { rewrite B1, (C83_check depth w o file' l' _ Hw HF' (left_stated _ _ _ W RJ) (left_sorted _ _ _ W D)). symmetry. apply (left_order w false l' l); auto. }
  split; auto. intros CH NB RE HA OX HC. apply C in CH. apply (C99_unaffected depth w o file file' l l' rs nt A); auto.
  - apply B1 in CH. destruct (C84_lines_exist w l (by_date (journal_txns l))) as (xss & FX). destruct (C84_balance depth w o file l _ rs xss A true nt Hw HF RJ D RS FX) as (r & lines & -> & _); auto.
    + rewrite NB. auto.
    + apply B2; auto. rewrite NB. auto.
  - intros r ap Hr Ha. left. rewrite (V r ap Hr Ha). unfold asked_for. rewrite RE. auto.
Qed.
Print Assumptions C99_budget.
(** Rules that multiply add to each account their share of what the accounts they are for hold without them. *)
Theorem C99_shares : forall depth w o o' file file' l l' rs no_total A, world_ok w -> file_parses depth w file l -> file_parses depth w file' l' ->
  ruled_journal w l -> Forall2 (rule_says w) (rules l) rs -> without_rules l' l -> rules_multiply l -> exit_status (run_cmd depth w (CBalance true no_total) o file) = 0%Z ->
  asked_accounts w (o_query o) A -> of_all_accounts o o' -> o_real o = false -> o_depth o = None -> o_exchange o = None ->
  exists r r' lines lines', run_cmd depth w (CBalance true no_total) o file = Ok lines /\ balance_printed r lines /\
    run_cmd depth w (CBalance true no_total) o' file' = Ok lines' /\ balance_printed r' lines' /\
    ascending (map br_label (bp_rows r)) /\
    (forall a, In a (map br_label (bp_rows r)) <-> exists c, shown_for r (str_eqb a) c <> 0) /\
    forall P c, shown_for r P c = shown_for r' (fun n => A n && P n) c + qsum (map (fun x => shown_for r' (fst x) c * rule_share w l (fun n => A n && P n) x) rs).
Proof.
  intros depth w o o' file file' l l' rs nt A Hw HF HF' RJ RS W RM RUN HA (O1 & O2 & O3 & O4 & O5 & O6 & O7) RE OD OX. pose proof (journal_sorted w l (file_parsed _ _ _ _ HF) RJ) as D.
  assert (HC : can_be_cut w o l) by (intros d Ed; congruence).
  destruct (ruled_flat depth w o file l _ rs nt A Hw HF RJ D RS RUN HA OX HC) as (xss & FX & IO & r & lines & R1 & R2 & R3 & R4 & R5).
  destruct (stated_flat_cut depth w o' file' l' _ nt (fun _ => true) Hw HF' (left_stated _ _ _ W RJ) (left_sorted _ _ _ W D)) as (r' & lines' & S1 & S2 & S3 & S4 & S5).
  { rewrite O7. apply (left_order w _ l' l); auto. }
  { rewrite O4. constructor. }
  { congruence. }
  { intros d Ed. congruence. }
  exists r, r', lines, lines'. do 4 (split; auto). split; [apply R3|].
  assert (CB : forall x n, o_depth x = None -> PropAgree.cut_by x n = n) by (intros x n E; unfold PropAgree.cut_by; rewrite E; auto).
  assert (NOW : forall P c, shown_for r' P c = total_added w l (o_no_balance_check o) o P nothing (by_date (journal_txns l)) c).
  { intros P c. rewrite S5. rewrite O7. cbn [andb]. rewrite (left_total w _ o' l' l) by auto. rewrite (total_window w l _ o o') by (auto; intros; unfold in_window; rewrite O2, O3; auto).
    apply (total_same_P w l (o_no_balance_check o) o). intros n. rewrite CB by congruence. auto. }
  assert (MR : Forall (fun r => forall ap, In ap (snd r) -> exists q, rp_money ap = Some (q, [])) rs).
  { clear -RS RM. unfold rules_multiply in RM. revert RM. generalize (rules l) RS. clear RS. intros rl RS RM. induction RS as [|x y rl rs RS1 RS IH]; constructor.
    - intros ap Ha. destruct RS1 as (EP & _). rewrite <- EP in Ha. apply (RM x ap); auto. left. auto.
    - apply IH. intros r' ap Hr. apply RM. right. auto. }
  assert (KA : forall k, asked_for o k = true) by (intros k; unfold asked_for; rewrite RE; auto).
  assert (GP : forall t p, In t (by_date (journal_txns l)) -> In p (t_postings t) -> stated_posting p /\ (rp_money p = None -> rp_balance p = None)).
  { intros t p Ht Hp. apply (ru_postings _ _ RJ t p); auto. apply (sorted_incl _ _ D). auto. }
  split.
  - intros a. rewrite (flat_rows_of o _ r a R3). split; intros (c & Hc); exists c; revert Hc; rewrite R5; intros Hc X; apply Hc; rewrite <- X; cbn beta; apply (entries_total_P o); intros n; rewrite CB, str_eqb_sym by auto; auto.
  - intros P c. rewrite R5, (ruled_total w l (o_no_balance_check o) o rs _ c _ xss GP FX nothing IO), (multiplied_total w l (o_no_balance_check o) o rs _ c _ xss KA MR GP FX nothing IO).
    rewrite NOW. f_equal.
    + apply (total_same_P w l (o_no_balance_check o) o). intros n. rewrite CB by auto. auto.
    + f_equal. apply map_ext. intros x. rewrite NOW. f_equal. unfold rule_share. f_equal. apply map_ext. intros ap. rewrite CB by auto. auto.
Qed.
Print Assumptions C99_shares.

(** ** Journals that meet the hypotheses *)
Definition book99 : list String.string :=
  ["2021-01-02 Shop"; "  Expenses:Food  10 EUR"; "  Expenses:Drinks  5 EUR"; "  Assets:Bank"; "2021-01-01 Opening"; "  Assets:Bank  50 EUR = 50 EUR"; "  Equity"; "2021-01-03 Gift"; "  Expenses:Food  4 USD"; "  Income:Gifts"]%string.
Definition rules99 : list String.string := ["= food"; "  (Budget:Food)  -1"; "  (Envelopes)  0.5"; "= drinks"; "  (Budget:Drinks)  -2"; "  (Envelopes)  0.2"]%string.
Definition w99 : world :=
  {| w_lower := ascii_lower; w_numeric := fun _ => false;
     w_rx := fun rx s => if starts_with (L "(?i)") rx then occurs (ascii_lower (skipn 4 rx)) (ascii_lower s) else occurs rx s;
     w_rx_ok := fun _ => true; w_width := None;
     w_read := fun p => if str_eqb p (L "with") then Some (text (rules99 ++ book99)) else if str_eqb p (L "without") then Some (text book99) else None;
     w_glob := fun _ => None; w_two_timer := fun _ => None; w_now := 0%Z; w_ord := fun _ _ l => l |}.
Lemma w99_ok : world_ok w99.
Proof. split; [intros; apply Permutation_refl|exact ascii_lower_idem]. Qed.
Definition l99 : pledger := get pl_new (tokenize_file 2 w99 (L "with")).
Definition l99' : pledger := get pl_new (tokenize_file 2 w99 (L "without")).
Definition rs99 : list ruling := [(w_rx w99 (L "(?i)food"), t_postings (rule84 l99 0)); (w_rx w99 (L "(?i)drinks"), t_postings (rule84 l99 1))].
Lemma r99 : Forall2 (rule_says w99) (rules l99) rs99.
Proof.
  rewrite (two_of (rules l99) void83) by (vm_compute; reflexivity). fold (rule84 l99 0) (rule84 l99 1). constructor; [|constructor; [|constructor]].
  - split; [reflexivity|]. exists [L "food"]. split; [discriminate|]. split.
    + assert (E : t_desc (rule84 l99 0) = L " " ++ L "food" ++ []) by (vm_compute; reflexivity). rewrite E. constructor.
      * intros c [<-|[]]. reflexivity.
      * apply word_of. reflexivity.
      * constructor. intros c [].
      * congruence.
    + apply aa_one. apply PropAsk.plain_word; reflexivity.
  - split; [reflexivity|]. exists [L "drinks"]. split; [discriminate|]. split.
    + assert (E : t_desc (rule84 l99 1) = L " " ++ L "drinks" ++ []) by (vm_compute; reflexivity). rewrite E. constructor.
      * intros c [<-|[]]. reflexivity.
      * apply word_of. reflexivity.
      * constructor. intros c [].
      * congruence.
    + apply aa_one. apply PropAsk.plain_word; reflexivity.
Qed.
Definition about99 : opts := ask ["expenses"; "or"; "assets"]%string None.
Definition shown99 : str -> bool := fun n => w_rx w99 (L "(?i)expenses") n || w_rx w99 (L "(?i)assets") n.
Example C99_case : world_ok w99 /\ file_parses 2 w99 (L "with") l99 /\ file_parses 2 w99 (L "without") l99' /\ ruled_journal w99 l99 /\ Forall2 (rule_says w99) (rules l99) rs99 /\ without_rules l99' l99 /\
  rules_multiply l99 /\ (forall r p, In r (rules l99) -> In p (t_postings r) -> rp_kind p = Virtual) /\
  exit_status (run_cmd 2 w99 CCheck plain_opts (L "with")) = 0%Z /\ exit_status (run_cmd 2 w99 (CBalance true false) plain_opts (L "with")) = 0%Z /\ exit_status (run_cmd 2 w99 (CBalance true false) about99 (L "with")) = 0%Z /\
  asked_accounts w99 (o_query plain_opts) (fun _ => true) /\ asked_accounts w99 (o_query about99) shown99 /\ rules_elsewhere w99 about99 l99 shown99 /\ of_all_accounts about99 plain_opts /\ of_all_accounts plain_opts plain_opts /\
  run_cmd 2 w99 (CBalance true false) about99 (L "with") = run_cmd 2 w99 (CBalance true false) about99 (L "without") /\
  run_cmd 2 w99 (CBalance true true) plain_opts (L "without") = Ok (map L
    ["           35.00 EUR  Assets:Bank"; "          -50.00 EUR  Equity"; "            5.00 EUR  Expenses:Drinks"; "           10.00 EUR"; "            4.00 USD  Expenses:Food"; "           -4.00 USD  Income:Gifts"]%string) /\
  run_cmd 2 w99 (CBalance true true) (ask ["budget"; "or"; "envelopes"]%string None) (L "with") = Ok (map L
    ["          -10.00 EUR  Budget:Drinks"; "          -10.00 EUR"; "           -4.00 USD  Budget:Food"; "            6.00 EUR"; "            2.00 USD  Envelopes"]%string).
Proof.
  split; [exact w99_ok|]. split; [apply file_parses_iff; vm_compute; reflexivity|]. split; [apply file_parses_iff; vm_compute; reflexivity|]. split; [apply ruled_check_ok; vm_compute; reflexivity|]. split; [exact r99|].
  split; [split; [split; [vm_compute; reflexivity|split; [vm_compute; reflexivity|intros p H; exact H]]|vm_compute; reflexivity]|]. split.
  { assert (X : forallb (fun r => forallb (fun p => match rp_money p with Some (_, []) => true | _ => false end) (t_postings r)) (rules l99) = true) by (vm_compute; reflexivity).
    intros r p Hr Hp. rewrite forallb_forall in X. apply X in Hr. rewrite forallb_forall in Hr. apply Hr in Hp. destruct (rp_money p) as [[q [|c k]]|]; [exists q; reflexivity|discriminate Hp|discriminate Hp]. }
  split.
  { assert (X : forallb (fun r => forallb (fun p => kind_eqb (rp_kind p) Virtual) (t_postings r)) (rules l99) = true) by (vm_compute; reflexivity).
    intros r p Hr Hp. rewrite forallb_forall in X. apply X in Hr. rewrite forallb_forall in Hr. apply Hr in Hp. destruct (rp_kind p); [discriminate Hp|reflexivity|discriminate Hp]. }
  split; [vm_compute; reflexivity|]. split; [vm_compute; reflexivity|]. split; [vm_compute; reflexivity|]. split; [apply aa_all|]. split; [apply aa_or; [apply PropAsk.plain_word; reflexivity|apply PropAsk.plain_word; reflexivity]|]. split.
  { assert (X : forallb (fun r => forallb (fun p => negb (shown99 (account_meant w99 l99 (rp_account p)))) (t_postings r)) (rules l99) = true) by (vm_compute; reflexivity).
    intros r p Hr Hp. right. rewrite forallb_forall in X. apply X in Hr. rewrite forallb_forall in Hr. apply Hr in Hp. apply Bool.negb_true_iff in Hp. exact Hp. }
  split; [cbv; auto 10|]. split; [cbv; auto 10|]. split; [vm_compute; reflexivity|]. split; vm_compute; reflexivity.
Qed.
