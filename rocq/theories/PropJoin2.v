(** C100: the order and the division of a journal with automated transactions. *)
From Coq Require Import Lia Sorting.Sorted.
From Verif Require Import Base BaseFacts Numerals Money Alist Comment Txn Expr Filter Price Tokens Ledger Reports App Spec MoneyFacts SpecList SpecTxn TxnFacts SpecLedger
  TokenFacts JournalFacts LedgerFacts LedgerFacts2 LedgerFacts3 PropAlist PropTxn PropLedger SpecQuery SpecExpr ExprFacts PropExpr PropQuery SpecReports ReportFacts ReportFacts2 ReportFacts3 PropReports PropApp
  SpecText SpecDates SpecTokens SpecJournal JournalRead PropJournal SpecLayout PropLayout SpecPrice PropPrice SpecBook BookFacts PropBook PropBook2 SpecAsk PropAsk SpecExchange ExchangeFacts PropExchange
  SpecWords PropRuleQuery SpecAssert AssertFacts PropAssert SpecRules ShownFacts RuleFacts RuleFacts2 PropRules SpecExchange2 PropExchange2 PropAssert2 SpecAgree SpecJoin SpecRename PropRename SpecCarry PropCarry SpecLeave PropLeave SpecJoin2.
From Verif Require PropAgree PropJoin.
Open Scope Qc_scope.

(** ** The lines depend on what the names stand for only *)
Section Names.
  Context (w : world) (l l' : pledger) (SN : same_names l' l).
  Lemma nm_account n : account_meant w l' n = account_meant w l n.
  Proof using SN. unfold account_meant. rewrite (proj1 SN). auto. Qed.
  Lemma nm_commodity n : commodity_meant w l' n = commodity_meant w l n.
  Proof using SN. unfold commodity_meant. rewrite (proj2 SN). auto. Qed.
  Lemma nm_written p : written_line w l' p = written_line w l p.
  Proof using SN. unfold written_line, written_entry. destruct (rp_money p) as [[q k]|]; auto. rewrite nm_account, ?nm_commodity. auto. Qed.
  Lemma nm_in m c : written_in w l' m c = written_in w l m c.
  Proof using SN. unfold written_in. rewrite nm_commodity. auto. Qed.
  Lemma nm_value p c : written_value w l' p c = written_value w l p c.
  Proof using SN. unfold written_value. destruct (rp_money p) as [[q k]|]; auto. destruct (rp_cost p) as [x|]; [destruct (rp_cost_type p) as [[]|]|]; rewrite nm_in; auto. Qed.
  Lemma nm_kind k t c : kind_value w l' k t c = kind_value w l k t c.
  Proof using SN. unfold kind_value. f_equal. apply map_ext. intros p. rewrite nm_value. auto. Qed.
  Lemma nm_writtens ps : flat_map (written_line w l') ps = flat_map (written_line w l) ps.
  Proof using SN. induction ps as [|p ps IH]; cbn; auto. rewrite nm_written, IH. auto. Qed.
  Lemma nm_lines t xs : txn_lines w l' t xs -> txn_lines w l t xs.
  Proof using SN.
    intros [fills A ND I]. rewrite !nm_writtens. constructor; auto.
    - intros x Hx. destruct (A x Hx) as (E & p & F & G). split; auto. exists p. rewrite <- nm_account. auto.
    - intros p F m. rewrite (I p F m). split; intros (c & X & Y); exists c; rewrite nm_kind in *; auto.
  Qed.
  Lemma nm_rule_adds r xs : rule_adds w l' r xs = rule_adds w l r xs.
  Proof using SN.
    unfold rule_adds. induction xs as [|x xs IH]; cbn; auto. rewrite IH. f_equal. destruct (fst r (line_account x)); auto. apply map_ext. intros ap. unfold rule_line, rule_money. rewrite nm_account.
    destruct (rp_money ap) as [[q [|k ks]]|]; auto; [destruct (line_money x)|]; rewrite ?nm_commodity; auto.
  Qed.
  Lemma nm_with_rules rs xs : with_rules w l' rs xs = with_rules w l rs xs.
  Proof using SN. unfold with_rules. f_equal. induction rs as [|r rs IH]; cbn; auto. rewrite nm_rule_adds, IH. auto. Qed.
  Lemma nm_sum k xs c : kind_sum w l' k xs c = kind_sum w l k xs c.
  Proof using SN. unfold kind_sum. f_equal. apply map_ext. intros x. unfold line_value. destruct (snd x); auto. rewrite nm_value. auto. Qed.
End Names.

(** ** Sums over transactions with their lines *)
Definition pair_sum w l o rs P c (tx : txn rposting * list line) : Qc := if in_window o (fst tx) then lines_sum (asked_for o) P c (with_rules w l rs (snd tx)) else 0.
Lemma pairs_total w l o rs P c us xss : entries_total o us (map (fun xs => shown_lines (with_rules w l rs xs)) xss) P c = qsum (map (pair_sum w l o rs P c) (combine us xss)).
Proof.
  unfold entries_total. revert xss. induction us as [|t us IH]; intros [|xs xss]; cbn [map combine]; auto. rewrite !qsum_cons, IH. f_equal. unfold pair_sum. cbn [fst snd]. destruct (in_window o t); auto. rewrite sum_shown. auto.
Qed.
Lemma pair_names w l l' o rs P c tx : same_names l' l -> pair_sum w l' o rs P c tx = pair_sum w l o rs P c tx.
Proof. intros SN. unfold pair_sum. rewrite (nm_with_rules w l l' SN). auto. Qed.
Lemma pair_rules w l o rs rs' P c tx : Permutation rs' rs -> pair_sum w l o rs' P c tx = pair_sum w l o rs P c tx.
Proof.
  intros PR. unfold pair_sum. destruct (in_window o (fst tx)); auto. unfold with_rules. rewrite !lines_sum_app, !sum_rules. f_equal. apply qsum_perm, Permutation_map. auto.
Qed.
Lemma combine_fst {X Y} (xs : list X) (ys : list Y) R : Forall2 R xs ys -> map fst (combine xs ys) = xs /\ map snd (combine xs ys) = ys.
Proof. induction 1 as [|x y xs ys H F [I1 I2]]; cbn; auto. rewrite I1, I2. auto. Qed.
Lemma pairs_again w l (ps : list (txn rposting * list line)) : Forall (fun tx => txn_lines w l (fst tx) (snd tx)) ps ->
  Forall2 (txn_lines w l) (map fst ps) (map snd ps) /\ combine (map fst ps) (map snd ps) = ps.
Proof. induction 1 as [|[t xs] ps H F [I1 I2]]; cbn; auto. rewrite I2. auto. Qed.
Lemma pairs_lines w l us xss : Forall2 (txn_lines w l) us xss -> Forall (fun tx => txn_lines w l (fst tx) (snd tx)) (combine us xss).
Proof. induction 1; cbn; constructor; auto. Qed.
(** Lines for the transactions of [us], taken from those for its parts. *)
Lemma lines_from w l us (ps : list (txn rposting * list line)) : Permutation us (map fst ps) -> Forall (fun tx => txn_lines w l (fst tx) (snd tx)) ps ->
  exists ps', us = map fst ps' /\ Permutation ps ps' /\ Forall2 (txn_lines w l) us (map snd ps') /\ combine us (map snd ps') = ps'.
Proof.
  intros PM F. apply Permutation_map_inv in PM. destruct PM as (ps' & -> & PM). exists ps'. do 2 (split; auto). apply pairs_again. rewrite Forall_forall in *. intros x Hx. apply F. apply (Permutation_in _ (Permutation_sym PM)). auto.
Qed.
Lemma totals_joined w l l1 l2 o rs rs1 rs2 us us1 us2 xss xss1 xss2 P c : same_names l1 l -> same_names l2 l -> Permutation rs1 rs -> Permutation rs2 rs ->
  Permutation us (us1 ++ us2) -> Forall2 (txn_lines w l) us xss -> Forall2 (txn_lines w l1) us1 xss1 -> Forall2 (txn_lines w l2) us2 xss2 ->
  entries_total o us (map (fun xs => shown_lines (with_rules w l rs xs)) xss) P c =
  entries_total o us1 (map (fun xs => shown_lines (with_rules w l1 rs1 xs)) xss1) P c + entries_total o us2 (map (fun xs => shown_lines (with_rules w l2 rs2 xs)) xss2) P c.
Proof.
  intros N1 N2 R1 R2 PU F F1 F2. destruct (lines_from w l us (combine us1 xss1 ++ combine us2 xss2)) as (ps' & EU & PP & F' & EC).
  { rewrite map_app, (proj1 (combine_fst _ _ _ F1)), (proj1 (combine_fst _ _ _ F2)). auto. }
  { apply Forall_app. split; [apply pairs_lines in F1; apply (Forall_impl _ (fun tx H => nm_lines w l l1 N1 _ _ H)) in F1; auto|apply pairs_lines in F2; apply (Forall_impl _ (fun tx H => nm_lines w l l2 N2 _ _ H)) in F2; auto]. }
  rewrite (entries_total_same w l o rs us xss (map snd ps') P c F F'), !pairs_total, EC. rewrite <- (qsum_perm _ _ (Permutation_map (pair_sum w l o rs P c) PP)), map_app, qsum_app.
  f_equal; f_equal; apply map_ext; intros tx; [rewrite (pair_names w l l1), (pair_rules w l o rs rs1)|rewrite (pair_names w l l2), (pair_rules w l o rs rs2)]; auto.
Qed.
Lemma totals_rearranged w l l' o rs rs' us us' xss xss' P c : same_names l' l -> Permutation rs' rs -> Permutation us us' -> Forall2 (txn_lines w l) us xss -> Forall2 (txn_lines w l') us' xss' ->
  entries_total o us (map (fun xs => shown_lines (with_rules w l rs xs)) xss) P c = entries_total o us' (map (fun xs => shown_lines (with_rules w l' rs' xs)) xss') P c.
Proof.
  intros N1 R1 PU F F1. rewrite (totals_joined w l l' l' o rs rs' rs' us us' [] xss xss' []) by (auto; rewrite app_nil_r; auto). unfold entries_total at 2. cbn [map combine]. change (qsum []) with 0. ring.
Qed.

(** ** Without stated balances each transaction is judged by itself *)
Definition states_none (t : txn rposting) : Prop := forall p, In p (t_postings t) -> rp_balance p = None.
Lemma free_values w l skip ps : (forall p, In p ps -> rp_balance p = None) -> forall now now' c, value_sum w l skip now ps c = value_sum w l skip now' ps c.
Proof.
  induction ps as [|p ps IH]; intros H now now' c; cbn; auto. rewrite (IH (fun p Hp => H p (or_intror Hp)) _ (after_posting w l skip now' p)). f_equal. destruct (real_posting p); auto.
  unfold counts, moved. destruct (rp_money p); auto. rewrite (H p (or_introl eq_refl)). auto.
Qed.
Lemma free_true w l skip ps : (forall p, In p ps -> rp_balance p = None) -> forall now, all_true w l skip now ps.
Proof.
  induction ps as [|p ps IH]; intros H now; cbn; auto. split; [|apply IH; intros; apply H; right; auto]. intros _ _ q k E. rewrite (H p (or_introl eq_refl)) in E. discriminate.
Qed.
Lemma free_order w l skip t now now' : states_none t -> in_order_now w l skip now t -> in_order_now w l skip now' t.
Proof.
  intros H (A & _ & C). split; auto. split; [apply free_true; auto|]. destruct (filter (blank skip) (t_postings t)); auto. eapply fine_ext; [|exact C]. intros c. apply free_values. auto.
Qed.
Lemma free_all w l skip us : Forall states_none us -> forall now, all_in_order w l skip now us <-> Forall (in_order_now w l skip nothing) us.
Proof.
  induction 1 as [|t us H F IH]; intros now; cbn; [split; auto|]. rewrite IH. split; [intros [A B]; constructor; auto; eapply free_order; eauto|intros X; inversion X; subst; split; auto; eapply free_order; eauto].
Qed.
Definition lines_fine w l (ys : list line) : Prop := SpecTxn.fine (kind_sum w l VirtualMustBalance ys) /\ SpecTxn.fine (kind_sum w l Real ys).
Lemma free_lines w l skip ys : (forall x p, In x ys -> snd x = Some p -> rp_balance p = None) -> forall now, lines_true w l skip now ys.
Proof.
  induction ys as [|x ys IH]; intros H now; cbn; auto. split; [|apply IH; intros y p Hy; apply H; right; auto]. intros _ _ p q k E B. rewrite (H x p (or_introl eq_refl) E) in B. discriminate.
Qed.
Lemma lines_free w l rs t xs : states_none t -> txn_lines w l t xs -> forall x p, In x (with_rules w l rs xs) -> snd x = Some p -> rp_balance p = None.
Proof.
  intros SN [fills A ND I] x p Hx E. unfold with_rules in Hx. apply in_app_iff in Hx. destruct Hx as [Hx|Hx].
  - assert (W : forall g, In x (flat_map (written_line w l) (filter g (t_postings t))) -> rp_balance p = None).
    { intros g H. apply in_flat_map in H. destruct H as (p' & Hp & H). apply filter_In in Hp. unfold written_line in H. apply in_map_iff in H. destruct H as (e & <- & _). cbn in E. injection E as <-. apply SN, Hp. }
    rewrite !in_app_iff in Hx. destruct Hx as [Hx|[Hx|Hx]]; eauto. destruct (A x Hx) as (X & _). discriminate (eq_trans (eq_sym X) E).
  - exfalso. apply in_flat_map in Hx. destruct Hx as (r & _ & Hx). unfold rule_adds in Hx. apply in_flat_map in Hx. destruct Hx as (z & _ & Hx). destruct (fst r (line_account z)); [|destruct Hx]. apply in_map_iff in Hx. destruct Hx as (ap & <- & _). discriminate.
Qed.
Lemma free_all_lines w l skip yss : Forall (fun ys => forall x p, In x ys -> snd x = Some p -> rp_balance p = None) yss -> forall now, all_lines_in_order w l skip now yss <-> Forall (lines_fine w l) yss.
Proof.
  induction 1 as [|ys yss H F IH]; intros now; cbn; [split; auto|]. rewrite IH. unfold lines_in_order. split; [intros [(A & _ & B) C]; constructor; auto; split; auto|intros X; inversion X as [|? ? [A B] C]; subst; split; auto; split; auto; split; auto].
  apply free_lines. auto.
Qed.
Lemma fine_rules w l rs rs' xs : Permutation rs' rs -> lines_fine w l (with_rules w l rs' xs) -> lines_fine w l (with_rules w l rs xs).
Proof.
  intros PR. assert (KS : forall k c, kind_sum w l k (with_rules w l rs' xs) c = kind_sum w l k (with_rules w l rs xs) c).
  { intros k c. unfold kind_sum. apply qsum_perm, Permutation_map. unfold with_rules. apply Permutation_app_head. clear -PR. induction PR; cbn; auto; [apply Permutation_app_head; auto|rewrite !app_assoc; apply Permutation_app_tail, Permutation_app_comm|eapply Permutation_trans; eauto]. }
  intros [A B]. split; [apply (fine_ext _ _ (KS VirtualMustBalance) A)|apply (fine_ext _ _ (KS Real) B)].
Qed.
Lemma fine_names w l l' ys : same_names l' l -> lines_fine w l' ys <-> lines_fine w l ys.
Proof. intros SN. pose proof (fun k => nm_sum w l l' SN k ys) as E. pose proof (fun k c => eq_sym (E k c)) as E'. unfold lines_fine.
  split; intros [A B]; (split; [revert A|revert B]); apply fine_ext; auto.
Qed.

(** ** The parts are journals of the same kind *)
Lemma ruled_part w l' l : same_rules l' l -> ruled_journal w l -> ruled_journal w l'.
Proof.
  intros ((E1 & E2 & E3) & PR & IT) [R1 R2 R3 R4 [P3 P4 P5]].
  assert (MA : forall n, mentions_account l' n -> mentions_account l n) by (intros n (t & p & Ht & X); exists t, p; split; auto).
  assert (MC : forall n, mentions_commodity l' n -> mentions_commodity l n).
  { intros n [(p & Hp & X)|(t & p & q & Ht & X)]; [left; exists p; split; auto|right; exists t, p, q; split; auto]. }
  constructor.
  - intros X. apply R1. rewrite X in PR. apply Permutation_nil in PR. auto.
  - intros t p Ht. apply R2. apply filter_In in Ht. apply filter_In. split; [apply IT|]; apply Ht.
  - intros r p Hr. apply R3. apply (Permutation_in _ PR). auto.
  - intros t p Ht. apply R4. auto.
  - constructor; [| |rewrite E1; auto].
    + intros n m Hn Hm. unfold account_meant. rewrite E1. apply P3; auto.
    + intros n m Hn Hm. unfold commodity_meant. rewrite E2. apply P4; auto.
Qed.
Lemma part_names l' l : same_rules l' l -> same_names l' l.
Proof. intros ((E1 & E2 & _) & _). split; auto. Qed.
Lemma part_rulings w l' l rs : same_rules l' l -> Forall2 (rule_says w) (rules l) rs -> exists rs', Forall2 (rule_says w) (rules l') rs' /\ Permutation rs' rs.
Proof. intros (_ & PR & _) F. destruct (Permutation_Forall2 (Permutation_sym PR) F) as (rs' & P & F'). exists rs'. split; auto. apply Permutation_sym. auto. Qed.
Lemma part_cut w o l' l : same_rules l' l -> can_be_cut w o l -> can_be_cut w o l'.
Proof.
  intros ((E1 & _) & _ & IT) C d Ed. destruct (C d Ed) as [C1 C2]. split; auto. intros n (t & p & Ht & X). unfold account_meant. rewrite E1. apply C2. exists t, p. split; auto.
Qed.
Lemma part_states l' l : same_rules l' l -> states_nothing l -> states_nothing l'.
Proof. intros (_ & _ & IT) H t p Ht. apply H. apply filter_In in Ht. apply filter_In. split; [apply IT|]; apply Ht. Qed.
Lemma sorted_perm (ts us : list (txn rposting)) : date_sorted ts us -> Permutation ts us.
Proof. intros (P & _). auto. Qed.
Lemma rearranged_rules l' l : rearranged l' l -> same_rules l' l /\ Permutation (journal_txns l') (journal_txns l).
Proof.
  intros (D & P). assert (FP : forall g : txn rposting -> bool, Permutation (filter g (pl_txns l')) (filter g (pl_txns l))).
  { intros g. clear D. induction P as [|x a b P IH|x y a|a b c P1 IH1 P2 IH2]; cbn; auto; [destruct (g x); auto|destruct (g x), (g y); auto; apply perm_swap|eapply Permutation_trans; eauto]. }
  split; [|apply FP]. split; auto. split; [apply FP|]. intros t Ht. apply (Permutation_in _ P). auto.
Qed.

(** ** What check says, transaction by transaction *)
Lemma check_each depth w o file l rs : world_ok w -> file_parses depth w file l -> ruled_journal w l -> Forall2 (rule_says w) (rules l) rs -> states_nothing l ->
  exit_status (run_cmd depth w CCheck o file) = 0%Z <->
  exists ps, Permutation (journal_txns l) (map fst ps) /\ Forall (fun tx => txn_lines w l (fst tx) (snd tx)) ps /\
    Forall (fun tx => in_order_now w l false nothing (fst tx) /\ lines_fine w l (with_rules w l rs (snd tx))) ps.
Proof.
  intros Hw HF RJ RS SN. pose proof (journal_sorted w l (file_parsed _ _ _ _ HF) RJ) as D. set (us := by_date (journal_txns l)) in *.
  assert (NN : Forall states_none us). { apply Forall_forall. intros t Ht p Hp. apply (SN t p); auto. apply (sorted_incl _ _ D). auto. }
  assert (NL : forall xss, Forall2 (txn_lines w l) us xss -> Forall (fun ys => forall x p, In x ys -> snd x = Some p -> rp_balance p = None) (map (with_rules w l rs) xss)).
  { intros xss F. clear -NN F. induction F as [|t xs us xss T F IH]; cbn; constructor; inversion NN; subst; auto. apply (lines_free w l rs t xs); auto. }
  assert (SP : forall ps, Forall (fun tx : txn rposting * list line => in_order_now w l false nothing (fst tx) /\ lines_fine w l (with_rules w l rs (snd tx))) ps <->
               Forall (in_order_now w l false nothing) (map fst ps) /\ Forall (lines_fine w l) (map (with_rules w l rs) (map snd ps))).
  { induction ps as [|[t xs] ps IH]; cbn; [split; [split|]; constructor|]. split.
    - intros X. inversion X as [|? ? [A B] F]; subst. apply IH in F. destruct F. split; constructor; auto.
    - intros [X Y]. inversion X; inversion Y; subst. constructor; [split; auto|]. apply IH. auto. }
  split.
  - intros CH. destruct (C84_lines_exist w l us) as (xss & FX). apply (C84_check depth w o file l us rs xss Hw HF RJ D RS FX) in CH. destruct CH as [C1 C2].
    destruct (combine_fst _ _ _ FX) as [E1 E2]. exists (combine us xss). split; [rewrite E1; apply sorted_perm; auto|]. split; [apply pairs_lines; auto|]. apply SP. rewrite E1, E2.
    split; [apply (free_all w l false us NN nothing); auto|apply (free_all_lines w l false _ (NL xss FX) nothing); auto].
  - intros (ps & PJ & FL & FO). destruct (lines_from w l us ps) as (ps' & EU & PP & F' & EC); auto.
    { eapply Permutation_trans; [apply Permutation_sym, sorted_perm; exact D|exact PJ]. }
    apply (C84_check depth w o file l us rs (map snd ps') Hw HF RJ D RS F'). assert (FO' : Forall (fun tx => in_order_now w l false nothing (fst tx) /\ lines_fine w l (with_rules w l rs (snd tx))) ps').
    { rewrite Forall_forall in *. intros x Hx. apply FO. apply (Permutation_in _ (Permutation_sym PP)). auto. }
    apply SP in FO'. rewrite <- EU in FO'. destruct FO' as [A B]. split; [apply (free_all w l false us NN nothing); auto|apply (free_all_lines w l false _ (NL _ F') nothing); auto].
Qed.
Lemma order_names w l l' t now : same_names l' l -> In t (pl_txns l) -> in_order_now w l' false now t <-> in_order_now w l false now t.
Proof.
  intros SN Ht. assert (X : all_in_order w l' false now [t] <-> all_in_order w l false now [t]).
  { apply (same_order w l l' SN false [t] now now). - intros x [<-|[]]; auto. - intros a c. reflexivity. }
  cbn [all_in_order] in X. tauto.
Qed.
Lemma names_sym l' l : same_names l' l -> same_names l l'.
Proof. intros [A B]. split; auto. Qed.
Lemma judged_same w l l' rs rs' tx : same_names l' l -> Permutation rs' rs -> In (fst tx) (pl_txns l) ->
  txn_lines w l' (fst tx) (snd tx) /\ in_order_now w l' false nothing (fst tx) /\ lines_fine w l' (with_rules w l' rs' (snd tx)) <->
  txn_lines w l (fst tx) (snd tx) /\ in_order_now w l false nothing (fst tx) /\ lines_fine w l (with_rules w l rs (snd tx)).
Proof.
  intros SN PR Ht. rewrite (order_names w l l' (fst tx) nothing SN Ht), (fine_names w l l' _ SN), (nm_with_rules w l l' SN).
  split; intros (A & B & C); (split; [|split; auto]).
  - apply (nm_lines w l l' SN). auto.
  - eapply fine_rules; eauto.
  - apply (nm_lines w l' l (names_sym _ _ SN)). auto.
  - eapply fine_rules; [apply Permutation_sym; eauto|auto].
Qed.
Lemma judged_all w l l' rs rs' ps : same_names l' l -> Permutation rs' rs -> incl (map fst ps) (pl_txns l) ->
  Forall (fun tx => txn_lines w l' (fst tx) (snd tx)) ps /\ Forall (fun tx => in_order_now w l' false nothing (fst tx) /\ lines_fine w l' (with_rules w l' rs' (snd tx))) ps <->
  Forall (fun tx => txn_lines w l (fst tx) (snd tx)) ps /\ Forall (fun tx => in_order_now w l false nothing (fst tx) /\ lines_fine w l (with_rules w l rs (snd tx))) ps.
Proof.
  intros SN PR I. rewrite !Forall_forall. assert (J : forall tx, In tx ps -> In (fst tx) (pl_txns l)) by (intros tx Hx; apply I, in_map; auto).
  split; intros [A B]; split; intros tx Hx; pose proof (judged_same w l l' rs rs' tx SN PR (J tx Hx)) as X; specialize (A tx Hx); specialize (B tx Hx); tauto.
Qed.

(** ** C100 *)
(** Whatever the order of the transactions and the rules in the file, check accepts it or does not. *)
Theorem C100_check_rearranged : forall depth w o file' file l' l rs, world_ok w -> file_parses depth w file' l' -> file_parses depth w file l ->
  ruled_journal w l -> states_nothing l -> Forall2 (rule_says w) (rules l) rs -> rearranged l' l ->
  (exit_status (run_cmd depth w CCheck o file') = 0%Z <-> exit_status (run_cmd depth w CCheck o file) = 0%Z).
Proof.
  intros depth w o file' file l' l rs Hw HF' HF RJ SN RS RR. destruct (rearranged_rules _ _ RR) as [SR PJ]. destruct (part_rulings w l' l rs SR RS) as (rs' & RS' & PR).
  rewrite (check_each depth w o file' l' rs' Hw HF' (ruled_part _ _ _ SR RJ) RS' (part_states _ _ SR SN)), (check_each depth w o file l rs Hw HF RJ RS SN).
  split; intros (ps & P1 & P2); exists ps.
  - assert (P3 : Permutation (journal_txns l) (map fst ps)) by (eapply Permutation_trans; [apply Permutation_sym; exact PJ|exact P1]). split; auto.
    apply (judged_all w l l' rs rs' ps (part_names _ _ SR) PR); auto. intros t Ht. apply journal_incl. apply (Permutation_in _ (Permutation_sym P3)). auto.
  - split; [eapply Permutation_trans; eauto|]. apply (judged_all w l l' rs rs' ps (part_names _ _ SR) PR); auto. intros t Ht. apply journal_incl. apply (Permutation_in _ (Permutation_sym P1)). auto.
Qed.
Print Assumptions C100_check_rearranged.
(** Check accepts a journal put together from two exactly if it accepts both, each with all the rules. *)
Theorem C100_check_joined : forall depth w o file1 file2 file l1 l2 l rs, world_ok w -> file_parses depth w file1 l1 -> file_parses depth w file2 l2 ->
  file_parses depth w file l -> ruled_journal w l -> states_nothing l -> Forall2 (rule_says w) (rules l) rs -> joined_with_rules l1 l2 l ->
  (exit_status (run_cmd depth w CCheck o file) = 0%Z <->
   exit_status (run_cmd depth w CCheck o file1) = 0%Z /\ exit_status (run_cmd depth w CCheck o file2) = 0%Z).
Proof.
  intros depth w o file1 file2 file l1 l2 l rs Hw HF1 HF2 HF RJ SN RS (S1 & S2 & PJ). destruct (part_rulings w l1 l rs S1 RS) as (rs1 & RS1 & PR1). destruct (part_rulings w l2 l rs S2 RS) as (rs2 & RS2 & PR2).
  rewrite (check_each depth w o file1 l1 rs1 Hw HF1 (ruled_part _ _ _ S1 RJ) RS1 (part_states _ _ S1 SN)), (check_each depth w o file2 l2 rs2 Hw HF2 (ruled_part _ _ _ S2 RJ) RS2 (part_states _ _ S2 SN)),
    (check_each depth w o file l rs Hw HF RJ RS SN).
  split.
  - intros (ps & P1 & P2 & P3). assert (PM : Permutation (journal_txns l1 ++ journal_txns l2) (map fst ps)) by (eapply Permutation_trans; eauto). apply Permutation_map_inv in PM. destruct PM as (qs & EQ & PQ).
    assert (Q2 : Forall (fun tx => txn_lines w l (fst tx) (snd tx)) qs /\ Forall (fun tx => in_order_now w l false nothing (fst tx) /\ lines_fine w l (with_rules w l rs (snd tx))) qs).
    { rewrite !Forall_forall in *. split; intros x Hx; [apply P2|apply P3]; apply (Permutation_in _ (Permutation_sym PQ)); auto. }
    symmetry in EQ. apply map_eq_app in EQ. destruct EQ as (q1 & q2 & -> & E1 & E2). rewrite !Forall_app in Q2. destruct Q2 as [[A1 A2] [B1 B2]].
    split; [exists q1|exists q2]; (split; [rewrite ?E1, ?E2; auto|]).
    + apply (judged_all w l l1 rs rs1 q1 (part_names _ _ S1) PR1); auto. rewrite E1. intros t Ht. apply journal_incl. apply (Permutation_in _ PJ), in_app_iff. auto.
    + apply (judged_all w l l2 rs rs2 q2 (part_names _ _ S2) PR2); auto. rewrite E2. intros t Ht. apply journal_incl. apply (Permutation_in _ PJ), in_app_iff. auto.
  - intros [(q1 & P1 & A1) (q2 & P2 & A2)]. exists (q1 ++ q2). split; [rewrite map_app; eapply Permutation_trans; [apply Permutation_sym; exact PJ|apply Permutation_app; auto]|].
    apply (judged_all w l l1 rs rs1 q1 (part_names _ _ S1) PR1) in A1; [|intros t Ht; apply journal_incl; apply (Permutation_in _ PJ), in_app_iff; left; apply (Permutation_in _ (Permutation_sym P1)); auto].
    apply (judged_all w l l2 rs rs2 q2 (part_names _ _ S2) PR2) in A2; [|intros t Ht; apply journal_incl; apply (Permutation_in _ PJ), in_app_iff; right; apply (Permutation_in _ (Permutation_sym P2)); auto].
    rewrite !Forall_app. tauto.
Qed.
Print Assumptions C100_check_joined.
(** Whatever the order of the transactions and the rules in the file, the balance report says the same. *)
Theorem C100_balance_rearranged : forall depth w o file' file l' l rs no_total A, world_ok w -> file_parses depth w file' l' -> file_parses depth w file l ->
  ruled_journal w l -> Forall2 (rule_says w) (rules l) rs -> rearranged l' l ->
  exit_status (run_cmd depth w (CBalance true no_total) o file') = 0%Z -> exit_status (run_cmd depth w (CBalance true no_total) o file) = 0%Z ->
  asked_accounts w (o_query o) A -> o_exchange o = None -> can_be_cut w o l ->
  exists r' r lines' lines, run_cmd depth w (CBalance true no_total) o file' = Ok lines' /\ balance_printed r' lines' /\
    run_cmd depth w (CBalance true no_total) o file = Ok lines /\ balance_printed r lines /\ same_report r' r.
Proof.
  intros depth w o file' file l' l rs nt A Hw HF' HF RJ RS RR E' E HA OX HC. destruct (rearranged_rules _ _ RR) as [SR PJ]. destruct (part_rulings w l' l rs SR RS) as (rs' & RS' & PR).
  pose proof (ruled_part _ _ _ SR RJ) as RJ'. pose proof (journal_sorted w l (file_parsed _ _ _ _ HF) RJ) as D. pose proof (journal_sorted w l' (file_parsed _ _ _ _ HF') RJ') as D'.
  destruct (ruled_flat depth w o file l _ rs nt A Hw HF RJ D RS E HA OX HC) as (xss & FX & _ & r & lines & R1 & R2 & R3 & R4 & _).
  destruct (ruled_flat depth w o file' l' _ rs' nt A Hw HF' RJ' D' RS' E' HA OX (part_cut _ _ _ _ SR HC)) as (xss' & FX' & _ & r' & lines' & S1 & S2 & S3 & S4 & _).
  exists r', r, lines', lines. do 4 (split; auto).
  assert (PU : Permutation (by_date (journal_txns l)) (by_date (journal_txns l'))).
  { eapply Permutation_trans; [apply Permutation_sym, sorted_perm; exact D|]. eapply Permutation_trans; [apply Permutation_sym; exact PJ|]. apply sorted_perm. exact D'. }
  eapply (same_flat o o); [auto|exact R3|exact R4|exact S3|exact S4| |]; intros; cbn beta; symmetry; apply totals_rearranged; auto; apply part_names; auto.
Qed.
Print Assumptions C100_balance_rearranged.
(** The balances of a journal put together from two are the sums of theirs. *)
Theorem C100_balance_joined : forall depth w o file1 file2 file l1 l2 l rs no_total A, world_ok w -> file_parses depth w file1 l1 -> file_parses depth w file2 l2 ->
  file_parses depth w file l -> ruled_journal w l -> Forall2 (rule_says w) (rules l) rs -> joined_with_rules l1 l2 l ->
  (forall f, In f [file1; file2; file] -> exit_status (run_cmd depth w (CBalance true no_total) o f) = 0%Z) ->
  asked_accounts w (o_query o) A -> o_exchange o = None -> can_be_cut w o l ->
  exists r1 r2 r lines1 lines2 lines, run_cmd depth w (CBalance true no_total) o file1 = Ok lines1 /\ balance_printed r1 lines1 /\
    run_cmd depth w (CBalance true no_total) o file2 = Ok lines2 /\ balance_printed r2 lines2 /\
    run_cmd depth w (CBalance true no_total) o file = Ok lines /\ balance_printed r lines /\ sum_of_reports r1 r2 r.
Proof.
  intros depth w o file1 file2 file l1 l2 l rs nt A Hw HF1 HF2 HF RJ RS (SR1 & SR2 & PJ) EX HA OX HC. destruct (part_rulings w l1 l rs SR1 RS) as (rs1 & RS1 & PR1). destruct (part_rulings w l2 l rs SR2 RS) as (rs2 & RS2 & PR2).
  pose proof (ruled_part _ _ _ SR1 RJ) as RJ1. pose proof (ruled_part _ _ _ SR2 RJ) as RJ2.
  pose proof (journal_sorted w l (file_parsed _ _ _ _ HF) RJ) as D. pose proof (journal_sorted w l1 (file_parsed _ _ _ _ HF1) RJ1) as D1. pose proof (journal_sorted w l2 (file_parsed _ _ _ _ HF2) RJ2) as D2.
  destruct (ruled_flat depth w o file l _ rs nt A Hw HF RJ D RS (EX file (or_intror (or_intror (or_introl eq_refl)))) HA OX HC) as (xss & FX & _ & r & lines & R1 & R2 & R3 & R4 & R5).
  destruct (ruled_flat depth w o file1 l1 _ rs1 nt A Hw HF1 RJ1 D1 RS1 (EX file1 (or_introl eq_refl)) HA OX (part_cut _ _ _ _ SR1 HC)) as (xss1 & FX1 & _ & r1 & lines1 & S1 & S2 & S3 & S4 & S5).
  destruct (ruled_flat depth w o file2 l2 _ rs2 nt A Hw HF2 RJ2 D2 RS2 (EX file2 (or_intror (or_introl eq_refl))) HA OX (part_cut _ _ _ _ SR2 HC)) as (xss2 & FX2 & _ & r2 & lines2 & T1 & T2 & T3 & T4 & T5).
  exists r1, r2, r, lines1, lines2, lines. do 6 (split; auto).
  assert (PU : Permutation (by_date (journal_txns l)) (by_date (journal_txns l1) ++ by_date (journal_txns l2))).
  { eapply Permutation_trans; [apply Permutation_sym, sorted_perm; exact D|]. eapply Permutation_trans; [apply Permutation_sym; exact PJ|]. apply Permutation_app; apply sorted_perm; auto. }
  assert (J : forall P c, entries_total o (by_date (journal_txns l)) (map (fun xs => shown_lines (with_rules w l rs xs)) xss) P c =
     entries_total o (by_date (journal_txns l1)) (map (fun xs => shown_lines (with_rules w l1 rs1 xs)) xss1) P c + entries_total o (by_date (journal_txns l2)) (map (fun xs => shown_lines (with_rules w l2 rs2 xs)) xss2) P c)
    by (intros P c; apply totals_joined; auto; apply part_names; auto).
  assert (SH : forall P c, shown_for r P c = shown_for r1 P c + shown_for r2 P c) by (intros P c; rewrite R5, S5, T5; apply J).
  split; [apply R3|]. split; [|split; auto].
  - intros a. rewrite (flat_rows_of o _ r a R3). split; intros (c & Hc); exists c; revert Hc; rewrite <- SH, R5; intros Hc X; apply Hc; rewrite <- X; cbn beta; apply (entries_total_P o); intros n; rewrite str_eqb_sym; auto.
  - intros ms c Em. destruct R4 as [_ R4]. destruct (R4 ms Em) as [_ R6]. rewrite (R6 c), <- SH, R5. auto.
Qed.
Print Assumptions C100_balance_joined.

(** ** Journals that meet the hypotheses *)
Definition food100 : list String.string := ["2021-01-02 Shop"; "  Expenses:Food  10 EUR"; "  Expenses:Drinks  5 EUR"; "  Assets:Bank"]%string.
Definition rest100 : list String.string := ["2021-01-03 Gift"; "  Expenses:Food  4 USD"; "  Income:Gifts"; "2021-01-01 Opening"; "  Assets:Bank  50 EUR"; "  Equity"]%string.
Definition other100 : list String.string := (skipn 3 rules99 ++ rest100 ++ firstn 3 rules99)%list.
Definition w100 : world :=
  {| w_lower := ascii_lower; w_numeric := fun _ => false;
     w_rx := fun rx s => if starts_with (L "(?i)") rx then occurs (ascii_lower (skipn 4 rx)) (ascii_lower s) else occurs rx s;
     w_rx_ok := fun _ => true; w_width := None;
     w_read := fun p => if str_eqb p (L "all") then Some (text (rules99 ++ food100 ++ rest100)) else if str_eqb p (L "mixed") then Some (text (other100 ++ food100)) else
       if str_eqb p (L "food") then Some (text (food100 ++ rules99)) else if str_eqb p (L "rest") then Some (text other100) else None;
     w_glob := fun _ => None; w_two_timer := fun _ => None; w_now := 0%Z; w_ord := fun _ _ l => l |}.
Lemma w100_ok : world_ok w100.
Proof. split; [intros; apply Permutation_refl|exact ascii_lower_idem]. Qed.
Definition l100 (n : String.string) : pledger := get pl_new (tokenize_file 2 w100 (L n)).
Definition rs100 : list ruling := [(w_rx w100 (L "(?i)food"), t_postings (rule84 (l100 "all") 0)); (w_rx w100 (L "(?i)drinks"), t_postings (rule84 (l100 "all") 1))].
Lemma r100 : Forall2 (rule_says w100) (rules (l100 "all")) rs100.
Proof.
  rewrite (two_of (rules (l100 "all")) void83) by (vm_compute; reflexivity). fold (rule84 (l100 "all") 0) (rule84 (l100 "all") 1). constructor; [|constructor; [|constructor]].
  - split; [reflexivity|]. exists [L "food"]. split; [discriminate|]. split.
    + assert (E : t_desc (rule84 (l100 "all") 0) = L " " ++ L "food" ++ []) by (vm_compute; reflexivity). rewrite E. constructor.
      * intros c [<-|[]]. reflexivity.
      * apply word_of. reflexivity.
      * constructor. intros c [].
      * congruence.
    + apply aa_one. apply PropAsk.plain_word; reflexivity.
  - split; [reflexivity|]. exists [L "drinks"]. split; [discriminate|]. split.
    + assert (E : t_desc (rule84 (l100 "all") 1) = L " " ++ L "drinks" ++ []) by (vm_compute; reflexivity). rewrite E. constructor.
      * intros c [<-|[]]. reflexivity.
      * apply word_of. reflexivity.
      * constructor. intros c [].
      * congruence.
    + apply aa_one. apply PropAsk.plain_word; reflexivity.
Qed.
(** Five transactions, rules among them: in the one file the rules come first, in the other one each of them elsewhere. *)
Definition nth100 (n : String.string) (i : nat) : txn rposting := nth i (pl_txns (l100 n)) void83.
Lemma five_of {A} (l : list A) d : length l = 5%nat -> l = [nth 0 l d; nth 1 l d; nth 2 l d; nth 3 l d; nth 4 l d].
Proof. destruct l as [|a [|b [|c [|e [|f [|g l]]]]]]; intros H; try discriminate. reflexivity. Qed.
Lemma perm100 : Permutation (pl_txns (l100 "mixed")) (pl_txns (l100 "all")).
Proof.
  assert (E : pl_txns (l100 "mixed") = [nth100 "all" 1; nth100 "all" 3; nth100 "all" 4; nth100 "all" 0; nth100 "all" 2]) by (vm_compute; reflexivity).
  rewrite E, (five_of (pl_txns (l100 "all")) void83) by (vm_compute; reflexivity). fold (nth100 "all" 0) (nth100 "all" 1) (nth100 "all" 2) (nth100 "all" 3) (nth100 "all" 4).
  generalize (nth100 "all" 0) (nth100 "all" 1) (nth100 "all" 2) (nth100 "all" 3) (nth100 "all" 4). intros a b c d e.
  change ([b; d; e] ++ a :: [c]) with ([b; d; e; a; c]). apply Permutation_sym. eapply Permutation_trans; [|apply (Permutation_middle [b; d; e] [c] a)]. apply perm_skip. cbn. apply perm_skip. apply Permutation_cons_append with (l := [d; e]).
Qed.
Example C100_case : world_ok w100 /\ file_parses 2 w100 (L "all") (l100 "all") /\ file_parses 2 w100 (L "mixed") (l100 "mixed") /\ file_parses 2 w100 (L "food") (l100 "food") /\ file_parses 2 w100 (L "rest") (l100 "rest") /\
  ruled_journal w100 (l100 "all") /\ states_nothing (l100 "all") /\ Forall2 (rule_says w100) (rules (l100 "all")) rs100 /\ rearranged (l100 "mixed") (l100 "all") /\ joined_with_rules (l100 "food") (l100 "rest") (l100 "all") /\
  exit_status (run_cmd 2 w100 CCheck plain_opts (L "all")) = 0%Z /\ (forall f, In f [L "food"; L "rest"; L "all"] -> exit_status (run_cmd 2 w100 (CBalance true true) plain_opts f) = 0%Z) /\
  exit_status (run_cmd 2 w100 (CBalance true true) plain_opts (L "mixed")) = 0%Z /\ asked_accounts w100 (o_query plain_opts) (fun _ => true) /\ o_exchange plain_opts = None /\ can_be_cut w100 plain_opts (l100 "all") /\
  run_cmd 2 w100 (CBalance true true) (ask ["budget"; "or"; "envelopes"]%string None) (L "food") = Ok (map L
    ["          -10.00 EUR  Budget:Drinks"; "          -10.00 EUR  Budget:Food"; "            6.00 EUR  Envelopes"]%string) /\
  run_cmd 2 w100 (CBalance true true) (ask ["budget"; "or"; "envelopes"]%string None) (L "rest") = Ok (map L ["           -4.00 USD  Budget:Food"; "            2.00 USD  Envelopes"]%string) /\
  run_cmd 2 w100 (CBalance true true) (ask ["budget"; "or"; "envelopes"]%string None) (L "mixed") = Ok (map L
    ["          -10.00 EUR  Budget:Drinks"; "          -10.00 EUR"; "           -4.00 USD  Budget:Food"; "            6.00 EUR"; "            2.00 USD  Envelopes"]%string).
Proof.
  assert (SD : forall n, pl_accounts (l100 n) = pl_accounts (l100 "all") -> pl_commodities (l100 n) = pl_commodities (l100 "all") -> pl_prices (l100 n) = pl_prices (l100 "all") -> same_directives (l100 n) (l100 "all")).
  { intros n A B C. split; [exact A|split; [exact B|]]. rewrite C. intros p H. exact H. }
  assert (EA : pl_txns (l100 "all") = [nth100 "all" 0; nth100 "all" 1; nth100 "all" 2; nth100 "all" 3; nth100 "all" 4]) by (exact (five_of (pl_txns (l100 "all")) void83 (eq_refl 5%nat <: length (pl_txns (l100 "all")) = 5%nat))).
  assert (EF : pl_txns (l100 "food") = [nth100 "all" 2; nth100 "all" 0; nth100 "all" 1]) by (vm_compute; reflexivity).
  assert (ER : pl_txns (l100 "rest") = [nth100 "all" 1; nth100 "all" 3; nth100 "all" 4; nth100 "all" 0]) by (vm_compute; reflexivity).
  assert (RA : rules (l100 "all") = [nth100 "all" 0; nth100 "all" 1]) by (vm_compute; reflexivity).
  assert (RF : rules (l100 "food") = [nth100 "all" 0; nth100 "all" 1]) by (vm_compute; reflexivity).
  assert (RR : rules (l100 "rest") = [nth100 "all" 1; nth100 "all" 0]) by (vm_compute; reflexivity).
  assert (JA : journal_txns (l100 "all") = journal_txns (l100 "food") ++ journal_txns (l100 "rest")) by (vm_compute; reflexivity).
  split; [exact w100_ok|]. split; [apply file_parses_iff; vm_compute; reflexivity|]. split; [apply file_parses_iff; vm_compute; reflexivity|]. split; [apply file_parses_iff; vm_compute; reflexivity|].
  split; [apply file_parses_iff; vm_compute; reflexivity|]. split; [apply ruled_check_ok; vm_compute; reflexivity|]. split.
  { assert (X : forallb (fun t => forallb (fun p => match rp_balance p with None => true | _ => false end) (t_postings t)) (journal_txns (l100 "all")) = true) by (vm_compute; reflexivity).
    intros t p Ht Hp. rewrite forallb_forall in X. apply X in Ht. rewrite forallb_forall in Ht. apply Ht in Hp. destruct (rp_balance p); [discriminate Hp|reflexivity]. }
  split; [exact r100|]. split; [split; [apply SD; vm_compute; reflexivity|exact perm100]|]. split.
  { split; [|split].
    - split; [apply SD; vm_compute; reflexivity|]. split; [rewrite RF, RA; apply Permutation_refl|]. rewrite EF, EA. intros x [H|[H|[H|[]]]]; rewrite <- H; cbn [In]; tauto.
    - split; [apply SD; vm_compute; reflexivity|]. split; [rewrite RR, RA; apply perm_swap|]. rewrite ER, EA. intros x [H|[H|[H|[H|[]]]]]; rewrite <- H; cbn [In]; tauto.
    - rewrite JA. apply Permutation_refl. }
  split; [vm_compute; reflexivity|]. split; [intros f [H|[H|[H|[]]]]; rewrite <- H; vm_compute; reflexivity|]. split; [vm_compute; reflexivity|]. split; [apply aa_all|]. split; [reflexivity|]. split; [intros d E; discriminate E|].
  split; [vm_compute; reflexivity|]. split; vm_compute; reflexivity.
Qed.
