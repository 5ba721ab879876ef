(** C74: the register lists what the journal says. *)
From Coq Require Import Lia Sorting.Sorted.
From Verif Require Import Base BaseFacts Numerals Money Alist Comment Txn Expr Filter Price Tokens Ledger Reports App Spec MoneyFacts SpecList SpecTxn TxnFacts SpecLedger
  TokenFacts JournalFacts LedgerFacts LedgerFacts2 LedgerFacts3 PropTxn PropLedger SpecQuery SpecReports ReportFacts ReportFacts2 ReportFacts3 PropReports PropApp
  SpecText SpecDates SpecTokens SpecJournal JournalRead PropJournal SpecLayout PropLayout SpecBook BookFacts PropBook.
Open Scope Qc_scope.

(** ** The transactions of the ledger are those of the journal, by date *)
Lemma related_filter {A B} (R : A -> B -> Prop) f g l l' : (forall x y, R x y -> f x = g y) -> Forall2 R l l' -> Forall2 R (filter f l) (filter g l').
Proof. intros H F. induction F as [|x y l l' r F IH]; cbn; auto. rewrite (H x y r). destruct (g y); auto. Qed.
Lemma dated_is {P} (t : txn P) d e : t_date t = Some e -> dated d t = true <-> e = d.
Proof. intros E. unfold dated. rewrite E. apply Z.eqb_eq. Qed.
Lemma first_earliest {P} (t : txn P) ts d e v : StronglySorted not_after (t :: ts) -> t_date t = Some d -> In v (t :: ts) -> dated e v = true -> (d <= e)%Z.
Proof.
  intros S E [<-|H] D; [apply (proj1 (dated_is t e d E)) in D; lia|]. apply StronglySorted_inv in S. destruct S as [_ S]. rewrite Forall_forall in S. specialize (S v H).
  unfold not_after in S. rewrite E in S. unfold dated in D. destruct (t_date v); [|contradiction]. apply Z.eqb_eq in D. lia.
Qed.
Lemma related_date {P Q} (R : txn P -> txn Q -> Prop) us ss s d : Forall2 R (filter (dated d) us) (filter (dated d) ss) -> In s ss -> t_date s = Some d ->
  exists u, In u us /\ dated d u = true.
Proof.
  intros F Hi E. assert (I : In s (filter (dated d) ss)) by (apply filter_In; split; auto; apply (dated_is s d d E); auto).
  destruct (filter (dated d) us) as [|u r] eqn:Eu; [inversion F; subst; rewrite <- H in I; destruct I|].
  exists u. apply filter_In. rewrite Eu. left. auto.
Qed.
Lemma related_swap {A B} (R : A -> B -> Prop) l l' : Forall2 R l l' -> Forall2 (fun y x => R x y) l' l.
Proof. induction 1; auto. Qed.
Lemma sorted_related {P Q} (R : txn P -> txn Q -> Prop) us : forall ss, length us = length ss -> StronglySorted not_after us -> StronglySorted not_after ss ->
  Forall (fun u => exists d, t_date u = Some d) us -> Forall (fun u => exists d, t_date u = Some d) ss ->
  (forall d, Forall2 R (filter (dated d) us) (filter (dated d) ss)) -> Forall2 R us ss.
Proof.
  induction us as [|u us IH]; intros [|s ss] Len S1 S2 D1 D2 F; try discriminate; [constructor|].
  inversion D1 as [|? ? (du & Eu) D1']; subst. inversion D2 as [|? ? (ds & Es) D2']; subst.
  assert (X : du = ds).
  { apply Z.le_antisymm.
    - destruct (related_date R _ _ s ds (F ds) (or_introl eq_refl) Es) as (v & V1 & V2). eapply (first_earliest u us); eauto.
    - destruct (related_date _ _ _ u du (related_swap _ _ _ (F du)) (or_introl eq_refl) Eu) as (v & V1 & V2). eapply (first_earliest s ss); eauto. }
  subst ds. apply StronglySorted_inv in S1, S2. constructor.
  - specialize (F du). cbn [filter] in F. rewrite (proj2 (dated_is u du du Eu) eq_refl), (proj2 (dated_is s du du Es) eq_refl) in F. inversion F; auto.
  - apply IH; auto; [apply S1|apply S2|]. intros d. specialize (F d). cbn [filter] in F. destruct (Z.eq_dec du d) as [->|N].
    + rewrite (proj2 (dated_is u d d Eu) eq_refl), (proj2 (dated_is s d d Es) eq_refl) in F. inversion F; auto.
    + destruct (dated d u) eqn:A; [apply (dated_is u d du Eu) in A; contradiction|]. destruct (dated d s) eqn:B; [apply (dated_is s d du Es) in B; contradiction|auto].
Qed.
Lemma sort_related {P Q} (R : txn P -> txn Q -> Prop) l us ts ss : (forall u t, R u t -> t_date t = t_date u) -> Forall2 R l ts ->
  Forall (fun u => exists d, t_date u = Some d) l -> date_sorted l us -> date_sorted ts ss -> Forall2 R us ss.
Proof.
  intros HR F D (P1 & S1 & E1) (P2 & S2 & E2).
  assert (D' : Forall (fun u => exists d, t_date u = Some d) ts).
  { clear -HR F D. induction F as [|x y l ts r F IH]; constructor; inversion D; subst; auto. rewrite (HR x y r). auto. }
  apply sorted_related; auto.
  - rewrite <- (Permutation_length P1), <- (Permutation_length P2). clear -F. induction F; cbn; auto.
  - eapply Permutation_Forall; eauto.
  - eapply Permutation_Forall; eauto.
  - intros d. rewrite E1, E2. apply related_filter; auto. intros x y r. unfold dated. rewrite (HR x y r). auto.
Qed.

Definition by_date {P} (ts : list (txn P)) : list (txn P) := stable_sort (fun a b => (date_of a <=? date_of b)%Z) ts.
Lemma by_date_sorted {P} (ts : list (txn P)) : Forall (fun u => exists d, t_date u = Some d) ts -> date_sorted ts (by_date ts).
Proof.
  intros D. set (le := fun a b : txn P => (date_of a <=? date_of b)%Z). unfold by_date. fold le.
  assert (PM : Permutation (stable_sort le ts) ts) by apply stable_sort_perm.
  assert (D' : Forall (fun u => exists d, t_date u = Some d) (stable_sort le ts)) by (eapply Permutation_Forall; [symmetry; exact PM|exact D]).
  split; [symmetry; auto|]. split.
  - assert (S : StronglySorted (fun a b => le a b = true) (stable_sort le ts)).
    { apply stable_sort_sorted; unfold le; [intros a b|intros a b c]; rewrite !Z.leb_le; lia. }
    clear PM. induction S as [|a l S IH F]; [constructor|]. inversion D' as [|? ? (d & Ed) D1]; subst. constructor; auto.
    rewrite Forall_forall in *. intros x Hx. specialize (F x Hx). destruct (D1 x Hx) as (d' & Ed'). unfold le, date_of in F. unfold not_after. rewrite Ed, Ed' in *. apply Z.leb_le. auto.
  - intros d.
    set (z := {| t_date := Some d; t_edate := None; t_cleared := CUnknown; t_code := None; t_desc := []; t_payee := None;
                 t_postings := @nil P; t_comments := []; t_type := TReal; t_tags := [] |}).
    assert (E : forall l : list (txn P), Forall (fun u => exists d, t_date u = Some d) l -> filter (dated d) l = filter (fun b => le z b && le b z) l).
    { intros l HL. apply filter_ext_in. intros t Ht. rewrite Forall_forall in HL. destruct (HL t Ht) as (d' & Ed). unfold dated, le, date_of. cbn. rewrite Ed.
      destruct (Z.eqb_spec d' d), (Z.leb_spec d d'), (Z.leb_spec d' d); cbn; auto; lia. }
    rewrite !E by auto. apply (stable_sort_stable le). unfold le. intros a b c. rewrite !Z.leb_le. lia.
Qed.
Lemma date_order {P} (ts : list (txn P)) : Forall (fun u => exists d, t_date u = Some d) ts -> exists us, date_sorted ts us.
Proof. intros D. exists (by_date ts). apply by_date_sorted. auto. Qed.

(** ** The lines of one transaction *)
Definition plain_txn_named (w : world) (l : pledger) (t : txn rposting) (t' : txn posting) : Prop := plain_txn w l t t' /\ t_desc t' = t_desc t.
Lemma read_all_named w l al cs pays ts dir costs : plain_journal w l -> journal_read w l al cs pays ts dir costs -> Forall2 (plain_txn_named w l) (pl_txns l) ts.
Proof.
  intros P J. pose proof (jr_txns _ _ _ _ _ _ _ _ J) as F. rewrite (proj1 (journal_all w l P)) in F.
  eapply forall2_known; [|exact F]. intros t t' Ht (R1 & R2 & _). split; [split; [|split]|].
  - unfold header in R1. congruence.
  - eapply forall2_known; [|exact R2]. intros p p' Hp R. eapply read_plain; eauto.
  - apply Forall_forall. intros p Hp. apply (pj_postings _ _ P t); auto.
  - unfold header in R1. congruence.
Qed.
Definition entry_of (p : posting) : entry := (p_kind p, p_account p, match p_amount p with Some m => m | None => MZero end).
Lemma entries_given w l skip ps ps' kept : Forall2 (plain_read w l) ps ps' -> Forall2 keeps (filter (given skip) ps') kept ->
  map entry_of kept = flat_map (written_entry w l) (filter real_posting ps).
Proof.
  intros F. revert kept. induction F as [|p p' ps ps' (A & K & B & M & _) F IH]; intros kept H; cbn [filter] in *; [inversion H; reflexivity|].
  assert (G : given skip p' = real_posting p && match rp_money p with Some _ => true | None => false end).
  { unfold given, elided, real_posting. rewrite K, B, M. destruct (rp_kind p), (rp_money p); reflexivity. }
  rewrite G in H. destruct (real_posting p) eqn:E; cbn [andb] in H; [|auto]. cbn [flat_map]. unfold written_entry at 1. destruct (rp_money p) as [[q c]|] eqn:Em; cbn [andb] in H; [|auto].
  inversion H as [|? k ? kept' (K1 & _ & _ & K4 & _ & _ & _ & K8 & K9) H']; subst. cbn [map app]. rewrite (IH kept' H'). f_equal.
  unfold entry_of. rewrite K1, K4, A, K. rewrite K9 by (rewrite M; discriminate). rewrite M. reflexivity.
Qed.
Lemma entries_virtual w l ps ps' : Forall2 (plain_read w l) ps ps' -> Forall plain_posting ps ->
  map entry_of (filter (fun p => negb (kind_eqb (p_kind p) Real)) ps') = flat_map (written_entry w l) (filter (fun p => negb (real_posting p)) ps).
Proof.
  intros F. induction F as [|p p' ps ps' (A & K & B & M & _) F IH]; intros H; inversion H as [|? ? (_ & _ & X & _) H']; subst; [reflexivity|].
  cbn [filter]. unfold real_posting at 1. rewrite K. destruct (kind_eqb (rp_kind p) Real) eqn:E; cbn [negb]; [auto|].
  cbn [map flat_map]. rewrite IH by auto. unfold written_entry at 2. destruct (rp_money p) as [[q c]|] eqn:Em.
  - cbn [app]. f_equal. unfold entry_of. rewrite A, K, M. reflexivity.
  - exfalso. apply X; auto. intros E'. rewrite E' in E. discriminate.
Qed.
Lemma elided_account w l skip ps ps' p' : Forall2 (plain_read w l) ps ps' -> filter (elided skip) ps' = [p'] ->
  exists p, filter open_posting ps = [p] /\ p_account p' = account_meant w l (rp_account p).
Proof.
  intros F H. assert (X : Forall2 (plain_read w l) (filter open_posting ps) (filter (elided skip) ps')).
  { apply related_filter; auto. intros x y (_ & K & B & A & _). unfold elided, open_posting. rewrite K, B, A. destruct (rp_kind x), (rp_money x); reflexivity. }
  rewrite H in X. inversion X as [|x ? r ? (A & _) X' E1 E2]; subst. inversion X'; subst. eauto.
Qed.
Lemma ledger_entries w l skip run t t1 t2 prs : plain_txn w l t t1 -> ledger_txn skip run t1 t2 prs -> txn_entries w l t (map entry_of (t_postings t2)).
Proof.
  intros PT (V & _ & (kept & fills & E & F2 & HF & HE) & _ & _ & _). pose proof (proj1 (verdict_plain _ _ _ _ _ _ _ PT V) eq_refl) as (_ & IO).
  destruct PT as (_ & F & P). rewrite E, !map_app, (entries_given w l skip _ _ _ F F2), (entries_virtual w l _ _ F P).
  assert (GA : forall p, In p (filter (given skip) (t_postings t1)) -> p_amount p <> None).
  { intros p Hp. apply filter_In in Hp. destruct Hp as [Hp G]. assert (B : p_balance p = None).
    { clear -F Hp. induction F as [|x y ps ps' R F IH]; destruct Hp; subst; [apply R|auto]. }
    unfold given, elided in G. rewrite B in G. destruct (p_kind p), (p_amount p); discriminate. }
  assert (EV : forall c, group_value Real kept c = kind_value w l Real t c).
  { intros c. rewrite (group_keeps _ _ c F2 GA), <- group_given. apply real_group. auto. }
  assert (SD : map snd (map entry_of fills) = map (fun x => match x with Some m => m | None => MZero end) (map p_amount fills)) by (rewrite !map_map; reflexivity).
  constructor.
  - intros e He. apply in_map_iff in He. destruct He as (q & <- & Hq). destruct (HF q Hq) as (K & _ & _ & _ & _ & p & Ep & A & _).
    destruct (elided_account w l skip _ _ p F Ep) as (p0 & O1 & O2). exists p0. split; auto. cbn. rewrite K, A, O2. auto.
  - destruct (filter (elided skip) (t_postings t1)) as [|p r] eqn:Ef.
    + destruct fills as [|q fs]; [constructor|]. destruct (HF q) as (_ & _ & _ & _ & _ & p & X & _); [left; auto|discriminate].
    + destruct HE as [N _]; [discriminate|]. apply (NoDup_map_inv snd). rewrite SD. clear -N HF. assert (H : forall q, In q fills -> p_amount q <> None) by (intros q Hq; apply (HF q Hq)).
      clear HF. induction fills as [|q fs IH]; [constructor|]. cbn [map] in *. inversion N as [|? ? N1 N2]; subst. constructor; [|apply IH; auto; intros; apply H; right; auto].
      intros X. apply N1. apply in_map_iff in X. destruct X as (y & Y1 & Y2). apply in_map_iff in Y2 as Y3. destruct Y3 as (z & <- & Hz).
      assert (p_amount z <> None) by (apply H; right; auto). assert (p_amount q <> None) by (apply H; left; auto).
      destruct (p_amount z), (p_amount q); try congruence.
  - intros p Hp m. pose proof (elided_open w l skip _ _ F) as EL. rewrite Hp in EL. destruct (filter (elided skip) (t_postings t1)) as [|p1 r] eqn:Ef; [discriminate|].
    destruct HE as [_ I]; [discriminate|]. assert (X : In m (map snd (map entry_of fills)) <-> In (Some m) (map p_amount fills)).
    { rewrite SD, in_map_iff. split.
      - intros (y & Y1 & Y2). apply in_map_iff in Y2 as Y3. destruct Y3 as (z & <- & Hz). destruct (HF z Hz) as (_ & _ & _ & A & _). destruct (p_amount z); congruence.
      - intros Y. exists (Some m). auto. }
    rewrite X, I. split.
    + intros (a & c & -> & -> & N). exists c. rewrite EV in *. split; auto. intros Z. apply N. rewrite Z. reflexivity.
    + intros (c & N & ->). exists (- kind_value w l Real t c), c. split; auto. rewrite EV. split; auto. intros Z. apply N. rewrite <- (Qcopp_involutive (kind_value w l Real t c)), Z. reflexivity.
Qed.

(** ** The rows *)
(** A line of the journal and a line of the ledger. *)
Definition same_line (x : option (txn rposting) * entry) (y : option (txn posting) * posting) : Prop :=
  entry_shown (snd x) = shown_account (snd y) /\ (forall m, p_amount (snd y) = Some m -> snd (snd x) = m) /\
  (p_amount (snd y) <> None -> forall c, money_amt (snd (snd x)) c = amount_in c (snd y)) /\
  match fst x, fst y with
  | None, None => True
  | Some t, Some u => t_date u = t_date t /\ t_desc u = t_desc t
  | _, _ => False
  end.
Lemma same_entry h h' p : match h, h' with None, None => True | Some t, Some u => t_date u = t_date t /\ t_desc u = t_desc t | _, _ => False end ->
  same_line (h, entry_of p) (h', p).
Proof.
  intros H. unfold same_line, entry_of, entry_shown, shown_account, entry_kind, amount_in. cbn [fst snd]. split; auto. split; [intros m ->; auto|]. split; [|destruct h, h'; exact H].
  intros N c. destruct (p_amount p); [auto|congruence].
Qed.
Lemma forall2_app {A B} (R : A -> B -> Prop) a b c d : Forall2 R a b -> Forall2 R c d -> Forall2 R (a ++ c) (b ++ d).
Proof. induction 1; cbn; auto. Qed.
Lemma lines_same w o cs us ts : Forall2 (fun u t => t_date t = t_date u /\ t_desc t = t_desc u) us ts -> forall sel,
  Forall2 (fun t s => fst s = t /\ selection (reported w o None cs t) (t_postings t) (snd s)) ts sel ->
  Forall2 same_line (flat_map (entries_shown o) (combine us (map (fun t => map entry_of (t_postings t)) ts))) (flat_map with_heading sel).
Proof.
  induction 1 as [|u t us ts (D & N) F IH]; intros sel H; inversion H as [|? s ? sel' (E & S) H']; subst; [constructor|].
  cbn [map combine flat_map]. apply forall2_app; [|auto].
  apply (selection_filter _ (fun p => window_of o (fst s) && asked_for o (p_kind p))) in S; [|intros; apply reported_plain].
  unfold with_heading. rewrite S. unfold entries_shown. cbn [fst snd]. change (in_window o u) with (window_of o u).
  assert (W : window_of o (fst s) = window_of o u) by (unfold window_of; rewrite D; auto). rewrite W. destruct (window_of o u); cbn [andb].
  - assert (X : filter (fun e => asked_for o (entry_kind e)) (map entry_of (t_postings (fst s))) = map entry_of (filter (fun p => asked_for o (p_kind p)) (t_postings (fst s)))).
    { clear. induction (t_postings (fst s)) as [|p ps IHp]; [reflexivity|]. cbn [map filter]. rewrite IHp. change (entry_kind (entry_of p)) with (p_kind p). destruct (asked_for o (p_kind p)); reflexivity.
 }
    rewrite X. destruct (filter (fun p => asked_for o (p_kind p)) (t_postings (fst s))) as [|p r]; [constructor|]. cbn [map]. constructor; [apply same_entry; auto|].
    rewrite map_map. clear. induction r; cbn; constructor; auto. apply same_entry. exact I.
  - assert (X : filter (fun _ : posting => false) (t_postings (fst s)) = []) by (clear; induction (t_postings (fst s)); auto). rewrite X. constructor.
Qed.
Lemma payee_written w l al cs pays ts dir costs desc n : journal_read w l al cs pays ts dir costs -> payee_known w pays desc n -> payee_meant w l desc n.
Proof.
  intros J H. pose proof (jr_new_payees _ _ _ _ _ _ _ _ J) as [N _]. pose proof (jr_payees _ _ _ _ _ _ _ _ J) as [X _]. unfold payee_known in H. unfold payee_meant.
  destruct (l_get w desc (pl_payees l)) as [y|e|x] eqn:E.
  - rewrite (X _ _ E) in H. auto.
  - destruct (l_get w desc pays) as [y| |] eqn:E'; auto. subst n. destruct (N _ _ E') as [D|(_ & m & _ & Lm & [[I C]|[_ ->]])]; [congruence| |left; auto].
    right. exists y, m. auto.
  - destruct (l_get w desc pays) as [y| |] eqn:E'; auto. subst n. destruct (N _ _ E') as [D|(_ & m & _ & Lm & [[I C]|[_ ->]])]; [congruence| |left; auto].
    right. exists y, m. auto.
Qed.
(** The register does not fail. *)
Lemma get_payee_some w desc pays : buildable w py_name py_aliases pays -> exists n pays', get_payee w desc pays = Ok (n, pays').
Proof.
  intros B. destruct (ensure_pay_ok w pays desc B) as (l' & E & B' & X & (y & R & _)). unfold ensure_pay, ensure in E. unfold get_payee.
  destruct (l_get w desc pays) as [z|e|x] eqn:El; [eauto| |discriminate]. inv E.
  change (pay_insert w _ pays) with (pay_insert w (payee_from desc) pays). rewrite R. eauto.
Qed.
Lemma postings_whole w t ps : (exists d, t_date t = Some d) -> (forall p, In p ps -> p_amount p <> None) -> forall site first b pays, buildable w py_name py_aliases pays ->
  exists rows b' pays', register_postings w site t first ps b pays = Ok (rows, b', pays') /\ buildable w py_name py_aliases pays'.
Proof.
  intros (d & D). induction ps as [|p ps IH]; intros A site first b pays B; cbn [register_postings]; [eauto|].
  assert (H : exists head pays1, (if first then d <- unwrap (t_date t) ;; '(n, pays1) <- get_payee w (t_desc t) pays ;; Ok (Some (d, n), pays1) else Ok (None, pays)) = Ok (head, pays1) /\ buildable w py_name py_aliases pays1).
  { destruct first; [|eauto]. rewrite D. cbn [unwrap bind]. destruct (get_payee_some w (t_desc t) pays B) as (n & pays1 & E). rewrite E. cbn [bind].
    destruct (get_payee_ok _ _ _ _ _ B E) as (B1 & _). eauto. }
  destruct H as (head & pays1 & -> & B1). cbn [bind]. destruct (p_amount p) as [m|] eqn:Em; [|exfalso; apply (A p); [left|]; auto]. cbn [unwrap bind].
  destruct (IH (fun q Hq => A q (or_intror Hq)) (S site) false (running_add b m) pays1 B1) as (rows & b' & pays' & -> & B2). cbn [bind]. eauto.
Qed.
Lemma register_whole w sel : (forall t ps, In (t, ps) sel -> (exists d, t_date t = Some d) /\ forall p, In p ps -> p_amount p <> None) -> forall site b pays, buildable w py_name py_aliases pays ->
  exists rows, register_txns w site sel b pays = Ok rows.
Proof.
  induction sel as [|[t ps] sel IH]; intros H site b pays B; cbn [register_txns]; [eauto|]. destruct (H t ps) as [H1 H2]; [left; auto|].
  destruct (postings_whole w t ps H1 H2 site true b pays B) as (rows & b' & pays' & -> & B1). cbn [bind].
  destruct (IH (fun t' p' I => H t' p' (or_intror I)) (site + length ps)%nat b' pays' B1) as (rows' & ->). cbn [bind]. eauto.
Qed.
Lemma select_in w o ts : forall cs sel cs', select_txns w o None ts cs = Ok (sel, cs') -> forall t ps, In (t, ps) sel -> In t ts /\ incl ps (t_postings t).
Proof.
  assert (S : forall t ps cs l cs', select_postings w o None t ps cs = Ok (l, cs') -> incl l ps).
  { intros t. induction ps as [|p ps IH]; cbn [select_postings]; intros cs l cs' H; [inv H; intros x []|]. bind_inv H. destruct a as [b c1]. bind_inv H. destruct a as [r c2]. inv H.
    pose proof (IH _ _ _ Hb0) as I. destruct b; intros x Hx; [destruct Hx as [<-|Hx]; [left; auto|right; auto]|right; auto]. }
  induction ts as [|t ts IH]; cbn [select_txns]; intros cs sel cs' H u ps Hi; [inv H; destruct Hi|]. bind_inv H. destruct a as [l c1]. bind_inv H. destruct a as [r c2]. inv H.
  destruct Hi as [E|Hi]; [inv E; split; [left; auto|eauto]|]. destruct (IH _ _ _ Hb0 u ps Hi). split; [right|]; auto.
Qed.

(** ** C74 *)
(** The rows of the register: the transactions by date, those of one day as written; for each its lines; each with
    what has been added up so far. *)
Definition register_adds_up (w : world) (o : opts) (l : pledger) (rows : list rrow) : Prop :=
  exists us ess, date_sorted (pl_txns l) us /\ Forall2 (txn_entries w l) us ess /\
    let lines := flat_map (entries_shown o) (combine us ess) in
    length rows = length lines /\
    forall i row h e, nth_error rows i = Some row -> nth_error lines i = Some (h, e) ->
      rr_account row = entry_shown e /\ rr_amount row = snd e /\ head_written w l h (rr_head row) /\
      (rr_total row = [MZero] \/ shown_amounts (rr_total row) /\ rr_total row <> []) /\
      forall c, moneys_amt (rr_total row) c = qsum (map (fun x => money_amt (snd (snd x)) c) (firstn (S i) lines)).
Lemma forall2_nth {A B} (R : A -> B -> Prop) l l' : Forall2 R l l' -> forall i x y, nth_error l i = Some x -> nth_error l' i = Some y -> R x y.
Proof. induction 1 as [|a b l l' r F IH]; intros [|i] x y H1 H2; cbn in *; try discriminate; [congruence|eauto]. Qed.
Lemma forall2_length {A B} (R : A -> B -> Prop) l l' : Forall2 R l l' -> length l = length l'.
Proof. induction 1; cbn; auto. Qed.
Lemma forall2_firstn {A B} (R : A -> B -> Prop) l l' n : Forall2 R l l' -> Forall2 R (firstn n l) (firstn n l').
Proof. intros F. revert n. induction F; intros [|n]; cbn; auto. Qed.
Lemma register_book w site o l skip lg rows : world_ok w -> parsed w l -> plain_journal w l -> whole_report o -> to_ledger w skip l = Ok lg -> ledger_built w skip l lg ->
  register_report w site o lg = Ok rows -> register_adds_up w o l rows.
Proof.
  intros Hw Hp P O E B H. pose proof (made_plain _ _ _ _ Hp E) as M. pose proof (ledger_whole _ _ _ _ Hp P B) as LW.
  destruct (C59_register w site o lg rows Hw M H) as (q & sel & Q & S & C). pose proof (query_none w o q O Q). subst q. cbn zeta in C. destruct C as [C1 C2].
  destruct (journal_all w l P) as [_ R0]. destruct B as [ts dir costs sorted run imps _ _ JR DS _ LR _|]; [|congruence].
  pose proof (read_all_named _ _ _ _ _ _ _ _ P JR) as F.
  assert (D : Forall (fun u => exists d, t_date u = Some d) (pl_txns l)) by (apply Forall_forall; intros t Ht; apply (plain_dated w l Hp P t Ht)).
  destruct (date_order (pl_txns l) D) as (us & DU).
  assert (FU : Forall2 (plain_txn_named w l) us sorted).
  { eapply sort_related; eauto. intros u t ((X & _) & _). auto. }
  apply run_txns in LR.
  assert (FE : Forall2 (txn_entries w l) us (map (fun t => map entry_of (t_postings t)) (lg_txns lg)) /\ Forall2 (fun u t => t_date t = t_date u /\ t_desc t = t_desc u) us (lg_txns lg)).
  { clear -FU LR. revert us FU. induction LR as [|t1 t2 s ts2 (run0 & prs & LT) LR IH]; intros us FU; inversion FU as [|u ? us' ? (PT & PN) FU']; subst; [split; constructor|].
    destruct (IH us' FU') as [I1 I2]. split.
    - cbn [map]. constructor; auto. eapply ledger_entries; eauto.
    - constructor; auto. destruct LT as (_ & (H1 & _ & _ & _ & H2 & _) & _). destruct PT as (H3 & _). split; congruence. }
  destruct FE as [FE FH]. exists us, (map (fun t => map entry_of (t_postings t)) (lg_txns lg)). do 2 (split; auto). cbn zeta.
  pose proof (lines_same w o (lg_commodities lg) us (lg_txns lg) FH sel S) as SL. pose proof (forall2_length _ _ _ SL) as LE.
  assert (AM : forall x, In x (flat_map with_heading sel) -> p_amount (snd x) <> None).
  { intros x Hx. apply in_flat_map in Hx. destruct Hx as ([t ps] & Hs & Hx).
    assert (X : In t (lg_txns lg) /\ incl ps (t_postings t)).
    { clear -S Hs. induction S as [|u s ts sel (E & SE) S IH]; [destruct Hs|]. destruct Hs as [->|Hs].
      - cbn in E, SE. subst u. split; [left; auto|]. clear -SE. induction SE; intros z Hx; [destruct Hx|destruct Hx as [<-|Hx]; [left; auto|right; auto]|right; auto].
      - destruct (IH Hs). split; [right|]; auto. }
    destruct X as [X1 X2]. destruct (LW t X1) as [_ Y]. unfold with_heading in Hx. cbn [fst snd] in Hx. destruct ps as [|p r]; [destruct Hx|].
    destruct Hx as [<-|Hx]; [cbn; apply Y, X2; left; auto|]. apply in_map_iff in Hx. destruct Hx as (z & <- & Hz). cbn. apply Y, X2. right. auto. }
  split; [congruence|]. intros i row h e E1 E2. destruct (C2 i row E1) as (h' & p & J1 & J2 & J3 & J4 & J5 & J6).
  destruct (forall2_nth _ _ _ SL i _ _ E2 J1) as (L1 & L2 & L3 & L4). cbn [fst snd] in *. split; [congruence|]. split; [symmetry; auto|]. split; [|split; auto].
  - unfold heading in J4. unfold head_written. destruct h as [t|], h' as [u|], (rr_head row) as [[d n]|]; try contradiction; auto.
    destruct J4 as [J4 J7]. destruct L4 as [L4 L5]. split; [congruence|]. rewrite <- L5. eapply payee_written; eauto.
  - intros c. rewrite J6. f_equal. pose proof (forall2_firstn _ _ _ (Datatypes.S i) SL) as FL.
    assert (AM' : forall x, In x (firstn (Datatypes.S i) (flat_map with_heading sel)) -> p_amount (snd x) <> None).
    { intros x Hx. apply AM. rewrite <- (firstn_skipn (Datatypes.S i)). apply in_app_iff. left. auto. }
    clear -FL AM'. induction FL as [|x y a b (_ & _ & L3 & _) FL IH]; [reflexivity|]. cbn [map]. f_equal; [|apply IH; intros; apply AM'; right; auto].
    symmetry. apply L3. apply AM'. left. auto.
Qed.
(** A file with a plain journal all whose transactions are in order has a register, which lists what the journal
    says. *)
Theorem C74_register_adds_up : forall depth w o file l, world_ok w -> file_parses depth w file l -> plain_journal w l -> whole_report o ->
  Forall (in_order w l) (pl_txns l) ->
  exists rows groups, run_cmd depth w CRegister o file = Ok (concat groups) /\ Forall2 (entry_printed (w_width w)) rows groups /\ register_adds_up w o l rows.
Proof.
  intros depth w o file l Hw HF P O A. assert (Hp : parsed w l) by (destruct HF as (c & _ & F); exists depth, (Some file), [file], c; auto).
  apply file_parses_iff in HF. destruct (plain_outcome w (o_no_balance_check o) l Hw Hp P) as [(_ & lg & E & B)|(N & _)]; [|contradiction].
  assert (R : exists rows, register_report w (report_site lg) o lg = Ok rows).
  { pose proof (ledger_whole _ _ _ _ Hp P B) as LW. unfold register_report, query_node. destruct O as (Q & _). rewrite Q. cbn [length Nat.ltb bind]. cbn.
    destruct (select_whole w o (lg_txns lg) (lg_commodities lg)) as (sel & Es & _); [intros t Ht; apply (LW t Ht)|]. rewrite Es. cbn [bind].
    apply register_whole.
    - intros t ps Hi. destruct (select_in w o _ _ _ _ Es t ps Hi) as [I1 I2]. destruct (LW t I1) as [D Y]. split; auto.
    - destruct (made_dated w lg Hw (made_plain _ _ _ _ Hp E)) as [(_ & _ & B3) _]. auto. }
  destruct R as (rows & R). destruct (C69_printed depth w o file l lg Hw HF E) as [_ HR]. destruct (HR rows R) as (groups & G1 & G2).
  exists rows, groups. do 2 (split; auto). eapply register_book; eauto.
Qed.
Print Assumptions C74_register_adds_up.
(** From the text of the journal. *)
Theorem C74_from_the_text : forall d w o path s l, world_ok w -> blanks_not_numeric w ->
  w_read w path = Some s -> journal_written w pl_new l s -> plain_journal w l -> whole_report o -> Forall (in_order w l) (pl_txns l) ->
  exists rows groups, run_cmd (S d) w CRegister o path = Ok (concat groups) /\ Forall2 (entry_printed (w_width w)) rows groups /\ register_adds_up w o l rows.
Proof.
  intros d w o path s l Hw Hb Hr J P O A. eapply C74_register_adds_up; eauto. apply file_parses_iff. eapply C67_file_read_as_written; eauto.
Qed.
Print Assumptions C74_from_the_text.

(** The journal of C73: its transactions are not in order of date, one posting is virtual, one goes by an alias, one
    has no amount. *)
Example C74_case : world_ok (w65 t73) /\ file_parses 2 (w65 t73) (L "book") l73 /\ plain_journal (w65 t73) l73 /\ whole_report plain_opts /\
  Forall (in_order (w65 t73) l73) (pl_txns l73) /\
  run_cmd 2 (w65 t73) CRegister plain_opts (L "book") = Ok (map L
    ["2021-01-01 Job                                       Assets:Bank                              100.00 EUR       100.00 EUR";
     "                                                     Income                                  -100.00 EUR                0";
     "                                                     (Budget)                                   7.00 EUR         7.00 EUR";
     "2021-02-01 Cash                                      Assets:Cash                               30.00 EUR        37.00 EUR";
     "                                                     Assets:Bank                              -30.00 EUR         7.00 EUR";
     "2021-03-02 Shop                                      Expenses:Food                             10.50 EUR        17.50 EUR";
     "                                                     Expenses:Drinks                            2.00 USD        17.50 EUR";
     "                                                                                                                 2.00 USD";
     "                                                     Assets:Cash                              -11.50 EUR         6.00 EUR";
     "                                                                                                                 2.00 USD"]%string).
Proof.
  destruct C73_case as (H1 & H2 & H3 & H4 & H5 & _). do 5 (split; [assumption|]). vm_compute. reflexivity.
Qed.
(** Only a period, only the real postings. *)
Example C74_period_case : whole_report opts73 /\
  run_cmd 2 (w65 t73) CRegister opts73 (L "book") = Ok (map L
    ["2021-02-01 Cash                                      Assets:Cash                               30.00 EUR        30.00 EUR";
     "                                                     Assets:Bank                              -30.00 EUR                0"]%string).
Proof. split; [repeat split|vm_compute; reflexivity]. Qed.
(** From a text: the journal of C73. *)
Example C74_written_case : w_read (w65 t73c) (L "book") = Some s73c /\ journal_written (w65 t73c) pl_new l73c s73c /\
  plain_journal (w65 t73c) l73c /\ Forall (in_order (w65 t73c) l73c) (pl_txns l73c).
Proof. exact C73_written_case. Qed.
