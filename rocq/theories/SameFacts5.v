(** Facts for C79, continued: the register of a journal with open amounts in several commodities. *)
From Coq Require Import Lia Sorting.Sorted.
From Verif Require Import Base BaseFacts Numerals Money Alist Comment Txn Expr Filter Price Tokens Ledger Reports App Spec MoneyFacts SpecList SpecTxn TxnFacts SpecLedger AlistFacts JournalFacts
  LedgerFacts LedgerFacts2 EvalFacts SpecQuery SpecReports ReportFacts ReportFacts2 SpecBook SpecSame SameFacts SameRead SameFacts2 SameFacts3 SameFacts4.
Open Scope Qc_scope.

Definition amounts_known (ps : list posting) : Prop := forall p, In p ps -> p_amount p <> None.
Definition posting_row (p : posting) : str * option money := (account_label p, p_amount p).
Definition row_posting (r : rrow) : str * option money := (rr_account r, Some (rr_amount r)).
(** A running total as the register keeps it: the bare zero, or amounts that are not zero. *)
Definition canonical (b : balance) : Prop := (b = bal_of MZero \/ (good_bal b /\ exists c, bal_amt b c <> 0)).
Lemma running_canonical b m : wf_bal b -> canonical (running_add b m).
Proof.
  intros W. unfold running_add. assert (G : good_bal (bal_add b (bal_of m))) by (apply good_add; [auto|apply wf_of]). destruct (bal_is_zero (bal_add b (bal_of m))) eqn:Z; [left; auto|].
  right. split; auto. apply nonzero_amt; auto.
Qed.
Lemma zero_amt c : bal_amt (bal_of MZero) c = 0.
Proof. reflexivity. Qed.
Lemma canonical_same b b' : canonical b -> canonical b' -> (forall c, bal_amt b c = bal_amt b' c) -> Permutation b b'.
Proof.
  intros [->|[G (c & Hc)]] [->|[G' (c' & Hc')]] E; auto.
  - exfalso. apply Hc'. rewrite <- E. apply zero_amt.
  - exfalso. apply Hc. rewrite E. apply zero_amt.
  - apply (same_amounts b b'); auto.
Qed.
Definition sum_amounts (ps : list posting) (c : str) : Qc := qsum (map (fun p => match p_amount p with Some m => money_amt m c | None => 0 end) ps).
Definition last_total (rows : list rrow) (b : balance) : Prop := match rev rows with r :: _ => Permutation (rr_total r) (map snd b) | [] => False end.
Lemma last_cons r rows b : rows <> [] -> last_total (r :: rows) b <-> last_total rows b.
Proof. intros N. unfold last_total. cbn [rev]. destruct (rev rows) eqn:E; [exfalso; apply N; rewrite <- (rev_involutive rows), E; auto|]. cbn. tauto. Qed.

Lemma rest_rows w t : world_ok w -> forall ps site b l, amounts_known ps -> wf_bal b -> exists rows b2,
  register_postings w site t false ps b l = Ok (rows, b2, l) /\ map row_posting rows = map posting_row ps /\ Forall (fun r => rr_head r = None) rows /\
  wf_bal b2 /\ (forall c, bal_amt b2 c = bal_amt b c + sum_amounts ps c) /\ (ps = [] -> b2 = b) /\ (ps <> [] -> canonical b2 /\ last_total rows b2).
Proof.
  intros W. induction ps as [|p ps IH]; intros site b l K WB; cbn [register_postings].
  - exists [], b. do 4 (split; auto). split; [intros c; unfold sum_amounts; cbn; ring|]. split; auto. congruence.
  - cbn [bind]. destruct (p_amount p) as [m|] eqn:E; [|destruct (K p (or_introl eq_refl)); auto]. cbn [unwrap bind]. cbv zeta.
    destruct (running_ok b m WB) as [W1 A1]. destruct (IH (S site) (running_add b m) l) as (rows & b2 & -> & R1 & R2 & R3 & R4 & R5 & R6); [intros q Hq; apply K; right; auto|auto|].
    cbn [bind]. eexists _, b2. split; [reflexivity|]. cbn [map]. split; [f_equal; auto; unfold row_posting, posting_row; cbn; rewrite E; auto|]. split; [constructor; auto|]. split; auto. split.
    + intros c. rewrite R4, A1. unfold sum_amounts. cbn [map]. rewrite qsum_cons, E. ring.
    + split; [discriminate|]. intros _. destruct ps as [|q ps].
      * rewrite (R5 eq_refl) in *. destruct rows; [|discriminate]. split; [apply running_canonical; auto|]. unfold last_total. cbn. apply Permutation_map. apply (proj1 W).
      * destruct R6 as [C L]; [congruence|]. split; auto. apply last_cons; auto. destruct rows; [discriminate|congruence].
Qed.
(** The rows of one transaction. *)
Definition group (t : txn posting) (n : option str) (ps : list posting) (b b2 : balance) (rows : list rrow) : Prop :=
  map row_posting rows = map posting_row ps /\ Forall (fun r => rr_head r = None) (tl rows) /\
  match rows with [] => b2 = b | r :: _ => exists d m, t_date t = Some d /\ n = Some m /\ rr_head r = Some (d, m) end /\
  wf_bal b2 /\ (forall c, bal_amt b2 c = bal_amt b c + sum_amounts ps c) /\ (ps <> [] -> canonical b2 /\ last_total rows b2).
Lemma txn_rows w t site ps b l : world_ok w -> wf_bal b ->
  match register_postings w site t true ps b l with
  | Ok (rows, b2, l2) => amounts_known ps /\
      match ps with
      | [] => rows = [] /\ b2 = b /\ l2 = l
      | _ :: _ => exists n, get_payee w (t_desc t) l = Ok (n, l2) /\ group t (Some n) ps b b2 rows
      end
  | _ => ps <> [] /\ (t_date t = None \/ (forall x, get_payee w (t_desc t) l <> Ok x) \/ ~ amounts_known ps)
  end.
Proof.
  intros W WB. destruct ps as [|p ps]; cbn [register_postings bind].
  { split; [intros q []|auto]. }
  destruct (t_date t) as [d|] eqn:D; cbn [unwrap bind]; [|split; [congruence|left; auto]].
  destruct (get_payee w (t_desc t) l) as [[n l1]|e|e] eqn:G; cbn [bind]; [|split; [congruence|right; left; intros x; congruence]..].
  destruct (p_amount p) as [m|] eqn:E; cbn [unwrap bind]; [|split; [congruence|right; right; intros K; apply (K p (or_introl eq_refl)); auto]].
  cbv zeta. destruct (running_ok b m WB) as [W1 A1].
  destruct (Exists_dec (fun p => p_amount p = None) ps) as [X|X]; [intros q; destruct (p_amount q); [right; discriminate|left; auto]| |].
  - assert (N : forall site b l x, register_postings w site t false ps b l <> Ok x).
    { clear -X. induction X as [q ps Hq|q ps X IH]; intros site b l x; cbn [register_postings bind].
      - rewrite Hq. cbn. discriminate.
      - destruct (p_amount q); cbn [unwrap bind]; [|discriminate]. cbv zeta. destruct (register_postings w (S site) t false ps (running_add b m) l) as [[[r b2] l2]| |] eqn:R; cbn; try discriminate. edestruct IH; eauto. }
    assert (K : ~ amounts_known (p :: ps)) by (intros K; apply Exists_exists in X; destruct X as (q & Hq & Eq); apply (K q); [right; auto|auto]).
    destruct (register_postings w (S site) t false ps (running_add b m) l1) as [x| |] eqn:R; [edestruct N; eauto| |]; cbn; split; auto; congruence.
  - assert (K : amounts_known ps) by (intros q Hq Eq; apply X, Exists_exists; eauto).
    destruct (rest_rows w t W ps (S site) (running_add b m) l1 K W1) as (rows & b2 & -> & R1 & R2 & R3 & R4 & R5 & R6). cbn [bind].
    split; [intros q [<-|Hq]; [congruence|auto]|]. exists n. split; auto. split; [cbn [map]; f_equal; auto; unfold row_posting, posting_row; cbn; rewrite E; auto|]. cbn [tl]. split; auto.
    split; [exists d, n; auto|]. split; auto. split; [intros c; rewrite R4, A1; unfold sum_amounts; cbn [map]; rewrite qsum_cons, E; ring|]. intros _. destruct ps as [|q ps].
    + rewrite (R5 eq_refl) in *. destruct rows; [|discriminate]. split; [apply running_canonical; auto|]. unfold last_total. cbn. apply Permutation_map. apply (proj1 W).
    + destruct R6 as [C L]; [congruence|]. split; auto. apply last_cons; auto. destruct rows; [discriminate|congruence].
Qed.
Lemma groups_same t t' n ps ps' b b' b2 b2' rows rows' : same_head t t' -> Permutation ps ps' -> ps <> [] -> (forall c, bal_amt b c = bal_amt b' c) ->
  group t (Some n) ps b b2 rows -> group t' (Some n) ps' b' b2' rows' -> same_group rows rows' /\ Permutation b2 b2'.
Proof.
  intros HD P N EB (G1 & G2 & G3 & G4 & G5 & G6) (H1 & H2 & H3 & H4 & H5 & H6).
  assert (N' : ps' <> []) by (intros ->; apply N; apply Permutation_nil; symmetry; auto).
  destruct (G6 N) as [C L], (H6 N') as [C' L'].
  assert (PB : Permutation b2 b2').
  { apply canonical_same; auto. intros c. rewrite G5, H5, EB. f_equal. unfold sum_amounts. apply qsum_perm, Permutation_map. auto. }
  split; auto. destruct rows as [|r rows]; [destruct ps; [congruence|discriminate]|]. destruct rows' as [|r' rows']; [destruct ps'; [congruence|discriminate]|].
  destruct G3 as (d & m & D1 & D2 & D3), H3 as (d' & m' & D1' & D2' & D3').
  assert (t_date t' = t_date t) by (injection HD; auto).
  split; [cbn; congruence|]. split; [apply Forall_app; auto|]. split.
  - assert (X : forall rows, map row_posting rows = map (fun x : str * money => (fst x, Some (snd x))) (map row_amount rows)) by (intros xs; rewrite map_map; reflexivity).
    assert (Y : Permutation (map row_posting (r :: rows)) (map row_posting (r' :: rows'))) by (rewrite G1, H1; apply Permutation_map; auto).
    rewrite !X in Y. apply Permutation_map_inv in Y. destruct Y as (l3 & E3 & P3).
    assert (X3 : map row_amount (r :: rows) = l3); [|rewrite X3; symmetry; auto]. clear -E3. revert l3 E3. generalize (map row_amount (r :: rows)). induction l as [|[a x] l IH]; intros [|[a' x'] l3] E; try discriminate; auto.
    cbn [map fst snd] in E. injection E as E1 E2 E. subst. f_equal. auto.
  - unfold last_total in *. destruct (rev (r :: rows)) as [|u us]; [auto|]. destruct (rev (r' :: rows')) as [|u' us']; [auto|].
    eapply Permutation_trans; [exact L|]. eapply Permutation_trans; [apply Permutation_map; exact PB|]. symmetry. auto.
Qed.
Definition bound_same (s s' : txn posting * list posting) : Prop := same_head (fst s) (fst s') /\ Permutation (snd s) (snd s').
Lemma reg_groups w o : world_ok w -> world_ok (with_order w o) -> forall sel sel', Forall2 bound_same sel sel' -> forall site site' b b' l l', wf_bal b -> wf_bal b' -> Permutation b b' -> paysame w l l' ->
  both (fun rows rows' => exists gs gs', rows = concat gs /\ rows' = concat gs' /\ Forall2 same_group gs gs')
    (register_txns w site sel b l) (register_txns (with_order w o) site' sel' b' l').
Proof.
  intros W W'. induction 1 as [|[t ps] [t' ps'] sel sel' [HD P] F IH]; intros site site' b b' l l' WB WB' PB PS; cbn [register_txns].
  { cbn. exists [], []. auto. }
  cbn [fst snd] in *. pose proof (txn_rows w t site ps b l W WB) as T. pose proof (txn_rows (with_order w o) t' site' ps' b' l' W' WB') as T'.
  assert (ED : t_date t' = t_date t) by (injection HD; auto). assert (EN : t_desc t' = t_desc t) by (injection HD; auto).
  pose proof (payee_same w o (t_desc t) l l' PS) as PY. rewrite EN in T'.
  assert (KN : amounts_known ps <-> amounts_known ps') by (split; intros K p Hp; apply K; [exact (Permutation_in p (Permutation_sym P) Hp)|exact (Permutation_in p P Hp)]).
  assert (AM : forall c, bal_amt b c = bal_amt b' c) by (intros c; unfold bal_amt; apply qsum_perm, Permutation_map; auto).
  destruct ps as [|p ps].
  - assert (ps' = []) as -> by (apply Permutation_nil; auto). cbn [register_postings bind]. eapply both_bind; [apply IH; auto|].
    intros rows rows' (gs & gs' & -> & -> & FG). cbn. exists gs, gs'. auto.
  - destruct ps' as [|p' ps']; [apply Permutation_sym, Permutation_nil in P; discriminate|].
    destruct (register_postings w site t true (p :: ps) b l) as [[[rows b2] l2]|e|e]; destruct (register_postings (with_order w o) site' t' true (p' :: ps') b' l') as [[[rows' b2'] l2']|e'|e']; cbn [bind];
      try exact I.
    + destruct T as (K & n & G & GR), T' as (K' & n' & G' & GR'). rewrite G, G' in PY. cbn in PY. destruct PY as [<- PY].
      destruct (groups_same t t' n (p :: ps) (p' :: ps') b b' b2 b2' rows rows' HD P ltac:(congruence) AM GR GR') as [SG PB2].
      eapply both_bind; [apply (IH _ _ b2 b2' l2 l2'); auto; [apply GR|apply GR']|]. intros r r' (gs & gs' & -> & -> & FG). cbn. exists (rows :: gs), (rows' :: gs'). cbn. auto.
    + exfalso. destruct T as (K & n & G & GR), T' as (_ & [X|[X|X]]); [|destruct (get_payee (with_order w o) (t_desc t) l'); rewrite G in PY; cbn in PY; try contradiction; edestruct X; eauto|tauto].
      destruct GR as (G1 & _ & G3 & _). destruct rows as [|r rows]; [discriminate|]. destruct G3 as (d & m & D & _). congruence.
    + exfalso. destruct T as (K & n & G & GR), T' as (_ & [X|[X|X]]); [|destruct (get_payee (with_order w o) (t_desc t) l'); rewrite G in PY; cbn in PY; try contradiction; edestruct X; eauto|tauto].
      destruct GR as (G1 & _ & G3 & _). destruct rows as [|r rows]; [discriminate|]. destruct G3 as (d & m & D & _). congruence.
    + exfalso. destruct T' as (K & n & G & GR), T as (_ & [X|[X|X]]); [|destruct (get_payee w (t_desc t) l); rewrite G in PY; cbn in PY; try contradiction; edestruct X; eauto|tauto].
      destruct GR as (G1 & _ & G3 & _). destruct rows' as [|r rows']; [discriminate|]. destruct G3 as (d & m & D & _). congruence.
    + exfalso. destruct T' as (K & n & G & GR), T as (_ & [X|[X|X]]); [|destruct (get_payee w (t_desc t) l); rewrite G in PY; cbn in PY; try contradiction; edestruct X; eauto|tauto].
      destruct GR as (G1 & _ & G3 & _). destruct rows' as [|r rows']; [discriminate|]. destruct G3 as (d & m & D & _). congruence.
Qed.
Lemma select_heads w op n : forall ts cs sel cs', select_txns w op n ts cs = Ok (sel, cs') -> map fst sel = ts.
Proof.
  induction ts as [|t ts IH]; intros cs sel cs' H; cbn [select_txns] in H; [inv H; auto|].
  destruct (select_postings w op n t (t_postings t) cs) as [[ps c1]| |]; cbn [bind] in H; try discriminate.
  destruct (select_txns w op n ts c1) as [[l c2]| |] eqn:E; cbn [bind] in H; try discriminate. inv H. cbn. f_equal. eauto.
Qed.
Lemma register_groups w o op site site' lg lg' : world_ok w -> world_ok (with_order w o) -> same_ledger w lg lg' -> lists_built w lg -> lists_built w lg' -> plain_query w op \/ lg_txns lg = lg_txns lg' ->
  both (fun rows rows' => exists gs gs', rows = concat gs /\ rows' = concat gs' /\ Forall2 same_group gs gs')
    (register_report w site op lg) (register_report (with_order w o) site' op lg').
Proof.
  intros W W' L (B1 & B2 & B3) (B1' & B2' & B3') Q. unfold register_report. rewrite query_node_order. destruct (query_node w op) as [n|e|e] eqn:En; cbn [bind]; try exact I.
  pose proof (select_heads w op n (lg_txns lg) (lg_commodities lg)) as H. pose proof (select_heads (with_order w o) op n (lg_txns lg') (lg_commodities lg')) as H'.
  assert (S : both (fun x y => Forall2 selsame (fst x) (fst y)) (select_txns w op n (lg_txns lg) (lg_commodities lg)) (select_txns (with_order w o) op n (lg_txns lg') (lg_commodities lg'))).
  { apply (select_either w o op n); [destruct Q as [Q|Q]; [left; intros m ->; apply Q; auto|right; exact Q]|split; auto; split; auto; apply L|apply L]. }
  destruct (select_txns w op n (lg_txns lg) (lg_commodities lg)) as [[sel cs]| |], (select_txns (with_order w o) op n (lg_txns lg') (lg_commodities lg')) as [[sel' cs']| |]; cbn [bind] in *; try contradiction; try exact I.
  cbn in S. specialize (H _ _ eq_refl). specialize (H' _ _ eq_refl). apply reg_groups; auto using wf_nil.
  - pose proof (sl_txns _ _ _ L) as ST. rewrite <- H, <- H' in ST. clear -S ST. induction S as [|s s' sel sel' X S IH]; cbn in ST; inv ST; constructor; auto. split; auto. apply H2.
  - split; auto. split; auto. apply L.
Qed.
