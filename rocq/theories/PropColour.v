(** Property C82: the colours of the reports. *)
From Coq Require Import Lia.
From Verif Require Import Base BaseFacts Numerals Money MoneyFacts Alist Comment Txn Dates Expr Filter Price Tokens Ledger Reports App Diag Colour Spec SpecText SpecDates
  SpecLayout SpecList SpecTxn SpecLedger SpecReports SpecColour PropDisplay DateFacts PropDates PropTxn PropLedger ReportFacts ReportFacts3 PropReports PropApp PropLayout.

(** ** The characters are those of C69 *)
Lemma characters_un l : characters l = uncoloured l.
Proof.
  unfold characters, cells, uncoloured. induction l as [|[s t] l IH]; [reflexivity|]. cbn [flat_map fst snd]. rewrite map_app, IH. f_equal.
  rewrite map_map. apply map_id.
Qed.
Lemma un_app a b : uncoloured (a ++ b) = uncoloured a ++ uncoloured b.
Proof. apply flat_map_app. Qed.
Lemma un_one p : uncoloured [p] = snd p.
Proof. unfold uncoloured. cbn. apply app_nil_r. Qed.
Lemma mapM_map {A B C : Type} (f : A -> res B) (g : B -> C) (h : A -> res C) l :
  (forall a, In a l -> h a = (x <- f a ;; Ok (g x))) -> mapM h l = (xs <- mapM f l ;; Ok (map g xs)).
Proof.
  induction l as [|a l IH]; intros H; [reflexivity|]. cbn [mapM]. rewrite (H a (or_introl eq_refl)), IH by (intros x X; apply H; right; auto).
  destruct (f a); cbn [bind]; auto. destruct (mapM f l); reflexivity.
Qed.
Definition texts (r : res (list cline)) : res (list str) := ls <- r ;; Ok (map characters ls).
Lemma money_un m : (x <- money_piece m ;; Ok (snd x)) = (t <- show m ;; Ok (pad_left 20 t)).
Proof. unfold money_piece. destruct (show m); reflexivity. Qed.
Lemma total_un m : (x <- total_piece m ;; Ok (snd x)) = (t <- show m ;; Ok (pad_left 20 t)).
Proof. destruct m as [|a c]; [reflexivity|]. apply (money_un (M a c)). Qed.
Lemma pieces_un (f : money -> res piece) n ms : (forall m, (x <- f m ;; Ok (snd x)) = (t <- show m ;; Ok (pad_left n t))) ->
  (xs <- mapM f ms ;; Ok (map snd xs)) = (ts <- mapM show ms ;; Ok (map (pad_left n) ts)).
Proof.
  intros H. rewrite <- !(mapM_map _ _ (fun m => t <- show m ;; Ok (pad_left n t))); auto.
Qed.
Lemma ones_un xs : map characters (map (fun x : piece => [x]) xs) = map snd xs.
Proof. rewrite map_map. apply map_ext. intros x. rewrite characters_un. apply un_one. Qed.
Lemma row_un r : texts (row_clines r) = row_lines r.
Proof.
  unfold texts, row_clines, row_lines. pose proof (pieces_un _ 20 (br_moneys r) money_un) as H.
  destruct (mapM money_piece (br_moneys r)) as [xs|e|e], (mapM show (br_moneys r)) as [ts|e'|e']; cbn [bind] in *; try congruence.
  inv H. match goal with |- bind (match rev ?a with [] => _ | _ :: _ => _ end) _ = match rev ?b with [] => _ | _ :: _ => _ end =>
    assert (E : map characters a = b); [|revert E; generalize a b; clear; intros l1 l2 E] end.
  { rewrite ones_un. destruct xs, ts; cbn in H1; try discriminate; auto. }
  apply (f_equal (@rev str)) in E. rewrite <- map_rev in E. change (@rev cline) with (@rev (list piece)) in E.
  destruct (rev l1) as [|x xs'], (rev l2) as [|y ys]; cbn [map] in E; [reflexivity|discriminate|discriminate|].
  injection E as E1 E2. cbn [bind]. f_equal. rewrite map_app, map_rev. f_equal; [f_equal; exact E2|]. cbn [map]. f_equal.
  rewrite characters_un, un_app, <- characters_un, E1. f_equal. unfold uncoloured. cbn. rewrite app_nil_r. destruct (br_indent r); reflexivity.
Qed.
Lemma report_un r : texts (report_clines r) = report_lines r.
Proof.
  unfold report_lines, report_clines. rewrite (mapM_map row_clines (map characters) row_lines) by (intros a _; rewrite <- row_un; reflexivity).
  unfold texts. destruct (mapM row_clines (bp_rows r)); cbn [bind]; auto.
  destruct (bp_total r) as [ms|]; cbn [bind]; [|rewrite !app_nil_r, concat_map; reflexivity].
  pose proof (pieces_un _ 20 ms total_un) as H. destruct (mapM total_piece ms) as [xs|e|e], (mapM show ms) as [ts|e'|e']; cbn [bind] in *; try congruence.
  inv H. rewrite map_app, concat_map. cbn [map]. rewrite ones_un, H1. reflexivity.
Qed.
Lemma rrow_un w r : texts (rrow_clines w r) = rrow_lines w r.
Proof.
  unfold texts, rrow_clines, rrow_lines. destruct (register_widths w) as [ca cm]. destruct (show (rr_amount r)) as [a|e|e]; cbn [bind]; auto.
  assert (Hf : forall m, (x <- running_piece cm m ;; Ok (snd x)) = (t <- show m ;; Ok (pad_left cm t))) by (intros m; unfold running_piece; destruct (show m); reflexivity).
  pose proof (pieces_un (running_piece cm) cm (rr_total r) Hf) as H.
  destruct (mapM (running_piece cm) (rr_total r)) as [xs|e|e], (mapM show (rr_total r)) as [ts|e'|e']; cbn [bind] in *; try discriminate; try exact H. inv H.
  destruct xs as [|x xs], ts as [|t ts]; cbn in H1; try discriminate; cbn [bind map].
  - rewrite characters_un. unfold uncoloured. cbn [flat_map snd]. rewrite app_nil_r. reflexivity.
  - injection H1 as E1 E2. rewrite characters_un. f_equal. f_equal.
    + destruct x as [sx tx]. cbn [snd] in E1. subst tx. unfold uncoloured. cbn [flat_map snd app]. rewrite app_nil_r, <- !app_assoc. reflexivity.
    + rewrite map_map. rewrite <- (map_map (pad_left cm) (fun y => repeat c_sp (11 + 42 + ca + cm) ++ y)), <- E2, map_map.
      apply map_ext. intros y. rewrite characters_un. unfold uncoloured. cbn [flat_map snd]. rewrite app_nil_r. reflexivity.
Qed.
Lemma register_un w rs : texts (register_clines w rs) = register_lines w rs.
Proof.
  unfold register_lines, register_clines. rewrite (mapM_map (rrow_clines w) (map characters) (rrow_lines w)) by (intros a _; rewrite <- rrow_un; reflexivity).
  unfold texts. destruct (mapM _ rs); cbn [bind]; auto. rewrite concat_map. auto.
Qed.
Lemma plain_un ls : map characters (plain_lines ls) = ls.
Proof. unfold plain_lines. rewrite map_map. rewrite (map_ext _ (fun x => x)); [apply map_id|]. intros x. rewrite characters_un. apply un_one. Qed.
Lemma check_un file ok : characters (check_cline file ok) = L "Input file " ++ file ++ (if ok then L " is OK" else L " is KO").
Proof. rewrite characters_un. unfold uncoloured, check_cline. destruct ok; reflexivity. Qed.

(** The colours do not change a character of what is printed, nor whether anything is printed. *)
Theorem C82_same_text : forall depth w c o file,
  run_cmd depth w c o file = match run_coloured depth w c o file with
                             | Ok lines => Ok (map characters lines)
                             | Err e => Err e
                             | Panic e => Panic e
                             end.
Proof.
  intros depth w c o file. change (match run_coloured depth w c o file with Ok lines => _ | Err e => _ | Panic e' => _ end) with (texts (run_coloured depth w c o file)).
  unfold texts, run_cmd, run_on, run_coloured. destruct (tokenize_file depth w file) as [items|e|e]; cbn [bind]; auto.
  destruct c. 7: { destruct (to_ledger w false items) as [lg|e|e]; cbn [bind map]; auto. rewrite check_un. auto. }
  all: destruct (to_ledger w (o_no_balance_check o) items) as [lg|e|e]; cbn [bind]; auto.
  - destruct (balance_report w _ o _ _ lg) as [r|e|e]; cbn [bind]; auto. symmetry. apply report_un.
  - destruct (register_report w _ o lg) as [r|e|e]; cbn [bind]; auto. symmetry. apply register_un.
  - rewrite plain_un. auto.
  - rewrite plain_un. auto.
  - destruct (prices_report lg); cbn [bind]; auto. rewrite plain_un. auto.
  - rewrite plain_un. auto.
Qed.
Print Assumptions C82_same_text.

(** The verdict of check: the path in bold, the word in bold green or red, the rest plain. *)
Theorem C82_check : forall depth w file,
  check_stdout depth w file = map characters (check_clines depth w file) /\
  (forall items, tokenize_file depth w file = Ok items -> forall lg, to_ledger w false items = Ok lg ->
     map cells (check_clines depth w file) = [in_style SPlain (L "Input file ") ++ in_style SBold file ++ in_style SPlain (L " is ") ++ in_style SGreenBold (L "OK")]) /\
  (forall items, tokenize_file depth w file = Ok items -> forall e, to_ledger w false items = Err e ->
     map cells (check_clines depth w file) = [in_style SPlain (L "Input file ") ++ in_style SBold file ++ in_style SPlain (L " is ") ++ in_style SRedBold (L "KO")]).
Proof.
  intros depth w file. split; [|split].
  - unfold check_stdout, check_clines. destruct (tokenize_file depth w file); auto. destruct (to_ledger w false a); cbn [map]; rewrite ?check_un; auto.
  - intros items E lg E2. unfold check_clines. rewrite E, E2. reflexivity.
  - intros items E lg E2. unfold check_clines. rewrite E, E2. reflexivity.
Qed.
Print Assumptions C82_check.

(** ** Which amounts are printed *)
Lemma print_rows_from w : forall fuel site flat d l row, In row (print_rows fuel w site flat d l) ->
  exists a b s, In (a, b) l /\ br_moneys row = map snd (w_ord w s _ b).
Proof.
  induction fuel as [|f IH]; intros site flat d l row; cbn [print_rows]; [intros []|]. destruct l as [|[a b] l]; [intros []|].
  assert (Hrec : forall l', (exists pre, l = pre ++ l') -> In row (print_rows f w (S site) flat d l') -> exists a0 b0 s, In (a0, b0) ((a, b) :: l) /\ br_moneys row = map snd (w_ord w s _ b0)).
  { intros l' (pre & ->) Hi. destruct (IH _ _ _ _ _ Hi) as (x & y & s & Hx & Hr). exists x, y, s. split; auto. right. apply in_or_app. auto. }
  destruct (match d with Some k => Nat.ltb k (nparts a) | None => false end); [apply Hrec; exists []; auto|].
  destruct (bal_is_zero b); [apply Hrec; exists []; auto|].
  destruct flat.
  - intros [<-|Hi]; [exists a, b, site; split; [left|]; auto|]. apply (Hrec l); auto. exists []. auto.
  - destruct (collapse a (nparts a) (leaf a) l) as [text rest'] eqn:Ec. intros [<-|Hi]; [exists a, b, site; split; [left|]; auto|].
    apply (Hrec rest'); auto. destruct (collapse_suffix a l (nparts a) (leaf a)) as (pre & E). rewrite Ec in E. eauto.
Qed.
Definition all_nonzero (ms : list money) : Prop := Forall (fun m => m_is_zero m = false) ms.
Lemma good_nonzeros w s b : world_ok w -> good_bal b -> all_nonzero (map snd (w_ord w s _ b)).
Proof. intros Hw G. apply good_shown. eapply good_perm; [exact G|]. symmetry. apply Hw. Qed.
Lemma report_amounts w site o flat tot lg r : world_ok w -> balance_report w site o flat tot lg = Ok r ->
  Forall (fun row => all_nonzero (br_moneys row)) (bp_rows r) /\
  match bp_total r with Some ms => ms = [MZero] \/ all_nonzero ms | None => True end.
Proof.
  intros Hw H. unfold balance_report in H. bind_inv H. bind_inv H. destruct a0 as [sel cs]. bind_inv H. rename a0 into bals.
  assert (G : good_map bals) by (unfold account_balances in Hb1; eapply account_balances_ok; [exact Hb1|]; split; [constructor|intros ? ? []]).
  bind_inv H. rename a0 into vb. assert (Gv : forall a b, In (a, b) vb -> good_bal b).
  { destruct flat; [apply (proj1 (flat_balances_ok w Hw _ _ _ _ Hb2 G))|]. inv Hb2. apply (proj1 (tree_balances_ok w Hw site bals G)). }
  bind_inv H. destruct a0 as [mults vb1].
  assert (G1 : forall a b, In (a, b) vb1 -> good_bal b).
  { destruct (o_exchange o) as [x|]; [|inv Hb3; auto]. destruct (l_get w x cs) as [c|e|e]; [|inv Hb3; auto|discriminate]. bind_inv Hb3. bind_inv Hb3. inv Hb3.
    clear -Hb4 Gv Hw Hb5. revert vb1 Hb5. induction vb as [|[a b] vb IH]; intros vb1 H; cbn [mapM] in H; [inv H; intros ? ? []|].
    bind_inv H. bind_inv H. inv H. bind_inv Hb. inv Hb. intros a' b' [E|Hi]; [|eapply IH; eauto; intros; eapply Gv; right; eauto].
    inv E. destruct (convert_balance_ok mults (cu_name c) (w_ord w (103 + site) _ b)) as (b2 & E2 & G2 & _).
    - eapply good_perm; [eapply Gv; left; reflexivity|]. symmetry. apply Hw.
    - cbn [snd] in Hb1. rewrite E2 in Hb1. inv Hb1. auto. }
  assert (R : forall row, In row (print_rows (length (stable_sort name_le vb1)) w (1000 + site) flat (o_depth o) (stable_sort name_le vb1)) -> all_nonzero (br_moneys row)).
  { intros row Hr. apply print_rows_from in Hr. destruct Hr as (x & b & s & Hi & ->). apply good_nonzeros; auto. apply (G1 x).
    eapply Permutation_in; [apply stable_sort_perm|exact Hi]. }
  destruct (tot && _); [|inv H; cbn; split; [apply Forall_forall; auto|auto]].
  bind_inv H. rename a0 into total'. inv H. cbn [bp_rows bp_total]. split; [apply Forall_forall; auto|].
  destruct (bal_is_zero total') eqn:Z; [auto|right]. apply good_nonzeros; auto.
  destruct (sum_entries_ok (fun _ => true) (w_ord w (104 + site) _ bals)) as [Gt _].
  { intros x b Hi. apply (proj2 G x). eapply Permutation_in; [apply Hw|exact Hi]. }
  assert (Ef : filter (fun x : str * balance => true) (w_ord w (104 + site) _ bals) = w_ord w (104 + site) _ bals).
  { generalize (w_ord w (104 + site) _ bals). clear. induction l as [|x l IH]; cbn; congruence. }
  rewrite Ef in Gt. destruct mults as [|m0 mults]; [inv Hb4; auto|]. bind_inv Hb4. bind_inv Hb4.
  match type of Hb4 with convert_balance ?b ?ms ?c = _ => destruct (convert_balance_ok ms c b) as (b2 & E2 & G2 & _) end.
  - eapply good_perm; [exact Gt|]. symmetry. apply Hw.
  - rewrite E2 in Hb4. inv Hb4. auto.
Qed.
Lemma nonzero_colour m : m_is_zero m = false -> colour_of m (if m_is_negative m then SRed else SPlain).
Proof.
  destruct m as [|a c]; [discriminate|]. intros _. unfold colour_of, below_zero. cbn [m_is_negative]. destruct (qc_neg_spec a); auto.
Qed.
Lemma running_colour m : m = MZero \/ m_is_zero m = false -> colour_of m (if m_is_positive m then SPlain else SRed).
Proof.
  intros [->|H]; [right; auto|]. destruct m as [|a c]; [discriminate|]. cbn in H. unfold colour_of, below_zero. cbn [m_is_positive].
  destruct (qc_pos_spec a) as [P|P]; [right|left]; split; auto.
  - intros N. apply (Qclt_not_eq 0 0); auto. eapply Qclt_trans; eauto.
  - apply Qcnot_lt_le in P. apply Qcle_lt_or_eq in P. destruct P as [P|P]; auto. subst a. discriminate.
Qed.
Lemma entry_colour m : colour_of_entry m (if m_is_negative m then SRed else SPlain).
Proof.
  destruct m as [|a c]; [left; auto|]. right. split; [discriminate|]. unfold colour_of, below_zero. cbn [m_is_negative]. destruct (qc_neg_spec a); auto.
Qed.
Lemma cells_app a b : cells (a ++ b) = cells a ++ cells b.
Proof. apply flat_map_app. Qed.
Lemma cells_one s t : cells [(s, t)] = in_style s t.
Proof. unfold cells. cbn. apply app_nil_r. Qed.
Lemma money_piece_ok m : m_is_zero m = false -> exists s f, money_piece m = Ok (s, f) /\ amount_cells m (in_style s f).
Proof.
  intros H. destruct (show_text m) as (t & E & T). unfold money_piece. rewrite E. cbn [bind]. do 2 eexists. split; [reflexivity|].
  exists t, (pad_left 20 t), (if m_is_negative m then SRed else SPlain). split; auto. split; [apply pad_left_at|]. split; auto. apply nonzero_colour; auto.
Qed.
Lemma row_clines_ok r : br_moneys r <> [] -> all_nonzero (br_moneys r) -> exists ls, row_clines r = Ok ls /\ row_coloured r ls.
Proof.
  intros Hn Z. unfold row_clines, row_coloured.
  set (tail := row_tail r).
  assert (Ht : cells tail = in_style SPlain (repeat c_sp (2 * Nat.max 1 (br_indent r))) ++ in_style SBlue (br_label r)).
  { unfold tail, row_tail, cells. cbn [flat_map fst snd]. rewrite app_nil_r. f_equal. unfold in_style. f_equal.
    destruct (br_indent r) as [|n]; [reflexivity|]. rewrite indent_text. f_equal; lia. }
  clearbody tail. set (n := (2 * Nat.max 1 (br_indent r))%nat) in *. clearbody n. generalize dependent (br_moneys r). clear -Ht. intros ms Hn Z.
  assert (G : exists ps init x, mapM money_piece ms = Ok ps /\ ps = init ++ [x] /\ amounts_coloured n (br_label r) ms (map (fun y : piece => [y]) init ++ [[x] ++ tail])).
  { induction Z as [|m ms Hm Z IH]; [congruence|]. destruct (money_piece_ok m Hm) as (s & f & E & A). cbn [mapM]. rewrite E. cbn [bind].
    destruct Z as [|m' ms Hm' Z].
    - exists [(s, f)], [], (s, f). split; [reflexivity|]. split; auto. cbn [map app]. eapply ac_last; [exact A|]. change (cells ([(s, f)] ++ tail) = in_style s f ++ in_style SPlain (repeat c_sp n) ++ in_style SBlue (br_label r)). rewrite cells_app, cells_one, Ht. auto.
    - destruct IH as (ps & init & x & E2 & -> & P); [discriminate|]. rewrite E2. cbn [bind]. exists ((s, f) :: init ++ [x]), ((s, f) :: init), x. split; auto. split; auto.
      cbn [map app]. apply ac_more; auto. rewrite cells_one. auto. }
  destruct G as (ps & init & x & E & -> & P). rewrite E. cbn [bind]. eexists. split; [|exact P].
  assert (Em : forall d : list piece, match init ++ [x] with [] => d | _ :: _ => init ++ [x] end = init ++ [x]) by (destruct init; auto). rewrite Em.
  rewrite map_app, rev_app_distr. cbn [map rev app]. rewrite rev_involutive. reflexivity.
Qed.

(** "balance": amounts below zero are red, the names of the accounts blue, nothing else is coloured. *)
Theorem C82_balance : forall depth w flat no_total o file lines, world_ok w ->
  run_coloured depth w (CBalance flat no_total) o file = Ok lines ->
  exists items lg r, tokenize_file depth w file = Ok items /\ to_ledger w (o_no_balance_check o) items = Ok lg /\
    balance_report w (report_site lg) o flat (negb no_total) lg = Ok r /\ balance_coloured r lines.
Proof.
  intros depth w flat nt o file lines Hw H. unfold run_coloured in H. bind_inv H. bind_inv H. cbn zeta in H. bind_inv H. rename a1 into r. exists a, a0, r. do 3 (split; auto).
  pose proof (report_rows_amounts _ _ _ _ _ _ _ Hw Hb1) as A. destruct (report_amounts _ _ _ _ _ _ _ Hw Hb1) as [B C]. unfold report_clines in H.
  assert (G : exists gs, mapM row_clines (bp_rows r) = Ok gs /\ Forall2 row_coloured (bp_rows r) gs).
  { unfold rows_have_amounts in A. revert A B. generalize (bp_rows r). clear. intros rows A B. induction A as [|x rows Hx A IH]; [exists []; auto|].
    inversion B as [|? ? B1 B2]; subst. destruct (row_clines_ok x Hx B1) as (ls & E & R). destruct IH as (gs & E2 & F); auto. cbn [mapM]. rewrite E, E2. exists (ls :: gs). auto. }
  destruct G as (gs & E & F). rewrite E in H. cbn [bind] in H. bind_inv H. inv H. exists gs, a1. split; auto. split; auto.
  destruct (bp_total r) as [ms|]; cbn [total_coloured]; [|inv Hb2; auto]. bind_inv Hb2. inv Hb2. eexists _, _. split; [reflexivity|]. split; [apply cells_one|].
  assert (T : forall m, In m ms -> forall p, total_piece m = Ok p -> amount_cells m (in_style (fst p) (snd p))).
  { intros m Hm p Hp. destruct (m_is_zero m) eqn:Z.
    - assert (m = MZero).
      { destruct C as [-> |C]; [destruct Hm as [<-|[]]; auto|]. unfold all_nonzero in C. rewrite Forall_forall in C. rewrite (C m Hm) in Z. discriminate. }
      subst m. inv Hp. exists (L "0"), (pad_left 20 (L "0")), SPlain. split; [reflexivity|]. split; [apply pad_left_at|]. split; [|reflexivity]. right. auto.
    - destruct m as [|q c]; [discriminate|]. cbn [total_piece] in Hp. destruct (money_piece_ok (M q c) Z) as (s & f & E2 & A2). rewrite E2 in Hp. inv Hp. auto. }
  clear -T Hb3. revert a2 Hb3. induction ms as [|m ms IH]; intros ps H; cbn [mapM] in H; [inv H; constructor|].
  bind_inv H. bind_inv H. inv H. cbn [map]. constructor; [|apply IH; auto; intros; apply T; auto; right; auto].
  specialize (T m (or_introl eq_refl) _ Hb). destruct a. rewrite cells_one. auto.
Qed.
Print Assumptions C82_balance.

Definition fine_total (r : rrow) : Prop := rr_total r = [MZero] \/ all_nonzero (rr_total r).
Lemma register_postings_fine w : world_ok w -> forall ps site t first b pays rows b2 pays2, wf_bal b ->
  register_postings w site t first ps b pays = Ok (rows, b2, pays2) -> wf_bal b2 /\ Forall fine_total rows.
Proof.
  intros Hw. induction ps as [|p ps IH]; intros site t first b pays rows b2 pays2 W H; cbn [register_postings] in H; [inv H; auto|].
  bind_inv H. destruct a as [h pays1]. bind_inv H. bind_inv H. destruct a0 as [[rows' b'] pays']. inv H.
  destruct (IH _ _ _ _ _ _ _ _ (proj1 (running_ok b a W)) Hb1) as [W2 F]. split; auto. constructor; auto.
  unfold fine_total. cbn [rr_total]. destruct (run_shown w site b a Hw W) as [E|[[_ S] _]]; auto.
Qed.
Lemma register_txns_fine w : world_ok w -> forall sel site b pays rows, wf_bal b ->
  register_txns w site sel b pays = Ok rows -> Forall fine_total rows.
Proof.
  intros Hw. induction sel as [|[t ps] sel IH]; intros site b pays rows W H; cbn [register_txns] in H; [inv H; constructor|].
  bind_inv H. destruct a as [[r1 b1] p1]. bind_inv H. inv H. destruct (register_postings_fine w Hw _ _ _ _ _ _ _ _ _ W Hb) as [W1 F].
  apply Forall_app. split; eauto.
Qed.
Lemma running_pieces n ms : (forall m, In m ms -> m = MZero \/ m_is_zero m = false) ->
  exists ps, mapM (running_piece n) ms = Ok ps /\
    Forall2 (fun m p => exists text, amount_text m text /\ at_right n text (snd p) /\ colour_of m (fst p)) ms ps.
Proof.
  intros H. induction ms as [|m ms IH]; [exists []; split; [reflexivity|constructor]|].
  destruct IH as (ps & E & F); [intros; apply H; right; auto|]. cbn [mapM]. unfold running_piece at 1. destruct (show_text m) as (t & Et & T). rewrite Et. cbn [bind].
  rewrite E. cbn [bind]. eexists. split; [reflexivity|]. constructor; auto. exists t. cbn [fst snd]. split; auto. split; [apply pad_left_at|]. apply running_colour. apply H. left. auto.
Qed.
Lemma rrow_clines_ok w r : has_total r -> fine_total r -> exists ls, rrow_clines w r = Ok ls /\ entry_coloured (w_width w) colour_of_entry r ls.
Proof.
  intros H T. unfold rrow_clines. pose proof (widths_columns w) as C. destruct (register_widths w) as [ca cm]. cbn [fst snd] in C.
  destruct (show_text (rr_amount r)) as (ta & Ea & Ta). rewrite Ea. cbn [bind].
  destruct (running_pieces cm (rr_total r)) as (ps & E & F).
  { intros m Hm. destruct T as [T|T]; [left; rewrite T in Hm; destruct Hm as [<-|[]]; auto|right]. unfold all_nonzero in T. rewrite Forall_forall in T. auto. }
  rewrite E. cbn [bind]. unfold has_total in H. destruct (rr_total r) as [|m ms] eqn:Et; [congruence|].
  inversion F as [|? p ? ps' (tm & Tm & Rm & Cm) F']; subst. destruct p as [st t]. cbn [fst snd] in *. eexists. split; [reflexivity|].
  eapply ec with (acc := pad_right ca (rr_account r)) (a := pad_left cm ta) (t := t); eauto using pad_left_at, pad_right_at, entry_colour.
  - instantiate (1 := match rr_head r with Some (d, p) => pad_right 11 (date_text d) ++ pad_right 42 (clip (p ++ [c_sp]) 42) | None => pad_right 53 [] end).
    unfold heading_printed. destruct (rr_head r) as [[d p]|]; [|reflexivity].
    exists (pad_right 11 (date_text d)), (pad_right 42 (clip (p ++ [c_sp]) 42)), (date_text d), (clip (p ++ [c_sp]) 42).
    split; [auto|]. split; [apply pad_right_at|]. split; [apply pad_right_at|]. split; [|apply clip_cut_short].
    destruct (C63_printed_dates w1 d) as (y & mm & dd & X & Y). exists y, mm, dd. split; auto. intros Hy. apply Y. auto.
  - unfold cells. cbn [flat_map fst snd app]. rewrite app_nil_r. reflexivity.
  - clear -F'. induction F' as [|m [s f] ms ps (tx & X1 & X2 & X3) F IH]; cbn [map]; constructor; auto. cbn [fst snd] in *. exists tx, f, s. do 3 (split; auto).
    unfold cells. cbn [flat_map fst snd]. rewrite app_nil_r. reflexivity.
Qed.
(** "register": accounts blue, running totals red when below zero, amounts as [colour_of_entry] tells. *)
Theorem C82_register : forall depth w o file lines, world_ok w -> run_coloured depth w CRegister o file = Ok lines ->
  exists items lg rows groups, tokenize_file depth w file = Ok items /\ to_ledger w (o_no_balance_check o) items = Ok lg /\
    register_report w (report_site lg) o lg = Ok rows /\ lines = concat groups /\
    Forall2 (entry_coloured (w_width w) colour_of_entry) rows groups.
Proof.
  intros depth w o file lines Hw H. unfold run_coloured in H. bind_inv H. bind_inv H. cbn zeta in H. bind_inv H. rename a1 into rows.
  assert (T : Forall has_total rows /\ Forall fine_total rows).
  { unfold register_report in Hb1. bind_inv Hb1. bind_inv Hb1. destruct a2. split; [eapply register_txns_totals; eauto|eapply register_txns_fine; eauto; apply wf_nil]. }
  destruct T as [T1 T2]. assert (G : exists groups, mapM (rrow_clines w) rows = Ok groups /\ Forall2 (entry_coloured (w_width w) colour_of_entry) rows groups).
  { clear -T1 T2. induction T1 as [|x l Hx T1 IH]; [exists []; auto|]. inversion T2 as [|? ? F1 F2]; subst. destruct (IH F2) as (gs & E & F).
    destruct (rrow_clines_ok w x Hx F1) as (ls & El & Fl). cbn [mapM]. rewrite El, E. cbn. exists (ls :: gs). auto. }
  destruct G as (gs & E & F). unfold register_clines in H. rewrite E in H. inv H. exists a, a0, rows, gs. auto 6.
Qed.
Print Assumptions C82_register.
(** Red exactly below zero, in both columns, if no amount is the zero without a commodity. *)
Theorem C82_register_partial : forall depth w o file lines, world_ok w -> run_coloured depth w CRegister o file = Ok lines ->
  exists items lg rows groups, tokenize_file depth w file = Ok items /\ to_ledger w (o_no_balance_check o) items = Ok lg /\
    register_report w (report_site lg) o lg = Ok rows /\ lines = concat groups /\
    ((forall row, In row rows -> rr_amount row <> MZero) -> Forall2 (entry_coloured (w_width w) colour_of) rows groups).
Proof.
  intros depth w o file lines Hw H. destruct (C82_register _ _ _ _ _ Hw H) as (items & lg & rows & groups & H1 & H2 & H3 & H4 & F).
  exists items, lg, rows, groups. do 4 (split; auto). intros Z. clear -F Z. induction F as [|r g rows gs E F IH]; constructor; [|apply IH; intros; apply Z; right; auto].
  destruct E as [ca cm h acc a ta sa m tm t st ms l more X1 X2 X3 X4 X5 X6 X7 X8 X9 X10 X11 X12]. eapply ec; eauto.
  destruct X6 as [[X6 _]|[_ X6]]; auto. exfalso. apply (Z r); [left|]; auto.
Qed.
Print Assumptions C82_register_partial.
(** The other commands print without colours. *)
Theorem C82_lists : forall depth w c o file lines, In c [CAccounts; CPayees; CPrices; CCommodities] ->
  run_coloured depth w c o file = Ok lines -> exists texts, map cells lines = map (in_style SPlain) texts.
Proof.
  intros depth w c o file lines Hc H.
  assert (P : forall ls, map cells (plain_lines ls) = map (in_style SPlain) ls).
  { intros ls. unfold plain_lines. rewrite map_map. apply map_ext. intros x. apply cells_one. }
  unfold run_coloured in H. bind_inv H. cbn in Hc. destruct Hc as [<-|[<-|[<-|[<-|[]]]]]; bind_inv H; cbn zeta in H; try (bind_inv H); inv H; eauto.
Qed.
Print Assumptions C82_lists.

(** ** Cases *)
Definition t82 := ["2021-01-01 a"; "  A  10 EUR"; "  B"; "2021-01-02 b"; "  A  = 10 EUR"; "  B  "]%string.
Definition w82 := w65 t82.
(** An amount that is zero, not below it, is printed red. *)
Theorem C82_zero_red_refuted : world_ok w82 /\ exists lines, run_coloured 2 w82 CRegister plain_opts (L "book") = Ok lines /\
  nth_error lines 2 = Some [(SPlain, L "2021-01-02 b                                         "); (SBlue, pad_right 34 (L "A")); (SRed, pad_left 17 (L "0")); (SPlain, pad_left 17 (L "0"))] /\
  ~ below_zero MZero.
Proof.
  split; [split; [intros; apply Permutation_refl|exact ascii_lower_idem]|]. eexists. split; [vm_compute; reflexivity|]. split; [reflexivity|]. intros [].
Qed.
Print Assumptions C82_zero_red_refuted.
(** The colours of each command on small journals. *)
Example C82_case : world_ok w82 /\
  run_coloured 2 w82 (CBalance true false) plain_opts (L "book") = Ok
    [[(SPlain, L "           10.00 EUR"); (SPlain, L "  "); (SBlue, L "A")]; [(SRed, L "          -10.00 EUR"); (SPlain, L "  "); (SBlue, L "B")];
     [(SPlain, L "--------------------")]; [(SPlain, L "                   0")]] /\
  match run_coloured 2 (w65 ["2021-01-01 a"; "  A  10 EUR"; "  B  -10 EUR"]%string) CRegister plain_opts (L "book") with
  | Ok lines => map (map fst) lines = [[SPlain; SBlue; SPlain; SPlain]; [SPlain; SBlue; SRed; SPlain]]
  | _ => False end /\
  check_clines 2 w82 (L "book") = [[(SPlain, L "Input file "); (SBold, L "book"); (SPlain, L " is "); (SGreenBold, L "OK")]] /\
  check_clines 2 (w65 ["2021-01-01 a"; "  A  10 EUR"; "  B  -9 EUR"]%string) (L "book") = [[(SPlain, L "Input file "); (SBold, L "book"); (SPlain, L " is "); (SRedBold, L "KO")]] /\
  run_coloured 2 w82 CCommodities plain_opts (L "book") = Ok [[(SPlain, L "EUR")]].
Proof.
  split; [split; [intros; apply Permutation_refl|exact ascii_lower_idem]|]. split; [vm_compute; reflexivity|]. split; [vm_compute; reflexivity|].
  split; [vm_compute; reflexivity|]. split; vm_compute; reflexivity.
Qed.
