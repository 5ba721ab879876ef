(** Property C69: the printed text of the reports. *)
From Coq Require Import Lia.
From Verif Require Import Base BaseFacts Numerals Money Alist Comment Txn Dates Expr Filter Price Tokens Ledger Reports App Spec SpecText SpecDates
  SpecLayout SpecList SpecTxn SpecLedger SpecReports PropDisplay DateFacts PropDates PropTxn PropLedger ReportFacts PropReports PropApp.

Lemma pad_left_at n s : at_right n s (pad_left n s).
Proof. split; [exists (n - length s)%nat; auto|]. unfold pad_left. rewrite app_length, repeat_length. lia. Qed.
Lemma pad_right_at n s : at_left n s (pad_right n s).
Proof. split; [exists (n - length s)%nat; auto|]. unfold pad_right. rewrite app_length, repeat_length. lia. Qed.
Lemma show_text m : exists text, show m = Ok text /\ amount_text m text.
Proof.
  unfold show, m_display. destruct m as [|a c]; [exists (L "0"); split; reflexivity|].
  destruct (C07_display_exact 2 a c) as (text & neg & r & E & F & N & _); [lia|]. exists text. split; [exact E|]. exists neg, r. auto.
Qed.
Lemma shows_texts ms : exists texts, mapM show ms = Ok texts /\ Forall2 amount_text ms texts.
Proof.
  induction ms as [|m ms (ts & E & F)]; cbn [mapM]; [exists []; auto|].
  destruct (show_text m) as (t & Et & Ft). rewrite Et, E. cbn. exists (t :: ts). auto.
Qed.
Lemma indent_text n : flat_map (fun _ : nat => [c_sp; c_sp]) (seq 0 n) = repeat c_sp (2 * n).
Proof.
  replace (2 * n)%nat with (n + n)%nat by lia. generalize 0%nat. induction n as [|n IH]; intros k; auto.
  cbn [seq flat_map]. rewrite IH. replace (S n + S n)%nat with (S (S (n + n))) by lia. auto.
Qed.
Lemma amounts_ok tail ms texts : Forall2 amount_text ms texts -> ms <> [] ->
  exists ls, match rev (map (pad_left 20) texts) with [] => Ok [] | x :: r' => Ok (rev r' ++ [x ++ tail]) end = Ok ls /\
    amounts_printed tail ms ls.
Proof.
  intros F Hn.
  assert (G : exists init x, map (pad_left 20) texts = init ++ [x] /\ amounts_printed tail ms (init ++ [x ++ tail])).
  { induction F as [|m t ms texts H F IH]; [congruence|]. destruct F as [|m' t' ms texts H' F'].
    - exists [], (pad_left 20 t). split; auto. cbn. eapply ap_last; eauto. apply pad_left_at.
    - destruct IH as (init & x & E & P); [discriminate|]. exists (pad_left 20 t :: init), x. cbn [map] in *. rewrite E. split; auto.
      cbn. eapply ap_more; eauto. apply pad_left_at. }
  destruct G as (init & x & E & P). rewrite E, rev_app_distr. cbn. rewrite rev_involutive. eauto.
Qed.
Lemma row_lines_ok r : br_moneys r <> [] -> exists ls, row_lines r = Ok ls /\ row_printed r ls.
Proof.
  intros H. unfold row_lines, row_printed. destruct (shows_texts (br_moneys r)) as (ts & E & F). rewrite E. cbn [bind].
  assert (Ht : ts <> []) by (intros ->; inversion F; congruence).
  replace (match ts with [] => [L "0"] | _ :: _ => ts end) with ts by (destruct ts; congruence).
  assert (X : match br_indent r with O => [c_sp; c_sp] ++ br_label r
           | S n0 => flat_map (fun _ : nat => [c_sp; c_sp]) (seq 0 (S n0)) ++ br_label r end
    = repeat c_sp (2 * Nat.max 1 (br_indent r)) ++ br_label r).
  { destruct (br_indent r) as [|n]; [reflexivity|]. rewrite indent_text. auto. }
  cbv zeta. rewrite X. apply amounts_ok; auto.
Qed.
Definition rows_have_amounts (r : breport) : Prop := Forall (fun row => br_moneys row <> []) (bp_rows r).
Lemma report_lines_ok r : rows_have_amounts r -> exists lines, report_lines r = Ok lines /\ balance_printed r lines.
Proof.
  intros H. unfold report_lines, balance_printed.
  assert (G : exists groups, mapM row_lines (bp_rows r) = Ok groups /\ Forall2 row_printed (bp_rows r) groups).
  { unfold rows_have_amounts in H. induction H as [|x l Hx _ (gs & E & F)]; cbn [mapM]; [exists []; auto|].
    destruct (row_lines_ok x Hx) as (ls & El & Fl). rewrite El, E. cbn. exists (ls :: gs). auto. }
  destruct G as (gs & E & F). rewrite E. cbn [bind]. unfold total_printed. destruct (bp_total r) as [ms|].
  - destruct (shows_texts ms) as (ts & Et & Ft). rewrite Et. cbn [bind]. eexists. split; [reflexivity|].
    exists gs. eexists. split; [reflexivity|]. split; auto. eexists. split; [reflexivity|]. clear -Ft.
    induction Ft; cbn; constructor; auto. eexists. split; eauto. apply pad_left_at.
  - cbn [bind]. eexists. split; [reflexivity|]. exists gs, []. auto.
Qed.
Lemma print_rows_amounts w : world_ok w -> forall fuel site flat depth l,
  Forall (fun row => br_moneys row <> []) (print_rows fuel w site flat depth l).
Proof.
  intros Hw. induction fuel as [|f IH]; intros site flat depth l; cbn [print_rows]; [constructor|].
  destruct l as [|[a b] rest]; [constructor|]. destruct (match depth with Some _ => _ | None => _ end); auto.
  destruct (bal_is_zero b) eqn:E; auto.
  assert (N : map snd (w_ord w site _ b) <> []).
  { intros X. destruct (w_ord w site _ b) eqn:Eo; [|discriminate]. pose proof (proj1 Hw site _ b) as P. rewrite Eo in P.
    apply Permutation_nil in P. subst b. discriminate. }
  destruct flat; [constructor; cbn; auto|]. destruct (collapse _ _ _ _). constructor; cbn; auto.
Qed.
Lemma report_rows_amounts w site o flat tot lg r : world_ok w -> balance_report w site o flat tot lg = Ok r -> rows_have_amounts r.
Proof.
  intros Hw H. unfold balance_report in H. bind_inv H. bind_inv H. destruct a0 as [sel cs]. bind_inv H. bind_inv H. bind_inv H. destruct a2 as [mults vb1].
  destruct (tot && _); [bind_inv H|]; inv H; apply print_rows_amounts; auto.
Qed.

(** What "balance" prints. *)
Theorem C69_balance : forall depth w flat no_total o file lines, world_ok w ->
  run_cmd depth w (CBalance flat no_total) o file = Ok lines ->
  exists items lg r, tokenize_file depth w file = Ok items /\ to_ledger w (o_no_balance_check o) items = Ok lg /\
    balance_report w (report_site lg) o flat (negb no_total) lg = Ok r /\ balance_printed r lines.
Proof.
  intros depth w flat nt o file lines Hw H. unfold run_cmd, run_on in H. bind_inv H. bind_inv H. bind_inv H.
  destruct (report_lines_ok a1) as (ls & E & B); [eapply report_rows_amounts; eauto|]. exists a, a0, a1. do 3 (split; auto).
  rewrite E in H. inv H. auto.
Qed.
Print Assumptions C69_balance.

Lemma running_nonempty b m : running_add b m <> [].
Proof.
  unfold running_add. destruct (bal_is_zero _) eqn:E; [discriminate|]. intros X. rewrite X in E. discriminate.
Qed.
Definition has_total (r : rrow) : Prop := rr_total r <> [].
Lemma register_postings_totals w : world_ok w -> forall ps site t first b pays rows b2 pays2,
  register_postings w site t first ps b pays = Ok (rows, b2, pays2) -> Forall has_total rows.
Proof.
  intros Hw. induction ps as [|p ps IH]; intros site t first b pays rows b2 pays2 H; cbn [register_postings] in H; [inv H; constructor|].
  bind_inv H. destruct a as [h pays1]. bind_inv H. bind_inv H. destruct a0 as [[rows' b'] pays']. inv H. constructor; [|eapply IH; eauto].
  unfold has_total. cbn. intros X. destruct (w_ord w site _ (running_add b a)) eqn:Eo; [|discriminate].
  pose proof (proj1 Hw site _ (running_add b a)) as P. rewrite Eo in P. apply Permutation_nil in P.
  apply (running_nonempty b a). auto.
Qed.
Lemma register_txns_totals w : world_ok w -> forall sel site b pays rows,
  register_txns w site sel b pays = Ok rows -> Forall has_total rows.
Proof.
  intros Hw. induction sel as [|[t ps] sel IH]; intros site b pays rows H; cbn [register_txns] in H; [inv H; constructor|].
  bind_inv H. destruct a as [[r1 b1] p1]. bind_inv H. inv H. apply Forall_app. split; [eapply register_postings_totals; eauto|eauto].
Qed.
Lemma clip_cut_short s : cut_short s (clip s 42).
Proof.
  destruct (C60_clip s 42) as [H1 H2]; [lia|]. split; [auto|]. split; [cbn in H2; lia|]. intros Ha Hl.
  apply C60_short_text_unchanged; auto.
Qed.
Lemma widths_columns w : columns (w_width w) (fst (register_widths w)) (snd (register_widths w)).
Proof.
  unfold register_widths, columns. destruct (w_width w) as [n|]; [|right; repeat split; auto; intros n X; discriminate X].
  destruct (Nat.leb_spec n (11 + 42 + 21 + 21)); cbn [fst snd].
  - right. split; auto. intros k X. injection X as <-. lia.
  - left. split; [exists n; split; auto; lia|]. split; auto. f_equal. lia.
Qed.
Lemma rrow_lines_ok w r : has_total r -> exists ls, rrow_lines w r = Ok ls /\ entry_printed (w_width w) r ls.
Proof.
  intros H. unfold rrow_lines. pose proof (widths_columns w) as C. destruct (register_widths w) as [ca cm]. cbn [fst snd] in C.
  destruct (show_text (rr_amount r)) as (ta & Ea & Ta). rewrite Ea. cbn [bind].
  destruct (shows_texts (rr_total r)) as (ts & Es & F). rewrite Es. cbn [bind]. unfold has_total in H.
  destruct (rr_total r) as [|m ms] eqn:Et; [congruence|]. inversion F as [|? t ? ts' Tm F']; subst. eexists. split; [reflexivity|].
  rewrite <- !app_assoc. eapply ep; eauto using pad_left_at, pad_right_at.
  - unfold heading_printed. destruct (rr_head r) as [[d p]|]; [|reflexivity].
    exists (pad_right 11 (date_text d)), (pad_right 42 (clip (p ++ [c_sp]) 42)), (date_text d), (clip (p ++ [c_sp]) 42).
    split; [auto|]. split; [apply pad_right_at|]. split; [apply pad_right_at|]. split; [|apply clip_cut_short].
    destruct (C63_printed_dates w1 d) as (y & mm & dd & X & Y). exists y, mm, dd. split; auto. intros Hy. apply Y. auto.
  - clear -F'. induction F'; cbn; constructor; auto. do 2 eexists. split; eauto. split; [apply pad_left_at|auto].
Qed.
(** What "register" prints. *)
Theorem C69_register : forall depth w o file lines, world_ok w -> run_cmd depth w CRegister o file = Ok lines ->
  exists items lg rows groups, tokenize_file depth w file = Ok items /\ to_ledger w (o_no_balance_check o) items = Ok lg /\
    register_report w (report_site lg) o lg = Ok rows /\ lines = concat groups /\ Forall2 (entry_printed (w_width w)) rows groups.
Proof.
  intros depth w o file lines Hw H. unfold run_cmd, run_on in H. bind_inv H. bind_inv H. bind_inv H.
  assert (T : Forall has_total a1).
  { unfold register_report in Hb1. bind_inv Hb1. bind_inv Hb1. destruct a3. eapply register_txns_totals; eauto. }
  assert (G : exists groups, mapM (rrow_lines w) a1 = Ok groups /\ Forall2 (entry_printed (w_width w)) a1 groups).
  { clear -T. induction T as [|x l Hx _ (gs & E & F)]; cbn [mapM]; [exists []; auto|].
    destruct (rrow_lines_ok w x Hx) as (ls & El & Fl). rewrite El, E. cbn. exists (ls :: gs). auto. }
  destruct G as (gs & E & F). unfold register_lines in H. rewrite E in H. inv H. exists a, a0, a1, gs. auto 6.
Qed.
Print Assumptions C69_register.
(** Every line is as wide as the terminal if account and amounts fit in their columns. *)
Theorem C69_as_wide_as_the_terminal : forall n r lines, entry_printed (Some n) r lines -> (95 < n)%nat ->
  (length (rr_account r) <= n - 95)%nat ->
  (forall m text, In m (rr_amount r :: rr_total r) -> amount_text m text -> (length text <= 21)%nat) ->
  (forall day p, rr_head r = Some (day, p) -> exists y m d, day_count y m d day /\ (0 <= y <= 9999)%Z) ->
  Forall (fun line => length line = n) lines.
Proof.
  intros n r lines H Hn Ha Hm Hy. destruct H as [ca cm h acc a ta m tm t ms more C H1 [_ H2] H3 [_ H4] Et H5 [_ H6] F].
  destruct C as [(_ & -> & C)|(C & _)]; [|specialize (C n eq_refl); lia]. assert (C' : n = (53 + ca + 21 + 21)%nat) by congruence. clear C.
  assert (L1 : length h = 53%nat).
  { unfold heading_printed in H1. destruct (rr_head r) as [[day p]|]; [|subst h; apply repeat_length].
    destruct H1 as (d & p0 & date & shown & -> & [_ D1] & [_ D2] & (y & mo & dd & D3 & D4) & (_ & D5 & _)).
    destruct (Hy day p eq_refl) as (y' & m' & d' & Y1 & Y2).
    pose proof (proj1 (proj2 (C63_order _ _ _ _ _ _ _ _ D3 Y1)) eq_refl) as Ey. injection Ey as -> -> ->.
    destruct (D4 Y2) as (ty & tmo & td & x1 & x2 & -> & T1 & _ & (_ & _ & T2 & _) & (_ & _ & T3 & _) & _).
    rewrite app_length, D1, D2. rewrite app_length in *. cbn [length] in *. rewrite app_length in *. cbn [length] in *. lia. }
  assert (L2 : (length ta <= 21)%nat) by (apply (Hm (rr_amount r)); [left|]; auto).
  assert (L3 : (length tm <= 21)%nat) by (apply (Hm m); [right; rewrite Et; left|]; auto).
  constructor.
  - rewrite !app_length. lia.
  - assert (G : forall x, In x ms -> forall text, amount_text x text -> (length text <= 21)%nat).
    { intros x Hx text. apply Hm. right. rewrite Et. right. auto. }
    clear -F G C'. induction F as [|x line ms more (text & f & T1 & [_ T2] & ->) F IH]; constructor; [|apply IH; intros; eapply G; [right|]; eauto].
    specialize (G x (or_introl eq_refl) text T1). rewrite app_length, repeat_length. lia.
Qed.
Print Assumptions C69_as_wide_as_the_terminal.

(** ** The printed balance report tells what it is about *)
Fixpoint strip (s : str) : str := match s with c :: r => if (c =? c_sp)%N then strip r else s | [] => [] end.
Fixpoint cut (s : str) : str * str :=
  match s with
  | c :: r => if ((c =? c_sp)%N && match r with c2 :: _ => (c2 =? c_sp)%N | [] => false end)%bool then ([], s)
              else let (a, b) := cut r in (c :: a, b)
  | [] => ([], [])
  end.
Definition starts_solid (s : str) : Prop := match s with c :: _ => c <> c_sp | [] => False end.
Lemma strip_spaces k s : starts_solid s -> strip (repeat c_sp k ++ s) = s.
Proof.
  intros H. induction k; cbn [repeat app strip]; auto. destruct s as [|c s]; [destruct H|]. cbn. destruct (N.eqb_spec c c_sp); [contradiction|auto].
Qed.
Lemma cut_word w x : ~ In c_sp w -> cut (w ++ x) = (w ++ fst (cut x), snd (cut x)).
Proof.
  induction w as [|c w IH]; intros H; cbn [app]; [destruct (cut x); auto|].
  cbn [cut]. destruct (N.eqb_spec c c_sp); [exfalso; apply H; left; auto|]. cbn [andb].
  rewrite IH by (intros X; apply H; right; auto). auto.
Qed.
Definition gap (x : str) : Prop := x = [] \/ exists y, x = c_sp :: c_sp :: y.
Lemma cut_gap x : gap x -> cut x = ([], x).
Proof. intros [->|(y & ->)]; reflexivity. Qed.
Lemma cut_tidy t x : tidy t -> gap x -> cut (t ++ x) = (t, x).
Proof.
  intros (ws & Hn & F & ->) G. induction F as [|w ws [H1 H2] F IH]; [congruence|].
  destruct ws as [|w' ws].
  - cbn [join]. rewrite cut_word, cut_gap by auto. cbn. rewrite app_nil_r. auto.
  - change (join [c_sp] (w :: w' :: ws)) with (w ++ [c_sp] ++ join [c_sp] (w' :: ws)). rewrite <- !app_assoc, cut_word by auto.
    assert (E : cut ([c_sp] ++ join [c_sp] (w' :: ws) ++ x) = (c_sp :: join [c_sp] (w' :: ws), x)).
    { inversion F as [|? ? [H3 H4] F']; subst. destruct w' as [|c w']; [congruence|].
      assert (Es : exists r, join [c_sp] ((c :: w') :: ws) ++ x = c :: r) by (destruct ws; cbn; eauto). destruct Es as (r & Es).
      cbn [app cut]. rewrite IH by discriminate. rewrite Es. destruct (N.eqb_spec c c_sp); [exfalso; apply H4; left; auto|].
      rewrite andb_false_r. auto. }
    rewrite E. auto.
Qed.
Lemma tidy_solid t x : tidy t -> starts_solid (t ++ x).
Proof.
  intros (ws & Hn & F & ->). destruct F as [|w ws [H1 H2] F]; [congruence|]. destruct w as [|c w]; [congruence|].
  assert (c <> c_sp) by (intros ->; apply H2; left; auto). destruct ws; cbn; auto.
Qed.
Lemma line_cut k t x : tidy t -> gap x -> cut (strip ((repeat c_sp k ++ t) ++ x)) = (t, x).
Proof. intros H G. rewrite <- app_assoc, strip_spaces by (apply tidy_solid; auto). apply cut_tidy; auto. Qed.

Lemma number_no_space neg ip fp : only_digits ip -> only_digits fp -> ~ In c_sp ((if neg : bool then L "-" else []) ++ ip ++ L "." ++ fp).
Proof.
  intros H1 H2 X. rewrite !in_app_iff in X. destruct X as [X|[X|[X|X]]].
  - destruct neg; cbn in X; [destruct X as [X|[]]; discriminate|destruct X].
  - apply H1 in X. unfold c_sp in X. lia.
  - destruct X as [X|[]]; discriminate.
  - apply H2 in X. unfold c_sp in X. lia.
Qed.
Lemma amount_tidy m t : tidy_money m -> amount_text m t -> tidy t.
Proof.
  destruct m as [|a c]; cbn.
  - intros _ ->. exists [L "0"]. split; [discriminate|]. split; [|reflexivity]. constructor; auto. split; [discriminate|]. intros [X|[]]. discriminate.
  - intros (ws & Hn & F & ->) (neg & r & (ip & fp & -> & H1 & H2 & H3 & _) & _).
    exists (((if neg then L "-" else []) ++ ip ++ L "." ++ fp) :: ws). split; [discriminate|]. split.
    + constructor; auto. split; [|apply number_no_space; auto]. destruct neg, ip; try discriminate; congruence.
    + destruct ws; [congruence|]. cbn [join]. rewrite <- !app_assoc. auto.
Qed.
Lemma split_space a x b y : ~ In c_sp a -> ~ In c_sp b -> a ++ c_sp :: x = b ++ c_sp :: y -> a = b /\ x = y.
Proof.
  revert b. induction a as [|c a IH]; intros [|d b] Ha Hb E; cbn in E; [injection E as E2|injection E as E1 E2..].
  - auto.
  - exfalso. apply Hb. left. auto.
  - exfalso. apply Ha. left. auto.
  - destruct (IH b) as [-> ->]; auto. intros X. apply Ha. right. auto. intros X. apply Hb. right. auto. subst. auto.
Qed.
Lemma split_dot a x b y : only_digits a -> only_digits b -> a ++ c_dot :: x = b ++ c_dot :: y -> a = b /\ x = y.
Proof.
  revert b. induction a as [|c a IH]; intros [|d b] Ha Hb E; cbn in E; [injection E as E2|injection E as E1 E2..].
  - auto.
  - exfalso. specialize (Hb d (or_introl eq_refl)). unfold c_dot in *. lia.
  - exfalso. specialize (Ha c (or_introl eq_refl)). unfold c_dot in *. lia.
  - destruct (IH b) as [-> ->]; auto; [intros z Hz; apply Ha; right; auto|intros z Hz; apply Hb; right; auto|]. subst. auto.
Qed.
Lemma amount_same m m' t : amount_text m t -> amount_text m' t -> same_money m m'.
Proof.
  assert (Z : forall neg r c, ~ fixed_point (L "0") neg 2 r c).
  { intros neg r c (ip & fp & E & H1 & _). assert (In c_dot (L "0")).
    { rewrite E. rewrite !in_app_iff. right. right. left. left. auto. }
    destruct H as [X|[]]. discriminate. }
  destruct m as [|a c], m' as [|a' c']; cbn.
  - auto.
  - intros -> (neg & r & F & _). exfalso. eapply Z; eauto.
  - intros (neg & r & F & _) ->. exfalso. eapply Z; eauto.
  - intros (neg & r & (ip & fp & E & H1 & H2 & H3 & H4 & H5 & H6) & N) (neg' & r' & (ip' & fp' & E' & H1' & H2' & H3' & H4' & H5' & H6') & N').
    assert (X : ((if neg then L "-" else []) ++ ip ++ L "." ++ fp) ++ c_sp :: c = ((if neg' then L "-" else []) ++ ip' ++ L "." ++ fp') ++ c_sp :: c').
    { rewrite E in E'. rewrite <- !app_assoc. exact E'. }
    apply split_space in X; [|apply number_no_space; auto|apply number_no_space; auto]. destruct X as [X ->].
    assert (Y : ip ++ c_dot :: fp = ip' ++ c_dot :: fp').
    { destruct neg, neg'; cbn [app] in X.
      - injection X as X. auto.
      - exfalso. destruct ip' as [|z ip']; [congruence|]. injection X as X _. specialize (H1' z (or_introl eq_refl)). unfold c_minus in *. lia.
      - exfalso. destruct ip as [|z ip]; [congruence|]. injection X as X _. specialize (H1 z (or_introl eq_refl)). unfold c_minus in *. lia.
      - auto. }
    apply split_dot in Y; auto. destruct Y as [-> ->]. split; auto. exists r. split; auto. congruence.
Qed.

Lemma amounts_inj tail ms ls : amounts_printed tail ms ls -> (exists y, tail = c_sp :: c_sp :: y) -> Forall tidy_money ms ->
  forall tail' ms' ls' x x', amounts_printed tail' ms' ls' -> (exists y, tail' = c_sp :: c_sp :: y) -> Forall tidy_money ms' ->
  ls ++ x = ls' ++ x' -> tail = tail' /\ Forall2 same_money ms ms' /\ x = x'.
Proof.
  assert (Q : forall t f t' f' y y', tidy t -> tidy t' -> at_right 20 t f -> at_right 20 t' f' -> gap y -> gap y' -> f ++ y = f' ++ y' -> t = t' /\ y = y').
  { intros t f t' f' y y' T T' [(k & ->) _] [(k' & ->) _] G G' E. apply (f_equal (fun s => cut (strip s))) in E.
    rewrite !line_cut in E by auto. injection E as -> ->. auto. }
  intros H Ht Hm. induction H as [m t f A R|m t f ms ls A R H IH]; intros tail' ms' ls' x x' H' Ht' Hm' E; destruct H' as [m' t' f' A' R'|m' t' f' ms' ls' A' R' H'].
  - cbn in E. injection E as E1 E2. apply Forall_inv in Hm as Hm1; apply Forall_inv in Hm' as Hm2.
    apply (Q t f t' f') in E1; eauto using amount_tidy; [|right; auto|right; auto]. destruct E1 as [-> ->]. split; auto. split; auto.
    constructor; auto. eapply amount_same; eauto.
  - exfalso. cbn in E. injection E as E1 _. apply Forall_inv in Hm as Hm1; apply Forall_inv in Hm' as Hm2. rewrite <- (app_nil_r f') in E1.
    apply (Q t f t' f') in E1; eauto using amount_tidy; [|right; auto|left; auto]. destruct E1 as [_ X]. destruct Ht as (y & ->). discriminate.
  - exfalso. cbn in E. injection E as E1 _. apply Forall_inv in Hm as Hm1; apply Forall_inv in Hm' as Hm2. rewrite <- (app_nil_r f) in E1.
    apply (Q t f t' f') in E1; eauto using amount_tidy; [|left; auto|right; auto]. destruct E1 as [_ X]. destruct Ht' as (y & ->). discriminate.
  - cbn in E. injection E as E1 E2. apply Forall_inv in Hm as Hm1; apply Forall_inv in Hm' as Hm2. apply Forall_inv_tail in Hm, Hm'. rewrite <- (app_nil_r f), <- (app_nil_r f') in E1.
    apply (Q t f t' f') in E1; eauto using amount_tidy; [|left; auto|left; auto]. destruct E1 as [-> _].
    destruct (IH Hm _ _ _ _ _ H' Ht' Hm' E2) as (X1 & X2 & X3). split; auto. split; auto. constructor; auto. eapply amount_same; eauto.
Qed.
Lemma not_dashes m t f y : amount_text m t -> at_right 20 t f -> f ++ y <> L "--------------------".
Proof.
  intros A [(k & ->) _] E. destruct k as [|k]; [|discriminate]. cbn [repeat app] in E. destruct m as [|a c]; cbn in A.
  - subst t. discriminate.
  - destruct A as (neg & r & (ip & fp & -> & H1 & _ & H3 & _) & _). destruct ip as [|z ip]; [congruence|].
    specialize (H1 z (or_introl eq_refl)). rewrite <- app_assoc in E. destruct neg; cbn in E; injection E; intros; subst; lia.
Qed.
Lemma tail_inj n n' l l' : tidy l -> tidy l' -> repeat c_sp n ++ l = repeat c_sp n' ++ l' -> n = n' /\ l = l'.
Proof.
  intros T T' E. assert (l = l').
  { pose proof (tidy_solid l [] T) as S. pose proof (tidy_solid l' [] T') as S'. rewrite app_nil_r in S, S'.
    apply (f_equal strip) in E. rewrite !strip_spaces in E by auto. auto. }
  subst. split; auto. apply (f_equal (@length N)) in E. rewrite !app_length, !repeat_length in E. lia.
Qed.
Theorem C69_unambiguous : forall r r' lines, tidy_report r -> tidy_report r' ->
  balance_printed r lines -> balance_printed r' lines ->
  Forall2 same_row (bp_rows r) (bp_rows r') /\
  match bp_total r, bp_total r' with Some ms, Some ms' => Forall2 same_money ms ms' | None, None => True | _, _ => False end.
Proof.
  intros r r' lines [T1 T2] [T1' T2'] (gs & tot & E & F & P) (gs' & tot' & E' & F' & P').
  subst lines. revert E'.
  assert (Tl : forall row, exists y, repeat c_sp (2 * Nat.max 1 (br_indent row)) ++ br_label row = c_sp :: c_sp :: y).
  { intros row. replace (2 * Nat.max 1 (br_indent row))%nat with (S (S (2 * Nat.max 1 (br_indent row) - 2))) by lia. cbn [repeat app]. eauto. }
  assert (Gn : forall row g, row_printed row g -> exists m t f y g', g = (f ++ y) :: g' /\ amount_text m t /\ at_right 20 t f).
  { intros row g H. inversion H; subst; do 5 eexists; (split; [|split; eauto]); eauto. rewrite app_nil_r. reflexivity. }
  assert (Tt : forall t tot row g x, total_printed t tot -> row_printed row g -> tot = g ++ x -> False).
  { intros t tt row g x H1 H2 E. destruct (Gn _ _ H2) as (m & tx & f & y & g' & -> & A & R). destruct t as [ms|]; cbn in H1.
    - destruct H1 as (fs & -> & _). injection E as E _. symmetry in E. revert E. eapply not_dashes; eauto.
    - subst. discriminate. }
  generalize dependent gs'. generalize dependent (bp_rows r'). induction F as [|row g rows gs H F IH]; intros rows' T1' gs' F' E'.
  - destruct F' as [|row' g' rows' gs' H' F'].
    + split; auto. cbn in E'. subst tot'. clear -P P' T2 T2'. destruct (bp_total r) as [ms|], (bp_total r') as [ms'|]; cbn in P, P'; auto.
      * destruct P as (fs & -> & P), P' as (fs' & E & P'). injection E as <-. revert T2 T2'. generalize dependent ms'.
        induction P as [|m f ms fs (t & A & [(k & ->) _]) P IH]; intros ms' P'; inversion P' as [|m' ? ? ? (t' & A' & [(k' & Ek) _]) P'']; subst; auto.
        intros T2 T2'. inversion T2; inversion T2'; subst. constructor; auto. apply (amount_same _ _ t); auto.
        replace t with t'; auto. apply (f_equal (fun s => cut (strip (s ++ [])))) in Ek.
        rewrite !line_cut in Ek by (eauto using amount_tidy; left; auto). injection Ek as ->. auto.
      * destruct P as (fs & -> & _). discriminate.
      * destruct P' as (fs & -> & _). discriminate.
    + exfalso. cbn in E'. rewrite <- app_assoc in E'. eapply Tt; [exact P|exact H'|exact E'].
  - destruct F' as [|row' g' rows' gs' H' F'].
    + exfalso. cbn in E'. rewrite <- app_assoc in E'. eapply Tt; [exact P'|exact H|]. eauto.
    + inversion T1 as [|? ? [L1 M1] T3]; inversion T1' as [|? ? [L1' M1'] T3']; subst. cbn in E'. rewrite <- !app_assoc in E'.
      destruct (amounts_inj _ _ _ H (Tl row) M1 _ _ _ _ _ H' (Tl row') M1' E') as (X1 & X2 & X3).
      destruct (IH T3 rows' T3' gs' F' X3) as [I1 I2]. split; auto. constructor; auto.
      apply tail_inj in X1; auto. destruct X1 as [X1 X4]. split; auto. split; auto. lia.
Qed.
Print Assumptions C69_unambiguous.

(** Printing itself never fails. *)
Theorem C69_printed : forall depth w o file items lg, world_ok w ->
  tokenize_file depth w file = Ok items -> to_ledger w (o_no_balance_check o) items = Ok lg ->
  (forall flat no_total r, balance_report w (report_site lg) o flat (negb no_total) lg = Ok r ->
    exists lines, run_cmd depth w (CBalance flat no_total) o file = Ok lines /\ balance_printed r lines) /\
  (forall rows, register_report w (report_site lg) o lg = Ok rows ->
    exists groups, run_cmd depth w CRegister o file = Ok (concat groups) /\ Forall2 (entry_printed (w_width w)) rows groups).
Proof.
  intros depth w o file items lg Hw E1 E2. split.
  - intros flat nt r H. destruct (report_lines_ok r) as (ls & E & B); [eapply report_rows_amounts; eauto|]. exists ls. split; auto.
    unfold run_cmd, run_on. rewrite E1. cbn [bind]. rewrite E2. cbn [bind]. rewrite H. cbn [bind]. auto.
  - intros rows H. assert (T : Forall has_total rows).
    { unfold register_report in H. bind_inv H. bind_inv H. destruct a0. eapply register_txns_totals; eauto. }
    assert (G : exists groups, mapM (rrow_lines w) rows = Ok groups /\ Forall2 (entry_printed (w_width w)) rows groups).
    { clear -T. induction T as [|x l Hx _ (gs & E & F)]; cbn [mapM]; [exists []; auto|].
      destruct (rrow_lines_ok w x Hx) as (ls & El & Fl). rewrite El, E. cbn. exists (ls :: gs). auto. }
    destruct G as (gs & E & F). exists gs. split; auto.
    unfold run_cmd, run_on. rewrite E1. cbn [bind]. rewrite E2. cbn [bind]. rewrite H. cbn [bind]. unfold register_lines. rewrite E. auto.
Qed.
Print Assumptions C69_printed.

(** ** A journal and its reports *)
Definition t69 : list String.string :=
  ["2021-01-01 Grocery store"; "  Expenses:Food  10 EUR"; "  Expenses:Rent  7.125 EUR"; "  Assets:Cash";
   "2021-01-02 Exchange"; "  Assets:Cash  5 USD"; "  Assets:Bank  -5 USD"]%string.
Example C69_balance_case : run_cmd 2 (w65 t69) (CBalance false false) plain_opts (L "book") = Ok (map L
  ["          -17.13 EUR  Assets"; "           -5.00 USD    Bank"; "          -17.13 EUR"; "            5.00 USD    Cash";
   "           17.13 EUR  Expenses"; "           10.00 EUR    Food"; "            7.13 EUR    Rent"; "--------------------"; "                   0"]%string).
Proof. vm_compute. reflexivity. Qed.
Example C69_flat_case : run_cmd 2 (w65 t69) (CBalance true true) plain_opts (L "book") = Ok (map L
  ["           -5.00 USD  Assets:Bank"; "          -17.13 EUR"; "            5.00 USD  Assets:Cash"; "           10.00 EUR  Expenses:Food";
   "            7.13 EUR  Expenses:Rent"]%string).
Proof. vm_compute. reflexivity. Qed.
Example C69_register_case : run_cmd 2 (w65 t69) CRegister plain_opts (L "book") = Ok (map L
  ["2021-01-01 Grocery store                             Expenses:Food                             10.00 EUR        10.00 EUR";
   "                                                     Expenses:Rent                              7.13 EUR        17.13 EUR";
   "                                                     Assets:Cash                              -17.13 EUR                0";
   "2021-01-02 Exchange                                  Assets:Cash                                5.00 USD         5.00 USD";
   "                                                     Assets:Bank                               -5.00 USD                0"]%string).
Proof. vm_compute. reflexivity. Qed.
(** On a terminal of 115 columns. *)
Definition on_terminal (n : nat) (w : world) : world :=
  {| w_lower := w_lower w; w_numeric := w_numeric w; w_rx := w_rx w; w_rx_ok := w_rx_ok w; w_read := w_read w;
     w_glob := w_glob w; w_two_timer := w_two_timer w; w_now := w_now w; w_ord := w_ord w; w_width := Some n |}.
Example C69_wide_case : run_cmd 2 (on_terminal 115 (w65 t69)) CRegister plain_opts (L "book") = Ok (map L
  ["2021-01-01 Grocery store                             Expenses:Food                   10.00 EUR            10.00 EUR";
   "                                                     Expenses:Rent                    7.13 EUR            17.13 EUR";
   "                                                     Assets:Cash                    -17.13 EUR                    0";
   "2021-01-02 Exchange                                  Assets:Cash                      5.00 USD             5.00 USD";
   "                                                     Assets:Bank                     -5.00 USD                    0"]%string).
Proof. vm_compute. reflexivity. Qed.
(** This report can be read back. *)
Lemma one_word_tidy s : s <> [] -> forallb (fun c => negb (c =? c_sp)%N) s = true -> tidy s.
Proof.
  intros N F. exists [s]. split; [discriminate|]. split; [|reflexivity]. constructor; [|constructor]. split; auto.
  intros I. rewrite forallb_forall in F. apply F in I. discriminate.
Qed.
Definition lg69 : ledger := get lg_new (to_ledger (w65 t69) false (get pl_new (tokenize_file 2 (w65 t69) (L "book")))).
Example C69_tidy_case : match balance_report (w65 t69) (report_site lg69) plain_opts false true lg69 with
  | Ok r => length (bp_rows r) = 6%nat /\ tidy_report r
  | _ => False
  end.
Proof.
  assert (E : exists r, balance_report (w65 t69) (report_site lg69) plain_opts false true lg69 = Ok r /\ length (bp_rows r) = 6%nat /\
    forallb (fun x => forallb (fun c => negb (c =? c_sp)%N) (br_label x) && negb (str_eqb (br_label x) []) &&
      forallb (fun m => match m with MZero => true | M _ c => forallb (fun c => negb (c =? c_sp)%N) c && negb (str_eqb c []) end) (br_moneys x)) (bp_rows r) = true /\
    bp_total r = Some [MZero]) by (vm_compute; eexists; repeat split).
  destruct E as (r & -> & Hl & F & T). split; auto. split.
  - apply Forall_forall. intros x I. rewrite forallb_forall in F. apply F in I. apply andb_true_iff in I. destruct I as [I I3]. apply andb_true_iff in I.
    destruct I as [I1 I2]. split.
    + apply one_word_tidy; auto. intros X. rewrite X in I2. discriminate.
    + apply Forall_forall. intros m Im. rewrite forallb_forall in I3. apply I3 in Im. destruct m as [|q c]; cbn; auto. apply andb_true_iff in Im.
      apply one_word_tidy; [intros X; subst c; destruct Im; discriminate|tauto].
  - rewrite T. repeat constructor.
Qed.
