(** Property C70: the list of prices. *)
From Coq Require Import Lia QArith Qabs Qcanon.
From Verif Require Import Base BaseFacts AlistFacts LedgerFacts Numerals NumFacts Money Alist Comment Txn Dates Expr Filter Price Tokens Ledger Reports App Spec SpecText SpecDates
  DisplayFacts SpecJournal JournalSim JournalPrice SpecLayout SpecList SpecTxn SpecLedger SpecReports PropDisplay DateFacts PropDates PropTxn PropLedger PropJournal ReportFacts PropReports PropApp.

(** ** Numbers *)
Lemma same_length_digits a : forall b, only_digits a -> only_digits b -> length a = length b -> dec_value a = dec_value b -> a = b.
Proof.
  induction a as [|x a IH]; intros [|y b] Ha Hb Hl Hv; try discriminate; auto.
  rewrite !dec_value_eq, !digits_val_cons in Hv. injection Hl as Hl. rewrite Hl in Hv.
  assert (A : (digits_val a < 10 ^ N.of_nat (length b))%N).
  { rewrite <- Hl. apply digits_val_lt. apply only_digits_iff. intros z Hz. apply Ha. right. auto. }
  assert (B : (digits_val b < 10 ^ N.of_nat (length b))%N).
  { apply digits_val_lt. apply only_digits_iff. intros z Hz. apply Hb. right. auto. }
  pose proof (Ha x (or_introl eq_refl)) as Hx. pose proof (Hb y (or_introl eq_refl)) as Hy.
  assert (E : x = y).
  { set (k := (10 ^ N.of_nat (length b))%N) in *. destruct (N.lt_trichotomy x y) as [X|[X|X]]; auto; exfalso.
    - assert ((x - 48) * k + k <= (y - 48) * k)%N by (replace ((x - 48) * k + k)%N with ((x - 48 + 1) * k)%N by lia; apply N.mul_le_mono_r; lia). lia.
    - assert ((y - 48) * k + k <= (x - 48) * k)%N by (replace ((y - 48) * k + k)%N with ((y - 48 + 1) * k)%N by lia; apply N.mul_le_mono_r; lia). lia. }
  subst y. f_equal. apply IH; auto; [intros z Hz; apply Ha; right; auto|intros z Hz; apply Hb; right; auto|].
  rewrite !dec_value_eq. eapply N.add_cancel_l. exact Hv.
Qed.
Lemma fixed_point_fun neg d r c t t' : fixed_point t neg d r c -> fixed_point t' neg d r c -> t = t'.
Proof.
  intros (ip & fp & -> & H1 & H2 & H3 & H4 & H5 & H6) (ip' & fp' & -> & H1' & H2' & H3' & H4' & H5' & H6').
  assert (K : forall ip ip' fp fp' : str, only_digits ip -> only_digits fp -> only_digits ip' -> only_digits fp' -> ip' <> [] -> ip <> [] ->
     length fp = length fp' -> (hd 0%N ip' = 48%N -> ip' = [48%N]) -> dec_value (ip ++ fp) = dec_value (ip' ++ fp') -> (length ip < length ip')%nat -> False).
  { clear. intros ip ip' fp fp' A1 A2 B1 B2 Nb Na Hl Hz Hv Hlt. destruct ip' as [|x ip']; [congruence|]. cbn in Hz, Hlt.
    assert (Nz : x <> 48%N).
    { intros ->. specialize (Hz eq_refl). injection Hz as ->. destruct ip; [congruence|cbn in Hlt; lia]. }
    assert (D : only_digits ((x :: ip') ++ fp')) by (intros z Hz'; apply in_app_iff in Hz'; destruct Hz'; auto).
    assert (D' : only_digits (ip ++ fp)) by (intros z Hz'; apply in_app_iff in Hz'; destruct Hz'; auto).
    pose proof (digits_val_lower x (ip' ++ fp')) as X. cbn [app] in D, Hv. rewrite !dec_value_eq in Hv.
    specialize (X (proj2 (only_digits_iff _) D) Nz). pose proof (digits_val_lt _ (proj2 (only_digits_iff _) D')) as Y.
    assert (10 ^ N.of_nat (length (ip ++ fp)) <= 10 ^ N.of_nat (length (ip' ++ fp')))%N.
    { apply N.pow_le_mono_r; [lia|]. rewrite !app_length. lia. }
    rewrite Hv in Y. apply (N.lt_irrefl (digits_val (x :: ip' ++ fp'))). eapply N.lt_le_trans; [exact Y|]. eapply N.le_trans; [|exact X]. auto. }
  assert (El : length ip = length ip').
  { destruct (Nat.lt_trichotomy (length ip) (length ip')) as [X|[X|X]]; auto; exfalso; [eapply (K ip ip' fp fp')|eapply (K ip' ip fp' fp)]; eauto; congruence. }
  assert (E : ip ++ fp = ip' ++ fp').
  { apply same_length_digits; [intros z Hz; apply in_app_iff in Hz; destruct Hz; auto|intros z Hz; apply in_app_iff in Hz; destruct Hz; auto| |congruence].
    rewrite !app_length. congruence. }
  assert (E1 : ip = ip') by (apply (f_equal (firstn (length ip))) in E; rewrite firstn_app, firstn_all, Nat.sub_diag, app_nil_r in E; rewrite El, firstn_app, firstn_all, Nat.sub_diag, app_nil_r in E; auto).
  subst ip'. apply app_inv_head in E. subst. auto.
Qed.

Definition rounded (neg : bool) (r : N) : Qc := ((if neg then Qcopp 1 else 1) * of_Z (Z.of_N r) / of_Z 100)%Qc.
Lemma rounded_this neg r : (this (rounded neg r) == (if neg then - Z.of_N r else Z.of_N r) # 100)%Q.
Proof.
  unfold rounded, Qcdiv. change (/ of_Z 100)%Qc with (Q2Qc (1 # 100)). unfold of_Z.
  assert (X : forall a b : Qc, (this (a * b)%Qc == this a * this b)%Q) by (intros; apply Qred_correct).
  assert (Y : forall q, (this (Q2Qc q) == q)%Q) by (intros; apply Qred_correct).
  rewrite !X, !Y. destruct neg; [change (this (Qcopp 1)) with (- 1 # 1)%Q|change (this 1%Qc) with (1 # 1)%Q]; unfold Qeq, Qmult, inject_Z; cbn [Qnum Qden]; lia.
Qed.
Lemma rounded_nearest neg r : nearest 2 (rounded neg r) r.
Proof.
  unfold nearest. assert (E : (Qabs (this (rounded neg r)) == Z.of_N r # 100)%Q).
  { rewrite rounded_this. destruct neg; unfold Qabs, Qeq; cbn [Qnum Qden]; lia. }
  rewrite E. unfold Qle, Qlt, Qmult, inject_Z. cbn [Qnum Qden]. change (2 * 10 ^ Z.of_nat 2)%Z with 200%Z. lia.
Qed.
Lemma nearest_unique d a r r' : nearest d a r -> nearest d a r' -> r = r'.
Proof. rewrite !nearest_iff. intros H H'. assert (0 < q_den a)%Z by (unfold q_den; lia). nia. Qed.
Lemma display_again a c text : money_display 2 a c = Ok text ->
  exists (neg : bool) r, nearest 2 a r /\ fixed_point text neg 2 r c /\ money_display 2 (rounded neg r) c = Ok text /\
   (1 <= a \/ a <= - (1) \/ (0 <= a /\ ~ nearest 2 a 100) -> (neg = true <-> a < 0 /\ r <> 0%N))%Qc.
Proof.
  intros H. destruct (C07_display_exact 2 a c ltac:(lia)) as (t & neg & r & E & F & Nr & Sg). rewrite H in E. inv E.
  exists neg, r. split; auto. split; auto. split.
  - destruct (C07_display_exact 2 (rounded neg r) c ltac:(lia)) as (t' & neg' & r' & E' & F' & Nr' & Sg').
    rewrite E'. f_equal. pose proof (nearest_unique _ _ _ _ Nr' (rounded_nearest neg r)) as ->.
    assert (X : neg' = neg); [|subst neg'; eapply fixed_point_fun; eauto].
    change (10 ^ N.of_nat 2)%N with 100%N in *.
    assert (B : (100 <= r)%N -> (rounded true r <= - (1))%Qc).
    { intros Hr. unfold Qcle. rewrite rounded_this. unfold Qle. change (this (Qcopp 1)) with (- 1 # 1)%Q. cbn [Qnum Qden]. lia. }
    destruct neg.
    + apply Sg'. left. apply B. destruct (proj1 Sg eq_refl) as [L|(_ & _ & ->)]; [|lia].
      apply le_minus_one in L. apply nearest_iff in Nr. change (2 * 10 ^ Z.of_nat 2)%Z with 200%Z in Nr. assert (0 < q_den a)%Z by (unfold q_den; lia). nia.
    + destruct neg'; auto. destruct (proj1 Sg' eq_refl) as [L|(_ & L & ->)]; exfalso.
      * unfold Qcle in L. rewrite rounded_this in L. unfold Qle in L. change (this (Qcopp 1)) with (- 1 # 1)%Q in L. cbn [Qnum Qden] in L. lia.
      * unfold Qclt in L. rewrite rounded_this in L. unfold Qlt in L. change (this 1%Qc) with (1 # 1)%Q in L. cbn [Qnum Qden] in L. lia.
  - intros Ha. destruct (C07_display_partial 2 a c ltac:(lia)) as (t' & neg' & r' & E' & F' & Nr' & Sg'); [exact Ha|].
    rewrite H in E'. inv E'. pose proof (nearest_unique _ _ _ _ Nr Nr') as <-.
    assert (neg = neg'); [|subst; auto]. destruct F as (ip & fp & E1 & D1 & _ & N1 & _), F' as (ip' & fp' & E2 & D2 & _ & N2 & _).
    rewrite E1 in E2. destruct neg, neg'; auto; exfalso.
    + destruct ip' as [|x ip']; [congruence|]. cbn in E2. injection E2 as E2 _. specialize (D2 x (or_introl eq_refl)). subst x. unfold c_minus in *. lia.
    + destruct ip as [|x ip]; [congruence|]. cbn in E2. injection E2 as E2 _. specialize (D1 x (or_introl eq_refl)). subst x. unfold c_minus in *. lia.
Qed.

(** ** Lines *)
Lemma day_text_written n : (exists y m d, day_count y m d n /\ (0 <= y <= 9999)%Z) -> day_written n (date_text n).
Proof.
  intros (y & m & d & C & R). pose proof (date_text_written n) as X. pose proof (to_ymd_spec n) as S. destruct (to_ymd n) as [[y' m'] d']. destruct S as [S1 S2].
  assert (C' : day_count y' m' d' n) by (apply day_count_spec; auto). assert (E : (y, m, d) = (y', m', d')) by (apply (C63_order y m d n y' m' d' n C C'); auto).
  injection E as <- <- <-. destruct (X R) as (ty & tm & td & a & b & E & L4 & (W1 & W1a & W1b & W1c) & W2 & W3 & Ha & Hb).
  exists y, m, d. split; [|split; [auto|split; [unfold in_range; lia|auto]]]. exists ty, tm, td, a.
  cbn in Ha, Hb. destruct Ha as [<-|[]], Hb as [<-|[]]. split; auto. split; auto. split; auto. split; auto. split; auto. split; auto. cbn. auto.
Qed.
Lemma price_line_written p line : writable_price p -> price_line p = Ok line ->
  exists q, says p q /\ price_written q (L "P " ++ line ++ [c_nl]) /\
    price_line {| pr_date := pp_date q; pr_com := pp_commodity q; pr_amount := pp_quantity q; pr_cur := pp_other q |} = Ok line.
Proof.
  intros (Wc & Wo & Wd) H. unfold price_line in H. bind_inv H. inv H. change (show (M (pr_amount p) (pr_cur p))) with (money_display 2 (pr_amount p) (pr_cur p)) in Hb.
  destruct (display_again _ _ _ Hb) as (neg & r & Nr & F & Ag & Sg).
  exists {| pp_date := pr_date p; pp_commodity := pr_com p; pp_quantity := rounded neg r; pp_other := pr_cur p |}.
  split; [|split].
  - split; auto. split; auto. split; auto. exists neg, r. cbn. split; auto.
  - destruct F as (ip & fp & -> & D1 & D2 & N1 & Lf & _ & V).
    assert (Sp : spaces [c_sp] /\ spaces1 [c_sp]).
    { assert (spaces [c_sp]) by (intros x [<-|[]]; auto). split; auto. split; auto. discriminate. }
    destruct Sp as [Sp Sp1].
    pose proof (pw {| pp_date := pr_date p; pp_commodity := pr_com p; pp_quantity := rounded neg r; pp_other := pr_cur p |}
      [c_sp] (date_text (pr_date p)) [c_sp] (pr_com p) [c_sp] ((if neg then L "-" else []) ++ ip ++ L "." ++ fp) [c_sp] (pr_cur p) [] []) as X.
    cbn [pp_date pp_commodity pp_quantity pp_other] in X.
    match goal with |- price_written _ ?s => replace s
      with (L "P" ++ [c_sp] ++ date_text (pr_date p) ++ [c_sp] ++ pr_com p ++ [c_sp] ++ ((if neg then L "-" else []) ++ ip ++ L "." ++ fp) ++ [c_sp] ++ pr_cur p ++ [] ++ [] ++ [c_nl])
      by (do 6 (rewrite <- ?app_assoc; cbn [app]); reflexivity) end.
    apply X; auto.
    + apply day_text_written. auto.
    + split.
      * exists neg, ip, true, fp. split; auto. split; auto. split; auto. split; [discriminate|]. split; [destruct ip; [congruence|discriminate]|].
        rewrite V, Lf. reflexivity.
      * exists neg, ip, (L "." ++ fp). split; auto. split; auto. split; auto. right. exists fp. split; auto. split; auto. destruct fp; [discriminate|discriminate].
    + intros x [].
    + intros [].
  - unfold price_line. cbn [pr_date pr_com pr_amount pr_cur pp_date pp_commodity pp_quantity pp_other].
    change (show (M (rounded neg r) (pr_cur p))) with (money_display 2 (rounded neg r) (pr_cur p)). rewrite Ag. reflexivity.
Qed.

Definition only_prices (qs : list parsed_price) : pledger :=
  {| pl_accounts := l_new; pl_payees := l_new; pl_commodities := l_new; pl_txns := []; pl_prices := qs; pl_comments := []; pl_tags := [] |}.
Definition line_of (q : parsed_price) (line : str) : Prop :=
  price_line {| pr_date := pp_date q; pr_com := pp_commodity q; pr_amount := pp_quantity q; pr_cur := pp_other q |} = Ok line.
Lemma list_written w ps : forall lines, Forall writable_price ps -> mapM price_line ps = Ok lines ->
  forall qs0, exists qs, journal_written w (only_prices qs0) (only_prices (qs0 ++ qs)) (as_prices lines) /\ Forall2 says ps qs /\ Forall2 line_of qs lines.
Proof.
  induction ps as [|p ps IH]; intros lines Hw H qs0; cbn [mapM] in H.
  - inv H. exists []. rewrite app_nil_r. split; [|auto]. apply (jw_end w (only_prices qs0) [] []); [constructor|intros x []].
  - bind_inv H. bind_inv H. inv H. inversion Hw as [|? ? W1 W2]; subst.
    destruct (price_line_written p a W1 Hb) as (q & Sq & Wq & Aq). destruct (IH _ W2 Hb0 (qs0 ++ [q])) as (qs & J & F & G).
    rewrite <- app_assoc in J. exists (q :: qs). split; [|auto]. unfold as_prices. cbn [map concat].
    apply (jw_item w _ [] (add_price q (only_prices qs0)) (L "P " ++ a ++ [c_nl])); [constructor|apply iw_price; auto|exact J].
Qed.

(** ** Commodities *)
Lemma ensure_exact w (S : str -> Prop) ns : (forall n n', S n -> S n' -> w_lower w n = w_lower w n' -> n = n') -> Forall S ns ->
  forall l, l_aliases l = [] -> (forall k e, hget str_eqb k (l_list l) = Some e -> k = w_lower w (cu_name e) /\ S (cu_name e)) ->
  exists l', foldM (ensure_cur w) l ns = Ok l' /\ l_aliases l' = [] /\
    (forall k e, hget str_eqb k (l_list l') = Some e -> k = w_lower w (cu_name e) /\ S (cu_name e)) /\
    (forall k, hget str_eqb k (l_list l) <> None -> hget str_eqb k (l_list l') <> None) /\
    (forall n, In n ns -> hget str_eqb (w_lower w n) (l_list l') <> None).
Proof.
  intros HS. induction ns as [|n ns IH]; intros Hn l Ha Hl; cbn [foldM].
  - exists l. split; [auto|]. split; [auto|]. split; [auto|]. split; [auto|intros n []].
  - inversion Hn as [|? ? Sn Hns]; subst.
    assert (X : exists l1, ensure_cur w l n = Ok l1 /\ l_aliases l1 = [] /\ (forall k e, hget str_eqb k (l_list l1) = Some e -> k = w_lower w (cu_name e) /\ S (cu_name e)) /\
      (forall k, hget str_eqb k (l_list l) <> None -> hget str_eqb k (l_list l1) <> None) /\ hget str_eqb (w_lower w n) (l_list l1) <> None).
    { unfold ensure_cur, ensure, l_get. rewrite Ha. destruct (hget str_eqb (w_lower w n) (l_list l)) eqn:E.
      - exists l. split; [auto|]. split; [auto|]. split; [auto|]. split; [auto|congruence].
      - cbn [hget]. unfold cur_insert, l_insert. cbn [cu_name currency_from cu_aliases fold_left]. rewrite E. eexists. split; [reflexivity|]. cbn [l_aliases l_list].
        split; auto. split; [|split].
        + intros k e. rewrite (hget_hset _ str_eqb_spec). destruct (str_eqb_spec k (w_lower w n)); [|apply Hl]. intros Y. inv Y. cbn. auto.
        + intros k. rewrite (hget_hset _ str_eqb_spec). destruct (str_eqb_spec k (w_lower w n)); [discriminate|auto].
        + rewrite (hget_hset_same _ str_eqb_spec). discriminate. }
    destruct X as (l1 & -> & A1 & L1 & G1 & R1). cbn [bind]. destruct (IH Hns l1 A1 L1) as (l2 & -> & A2 & L2 & G2 & R2).
    exists l2. split; auto. split; auto. split; auto. split; auto. intros m [<-|Hm]; auto.
Qed.
Lemma ensure_named w (S : str -> Prop) ns : (forall n n', S n -> S n' -> w_lower w n = w_lower w n' -> n = n') -> Forall S ns ->
  exists cs, foldM (ensure_cur w) l_new ns = Ok cs /\ forall n, In n ns -> exists x, l_get w n cs = Ok x /\ cu_name x = n.
Proof.
  intros HS Hn. destruct (ensure_exact w S ns HS Hn l_new eq_refl) as (cs & E & A & L1 & _ & R); [discriminate|].
  exists cs. split; auto. intros n I. specialize (R n I). unfold l_get. destruct (hget str_eqb (w_lower w n) (l_list cs)) as [x|] eqn:X; [|congruence].
  exists x. split; auto. apply L1 in X. destruct X as [X Y]. symmetry. apply HS; auto. rewrite Forall_forall in Hn. auto.
Qed.
Definition as_price (q : parsed_price) : price := {| pr_date := pp_date q; pr_com := pp_commodity q; pr_amount := pp_quantity q; pr_cur := pp_other q |}.
Lemma only_prices_ledger w skip qs : world_ok w ->
  (forall n n', (exists q, In q qs /\ (n = pp_commodity q \/ n = pp_other q)) -> (exists q, In q qs /\ (n' = pp_commodity q \/ n' = pp_other q)) ->
     w_lower w n = w_lower w n' -> n = n') ->
  exists lg, to_ledger w skip (only_prices qs) = Ok lg /\ lg_prices lg = map as_price qs.
Proof.
  intros Hw HS. unfold to_ledger. cbn [only_prices pl_commodities pl_accounts pl_payees pl_prices pl_txns].
  assert (N : forall x, In x (commodity_names (only_prices qs)) <-> exists q, In q qs /\ (x = pp_commodity q \/ x = pp_other q)).
  { intros x. rewrite commodity_names_iff. cbn. firstorder. }
  assert (Pm : forall site A (l : list A) x, In x (w_ord w site A l) <-> In x l).
  { intros site A l x. split; apply Permutation_in; [|apply Permutation_sym]; apply Hw. }
  destruct (ensure_named w (fun x => exists q, In q qs /\ (x = pp_commodity q \/ x = pp_other q)) (w_ord w 0 _ (commodity_names (only_prices qs)))) as (cs & E & R).
  { exact HS. }
  { apply Forall_forall. intros x I. apply N. apply Pm in I. auto. }
  rewrite E. cbn [bind]. assert (Nil : forall site A, w_ord w site A [] = []).
  { intros site A. apply Permutation_nil. apply Permutation_sym. apply Hw. }
  unfold account_names, payee_names, all_postings. cbn [flat_map pl_txns only_prices fold_left]. rewrite !Nil. cbn [foldM bind mapM].
  assert (M : mapM (Ledger.price_of w cs) qs = Ok (map as_price qs)).
  { assert (R' : forall q, In q qs -> Ledger.price_of w cs q = Ok (as_price q)).
    { intros q I. unfold Ledger.price_of, get_unwrap. destruct (R (pp_commodity q)) as (x & Ex & Nx); [apply Pm, N; eauto|].
      destruct (R (pp_other q)) as (y & Ey & Ny); [apply Pm, N; eauto|]. rewrite Ex, Ey. cbn. rewrite Nx, Ny. reflexivity. }
    clear -R'. induction qs as [|q qs IH]; cbn [mapM map]; auto. rewrite R' by (left; auto). rewrite IH by (intros; apply R'; right; auto). reflexivity. }
  rewrite M. cbn. rewrite app_nil_r. eexists. split; [reflexivity|]. reflexivity.
Qed.

(** ** C70 *)
Lemma says_names ps qs n : Forall2 says ps qs -> (exists q, In q qs /\ (n = pp_commodity q \/ n = pp_other q)) -> prices_mention ps n.
Proof.
  intros F (q & I & E). induction F as [|p q' ps qs (S1 & S2 & S3 & _) F IH]; [destruct I|]. destruct I as [<-|I].
  - exists p. split; [left; auto|]. rewrite <- S2, <- S3. auto.
  - destruct (IH I) as (p' & I' & E'). exists p'. split; [right; auto|auto].
Qed.
(** The list of prices, each line with a P before it, is a journal that states the same prices ... *)
Theorem C70_prices_read_back : forall depth w o file lines, world_ok w -> blanks_not_numeric w ->
  run_cmd depth w CPrices o file = Ok lines ->
  exists items lg, tokenize_file depth w file = Ok items /\ to_ledger w (o_no_balance_check o) items = Ok lg /\
    (Forall writable_price (lg_prices lg) -> forall d path seen,
       exists back, tokenize (S d) w path seen (as_prices lines) = Ok back /\ Forall2 says (lg_prices lg) (pl_prices back) /\ pl_txns back = []).
Proof.
  intros depth w o file lines Hw Hb H. unfold run_cmd, run_on in H. bind_inv H. bind_inv H. exists a, a0. split; auto. split; auto.
  intros W d path seen. destruct (list_written w _ _ W H []) as (qs & J & F & _). exists (only_prices qs).
  split; [apply C67_journal_read_as_written; auto|]. auto.
Qed.
Print Assumptions C70_prices_read_back.
(** ... and its list of prices is the same text again. *)
Theorem C70_prices_listed_again : forall depth w o file items lg lines copy, world_ok w -> blanks_not_numeric w ->
  tokenize_file depth w file = Ok items -> to_ledger w (o_no_balance_check o) items = Ok lg ->
  Forall writable_price (lg_prices lg) -> told_apart w (lg_prices lg) ->
  run_cmd depth w CPrices o file = Ok lines -> w_read w copy = Some (as_prices lines) ->
  forall d o', run_cmd (S d) w CPrices o' copy = Ok lines.
Proof.
  intros depth w o file items lg lines copy Hw Hb E1 E2 W T H Hr d o'. unfold run_cmd, run_on in H. rewrite E1 in H. cbn [bind] in H. rewrite E2 in H. cbn [bind] in H.
  destruct (list_written w _ _ W H []) as (qs & J & F & G). unfold run_cmd. rewrite (C67_file_read_as_written w d copy _ _ Hb Hr J). cbn [bind]. unfold run_on.
  destruct (only_prices_ledger w (o_no_balance_check o') qs Hw) as (lg' & E & P).
  { intros n n' I I'. apply T; eapply says_names; eauto. }
  cbn [app]. rewrite E. cbn [bind]. unfold prices_report. rewrite P. clear -G. induction G as [|q line qs lines X G IH]; cbn [map mapM]; auto.
  unfold line_of in X. fold (as_price q) in X. rewrite X, IH. reflexivity.
Qed.
Print Assumptions C70_prices_listed_again.
Definition t70 : list String.string :=
  ["P 2020-02-29 BTC 7654.321 USD"; "2021-01-01 Exchange"; "  Assets:Cash  30 USD @@ 25 EUR"; "  Assets:Bank"; "2021-01-02 Gift"; "  Assets:Cash  -0.5 EUR"; "  Assets:Gold  1 GLD"]%string.
Definition lines70 : list String.string := ["2020-02-29 BTC 7654.32 USD"; "2021-01-01 USD 0.83 EUR"; "2021-01-02 EUR 2.00 GLD"]%string.
Definition w70 : world :=
  {| w_lower := ascii_lower; w_numeric := fun _ => false; w_rx := fun _ _ => false; w_rx_ok := fun _ => true;
     w_width := None; w_read := fun f => if str_eqb f (L "book") then Some (text t70) else if str_eqb f (L "copy") then Some (as_prices (map L lines70)) else None;
     w_glob := fun _ => None; w_two_timer := fun _ => None; w_now := 0%Z; w_ord := fun _ _ l => l |}.
Definition lg70 : ledger := get lg_new (to_ledger w70 false (get pl_new (tokenize_file 2 w70 (L "book")))).
Example C70_case : run_cmd 2 w70 CPrices plain_opts (L "book") = Ok (map L lines70) /\ run_cmd 1 w70 CPrices plain_opts (L "copy") = Ok (map L lines70).
Proof. split; vm_compute; reflexivity. Qed.
Definition expected70 : list (Z * str * str) :=
  [(day_number 2020 2 29, L "BTC", L "USD"); (day_number 2021 1 1, L "USD", L "EUR"); (day_number 2021 1 2, L "EUR", L "GLD")].
Lemma hypotheses70 w ps : w_lower w = ascii_lower -> map (fun p => (pr_date p, pr_com p, pr_cur p)) ps = expected70 ->
  length ps = 3%nat /\ Forall writable_price ps /\ told_apart w ps.
Proof.
  intros Hw E.
  assert (K : forall p, In p ps -> In (pr_date p, pr_com p, pr_cur p) expected70).
  { intros p I. rewrite <- E. apply (in_map (fun p => (pr_date p, pr_com p, pr_cur p))). auto. }
  assert (Nm : forall n, prices_mention ps n -> In n [L "BTC"; L "USD"; L "EUR"; L "GLD"]).
  { intros n (p & I & X). apply K in I. destruct I as [I|[I|[I|[]]]]; injection I as _ I1 I2; rewrite <- I1, <- I2 in X; destruct X as [->| ->]; cbn; auto. }
  split; [|split].
  - apply (f_equal (@length _)) in E. rewrite map_length in E. exact E.
  - apply Forall_forall. intros p I. apply K in I. assert (D : forall y m d n, from_ymd y m d = Some n -> (0 <= y <= 9999)%Z ->
      exists y m d, day_count y m d n /\ (0 <= y <= 9999)%Z).
    { intros y m d n F R. apply from_spec in F. destruct F as (F1 & F2 & ->). exists y, m, d. split; auto. apply day_count_spec. auto. }
    assert (Cm : forall c, In c [L "BTC"; L "USD"; L "EUR"; L "GLD"] -> price_commodity c c).
    { intros c [<-|[<-|[<-|[<-|[]]]]]; apply price_b; reflexivity. }
    assert (Ex : In (pr_com p) [L "BTC"; L "USD"; L "EUR"; L "GLD"] /\ In (pr_cur p) [L "BTC"; L "USD"; L "EUR"; L "GLD"] /\
      In (pr_date p) [day_number 2020 2 29; day_number 2021 1 1; day_number 2021 1 2]).
    { destruct I as [I|[I|[I|[]]]]; injection I as I0 I1 I2; rewrite <- I1, <- I2, <- I0; cbn; auto 10. }
    destruct Ex as (X1 & X2 & X3). split; [auto|split; [auto|]].
    destruct X3 as [<-|[<-|[<-|[]]]]; [apply (D 2020 2 29)%Z|apply (D 2021 1 1)%Z|apply (D 2021 1 2)%Z]; try lia; vm_compute; reflexivity.
  - intros n n' H H'. rewrite Hw. apply Nm in H, H'. destruct H as [<-|[<-|[<-|[<-|[]]]]]; destruct H' as [<-|[<-|[<-|[<-|[]]]]]; cbn; auto; discriminate.
Qed.
Lemma ascii_lower_twice s : ascii_lower (ascii_lower s) = ascii_lower s.
Proof.
  unfold ascii_lower. rewrite map_map. apply map_ext. intros c. destruct ((65 <=? c) && (c <=? 90))%N eqn:X; auto.
  - apply andb_true_iff in X. destruct X as [A B]. apply N.leb_le in A, B. destruct (N.leb_spec (c + 32) 90); [lia|]. rewrite andb_false_r. auto.
  - rewrite X. auto.
Qed.
Lemma plain_world w : w_numeric w = (fun _ => false) -> blanks_not_numeric w.
Proof.
  intros E c H. pose proof (C67_ex_world c H) as X. unfold is_numeric in *. destruct (c <? 128)%N; auto. rewrite E. auto.
Qed.
Example C70_world : world_ok w70 /\ blanks_not_numeric w70 /\ w_read w70 (L "copy") = Some (as_prices (map L lines70)).
Proof.
  split; [split; [intros; apply Permutation_refl|exact ascii_lower_twice]|]. split; [apply plain_world; reflexivity|reflexivity].
Qed.
Example C70_hypotheses : length (lg_prices lg70) = 3%nat /\ Forall writable_price (lg_prices lg70) /\ told_apart w70 (lg_prices lg70).
Proof. apply hypotheses70; [reflexivity|vm_compute; reflexivity]. Qed.
