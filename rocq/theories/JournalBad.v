(** Reading a transaction up to a line that is wrong: where the reader stands then. *)
From Coq Require Import Lia.
From Verif Require Import Base BaseFacts Numerals Money Alist Comment Txn Peg Grammar PegFacts Dates Expr Tokens Spec SpecText SpecDates
  SpecTokens TokenFacts TokenFacts2 LiteralFacts PropLiteral PostingFacts SpecExpr ExprFacts DateFacts SpecJournal SpecBad JournalRead JournalItems JournalLoop.
Open Scope Z_scope.

(** ** The column of an indented line *)
Lemma at_line_column t g b s r t1 : line_at t (g ++ b ++ s ++ r) -> blank_lines g -> indent b -> solid s ->
  consume_whitespaces_and_lines t = (Indented, t1) -> tk_col t1 = length b.
Proof.
  intros H Hg [Hb Hn] (c & s' & -> & Hc). destruct (at_line_cwl _ _ H) as (pre & line & ->).
  destruct (cwl_lines g Hg (b ++ (c :: s') ++ r) pre line) as (p1 & l1 & ->).
  destruct (cwl_blanks b ((c :: s') ++ r) p1 l1 0 Hb) as (p2 & ->). cbn [app cwl].
  destruct (N.eqb_spec c c_nl) as [->|_]; [discriminate|]. rewrite Hc. destruct b; [congruence|].
  intros E. inversion E. cbn. lia.
Qed.

(** ** The lines of a transaction, with the way moved *)
Definition settled (ty : ttype) (t : tok) : Prop := ty = TAutomated -> nlterm (tk_rest t).
Lemma settled_moves ty a b : moves a b -> settled ty a -> settled ty b.
Proof. intros H S0 E. eapply nlterm_moves; eauto. Qed.
Lemma semi_not_nl : (c_semi =? c_nl)%N = false.
Proof. reflexivity. Qed.
Lemma entries_comments_m w ty pay cms ps cs s : comment_lines cs s -> forall p r t f, line_at t (s ++ r) ->
  exists t', entries (length cs + f) w ty pay true cms (ps ++ [p]) t = entries f w ty pay true cms (ps ++ [add_all cs p]) t' /\
    line_at t' r /\ moves t t'.
Proof.
  induction 1 as [|g b c s cs r0 Hg Hb Hc H IH]; intros p r t f Ht; [exists t; auto with mv|]. cbn [length Nat.add entries].
  rewrite <- !app_assoc in Ht. cbn [app] in Ht. destruct (at_line_indented t g b s _ Ht Hg Hb (comment_solid _ _ Hc)) as (t1 & E1 & E).
  rewrite E1. apply cwal_moves in E1.
  destruct (comment_read c s (r0 ++ r) t1 Hc E) as (t2 & G & E2 & E3). destruct (comment_first _ _ Hc) as (x & u & -> & ->).
  assert (Gc : get_char t1 = Some c_semi) by (unfold get_char; rewrite E; reflexivity).
  pose proof (parse_comment_moves1 _ _ _ _ Gc semi_not_nl G) as M1. rewrite Gc.
  change (c_semi =? c_semi)%N with true. cbn iota. rewrite G, add_last_app. cbn [bind].
  destruct (IH (add_comment c p) r t2 f) as (t3 & -> & A & M2); [left; auto|]. exists t3. split; auto. split; auto.
  eapply moves_trans; [exact E1|]. eapply moves_trans; [exact (moves1_moves _ _ M1)|exact M2].
Qed.
Lemma entries_heading_m w ty pay ps cs s : comment_lines cs s -> forall cms r t f, line_at t (s ++ r) ->
  exists t', entries (length cs + f) w ty pay false cms ps t = entries f w ty pay false (cms ++ cs) ps t' /\ line_at t' r /\ moves t t'.
Proof.
  induction 1 as [|g b c s cs r0 Hg Hb Hc H IH]; intros cms r t f Ht; [exists t; rewrite app_nil_r; auto with mv|]. cbn [length Nat.add entries].
  rewrite <- !app_assoc in Ht. cbn [app] in Ht. destruct (at_line_indented t g b s _ Ht Hg Hb (comment_solid _ _ Hc)) as (t1 & E1 & E).
  rewrite E1. apply cwal_moves in E1.
  destruct (comment_read c s (r0 ++ r) t1 Hc E) as (t2 & G & E2 & E3). destruct (comment_first _ _ Hc) as (x & u & -> & ->).
  assert (Gc : get_char t1 = Some c_semi) by (unfold get_char; rewrite E; reflexivity).
  pose proof (parse_comment_moves1 _ _ _ _ Gc semi_not_nl G) as M1. rewrite Gc.
  change (c_semi =? c_semi)%N with true. cbn iota. rewrite G.
  destruct (IH (cms ++ [c]) r t2 f) as (t3 & -> & A & M2); [left; auto|]. exists t3. rewrite <- app_assoc. split; auto. split; auto.
  eapply moves_trans; [exact E1|]. eapply moves_trans; [exact (moves1_moves _ _ M1)|exact M2].
Qed.
Lemma entries_postings_m w ty pay ps s : blanks_not_numeric w -> posting_lines w pay ps s -> exists n, (n <= length s)%nat /\
  forall parsed cms ps0 r t f, line_at t (s ++ r) -> settled ty t ->
  exists t' parsed', entries (n + f) w ty pay parsed cms ps0 t = entries f w ty pay parsed' cms (ps0 ++ ps) t' /\ line_at t' r /\ moves t t'.
Proof.
  intros Hw. induction 1 as [|g b p cs1 cs2 s u ps r0 Hg Hb Hl Hc Hcs Hpay H (n & Hn & IH)].
  - exists O. split; auto. intros. exists t, parsed. rewrite app_nil_r. auto with mv.
  - exists (S (length cs2 + n)). split.
    { apply comment_lines_fuel in Hc. rewrite !app_length. cbn [length]. rewrite app_length. lia. }
    intros parsed cms ps0 r t f Ht St. cbn [Nat.add entries]. rewrite <- !app_assoc in Ht. cbn [app] in Ht. rewrite <- app_assoc in Ht.
    destruct (posting_line_solid _ _ _ _ Hl) as (x & y & Es & X1 & X2 & X3).
    destruct (at_line_indented t g b s _ Ht Hg Hb ltac:(exists x, y; auto)) as (t1 & E1 & E).
    rewrite E1. apply cwal_moves in E1. pose proof (settled_moves _ _ _ E1 St) as S1.
    destruct (posting_line_read w p cs1 s ty (u ++ r0 ++ r) t1 Hw Hl E) as (t2 & G & A).
    pose proof (proj2 (parse_posting_ok w ty (rp_payee p) t1 S1) _ _ G) as M1.
    unfold get_char. rewrite E, Es. cbn [app]. destruct (N.eqb_spec x c_semi); [congruence|]. rewrite X3. rewrite Hpay in G. rewrite G. cbn [bind].
    rewrite <- Nat.add_assoc.
    destruct (entries_comments_m w ty pay cms ps0 cs2 u Hc (recomment cs1 p) (r0 ++ r) t2 (n + f) A) as (t3 & -> & A3 & M2).
    assert (M3 : moves t t3). { eapply moves_trans; [exact E1|]. eapply moves_trans; [exact (moves1_moves _ _ M1)|exact M2]. }
    rewrite recomment_all by auto. destruct (IH true cms (ps0 ++ [p]) r t3 f A3) as (t4 & pa & -> & A4 & M4); [eapply settled_moves; eauto|].
    exists t4, pa. rewrite <- app_assoc. split; auto. split; auto. eapply moves_trans; eauto.
Qed.
(** The reader comes to an indented line that is no comment. *)
Lemma entries_reach w ty pay cs ps cms c p g b x s t : blanks_not_numeric w -> comment_lines cs c -> posting_lines w pay ps p ->
  blank_lines g -> indent b -> is_ws x = false -> x <> c_semi ->
  tk_rest t = c ++ p ++ g ++ b ++ x :: s -> tk_col t = O -> settled ty t ->
  exists t1 k, moves t t1 /\ tk_rest t1 = x :: s /\ tk_col t1 = length b /\
    entries (entries_fuel t) w ty pay false cms [] t =
      (if is_numeric w x then fail_at t1 (UnexpectedInput (Some (L "Expecting account name")))
       else bind (parse_posting w ty pay t1) k).
Proof.
  intros Hw Hc Hp Hg Hb Hx Hs E Ec St. destruct (entries_postings_m w ty pay ps p Hw Hp) as (n & Hn & HP). pose proof (comment_lines_fuel _ _ Hc) as Hf.
  assert (F : exists f, entries_fuel t = (length cs + (n + S f))%nat).
  { unfold entries_fuel. rewrite E, (app_length c), (app_length p). exists (length c + (length p + length (g ++ b ++ x :: s)) - length cs - n)%nat. lia. }
  destruct F as (f & ->).
  destruct (entries_heading_m w ty pay [] cs c Hc cms (p ++ g ++ b ++ x :: s) t (n + S f)) as (t1 & -> & A1 & M1); [left; auto|].
  destruct (HP false (cms ++ cs) [] (g ++ b ++ x :: s) t1 (S f) A1) as (t2 & pa & -> & A2 & M2); [eapply settled_moves; eauto|]. cbn [entries app].
  assert (So : solid [x]) by (exists x, []; auto).
  destruct (at_line_indented t2 g b [x] s A2 Hg Hb So) as (t3 & E3 & E4).
  pose proof (at_line_column t2 g b [x] s t3 A2 Hg Hb So E3) as E5. rewrite E3. apply cwal_moves in E3.
  unfold get_char. rewrite E4. cbn [app]. destruct (N.eqb_spec x c_semi); [congruence|].
  eexists t3, _. split; [eapply moves_trans; [exact M1|]; eapply moves_trans; eauto|].
  split; [exact E4|]. split; [exact E5|].
  destruct (is_numeric w x); reflexivity.
Qed.

(** ** Moving along a line *)
Definition along (t : tok) (s : str) (t' : tok) : Prop :=
  tk_rest t = s ++ tk_rest t' /\ tk_pre t' = rev s ++ tk_pre t /\ tk_line t' = tk_line t /\ tk_col t' = (tk_col t + length s)%nat.
Lemma along_trans a s b s' c : along a s b -> along b s' c -> along a (s ++ s') c.
Proof.
  intros (A1 & A2 & A3 & A4) (B1 & B2 & B3 & B4). repeat split.
  - rewrite A1, B1. apply app_assoc.
  - rewrite B2, A2, rev_app_distr. apply app_assoc.
  - congruence.
  - rewrite B4, A4, app_length. lia.
Qed.
Lemma along_cons c r pre line col s t' : along (mkt (c :: pre) r line (S col)) s t' -> along (mkt pre (c :: r) line col) (c :: s) t'.
Proof.
  intros (A1 & A2 & A3 & A4). cbn in *. repeat split; cbn; auto.
  - rewrite A1. auto.
  - rewrite A2, <- app_assoc. auto.
  - rewrite A4. lia.
Qed.
Lemma along_nil t : along t [] t.
Proof. repeat split. cbn. lia. Qed.
Lemma mkt_of t : mkt (tk_pre t) (tk_rest t) (tk_line t) (tk_col t) = t.
Proof. destruct t. reflexivity. Qed.
Lemma along_cws b r : blanks b -> dropb r = r -> forall pre line col, along (mkt pre (b ++ r) line col) b (cws (b ++ r) pre line col).
Proof.
  intros Hb Hr. induction b as [|c b IH]; intros pre line col.
  - cbn [app]. assert (E : cws r pre line col = mkt pre r line col).
    { destruct r as [|c r]; auto. cbn in *. destruct (is_ws c && negb (c =? c_nl)%N); auto.
      exfalso. assert (X : forall x, (length (dropb x) <= length x)%nat).
      { induction x as [|y x IH]; cbn; auto. destruct (_ && _); cbn; lia. }
      specialize (X r). rewrite Hr in X. cbn in X. lia. }
    rewrite E. apply along_nil.
  - apply blanks_cons in Hb. destruct Hb as [[H1 H2] Hb]. cbn [app cws]. rewrite H1. destruct (N.eqb_spec c c_nl); [congruence|]. cbn [andb negb].
    apply along_cons. auto.
Qed.
Lemma along_cw t b r : tk_rest t = b ++ r -> blanks b -> dropb r = r -> along t b (consume_whitespaces t) /\ tk_rest (consume_whitespaces t) = r.
Proof.
  intros E Hb Hr. unfold consume_whitespaces. rewrite E. pose proof (along_cws b r Hb Hr (tk_pre t) (tk_line t) (tk_col t)) as A.
  rewrite <- E in A at 1. rewrite mkt_of in A. split; auto. destruct A as (A & _). rewrite E in A. apply app_inv_head in A. auto.
Qed.
Lemma next_tok_along c r pre line col : c <> c_nl -> next_tok c r pre line col = mkt (c :: pre) r line (S col).
Proof. intros H. unfold next_tok. destruct (N.eqb_spec c c_nl); [congruence|]. reflexivity. Qed.
Lemma gaccount_along k : forall n z pre line col acc, (length n <= k)%nat -> inner_name n ->
  exists t, along (mkt pre (n ++ z) line col) n t /\ tk_rest t = z /\
    gaccount (n ++ z) pre line col acc = gaccount z (tk_pre t) (tk_line t) (tk_col t) (acc ++ n).
Proof.
  induction k as [|k IH]; intros n z pre line col acc Hl Hn.
  { destruct n; [|cbn in Hl; lia]. rewrite app_nil_r. eexists. split; [apply along_nil|]. auto. }
  destruct n as [|c n]; [rewrite app_nil_r; eexists; split; [apply along_nil|]; auto|]. cbn [app gaccount]. cbn [length] in Hl.
  assert (Nc : forall x, In x (c :: n) -> x <> c_nl). { intros x Hx ->. destruct Hn as (_ & Hn & _). auto. }
  rewrite next_tok_along by (apply Nc; left; auto). cbn [tk_pre tk_line tk_col].
  destruct (is_ws c) eqn:Ec; cbn [negb].
  - pose proof Hn as (H1 & H2 & H3 & H4).
    destruct (N.eqb_spec c c_tab); [exfalso; apply H1; left; auto|].
    destruct (N.eqb_spec c c_nl); [exfalso; apply H2; left; auto|].
    destruct n as [|d n]; [specialize (H4 [] c eq_refl); congruence|]. cbn [app].
    destruct (is_ws d) eqn:Ed; [exfalso; apply H3; exists [], c, d, n; auto|].
    rewrite next_tok_along by (apply Nc; right; left; auto). cbn [tk_pre tk_line tk_col].
    destruct (IH n z (d :: c :: pre) line (S (S col)) (acc ++ [c; d])) as (t & A & E1 & E2); [cbn in Hl; lia|eapply inner_tl, inner_tl; eauto|].
    exists t. split; [do 2 apply along_cons; auto|]. split; auto. rewrite E2, <- app_assoc. auto.
  - destruct (IH n z (c :: pre) line (S col) (acc ++ [c])) as (t & A & E1 & E2); [lia|eapply inner_tl; eauto|].
    exists t. split; [apply along_cons; auto|]. split; auto. rewrite E2, <- app_assoc. auto.
Qed.
Lemma gaccount_sep_along n sep z t : inner_name n -> account_separator sep -> one_line sep -> tk_rest t = n ++ sep ++ z ->
  exists t1, gaccount (n ++ sep ++ z) (tk_pre t) (tk_line t) (tk_col t) [] = Ok (n, false, t1) /\ tk_rest t1 = z /\ along t (n ++ sep) t1.
Proof.
  intros Hn Hs Ho E. destruct (gaccount_along (length n) n (sep ++ z) (tk_pre t) (tk_line t) (tk_col t) [] (le_n _) Hn) as (u & A & E1 & ->).
  rewrite <- E, mkt_of in A. cbn [app]. destruct Hs as [->|(b & c & -> & Hb & Hc & N1 & N2)].
  - cbn [app gaccount]. rewrite next_tok_along by discriminate. eexists. split; [reflexivity|]. split; auto. eapply along_trans; eauto.
    cbn [app] in E1. rewrite <- (mkt_of u), E1. apply along_cons, along_nil.
  - cbn [app gaccount]. rewrite Hb, Hc. cbn [negb]. destruct (N.eqb_spec b c_tab); [congruence|]. destruct (N.eqb_spec b c_nl); [congruence|].
    assert (c <> c_nl) by (intros ->; apply Ho; right; left; auto).
    rewrite !next_tok_along by auto. eexists. split; [reflexivity|]. split; auto. eapply along_trans; eauto.
    cbn [app] in E1. rewrite <- (mkt_of u), E1. do 2 apply along_cons. apply along_nil.
Qed.
Lemma gaccount_nl_along n z t : inner_name n -> tk_rest t = n ++ c_nl :: z ->
  exists t1, gaccount (n ++ c_nl :: z) (tk_pre t) (tk_line t) (tk_col t) [] = Ok (n, true, t1) /\
    tk_rest t1 = c_nl :: z /\ tk_pre t1 = rev n ++ tk_pre t /\ tk_line t1 = tk_line t /\ tk_col t1 = O.
Proof.
  intros Hn E. destruct (gaccount_along (length n) n (c_nl :: z) (tk_pre t) (tk_line t) (tk_col t) [] (le_n _) Hn) as (u & A & E1 & ->).
  rewrite <- E, mkt_of in A. destruct A as (_ & A2 & A3 & _). eexists. split; [cbn; reflexivity|]. cbn. rewrite A2, A3. repeat split; auto. lia.
Qed.
Lemma gstr_along w c : forall r pre line col acc, (forall x, In x c -> word_char w x) ->
  exists t, along (mkt pre (c ++ r) line col) c t /\ tk_rest t = r /\
    gstr w (c ++ r) pre line col false acc = gstr w r (tk_pre t) (tk_line t) (tk_col t) false (acc ++ c).
Proof.
  induction c as [|x c IH]; intros r pre line col acc H.
  - rewrite app_nil_r. cbn [app]. eexists. split; [apply along_nil|]. auto.
  - cbn [app gstr]. destruct (H x (or_introl eq_refl)) as (H1 & H2 & H3). cbn in H3.
    destruct (N.eqb_spec x c_nl) as [->|E]; [discriminate|]. destruct (N.eqb_spec x c_dq) as [->|E1]; [exfalso; auto 10|].
    rewrite H1, H2. destruct (N.eqb_spec x c_dot) as [->|E2]; [exfalso; auto 10|]. destruct (N.eqb_spec x c_minus) as [->|E3]; [exfalso; auto 10|].
    destruct (N.eqb_spec x c_semi) as [->|E4]; [exfalso; auto 10|]. cbn [orb andb negb].
    destruct (IH r (x :: pre) line (S col) (acc ++ [x])) as (t & A & B & ->); [intros y Hy; apply H; right; auto|].
    exists t. split; [apply along_cons; auto|]. split; auto. rewrite <- app_assoc. auto.
Qed.
Lemma get_string_along w t c b r : solid c -> (forall x, In x c -> word_char w x) -> blanks b -> stopper w (b ++ r) -> dropb r = r ->
  tk_rest t = c ++ b ++ r -> exists t', get_string w t = (c, t') /\ tk_rest t' = r /\ along t (c ++ b) t'.
Proof.
  intros Hs Hc Hb Hst Hr E. unfold get_string.
  destruct (along_cw t [] (c ++ b ++ r) E blanks_nil (dropb_solid _ _ Hs)) as [A0 E0]. set (t0 := consume_whitespaces t) in *. rewrite E0.
  destruct (gstr_along w c (b ++ r) (tk_pre t0) (tk_line t0) (tk_col t0) [] Hc) as (t1 & A1 & E1 & ->).
  rewrite <- E0, mkt_of in A1. cbn [app]. rewrite gstr_stop by auto. eexists. split; [reflexivity|].
  rewrite <- E1, mkt_of in *. destruct (along_cw t1 b r E1 Hb Hr) as [A2 E2]. split; auto.
  change (c ++ b) with ([] ++ c ++ b). eapply along_trans; [exact A0|]. eapply along_trans; eauto.
Qed.

(** ** Wrong postings *)
Lemma last_of (s : str) c : (last s 0 =? c)%N = true -> s = [] \/ exists m, s = m ++ [c].
Proof.
  intros H. destruct s as [|x s _] using rev_ind; auto. right. rewrite last_last in H. apply N.eqb_eq in H. subst. eauto.
Qed.
Lemma unclosed_kind o c n t : unclosed o c n -> o = c_lp /\ c = c_rp \/ o = c_lb /\ c = c_rb ->
  account_kind n t = fail_at t (UnexpectedInput (Some (if (o =? c_lp)%N then L "Expected ')'" else L "Expected ']'"))).
Proof.
  intros (_ & (x & r & -> & ->) & Hn) Ho.
  assert (Hl : (last (o :: r) 0 =? c)%N = false).
  { destruct (last (o :: r) 0 =? c)%N eqn:E; auto. apply last_of in E. destruct E as [E|(m & E)]; [discriminate|]. apply Hn in E. contradiction. }
  unfold account_kind. destruct Ho as [[-> ->] | [-> ->]].
  - change (128 <=? c_lp)%N with false. change (c_lp =? c_lp)%N with true. cbn iota. rewrite Hl. reflexivity.
  - change (128 <=? c_lb)%N with false. change (c_lb =? c_lp)%N with false. change (c_lb =? c_lb)%N with true. cbn iota. rewrite Hl. reflexivity.
Qed.
Lemma lead_along w ty pay s z t : account_lead w s -> tk_rest t = s ++ z -> dropb z = z ->
  exists p t', parse_posting w ty pay t = posting_loop (S (S (length z))) w ty p t' /\ rp_money p = None /\ tk_rest t' = z /\ along t s t'.
Proof.
  intros (n & k & acc & sep & b & Hn & Hf & _ & Hs & Ho & Hb & ->) E Hz. destruct (form_inner _ _ _ Hn Hf) as [I K].
  rewrite <- !app_assoc in E. destruct (gaccount_sep_along acc sep (b ++ z) t I Hs Ho E) as (t1 & G & E1 & A1).
  unfold parse_posting. rewrite E, G. cbn [bind]. rewrite K. cbn [bind].
  destruct (along_cw t1 b z E1 Hb Hz) as [A2 E2]. exists (rp_new n k pay), (consume_whitespaces t1). rewrite E2.
  split; [reflexivity|]. split; auto. split; auto. rewrite app_assoc. eapply along_trans; eauto.
Qed.
Lemma digits_numeric (w : world) s : only_digits s -> all_digits s = true.
Proof. intros H. apply only_digits_all. auto. Qed.
Lemma points_read w neg ip fp r t : only_digits ip -> only_digits fp ->
  tk_rest t = ((if neg : bool then L "-" else []) ++ ip ++ L "." ++ fp) ++ L "." ++ r ->
  exists t', parse_money w t = (inr (UnexpectedInput (Some (L "Too many decimal separators"))), t') /\
    along t ((if neg then L "-" else []) ++ ip ++ L "." ++ fp) t'.
Proof.
  intros Hi Hf E. pose proof (digits_numeric w _ Hi) as Di. pose proof (digits_numeric w _ Hf) as Df.
  assert (G : forall pre line col num den, gamount w (ip ++ L "." ++ fp ++ L "." ++ r) pre line col num den false =
    (TwoPoints, mkt (rev (ip ++ L "." ++ fp) ++ pre) (L "." ++ r) line (col + length (ip ++ L "." ++ fp)))).
  { intros. rewrite gamount_digits by auto. change (L "." ++ fp ++ L "." ++ r) with (c_dot :: fp ++ L "." ++ r). rewrite gamount_point.
    rewrite gamount_digits by auto. change (L "." ++ r) with (c_dot :: r). cbn [gamount]. change (c_dot =? c_dot)%N with true. cbn iota.
    f_equal. f_equal; [rewrite !rev_app_distr, <- !app_assoc; reflexivity|rewrite !app_length; cbn [length L]; cbn; lia]. }
  rewrite <- !app_assoc in E.
  assert (P : exists t', parse_amount w t = (inr (UnexpectedInput (Some (L "Too many decimal separators"))), t') /\
    along t ((if neg then L "-" else []) ++ ip ++ L "." ++ fp) t').
  { unfold parse_amount. rewrite E. destruct neg.
    - change (L "-" ++ ip ++ L "." ++ fp ++ L "." ++ r) with (c_minus :: ip ++ L "." ++ fp ++ L "." ++ r). rewrite gamount_minus, G. cbn iota.
      eexists. split; [reflexivity|]. repeat split; cbn [tk_rest tk_pre tk_line tk_col].
      + rewrite E, <- !app_assoc. reflexivity.
      + cbn. rewrite <- !app_assoc. reflexivity.
      + rewrite !app_length. cbn. lia.
    - rewrite !app_nil_l. rewrite G. eexists. split; [reflexivity|]. repeat split; cbn [tk_rest tk_pre tk_line tk_col].
      rewrite E, <- !app_assoc. reflexivity. }
  destruct P as (t' & P & A). exists t'. split; auto. unfold parse_money, get_char. rewrite E.
  assert (Hc : exists c x, (if neg then L "-" else []) ++ ip ++ L "." ++ fp ++ L "." ++ r = c :: x /\ is_numeric w c || (c =? c_dot)%N || (c =? c_minus)%N = true).
  { destruct neg; [eexists c_minus, _; split; [reflexivity|rewrite !orb_true_r; auto]|]. destruct ip as [|c ip]; [eexists c_dot, _; split; [reflexivity|rewrite !orb_true_r; auto]|].
    eexists c, _. split; [reflexivity|]. cbn in Di. apply andb_true_iff in Di. rewrite is_digit_numeric by apply Di. reflexivity. }
  destruct Hc as (c & x & -> & ->). rewrite P. reflexivity.
Qed.
Lemma word_read w c b r t : solid c -> (forall x, In x c -> word_char w x) -> blanks b -> first_is (fun x => x = c_nl \/ is_ws x = false) r ->
  (b = [] -> first_is (fun x => x = c_nl \/ x = c_semi) r) -> no_more w r -> tk_rest t = c ++ b ++ r ->
  exists t', parse_money w t = (inr (UnexpectedInput (Some (L "Wrong number format"))), t') /\ along t (c ++ b) t'.
Proof.
  intros Hs Hc Hb Hr Hbr Hn E.
  assert (Hd : dropb r = r). { destruct Hr as (x & y & -> & [-> | Hx]); [reflexivity|]. cbn. rewrite Hx. auto. }
  assert (Hst : stopper w (b ++ r)).
  { destruct b as [|x b]; [|left; apply Hb; left; auto]. destruct (Hbr eq_refl) as (x & y & -> & [-> | ->]); cbn; auto 10. }
  destruct (get_string_along w t c b r Hs Hc Hb Hst Hd E) as (t1 & G & E1 & A1).
  exists t1. split; auto. unfold parse_money, get_char. rewrite E. destruct Hs as (x & y & -> & Hx). cbn [app].
  destruct (Hc x (or_introl eq_refl)) as (_ & N1 & N2). rewrite N1.
  destruct (N.eqb_spec x c_dot) as [->|_]; [exfalso; apply N2; cbn; auto 10|]. destruct (N.eqb_spec x c_minus) as [->|_]; [exfalso; apply N2; cbn; auto 10|].
  cbn [orb]. rewrite G. unfold parse_amount. rewrite E1, gamount_stop by auto. cbn. rewrite <- E1. rewrite mkt_of. reflexivity.
Qed.
Definition of_type (real : bool) : ttype := if real then TReal else TAutomated.
Lemma first_neq (P : N -> Prop) c x s : first_is P s -> s = x :: c -> P x.
Proof. intros (y & z & -> & H) E. inversion E. subst. auto. Qed.
Lemma bad_posting_read w real pay msg seen s t : bad_posting w real msg seen s -> tk_rest t = s ->
  ~ first_is (fun x => is_numeric w x = true) s ->
  exists t', parse_posting w (of_type real) pay t = fail_at t' (UnexpectedInput (Some msg)) /\ along t seen t'.
Proof.
  intros H E Hn. destruct H as [x r Hx|n sep r Hu Hs Ho|n sep r Hu Hs Ho|s r Hl|s neg ip fp r Hr Hl Hi Hf|s c b r Hr Hl Hc Hcw Hb H1 H2 H3].
  - exfalso. apply Hn. exists x, r. auto.
  - rewrite <- app_assoc in E. destruct (gaccount_sep_along n sep r t (plain_inner _ (proj1 Hu)) Hs Ho E) as (t1 & G & E1 & A1).
    exists t1. split; auto. unfold parse_posting. rewrite E, G. cbn [bind]. rewrite (unclosed_kind c_lp c_rp) by auto. reflexivity.
  - rewrite <- app_assoc in E. destruct (gaccount_sep_along n sep r t (plain_inner _ (proj1 Hu)) Hs Ho E) as (t1 & G & E1 & A1).
    exists t1. split; auto. unfold parse_posting. rewrite E, G. cbn [bind]. rewrite (unclosed_kind c_lb c_rb) by auto. reflexivity.
  - destruct (lead_along w (of_type real) pay s (L "@" ++ r) t Hl E eq_refl) as (p & t1 & -> & Hp & E1 & A). exists t1. split; auto.
    cbn [posting_loop]. unfold get_char. rewrite E1. cbn -[posting_loop parse_money]. rewrite Hp. reflexivity.
  - subst real. rewrite <- !app_assoc in E.
    set (num := (if neg then L "-" else []) ++ ip ++ L "." ++ fp) in *.
    assert (E' : tk_rest t = s ++ num ++ L "." ++ r) by (rewrite E; unfold num; rewrite <- !app_assoc; reflexivity).
    assert (Hd : first_is (fun x => is_ws x = false /\ (x =? c_lp)%N = false /\ (x =? c_nl)%N = false /\ (x =? c_semi)%N = false /\
                            (x =? c_eq)%N = false /\ (x =? c_at)%N = false) num).
    { unfold num. destruct neg; [eexists c_minus, _; split; [reflexivity|]; repeat split; reflexivity|]. destruct ip as [|y ip]; [eexists c_dot, _; split; [reflexivity|]; repeat split; reflexivity|].
      eexists y, _; split; [reflexivity|]. specialize (Hi y (or_introl eq_refl)).
      assert (X : (y = 48 \/ y = 49 \/ y = 50 \/ y = 51 \/ y = 52 \/ y = 53 \/ y = 54 \/ y = 55 \/ y = 56 \/ y = 57)%N) by lia.
      decompose [or] X; subst; repeat split; reflexivity. }
    destruct Hd as (x & y & En & X1 & X2 & X3 & X4 & X5 & X6).
    destruct (lead_along w TReal pay s (num ++ L "." ++ r) t Hl E') as (p & t1 & Ep & Hp & E1 & A). { rewrite En. cbn. rewrite X1. reflexivity. }
    destruct (points_read w neg ip fp r t1 Hi Hf E1) as (t2 & G & A2). exists t2. split; [|eapply along_trans; eauto].
    cbn [of_type]. rewrite Ep. cbn [posting_loop]. unfold get_char. rewrite E1, En. cbn [app]. rewrite X2, X3, X4, X5, X6, G. reflexivity.
  - subst real. rewrite <- !app_assoc in E.
    assert (So : solid c). { destruct Hc as (x & y & -> & _). exists x, y. split; auto. apply (Hcw x). left. auto. }
    assert (Hw : forall x, In x c -> word_char w x) by exact Hcw.
    destruct (lead_along w TReal pay s (c ++ b ++ r) t Hl E (dropb_solid _ _ So)) as (p & t1 & Ep & Hp & E1 & A).
    destruct (word_read w c b r t1 So Hw Hb H1 H2 H3 E1) as (t2 & G & A2). exists t2. split; [|eapply along_trans; eauto].
    cbn [of_type]. rewrite Ep. cbn [posting_loop]. unfold get_char. destruct Hc as (x & y & -> & Hx). rewrite E1. cbn [app].
    destruct (Hcw x (or_introl eq_refl)) as (W1 & W2 & W3). cbn in Hx, W3.
    destruct (N.eqb_spec x c_lp) as [->|_]; [exfalso; apply Hx; auto|]. destruct (N.eqb_spec x c_nl) as [->|_]; [discriminate|].
    destruct (N.eqb_spec x c_semi) as [->|_]; [exfalso; apply W3; auto 10|]. destruct (N.eqb_spec x c_eq) as [->|_]; [exfalso; apply Hx; auto|].
    destruct (N.eqb_spec x c_at) as [->|_]; [exfalso; apply Hx; auto|]. rewrite G. reflexivity.
Qed.

(** ** Directives *)
Ltac by_setting_m w Hs H := match type of Hs with setting ?k _ _ =>
  let K := fresh in assert (K : keyword w k) by (apply keywords; cbn; auto 20); destruct (setting_read w _ _ _ _ _ K Hs H) as (t1 & c & t2 & l & t3 & G1 & G2 & G3 & G4 & G5 & G6 & G7);
  exists t3; split; [|split; [exact G7|eapply moves_trans; [eapply cwal_moves; exact G1|eapply moves_trans; [eapply get_string_moves; exact G4|eapply get_line_moves; exact G5]]]];
  rewrite G1, G2, G3, G4, ?G5, ?G6 end.
Ltac by_flag_m w Hs H := match type of Hs with flag_setting ?k _ =>
  let K := fresh in assert (K : keyword w k) by (apply keywords; cbn; auto 20); destruct (flag_read w _ _ _ _ K Hs H) as (t1 & c & t2 & G1 & G2 & G3 & G4 & G5);
  exists t2; split; [|split; [exact G5|eapply moves_trans; [eapply cwal_moves; exact G1|eapply get_string_moves; exact G4]]]; rewrite G1, G2, G3, G4 end.
Lemma remark_moves t t1 l t2 : consume_whitespaces_and_lines t = (Indented, t1) -> get_char t1 = Some c_semi -> parse_comment t1 = (l, t2) -> moves t t2.
Proof.
  intros G1 G2 G3. eapply moves_trans; [eapply cwal_moves; exact G1|]. apply moves1_moves. eapply parse_comment_moves1; [exact G2|reflexivity|exact G3].
Qed.
Lemma account_step_m w f a b s r t : account_setting w a b s -> line_at t (s ++ r) ->
  exists t', account_loop (S f) w a t = account_loop f w b t' /\ line_at t' r /\ moves t t'.
Proof.
  intros Hs H. cbn [account_loop]. destruct Hs as [v s Hs|v s Hs|v s Hs Hn|v s Hs|v s Hs|v s Hs Hx|s Hs|s Hs].
  - by_setting_m w Hs H. reflexivity.
  - by_setting_m w Hs H. reflexivity.
  - by_setting_m w Hs H. rewrite sadd_new by auto. reflexivity.
  - by_setting_m w Hs H. reflexivity.
  - by_setting_m w Hs H. reflexivity.
  - by_setting_m w Hs H. rewrite Hx. reflexivity.
  - by_flag_m w Hs H. destruct (get_line t2). reflexivity.
  - destruct (remark_read _ _ _ Hs H) as (t1 & G1 & G2 & (l & t2 & G3 & G4) & _). exists t2.
    split; [|split; [exact G4|eapply moves_trans; [eapply cwal_moves; exact G1|eapply get_line_moves; exact G3]]]. rewrite G1, G2, G3. reflexivity.
Qed.
Lemma commodity_step_m w f a b s r t : commodity_setting a b s -> line_at t (s ++ r) ->
  exists t', commodity_loop (S f) w a t = commodity_loop f w b t' /\ line_at t' r /\ moves t t'.
Proof.
  intros Hs H. cbn [commodity_loop]. destruct Hs as [v s Hs|v s Hs Hn|v s Hs|s Hs|s Hs].
  - by_setting_m w Hs H. reflexivity.
  - by_setting_m w Hs H. rewrite sadd_new by auto. reflexivity.
  - by_setting_m w Hs H. reflexivity.
  - by_flag_m w Hs H. destruct (get_line t2). reflexivity.
  - destruct (remark_read _ _ _ Hs H) as (t1 & G1 & G2 & _ & (l & t2 & G3 & G4)). exists t2.
    split; [|split; [exact G4|eapply remark_moves; eauto]]. rewrite G1, G2, G3. reflexivity.
Qed.
Lemma payee_step_m w f a b s r t : payee_setting w a b s -> line_at t (s ++ r) ->
  exists t', payee_loop (S f) w a t = payee_loop f w b t' /\ line_at t' r /\ moves t t'.
Proof.
  intros Hs H. cbn [payee_loop]. destruct Hs as [v s Hs Hn Hx|s Hs].
  - by_setting_m w Hs H. cbn [str_eqb]. rewrite ?G5, ?G6. rewrite sadd_new by auto. reflexivity.
  - destruct (remark_read _ _ _ Hs H) as (t1 & G1 & G2 & _ & (l & t2 & G3 & G4)). exists t2.
    split; [|split; [exact G4|eapply remark_moves; eauto]]. rewrite G1, G2, G3. reflexivity.
Qed.
Lemma tag_step_m w f a b s r t : tag_setting a b s -> line_at t (s ++ r) ->
  exists t', tag_loop (S f) w a t = tag_loop f w b t' /\ line_at t' r /\ moves t t'.
Proof.
  intros Hs H. cbn [tag_loop]. destruct Hs as [v s Hs|v s Hs]; by_setting_m w Hs H; reflexivity.
Qed.
Lemma settings_reach {A} (st : A -> A -> str -> Prop) (loop : nat -> A -> tok -> res (A * tok)) :
  (forall f a b s r t, st a b s -> line_at t (s ++ r) -> exists t', loop (S f) a t = loop f b t' /\ line_at t' r /\ moves t t') ->
  (forall a b s, st a b s -> (0 < length s)%nat) ->
  forall a b s, settings st a b s -> forall f r t, line_at t (s ++ r) -> (length s < f)%nat ->
    exists t' f', loop f a t = loop (S f') b t' /\ line_at t' r /\ moves t t'.
Proof.
  intros H2 H3 a b s H. induction H as [a|a b c s r0 Hs Hr IH]; intros f r t Ht Hf.
  - destruct f as [|f]; [cbn in Hf; lia|]. exists t, f. auto with mv.
  - destruct f as [|f]; [lia|]. rewrite <- app_assoc in Ht. destruct (H2 f a b s (r0 ++ r) t Hs Ht) as (t' & -> & Ht' & M).
    destruct (IH f r t' Ht') as (t2 & f2 & -> & E2 & M2). { rewrite app_length in Hf. pose proof (H3 _ _ _ Hs). lia. }
    exists t2, f2. split; auto. split; auto. eapply moves_trans; eauto.
Qed.
(** The reader at a line that begins with an unknown word. *)
Lemma bad_setting_read w known k seen s g b t : bad_setting w known k seen s -> blank_lines g -> indent b -> line_at t (g ++ b ++ s) ->
  exists t1 c t2, consume_whitespaces_and_lines t = (Indented, t1) /\ get_char t1 = Some c /\ (c =? c_semi)%N = false /\
    get_string w t1 = (k, t2) /\ moves t t2 /\ s = seen ++ tk_rest t2 /\ tk_col t2 = length (b ++ seen).
Proof.
  intros [b2 r Hk Hw Hn Hb2 Hr Hbr] Hg Hb H.
  assert (So : solid k). { destruct k as [|x k]; [congruence|]. exists x, k. split; auto. apply (Hw x). left. auto. }
  rewrite <- app_assoc in H. destruct (at_line_indented _ _ _ _ _ H Hg Hb So) as (t1 & G1 & E1).
  pose proof (at_line_column _ _ _ _ _ _ H Hg Hb So G1) as C1.
  assert (Hd : dropb r = r). { destruct Hr as (x & y & -> & [-> | Hx]); [reflexivity|]. cbn. rewrite Hx. auto. }
  assert (Hst : stopper w (b2 ++ r)).
  { destruct b2 as [|x b2]; [|left; apply Hb2; left; auto]. destruct (Hbr eq_refl) as (x & y & -> & ->). cbn. auto. }
  destruct (get_string_along w t1 k b2 r So Hw Hb2 Hst Hd E1) as (t2 & G2 & E2 & A2).
  destruct k as [|x k]; [congruence|]. exists t1, x, t2. split; auto. split; [unfold get_char; rewrite E1; reflexivity|].
  split. { apply N.eqb_neq. intros ->. destruct (Hw c_semi (or_introl eq_refl)) as (_ & _ & X). apply X. cbn. auto 10. }
  split; auto. split; [eapply moves_trans; [eapply cwal_moves; exact G1|eapply get_string_moves; exact G2]|].
  split; [rewrite E2; reflexivity|]. destruct A2 as (_ & _ & _ & A2). rewrite A2, C1, (app_length b). reflexivity.
Qed.
Lemma unknown_word w known k seen s v : bad_setting w known k seen s -> In v known -> str_eqb k v = false.
Proof. intros [b r _ _ Hn _ _ _] Hv. destruct (str_eqb_spec k v); auto. subst. contradiction. Qed.
