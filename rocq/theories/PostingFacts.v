(** The line of a posting: its account and where it ends. *)
From Coq Require Import Lia.
From Verif Require Import Base BaseFacts Numerals Money Alist Comment Txn Peg Grammar PegFacts Dates Expr Tokens
  TokenFacts SpecList AlistFacts JournalFacts SpecTokens TokenFacts2 SimFacts.
Open Scope Z_scope.

Lemma next_tok_rest c r pre line col : tk_rest (next_tok c r pre line col) = r.
Proof. unfold next_tok. destruct (c =? c_nl)%N; reflexivity. Qed.
Lemma name_and_blank_cons c r : is_ws c = false -> name_and_blank r -> name_and_blank (c :: r).
Proof.
  intros Hc (n & b & -> & Hb & Ht & Ha). exists (c :: n), b. repeat split; auto.
  - intros [E|E]; [|auto]. subst. discriminate.
  - intros (p & x & y & q & E & Hx & Hy). destruct p as [|z p]; cbn in E; inv E; [congruence|]. apply Ha. exists p, x, y, q. auto.
Qed.
Lemma name_and_blank_cons2 c d r : is_ws c = true -> c <> c_tab -> is_ws d = false -> name_and_blank r -> name_and_blank (c :: d :: r).
Proof.
  intros Hc Hct Hd H. apply (name_and_blank_cons d) in H; auto. destruct H as (n & b & E & Hb & Ht & Ha). exists (c :: n), b.
  repeat split; auto.
  - rewrite E. auto.
  - intros [X|X]; [congruence|auto].
  - intros (p & x & y & q & E2 & Hx & Hy). destruct p as [|z p]; cbn in E2; inv E2; [congruence|]. apply Ha. exists p, x, y, q. auto.
Qed.
Lemma next_col c r r' pre pre' line line' col : c <> c_nl ->
  tk_col (next_tok c r pre line col) = tk_col (next_tok c r' pre' line' col).
Proof. intros H. unfold next_tok. destruct (N.eqb_spec c c_nl); [congruence|reflexivity]. Qed.

(** The account is read the same way whatever comes on later lines. *)
Lemma gaccount_line n : forall ln z pre line pre' line' col acc x fin t1, (length ln <= n)%nat -> ~ In c_nl ln -> ~ name_and_blank ln ->
  gaccount (ln ++ [c_nl]) pre line col acc = Ok (x, fin, t1) ->
  exists t1', gaccount (ln ++ c_nl :: z) pre' line' col acc = Ok (x, fin, t1') /\ sim_in [c_nl] (c_nl :: z) ln t1 t1'.
Proof.
  induction n as [|n IH]; intros ln z pre line pre' line' col acc x fin t1 Hl Hn Hb H.
  { destruct ln; [|cbn in Hl; lia]. cbn in *. inv H. eexists. split; [reflexivity|]. exists []. split; [apply suffix_refl|].
    repeat split. }
  destruct ln as [|c ln].
  { cbn in *. inv H. eexists. split; [reflexivity|]. exists []. split; [apply suffix_refl|]. repeat split. }
  assert (Hc : c <> c_nl) by (intros ->; apply Hn; left; auto).
  assert (Hn' : ~ In c_nl ln) by (intros X; apply Hn; right; auto).
  cbn [app gaccount] in *. cbn [length] in Hl.
  rewrite (next_col c (ln ++ c_nl :: z) (ln ++ [c_nl]) pre' pre line' line col Hc).
  destruct (is_ws c) eqn:Ec; cbn [negb] in *.
  - destruct (N.eqb_spec c c_tab).
    + inv H. eexists. split; [reflexivity|]. exists ln. split; [apply suffix_cons, suffix_refl|].
      repeat split; rewrite ?next_tok_rest; auto; apply next_col; auto.
    + destruct (N.eqb_spec c c_nl); [congruence|]. destruct ln as [|d ln].
      * exfalso. apply Hb. exists [], c. repeat split; auto.
        -- intros [X|[]]; congruence.
        -- intros (p & x0 & y & q & E & _). destruct p as [|? [|? ?]]; discriminate.
      * cbn [app] in *. assert (Hd : d <> c_nl) by (intros ->; apply Hn'; left; auto).
        destruct (is_ws d) eqn:Ed.
        -- inv H. eexists. split; [reflexivity|]. exists ln. split; [apply suffix_cons, suffix_cons, suffix_refl|].
           repeat split; rewrite ?next_tok_rest; auto; apply next_col; auto.
        -- set (C := tk_col (next_tok c (d :: ln ++ [c_nl]) pre line col)) in *.
           rewrite (next_col d (ln ++ c_nl :: z) (ln ++ [c_nl]) _ (tk_pre (next_tok c (d :: ln ++ [c_nl]) pre line col)) _
                     (tk_line (next_tok c (d :: ln ++ [c_nl]) pre line col)) C Hd).
           eapply IH in H; [| |intros X; apply Hn'; right; exact X|].
           ++ destruct H as (t1' & E1 & E2). exists t1'. split; [exact E1|]. destruct E2 as (a' & S1 & S2). exists a'.
              split; [apply suffix_cons, suffix_cons; auto|auto].
           ++ cbn in Hl. lia.
           ++ intros X. apply Hb. apply name_and_blank_cons2; auto.
  - eapply IH in H; [| |auto|].
    + destruct H as (t1' & E1 & E2). exists t1'. split; [exact E1|]. destruct E2 as (a' & S1 & S2). exists a'.
      split; [apply suffix_cons; auto|auto].
    + lia.
    + intros X. apply Hb. apply name_and_blank_cons; auto.
Qed.
(** A posting depends on nothing but its line. *)
Lemma posting_line w ty pay ln z t t' p t1 : ~ In c_nl ln -> ~ name_and_blank ln ->
  tk_rest t = ln ++ [c_nl] -> tk_rest t' = ln ++ c_nl :: z -> tk_col t = tk_col t' ->
  parse_posting w ty pay t = Ok (p, t1) -> expression_closed p ->
  exists t1', parse_posting w ty pay t' = Ok (p, t1') /\ fwd [c_nl] (c_nl :: z) ln t1 t1' /\ edge t1 .
Proof.
  intros Hn Hb E1 E2 E3 H Hc. pose proof (parse_posting_edge _ _ _ _ _ _ H) as He. unfold parse_posting in *.
  rewrite E1 in H. rewrite E2, <- E3. bind_inv H. destruct a as [[acc fin] u].
  eapply (gaccount_line (length ln)) in Hb0; auto. destruct Hb0 as (u' & X1 & X2). rewrite X1. cbn [bind].
  bind_inv H. destruct a as [k acc']. rewrite (account_kind_ok _ _ u' _ Hb0). cbn [bind].
  destruct fin; [inv H; exists u'; split; [auto|split; [left; auto|auto]]|].
  apply cw_sim_in in X2; [|auto|eauto]. destruct X2 as (b & Hs & X2).
  edestruct (posting_loop_sim [c_nl] (c_nl :: z)) as (t1' & Y1 & Y2); [auto|eauto| |exact X2|apply cw_head| |exact H|exact Hc|].
  3: { exists t1'. split; [exact Y1|]. split; [|auto]. eapply fwd_trans; eauto. }
  - intros _. split; discriminate.
  - destruct X2 as (_ & X2 & _). rewrite X2, app_length. lia.
Qed.
Lemma posting_line_end w ty pay ln z t t' p t1 : ~ In c_nl ln -> ~ name_and_blank ln ->
  tk_rest t = ln ++ [c_nl] -> tk_rest t' = ln ++ c_nl :: z -> tk_col t = tk_col t' ->
  parse_posting w ty pay t = Ok (p, t1) -> expression_closed p ->
  exists t1', parse_posting w ty pay t' = Ok (p, t1') /\ (tk_rest t1' = c_nl :: z \/ tk_rest t1' = z).
Proof.
  intros Hn Hb E1 E2 E3 H Hc. destruct (posting_line _ _ _ _ _ _ _ _ _ Hn Hb E1 E2 E3 H Hc) as (t1' & X1 & X2 & X3).
  exists t1'. split; auto. destruct X2 as [(a' & (q & Eq) & A1 & A2 & A3)|(A1 & A2 & _)]; [left|right; exact A2].
  assert (Hnl : nlterm (tk_rest t)) by (rewrite E1; right; eauto).
  destruct (proj2 (parse_posting_ok w ty pay t (fun _ => Hnl)) _ _ H) as (p0 & (M1 & M2 & _) & M3).
  rewrite E1, A1, Eq, <- app_assoc in M1. apply app_inv_tail in M1. subst q.
  assert (a' = []).
  { destruct X3 as [[X|[_ [X|(r & X)]]]|(r & X)].
    - rewrite A1 in X. destruct a'; discriminate.
    - rewrite M2 in X. apply app_eq_nil in X. destruct X as [X _]. destruct p0; [congruence|]. cbn in X. destruct (rev p0); discriminate.
    - rewrite M2 in X. destruct p0 as [|x p0 _] using rev_ind; [congruence|]. rewrite rev_app_distr in X. cbn in X. inv X.
      exfalso. apply Hn. rewrite <- app_assoc. apply in_or_app. right. left. auto.
    - rewrite A1 in X. destruct a' as [|x a']; auto. inv X. exfalso. apply Hn. apply in_or_app. right. left. auto. }
  subst a'. exact A2.
Qed.

(** ** Account names *)
Definition inner_name (s : str) : Prop :=
  ~ In c_tab s /\ ~ In c_nl s /\ ~ adjacent_blanks s /\ (forall p c, s = p ++ [c] -> is_ws c = false).
Lemma inner_tl c r : inner_name (c :: r) -> inner_name r.
Proof.
  intros (H1 & H2 & H3 & H4). repeat split.
  - intros X. apply H1. right. auto.
  - intros X. apply H2. right. auto.
  - intros (p & a & b & q & -> & X). apply H3. exists (c :: p), a, b, q. auto.
  - intros p x ->. apply (H4 (c :: p) x). auto.
Qed.
Lemma gaccount_name k : forall n z pre line col acc, (length n <= k)%nat -> inner_name n ->
  exists pre' line' col', gaccount (n ++ z) pre line col acc = gaccount z pre' line' col' (acc ++ n).
Proof.
  induction k as [|k IH]; intros n z pre line col acc Hl Hn.
  { destruct n; [|cbn in Hl; lia]. rewrite app_nil_r. eauto. }
  destruct n as [|c n]; [rewrite app_nil_r; eauto|]. cbn [app gaccount]. cbn [length] in Hl.
  destruct (is_ws c) eqn:Ec; cbn [negb].
  - destruct Hn as (H1 & H2 & H3 & H4).
    destruct (N.eqb_spec c c_tab); [exfalso; apply H1; left; auto|].
    destruct (N.eqb_spec c c_nl); [exfalso; apply H2; left; auto|].
    destruct n as [|d n]; [specialize (H4 [] c eq_refl); congruence|]. cbn [app].
    destruct (is_ws d) eqn:Ed; [exfalso; apply H3; exists [], c, d, n; auto|].
    destruct (IH n z (tk_pre (next_tok d (n ++ z) (tk_pre (next_tok c (d :: n ++ z) pre line col)) (tk_line (next_tok c (d :: n ++ z) pre line col)) (tk_col (next_tok c (d :: n ++ z) pre line col))))
      (tk_line (next_tok d (n ++ z) (tk_pre (next_tok c (d :: n ++ z) pre line col)) (tk_line (next_tok c (d :: n ++ z) pre line col)) (tk_col (next_tok c (d :: n ++ z) pre line col))))
      (tk_col (next_tok d (n ++ z) (tk_pre (next_tok c (d :: n ++ z) pre line col)) (tk_line (next_tok c (d :: n ++ z) pre line col)) (tk_col (next_tok c (d :: n ++ z) pre line col)))) (acc ++ [c; d]))
      as (pre' & line' & col' & E).
    + cbn in Hl. lia.
    + apply (inner_tl d), (inner_tl c). repeat split; auto.
    + exists pre', line', col'. rewrite E, <- app_assoc. auto.
  - destruct (IH n z (tk_pre (next_tok c (n ++ z) pre line col)) (tk_line (next_tok c (n ++ z) pre line col)) (tk_col (next_tok c (n ++ z) pre line col)) (acc ++ [c])) as (pre' & line' & col' & E).
    + lia.
    + eapply inner_tl; eauto.
    + exists pre', line', col'. rewrite E, <- app_assoc. auto.
Qed.
Lemma gaccount_sep n sep z pre line col : inner_name n -> account_separator sep ->
  exists t, gaccount (n ++ sep ++ z) pre line col [] = Ok (n, false, t) /\ tk_rest t = z.
Proof.
  intros Hn Hs. destruct (gaccount_name (length n) n (sep ++ z) pre line col [] (le_n _) Hn) as (pre' & line' & col' & E). rewrite E. clear E.
  destruct Hs as [->|(b & c & -> & Hb & Hc & N1 & N2)].
  - cbn. eexists. split; [reflexivity|]. reflexivity.
  - cbn [app gaccount]. rewrite Hb, Hc. cbn [negb]. destruct (N.eqb_spec b c_tab); [congruence|]. destruct (N.eqb_spec b c_nl); [congruence|].
    eexists. split; [reflexivity|]. apply next_tok_rest.
Qed.
Lemma gaccount_nl n z pre line col : inner_name n ->
  exists t, gaccount (n ++ c_nl :: z) pre line col [] = Ok (n, true, t) /\ tk_rest t = c_nl :: z.
Proof.
  intros Hn. destruct (gaccount_name (length n) n (c_nl :: z) pre line col [] (le_n _) Hn) as (pre' & line' & col' & E). rewrite E. clear E.
  cbn. eexists. split; [reflexivity|]. reflexivity.
Qed.
Lemma plain_inner n : plain_name n -> inner_name n.
Proof.
  intros (_ & H1 & H2 & H3 & _ & H5). repeat split; auto. intros (p & c & d & r & E & Hc & Hd). eapply H3; eauto.
Qed.
Lemma trim_plain n : plain_name n -> trim n = n.
Proof.
  intros (H0 & _ & _ & _ & H4 & H5). unfold trim.
  assert (E : trim_start n = n). { destruct n as [|c r]; auto. cbn. rewrite (H4 c r eq_refl). auto. }
  rewrite E. unfold trim_end. destruct n as [|x n _] using rev_ind; [congruence|]. rewrite rev_app_distr. cbn.
  rewrite (H5 n x eq_refl). cbn. rewrite rev_involutive. auto.
Qed.
Lemma wrapped_inner o c n : is_ws o = false -> is_ws c = false -> plain_name n -> inner_name (o :: n ++ [c]).
Proof.
  intros Ho Hc (H0 & H1 & H2 & H3 & H4 & H5).
  assert (No : forall x, is_ws x = true -> In x (o :: n ++ [c]) -> In x n).
  { intros x Hx [E|E]; [congruence|]. apply in_app_or in E. destruct E as [E|[E|[]]]; auto. congruence. }
  repeat split.
  - intros X. apply H1. apply No; auto.
  - intros X. apply H2. apply No; auto.
  - intros (p & a & b & q & E & Ha & Hb). destruct p as [|x p]; cbn in E; inv E; [congruence|].
    destruct q as [|y q _] using rev_ind.
    + change (p ++ [a; b]) with (p ++ [a] ++ [b]) in H7. rewrite app_assoc in H7. apply app_inj_tail in H7. destruct H7 as [_ ->]. congruence.
    + replace (p ++ a :: b :: q ++ [y]) with ((p ++ a :: b :: q) ++ [y]) in H7 by (rewrite <- app_assoc; auto).
      apply app_inj_tail in H7. destruct H7 as [-> _]. eapply H3; eauto.
  - intros p x E. change (o :: n ++ [c]) with ((o :: n) ++ [c]) in E. apply app_inj_tail in E. destruct E as [_ <-]. auto.
Qed.
Lemma form_inner n s k : plain_name n -> account_form n s k -> inner_name s /\ forall t, account_kind s t = Ok (k, n).
Proof.
  intros Hp Hf. destruct Hf as [c r -> Hc N1 N2| |].
  - split; [apply plain_inner; auto|]. unfold account_kind. destruct (N.leb_spec 128 c); [lia|].
    destruct (N.eqb_spec c c_lp); [congruence|]. destruct (N.eqb_spec c c_lb); [congruence|]. auto.
  - split; [apply wrapped_inner; auto|]. change (L "(" ++ n ++ L ")") with (c_lp :: n ++ [c_rp]). unfold account_kind.
    change (128 <=? c_lp)%N with false. change (c_lp =? c_lp)%N with true. cbn iota.
    replace (last (c_lp :: n ++ [c_rp]) 0%N) with c_rp by (symmetry; apply (last_last (c_lp :: n))).
    rewrite N.eqb_refl, removelast_last, trim_plain; auto.
  - split; [apply wrapped_inner; auto|]. change (L "[" ++ n ++ L "]") with (c_lb :: n ++ [c_rb]). unfold account_kind.
    change (128 <=? c_lb)%N with false. change (c_lb =? c_lp)%N with false. change (c_lb =? c_lb)%N with true. cbn iota.
    replace (last (c_lb :: n ++ [c_rb]) 0%N) with c_rb by (symmetry; apply (last_last (c_lb :: n))).
    rewrite N.eqb_refl, removelast_last, trim_plain; auto.
Qed.
Lemma posting_loop_account f : forall w ty p t p' t', posting_loop f w ty p t = Ok (p', t') ->
  rp_account p' = rp_account p /\ rp_kind p' = rp_kind p.
Proof.
  induction f as [|f IH]; intros w ty p t p' t' H; [discriminate|]. cbn [posting_loop] in H.
  assert (G : forall q u, rp_account q = rp_account p /\ rp_kind q = rp_kind p ->
    posting_loop f w ty q (consume_whitespaces u) = Ok (p', t') -> rp_account p' = rp_account p /\ rp_kind p' = rp_kind p).
  { intros q u [E1 E2] X. apply IH in X. rewrite <- E1, <- E2. auto. }
  destruct (get_char t) as [c|]; [|inv H; auto].
  destruct (c =? c_lp)%N. { destruct (get_value_expression t). eapply G; [|exact H]. auto. }
  destruct (c =? c_nl)%N; [inv H; auto|].
  destruct (c =? c_semi)%N. { destruct (parse_comment t). inv H. auto. }
  destruct (c =? c_eq)%N. { destruct (parse_money w (consume_whitespaces (adv t))) as [[m|e] t1]; [eapply G; [|exact H]; auto|discriminate]. }
  destruct (c =? c_at)%N.
  { destruct (rp_money p); [|discriminate]. destruct (get_char (adv t)) as [d|]; [|discriminate].
    destruct (d =? c_at)%N.
    - destruct (parse_money w (consume_whitespaces (adv (adv t)))) as [[m|e] t1]; [eapply G; [|exact H]; auto|discriminate].
    - destruct (parse_money w (consume_whitespaces (adv t))) as [[m|e] t1]; [eapply G; [|exact H]; auto|discriminate]. }
  destruct (parse_money w t) as [[m|e] t1]; [eapply G; [|exact H]; auto|].
  destruct ty; try discriminate. destruct (get_line t1). eapply G; [|exact H]. auto.
Qed.
Lemma posting_account w ty pay n s k z t : plain_name n -> account_form n s k -> tk_rest t = s ++ z ->
  (forall r, z = c_nl :: r -> exists t1, parse_posting w ty pay t = Ok (rp_new n k pay, t1) /\ tk_rest t1 = z) /\
  (forall sep r p t1, account_separator sep -> z = sep ++ r -> parse_posting w ty pay t = Ok (p, t1) -> rp_account p = n /\ rp_kind p = k).
Proof.
  intros Hp Hf E. destruct (form_inner _ _ _ Hp Hf) as [I K]. split.
  - intros r ->. unfold parse_posting. rewrite E. destruct (gaccount_nl s r (tk_pre t) (tk_line t) (tk_col t) I) as (u & -> & U).
    cbn [bind]. rewrite K. cbn [bind]. eauto.
  - intros sep r p t1 Hs -> H. unfold parse_posting in H. rewrite E in H.
    destruct (gaccount_sep s sep r (tk_pre t) (tk_line t) (tk_col t) I Hs) as (u & E2 & U). rewrite E2 in H.
    cbn [bind] in H. rewrite K in H. cbn [bind] in H. apply posting_loop_account in H. cbn in H. auto.
Qed.
Lemma posting_not_ascii w ty pay n c z t : inner_name (c :: n) -> (128 <= c)%N -> tk_rest t = (c :: n) ++ z ->
  (exists r, z = c_nl :: r) \/ (exists sep r, account_separator sep /\ z = sep ++ r) -> parse_posting w ty pay t = Panic PIndex.
Proof.
  intros I Hc E Hz. unfold parse_posting. rewrite E. assert (K : forall t0, account_kind (c :: n) t0 = Panic PIndex).
  { unfold account_kind. destruct (N.leb_spec 128 c); [auto|lia]. }
  destruct Hz as [(r & ->)|(sep & r & Hs & ->)].
  - destruct (gaccount_nl (c :: n) r (tk_pre t) (tk_line t) (tk_col t) I) as (u & -> & _). cbn [bind]. rewrite K. auto.
  - destruct (gaccount_sep (c :: n) sep r (tk_pre t) (tk_line t) (tk_col t) I Hs) as (u & -> & _). cbn [bind]. rewrite K. auto.
Qed.
