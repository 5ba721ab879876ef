(** Reading the same text followed by two different things: [y] is nothing or one newline, [z] is
    nothing or a newline and any further text.  What is read from the common part is the same, and
    the position never crosses the newline in one run only, with the exceptions the code has. *)
From Verif Require Import Base Numerals Money Alist Comment Txn Peg Grammar Dates Expr Tokens BaseFacts TokenFacts SpecTokens.
From Coq Require Import Lia.

(** The last character is not a blank (it may be a newline). *)
Definition tidy (a : str) : Prop := forall x c, a = x ++ [c] -> is_ws c = true -> c = c_nl.
Lemma tidy_suffix p a : tidy (p ++ a) -> tidy a.
Proof. intros H x c ->. apply (H (p ++ x) c). apply app_assoc. Qed.
Lemma tidy_cons c a : tidy (c :: a) -> tidy a.
Proof. apply (tidy_suffix [c]). Qed.

(** Parentheses of an amount expression. *)
Lemma count_snoc c s x : count c (s ++ [x]) = (count c s + if (c =? x)%N then 1 else 0)%nat.
Proof. unfold count. rewrite filter_app, app_length. cbn. destruct (_ =? _)%N; reflexivity. Qed.
Lemma closed_nl e : closed (e ++ [c_nl]) <-> closed e.
Proof. unfold closed. rewrite !count_snoc. cbn. lia. Qed.

(** Unindented text: the first line that is not blank starts at the left margin. *)
Fixpoint margin_from (col : bool) (r : str) : Prop :=
  match r with
  | [] => True
  | c :: r' => if (c =? c_nl)%N then margin_from true r'
               else if is_ws c then margin_from false r' else col = true
  end.
Definition unindented (r : str) : Prop := margin_from true r.
Fixpoint skip_blank (r : str) : str :=
  match r with [] => [] | c :: r' => if is_ws c then skip_blank r' else r end.

Section Sim.
Variables y z : str.
Hypothesis Hy : y = [] \/ y = [c_nl].
Hypothesis Hz : z = [] \/ exists r, z = c_nl :: r.

Definition sims (a : str) (t t' : tok) : Prop :=
  tk_rest t = a ++ y /\ tk_rest t' = a ++ z /\ tk_col t = tk_col t'.
(** A blank before the newline matters only if both texts have the newline. *)
Definition neat (a : str) : Prop := (y = [] \/ z = []) \/ tidy a.
Definition suffix (a' a : str) : Prop := exists p, a = p ++ a'.
Definition sim_in (a : str) (t t' : tok) : Prop := exists a', suffix a' a /\ sims a' t t'.
(** Both runs are behind the newline. *)
Definition passed (t t' : tok) : Prop :=
  tk_rest t = [] /\ tk_rest t' = tl z /\ (tl z = [] \/ tk_col t' = 0%nat).

Lemma suffix_refl a : suffix a a. Proof. exists []. auto. Qed.
Lemma suffix_cons a' c a : suffix a' a -> suffix a' (c :: a).
Proof. intros (p & ->). exists (c :: p). auto. Qed.
Lemma suffix_trans a b c : suffix a b -> suffix b c -> suffix a c.
Proof. intros (p & ->) (q & ->). exists (q ++ p). apply app_assoc. Qed.
Lemma suffix_tidy a b : suffix a b -> neat b -> neat a.
Proof. intros (p & ->) [H|H]; [left; auto|right; eapply tidy_suffix; eauto]. Qed.
Lemma neat_cons c a : neat (c :: a) -> neat a.
Proof. apply suffix_tidy. exists [c]. auto. Qed.
Lemma suffix_len a b : suffix a b -> (length a <= length b)%nat.
Proof. intros (p & ->). rewrite app_length. lia. Qed.
Hint Resolve suffix_refl suffix_cons suffix_trans : core.
Lemma sim_in_cons c a t t' : sim_in a t t' -> sim_in (c :: a) t t'.
Proof. intros (b & H & H'). exists b. auto. Qed.
Lemma sim_in_trans a b t t' : suffix a b -> sim_in a t t' -> sim_in b t t'.
Proof. intros H (c & H1 & H2). exists c. eauto. Qed.
Lemma sim_in_here a t t' : sims a t t' -> sim_in a t t'.
Proof. exists a. auto. Qed.
Hint Resolve sim_in_cons sim_in_here : core.

Lemma sims_char c a t t' : sims (c :: a) t t' -> get_char t = Some c /\ get_char t' = Some c.
Proof. intros (H1 & H2 & _). unfold get_char. rewrite H1, H2. auto. Qed.
Lemma sims_adv c a t t' : sims (c :: a) t t' -> sims a (adv t) (adv t').
Proof. intros (H1 & H2 & H3). unfold adv. rewrite H1, H2. cbn. repeat split; cbn; auto. Qed.
Lemma sims_end t t' : sims [] t t' ->
  (get_char t = None \/ get_char t = Some c_nl) /\ (get_char t' = None \/ get_char t' = Some c_nl).
Proof.
  intros (H1 & H2 & _). unfold get_char. cbn in *. rewrite H1, H2. split.
  - destruct Hy as [-> | ->]; auto.
  - destruct Hz as [-> | (r & ->)]; auto.
Qed.
Lemma sims_progress a b t t1 t' t1' : sims a t t' -> sims b t1 t1' -> moves1 t t1 -> (length b < length a)%nat.
Proof.
  intros (H1 & _) (H2 & _) M. apply moves1_length in M. rewrite H1, H2, !app_length in M. lia.
Qed.
(** A step strictly forward cannot leave the run before the newline and start at it. *)

Lemma cws_sim a : forall pre line pre' line' col,
  sim_in a (cws (a ++ y) pre line col) (cws (a ++ z) pre' line' col).
Proof.
  induction a as [|c a IH]; intros; cbn [app].
  - apply sim_in_here. unfold sims. cbn [app].
    assert (E1 : cws y pre line col = mkt pre y line col) by (destruct Hy as [-> | ->]; reflexivity).
    assert (E2 : cws z pre' line' col = mkt pre' z line' col) by (destruct Hz as [-> | (r & ->)]; reflexivity).
    rewrite E1, E2. auto.
  - cbn [cws]. destruct (_ && _); [auto|]. apply sim_in_here. repeat split.
Qed.
Lemma cw_sim a t t' : sims a t t' -> sim_in a (consume_whitespaces t) (consume_whitespaces t').
Proof.
  destruct t as [pre rest line col], t' as [pre' rest' line' col']. intros (H1 & H2 & H3). cbn in *. subst.
  apply cws_sim.
Qed.
Lemma cw_sim_in a t t' : sim_in a t t' -> sim_in a (consume_whitespaces t) (consume_whitespaces t').
Proof. intros (b & H & H'). eapply sim_in_trans; eauto using cw_sim. Qed.

Lemma gstr_sim w a : forall pre line pre' line' col q acc,
  exists s t t', gstr w (a ++ y) pre line col q acc = (s, t) /\
                 gstr w (a ++ z) pre' line' col q acc = (s, t') /\ sim_in a t t'.
Proof.
  induction a as [|c a IH]; intros; cbn [app].
  - assert (E1 : gstr w y pre line col q acc = (acc, mkt pre y line col)) by (destruct Hy as [-> | ->]; reflexivity).
    assert (E2 : gstr w z pre' line' col q acc = (acc, mkt pre' z line' col)) by (destruct Hz as [-> | (r & ->)]; reflexivity).
    do 3 eexists. split; [exact E1|]. split; [exact E2|]. apply sim_in_here. repeat split.
  - assert (G : forall pre line pre' line' col q acc, exists s t t', gstr w (a ++ y) pre line col q acc = (s, t) /\
                 gstr w (a ++ z) pre' line' col q acc = (s, t') /\ sim_in (c :: a) t t').
    { intros. edestruct IH as (s & t & t' & E1 & E2 & E3). exists s, t, t'. rewrite E1, E2. auto. }
    cbn [gstr]. destruct (c =? c_nl)%N.
    { do 3 eexists. repeat split. apply sim_in_here. repeat split. }
    destruct (c =? c_dq)%N.
    + destruct acc; [apply G|]. destruct q; [|apply G].
      do 3 eexists. repeat split. apply sim_in_cons, sim_in_here. repeat split.
    + destruct (_ && _); [|apply G]. do 3 eexists. repeat split. apply sim_in_here. repeat split.
Qed.
Lemma get_string_sim w a t t' : sims a t t' ->
  exists s t1 t1', get_string w t = (s, t1) /\ get_string w t' = (s, t1') /\ sim_in a t1 t1'.
Proof.
  intros H. unfold get_string. apply cw_sim in H. destruct H as (b & Hb & (H1 & H2 & H3)).
  rewrite H1, H2, <- H3.
  destruct (gstr_sim w b (tk_pre (consume_whitespaces t)) (tk_line (consume_whitespaces t))
     (tk_pre (consume_whitespaces t')) (tk_line (consume_whitespaces t')) (tk_col (consume_whitespaces t))
     false []) as (s & t2 & t2' & E1 & E2 & E3).
  rewrite E1, E2. do 3 eexists. repeat split. eapply sim_in_trans; [exact Hb|]. apply cw_sim_in. auto.
Qed.
Lemma gamount_sim w a : forall pre line pre' line' col num den dec,
  exists s t t', gamount w (a ++ y) pre line col num den dec = (s, t) /\
                 gamount w (a ++ z) pre' line' col num den dec = (s, t') /\ sim_in a t t'.
Proof.
  induction a as [|c a IH]; intros; cbn [app].
  - assert (E1 : gamount w y pre line col num den dec = (AmountText num den, mkt pre y line col)) by (destruct Hy as [-> | ->]; reflexivity).
    assert (E2 : gamount w z pre' line' col num den dec = (AmountText num den, mkt pre' z line' col)) by (destruct Hz as [-> | (r & ->)]; reflexivity).
    do 3 eexists. split; [exact E1|]. split; [exact E2|]. apply sim_in_here. repeat split.
  - assert (G : forall pre line pre' line' col num den dec, exists s t t', gamount w (a ++ y) pre line col num den dec = (s, t) /\
                 gamount w (a ++ z) pre' line' col num den dec = (s, t') /\ sim_in (c :: a) t t').
    { intros. edestruct IH as (s & t & t' & E1 & E2 & E3). exists s, t, t'. rewrite E1, E2. auto. }
    cbn [gamount]. destruct (c =? c_dot)%N.
    { destruct dec; [|apply G]. do 3 eexists. repeat split. apply sim_in_here. repeat split. }
    destruct (_ || _); [apply G|]. do 3 eexists. repeat split. apply sim_in_here. repeat split.
Qed.
Lemma parse_amount_sim w a t t' : sims a t t' ->
  exists s t1 t1', parse_amount w t = (s, t1) /\ parse_amount w t' = (s, t1') /\ sim_in a t1 t1'.
Proof.
  intros (H1 & H2 & H3). unfold parse_amount. rewrite H1, H2, <- H3.
  destruct (gamount_sim w a (tk_pre t) (tk_line t) (tk_pre t') (tk_line t') (tk_col t) [] 0 false)
    as (s & t2 & t2' & E1 & E2 & E3).
  rewrite E1, E2. do 3 eexists. repeat split. auto.
Qed.
(** An amount that is there is read the same way; if there is none both runs fail. *)
Lemma parse_money_sim w a t t' : sims a t t' ->
  (exists m t1 t1', parse_money w t = (m, t1) /\ parse_money w t' = (m, t1') /\ sim_in a t1 t1') \/
  (a = [] /\ exists e t1 e' t1', parse_money w t = (inr e, t1) /\ parse_money w t' = (inr e', t1')).
Proof.
  intros H. destruct a as [|c a].
  - right. split; auto.
    assert (G : forall t, (get_char t = None \/ get_char t = Some c_nl) -> exists e t1, parse_money w t = (inr e, t1)).
    { clear. intros t [E|E]; unfold parse_money; rewrite E; [eauto|]. cbn [is_numeric].
      change (is_numeric w c_nl || (c_nl =? c_dot)%N || (c_nl =? c_minus)%N) with false. cbn iota.
      unfold get_char in E. destruct t as [pre rest line col]. cbn in E. destruct rest as [|c rest]; inv E.
      assert (E : get_string w (mkt pre (c_nl :: rest) line col) = ([], mkt pre (c_nl :: rest) line col)) by reflexivity.
      rewrite E. assert (E2 : parse_amount w (mkt pre (c_nl :: rest) line col) =
        (inr (UnexpectedInput (Some (L "Wrong number format"))), mkt pre (c_nl :: rest) line col)) by reflexivity.
      rewrite E2. eauto. }
    apply sims_end in H. destruct H as [H1 H2]. apply G in H1. apply G in H2.
    destruct H1 as (e & t1 & H1), H2 as (e' & t1' & H2). eauto 6.
  - left. pose proof (sims_char _ _ _ _ H) as [C1 C2]. unfold parse_money. rewrite C1, C2.
    destruct (is_numeric w c || (c =? c_dot)%N || (c =? c_minus)%N).
    + destruct (parse_amount_sim w _ _ _ H) as (s & t1 & t1' & E1 & E2 & (b & Hb & E3)). rewrite E1, E2.
      destruct s as [q|e]; [|do 3 eexists; repeat split; exists b; auto].
      destruct (get_string_sim w _ _ _ E3) as (s & t2 & t2' & F1 & F2 & F3). rewrite F1, F2.
      do 3 eexists. repeat split. eapply sim_in_trans; eauto.
    + destruct (get_string_sim w _ _ _ H) as (s & t1 & t1' & E1 & E2 & (b & Hb & E3)). rewrite E1, E2.
      destruct (parse_amount_sim w _ _ _ E3) as (q & t2 & t2' & F1 & F2 & F3). rewrite F1, F2.
      destruct q; do 3 eexists; repeat split; eapply sim_in_trans; eauto.
Qed.

(** Reading a line either stops within the common text or passes the newline. *)
Lemma gline_sim a : forall pre line pre' line' col,
  exists s t t', gline (a ++ y) pre line col = (s, t) /\ gline (a ++ z) pre' line' col = (s, t') /\
    ((sim_in a t t' /\ In c_nl a) \/ (passed t t' /\ s = a)).
Proof.
  induction a as [|c a IH]; intros; cbn [app].
  - assert (E1 : exists t, gline y pre line col = ([], t) /\ tk_rest t = []).
    { destruct Hy as [-> | ->]; cbn; eauto. }
    assert (E2 : exists t, gline z pre' line' col = ([], t) /\ tk_rest t = tl z /\ (tl z = [] \/ tk_col t = 0%nat)).
    { destruct Hz as [-> | (r & ->)]; cbn; eauto. }
    destruct E1 as (t & E1 & F1), E2 as (t' & E2 & F2). exists [], t, t'. repeat split; auto. right. split; auto.
    split; auto.
  - cbn [gline]. destruct (N.eqb_spec c c_nl).
    + do 3 eexists. repeat split. left. split; [|left; auto]. apply sim_in_cons, sim_in_here. repeat split.
    + destruct (IH (c :: pre) line (c :: pre') line' col) as (s & t & t' & E1 & E2 & E3). rewrite E1, E2.
      do 3 eexists. repeat split. destruct E3 as [[E3 E4]|[E3 ->]]; [left; split; auto; right; auto|right; auto].
Qed.
Definition fwd (a : str) (t t' : tok) : Prop := sim_in a t t' \/ passed t t'.
Lemma fwd_trans a b t t' : suffix a b -> fwd a t t' -> fwd b t t'.
Proof. intros H [X|X]; [left; eapply sim_in_trans; eauto|right; auto]. Qed.
Lemma get_line_sim a t t' : sims a t t' ->
  exists s t1 t1', get_line t = (s, t1) /\ get_line t' = (s, t1') /\ fwd a t1 t1'.
Proof.
  intros (H1 & H2 & H3). unfold get_line. rewrite H1, H2, <- H3.
  destruct (gline_sim a (tk_pre t) (tk_line t) (tk_pre t') (tk_line t') (tk_col t)) as (s & t2 & t2' & E1 & E2 & E3).
  rewrite E1, E2. do 3 eexists. repeat split. destruct E3 as [[E3 _]|[E3 _]]; [left|right]; auto.
Qed.
(** Stepping back after a line, when both texts go on with a newline. *)
Lemma get_line_back_sim a t t' : y <> [] -> z <> [] -> sims a t t' ->
  exists s t1 t1', get_line t = (s, t1) /\ get_line t' = (s, t1') /\ sim_in a (back t1) (back t1').
Proof.
  intros Ny Nz (H1 & H2 & H3). unfold get_line. rewrite H1, H2, <- H3.
  assert (Ey : y = [c_nl]) by (destruct Hy; congruence).
  assert (Ez : exists r, z = c_nl :: r) by (destruct Hz as [|]; [congruence|auto]).
  destruct Ez as (r & Ez).
  generalize (tk_pre t) (tk_line t) (tk_pre t') (tk_line t') (tk_col t). clear H1 H2 H3 t t'.
  induction a as [|c a IH]; intros pre line pre' line' col; cbn [app].
  - rewrite Ey, Ez. cbn. do 3 eexists. repeat split. cbn. apply sim_in_here. repeat split; cbn; auto.
  - cbn [gline]. destruct (N.eqb_spec c c_nl).
    + do 3 eexists. repeat split. subst c. cbn. apply sim_in_here. repeat split.
    + destruct (IH (c :: pre) line (c :: pre') line' col) as (s & t & t' & E1 & E2 & E3). rewrite E1, E2.
      do 3 eexists. repeat split. auto.
Qed.
Lemma parse_comment_sim c a t t' : sims (c :: a) t t' ->
  exists s t1 t1', parse_comment t = (s, t1) /\ parse_comment t' = (s, t1') /\ fwd a t1 t1'.
Proof.
  intros H. apply sims_adv in H. apply cw_sim in H. destruct H as (b & Hb & H). unfold parse_comment.
  destruct (get_line_sim _ _ _ H) as (s & t1 & t1' & E1 & E2 & E3). exists s, t1, t1'.
  repeat split; auto. eapply fwd_trans; eauto.
Qed.

(** Amount expressions: the same, unless a parenthesis is still open at the end. *)
Lemma gve_sim a : forall pre line pre' line' col acc,
  exists e t t', gve (a ++ y) pre line col (count c_lp acc) (count c_rp acc) acc = (e, t) /\
    (~ closed e \/
     (gve (a ++ z) pre' line' col (count c_lp acc) (count c_rp acc) acc = (e, t') /\ sim_in a t t')).
Proof.
  induction a as [|c a IH]; intros; cbn [app].
  - destruct (Nat.eqb_spec (count c_lp acc) (count c_rp acc)) as [E|E].
    + assert (E1 : gve y pre line col (count c_lp acc) (count c_rp acc) acc = (acc, mkt pre y line col)).
      { destruct Hy as [-> | ->]; cbn; auto. destruct (Nat.eqb_spec (count c_lp acc) (count c_rp acc)); [auto|congruence]. }
      assert (E2 : gve z pre' line' col (count c_lp acc) (count c_rp acc) acc = (acc, mkt pre' z line' col)).
      { destruct Hz as [-> | (r & ->)]; cbn; auto. destruct (Nat.eqb_spec (count c_lp acc) (count c_rp acc)); [auto|congruence]. }
      do 3 eexists. split; [exact E1|]. right. split; [exact E2|]. apply sim_in_here. repeat split.
    + assert (X : exists e t, gve y pre line col (count c_lp acc) (count c_rp acc) acc = (e, t) /\ ~ closed e).
      { destruct Hy as [-> | ->]; cbn; [eauto|]. destruct (Nat.eqb_spec (count c_lp acc) (count c_rp acc)); [congruence|].
        do 2 eexists. split; eauto. rewrite closed_nl. auto. }
      destruct X as (e & t & X1 & X2). exists e, t, t. auto.
  - assert (G : forall line line' col, exists e t t',
       gve (a ++ y) (c :: pre) line col (count c_lp (acc ++ [c])) (count c_rp (acc ++ [c])) (acc ++ [c]) = (e, t) /\
        (~ closed e \/
     (gve (a ++ z) (c :: pre') line' col (count c_lp (acc ++ [c])) (count c_rp (acc ++ [c])) (acc ++ [c]) = (e, t') /\ sim_in (c :: a) t t'))).
    { intros l0 l0' k0. destruct (IH (c :: pre) l0 (c :: pre') l0' k0 (acc ++ [c])) as (s & t & t' & E1 & E2).
      exists s, t, t'. split; [exact E1|]. destruct E2 as [E2|[E2 E3]]; auto. }
    rewrite !count_snoc in G. cbn [gve]. destruct (N.eqb_spec c c_lp).
    { subst c. cbn in G. rewrite !Nat.add_1_r, !Nat.add_0_r in G. apply G. }
    destruct (N.eqb_spec c c_rp).
    { subst c. cbn in G. rewrite !Nat.add_1_r, !Nat.add_0_r in G. apply G. }
    assert (N1 : (c_lp =? c)%N = false) by (apply N.eqb_neq; auto).
    assert (N2 : (c_rp =? c)%N = false) by (apply N.eqb_neq; auto).
    rewrite N1, N2, !Nat.add_0_r in G.
    destruct (N.eqb_spec c c_nl).
    { destruct (Nat.eqb _ _); [|apply G]. do 3 eexists. split; [reflexivity|]. right. split; [reflexivity|].
      apply sim_in_here. repeat split. }
    destruct (c =? c_semi)%N; [|apply G].
    do 3 eexists. split; [reflexivity|]. right. split; [reflexivity|].
      apply sim_in_here. repeat split.
Qed.
Lemma get_value_expression_sim a t t' : sims a t t' ->
  exists e t1 t1', get_value_expression t = (e, t1) /\
    (~ closed e \/ (get_value_expression t' = (e, t1') /\ sim_in a t1 t1')).
Proof.
  intros (H1 & H2 & H3). unfold get_value_expression. rewrite H1, H2, <- H3. apply (gve_sim a _ _ _ _ _ []).
Qed.

(** What the theorems exclude about a posting: an amount expression left open. *)

(** After an expression nothing else changes it. *)
Lemma gve_stops rest : forall pre line col o k acc e t, gve rest pre line col o k acc = (e, t) ->
  get_char t = None \/ get_char t = Some c_nl \/ get_char t = Some c_semi.
Proof.
  induction rest as [|c rest IH]; intros pre line col o k acc e t H; cbn [gve] in H; [inv H; auto|].
  destruct (_ =? _)%N; [eauto|]. destruct (_ =? _)%N; [eauto|]. destruct (N.eqb_spec c c_nl).
  - destruct (Nat.eqb _ _); [|eauto]. inv H. auto.
  - destruct (N.eqb_spec c c_semi); [|eauto]. inv H. auto.
Qed.
Lemma after_gve f w ty p e t t1 p2 t2 : get_value_expression t = (e, t1) ->
  posting_loop f w ty (set_expr e p) (consume_whitespaces t1) = Ok (p2, t2) -> rp_expr p2 = Some e.
Proof.
  unfold get_value_expression. intros H. apply gve_stops in H.
  assert (E : consume_whitespaces t1 = t1).
  { destruct t1 as [pre rest line col]. unfold get_char in H. cbn in H. unfold consume_whitespaces. cbn.
    destruct rest as [|c rest]; auto. destruct H as [H|[H|H]]; inv H; reflexivity. }
  rewrite E. destruct f as [|f]; [discriminate|]. cbn [posting_loop]. intros H2. destruct H as [H|[H|H]]; rewrite H in H2.
  - inv H2. auto.
  - change (c_nl =? c_lp)%N with false in H2. change (c_nl =? c_nl)%N with true in H2. cbn iota in H2. inv H2. auto.
  - change (c_semi =? c_lp)%N with false in H2. change (c_semi =? c_nl)%N with false in H2.
    change (c_semi =? c_semi)%N with true in H2. cbn iota in H2. destruct (parse_comment t1). inv H2. auto.
Qed.

Lemma posting_loop_sim f : forall f' w ty p a t t' p1 t1,
  (ty = TAutomated -> y <> [] /\ z <> []) ->
  sims a t t' -> head_ok t -> (length a < f')%nat ->
  posting_loop f w ty p t = Ok (p1, t1) -> expression_closed p1 ->
  exists t1', posting_loop f' w ty p t' = Ok (p1, t1') /\ fwd a t1 t1'.
Proof.
  induction f as [|f IH]; intros f' w ty p a t t' p1 t1 Hty Hs Hh Hf H Hc; [discriminate|].
  destruct f' as [|f']; [lia|].
  destruct a as [|c a].
  { pose proof (sims_end _ _ Hs) as [C1 C2]. cbn [posting_loop] in *.
    assert (E1 : Ok (p, t) = Ok (p1, t1)).
    { destruct C1 as [C1|C1]; rewrite C1 in H; exact H. }
    inv E1. exists t'. split; [|left; eauto]. destruct C2 as [C2|C2]; rewrite C2; reflexivity. }
  pose proof (sims_char _ _ _ _ Hs) as [C1 C2].
  assert (K : forall p b u u', suffix b (c :: a) -> sims b u u' -> moves1 t u ->
     posting_loop f w ty p (consume_whitespaces u) = Ok (p1, t1) ->
     exists t1', posting_loop f' w ty p (consume_whitespaces u') = Ok (p1, t1') /\ fwd (c :: a) t1 t1').
  { intros p0 b u u' Hb Hu M E. pose proof (cw_sim _ _ _ Hu) as (b' & Hb' & Hu').
    assert (Hl : (length b' < length (c :: a))%nat).
    { eapply Nat.le_lt_trans; [apply suffix_len; exact Hb'|]. eapply sims_progress; eauto. }
    assert (Hh2 : head_ok (consume_whitespaces u)) by apply cw_head.
    edestruct (IH f' w ty p0 b') as (t1' & X1 & X2); [exact Hty|exact Hu'|exact Hh2| |exact E|exact Hc|].
    - cbn [length] in *. lia.
    - exists t1'. split; [exact X1|]. eapply fwd_trans; [|exact X2]. eauto. }
  assert (Hws : is_ws c = false \/ c = c_nl).
  { unfold head_ok in Hh. destruct Hs as (Hs & _). rewrite Hs in Hh. exact Hh. }
  cbn [posting_loop] in H |- *. rewrite C1 in H. rewrite C2.
  destruct (N.eqb_spec c c_lp).
  { subst c. destruct (get_value_expression_sim _ _ _ Hs) as (e & u & u' & E1 & E2). rewrite E1 in H.
    assert (Hcl : closed e).
    { pose proof (after_gve _ _ _ _ _ _ _ _ _ E1 H) as X. apply Hc. auto. }
    destruct E2 as [E2|[E2 (b & Hb & E3)]]; [contradiction|]. rewrite E2.
    eapply K; eauto. eapply gve_moves1; eauto. }
  destruct (N.eqb_spec c c_nl).
  { inv H. exists t'. split; auto. left. eauto. }
  destruct Hws as [Hws|]; [|contradiction].
  destruct (N.eqb_spec c c_semi).
  { destruct (parse_comment_sim _ _ _ _ Hs) as (s & u & u' & E1 & E2 & E3). rewrite E1 in H. rewrite E2. inv H.
    exists u'. split; auto. eapply fwd_trans; [|exact E3]. eauto. }
  pose proof (sims_adv _ _ _ _ Hs) as Ha.
  assert (Madv : moves1 t (adv t)).
  { eapply adv_moves1; eauto. apply N.eqb_neq. auto. }
  destruct (N.eqb_spec c c_eq).
  { pose proof (cw_sim _ _ _ Ha) as (b & Hb & Hs2).
    destruct (parse_money_sim w _ _ _ Hs2) as [(m & u & u' & E1 & E2 & (b2 & Hb2 & E3))|(_ & e1 & u & e' & u' & E1 & E2)].
    - rewrite E1 in H. rewrite E2. destruct m as [m|e1]; [|discriminate].
      eapply (K _ b2 u u'); eauto. eapply moves1_l; [exact Madv|]. eapply moves_trans; [apply cw_moves|].
      eapply parse_money_moves; eauto.
    - rewrite E1 in H. discriminate. }
  destruct (N.eqb_spec c c_at).
  { destruct (rp_money p); [|discriminate].
    destruct (get_char (adv t)) as [d|] eqn:Ed; [|discriminate].
    assert (G : forall q v v' b, suffix b a -> sims b v v' -> moves1 t v ->
       (let (m, t3) := parse_money w (consume_whitespaces v) in
        match m with inl m => posting_loop f w ty (set_cost m q) (consume_whitespaces t3) | inr e => fail_at t3 e end) = Ok (p1, t1) ->
       exists t1', (let (m, t3) := parse_money w (consume_whitespaces v') in
        match m with inl m => posting_loop f' w ty (set_cost m q) (consume_whitespaces t3) | inr e => fail_at t3 e end) = Ok (p1, t1') /\ fwd (c :: a) t1 t1').
    { intros q v v' b Hb Hv Mv E. pose proof (cw_sim _ _ _ Hv) as (b2 & Hb2 & Hs2).
      destruct (parse_money_sim w _ _ _ Hs2) as [(m & u & u' & E1 & E2 & (b3 & Hb3 & E3))|(_ & e' & u & e'' & u' & E1 & E2)].
      - rewrite E1 in E. rewrite E2. destruct m as [m|e']; [|discriminate].
        eapply (K _ b3 u u'); eauto 6. eapply moves1_l; [exact Mv|]. eapply moves_trans; [apply cw_moves|].
        eapply parse_money_moves; eauto.
      - rewrite E1 in E. discriminate. }
    destruct a as [|d' a].
    - (* nothing after the @ sign: no amount *)
      pose proof (sims_end _ _ Ha) as [D1 _]. destruct D1 as [D1|D1]; rewrite D1 in Ed; [discriminate|]. inv Ed.
      change (c_nl =? c_at)%N with false in H. cbn iota in H.
      pose proof (cw_sim _ _ _ Ha) as (b & Hb & Hs2).
      assert (b = []). { destruct Hb as (q & Hb). destruct q, b; auto; discriminate. } subst b.
      destruct (parse_money_sim w _ _ _ Hs2) as [(m & u & u' & E1 & E2 & (b3 & Hb3 & E3))|(_ & e' & u & e'' & u' & E1 & E2)];
        rewrite E1 in H; [|discriminate].
      destruct m as [m|e']; [|discriminate]. exfalso.
      unfold parse_money in E1. pose proof (sims_end _ _ Hs2) as [[F|F] _]; rewrite F in E1; [discriminate|].
      change (is_numeric w c_nl || (c_nl =? c_dot)%N || (c_nl =? c_minus)%N) with false in E1. cbn iota in E1.
      destruct (consume_whitespaces (adv t)) as [pre rest line col]. unfold get_char in F. cbn in F.
      destruct rest as [|x rest]; inv F.
      assert (E : get_string w (mkt pre (c_nl :: rest) line col) = ([], mkt pre (c_nl :: rest) line col)) by reflexivity.
      rewrite E in E1. assert (E4 : parse_amount w (mkt pre (c_nl :: rest) line col) =
        (inr (UnexpectedInput (Some (L "Wrong number format"))), mkt pre (c_nl :: rest) line col)) by reflexivity.
      rewrite E4 in E1. discriminate.
    - pose proof (sims_char _ _ _ _ Ha) as [D1 D2]. rewrite D1 in Ed. inv Ed. rewrite D2.
      destruct (N.eqb_spec d c_at).
      + eapply (G _ (adv (adv t)) (adv (adv t')) a); eauto using sims_adv.
        eapply moves1_l; [exact Madv|]. apply moves1_moves. eapply adv_moves1; eauto. subst d. reflexivity.
      + eapply (G _ (adv t) (adv t') (d :: a)); eauto. }
  destruct (parse_money_sim w _ _ _ Hs) as [(m & u & u' & E1 & E2 & (b2 & Hb2 & E3))|(E & _)]; [|discriminate].
  rewrite E1 in H. rewrite E2.
  assert (Mm : moves1 t u).
  { eapply parse_money_moves1; eauto. apply N.eqb_neq. auto. }
  destruct m as [m|e].
  - eapply K; eauto.
  - destruct ty; [discriminate| |discriminate].
    destruct (Hty eq_refl) as [Ny Nz].
    destruct (get_line_back_sim _ _ _ Ny Nz E3) as (s & v & v' & F1 & F2 & (b3 & Hb3 & F3)). rewrite F1 in H. rewrite F2.
    destruct (tk_rest u) as [|x r] eqn:Er.
    { exfalso. destruct E3 as (E3 & _). rewrite E3 in Er. apply app_eq_nil in Er. destruct Er. contradiction. }
    eapply (K _ b3 (back v) (back v')); eauto. eapply moves1_l; [exact Mm|].
    eexists. eapply get_line_back; [exact F1| |rewrite Er; discriminate].
    destruct E3 as (E3 & _). rewrite E3. right. exists b2. destruct Hy as [E|E]; [contradiction|]. rewrite E. auto.
Qed.

(** The account name.  Without a newline to end it the run aborts. *)
Definition aborts {A} (m : res A) : Prop := z = [] /\ m = Panic PExplicit.
Lemma gaccount_sim n : forall a pre line pre' line' col acc x fin t1, (length a <= n)%nat -> neat a ->
  gaccount (a ++ y) pre line col acc = Ok (x, fin, t1) ->
  aborts (gaccount (a ++ z) pre' line' col acc) \/
  exists t1', gaccount (a ++ z) pre' line' col acc = Ok (x, fin, t1') /\ sim_in a t1 t1'.
Proof.
  induction n as [|n IH]; intros a pre line pre' line' col acc x fin t1 Hn Ht H.
  - destruct a; [|cbn in Hn; lia]. cbn [app] in *.
    destruct Hz as [Ez|(r & Ez)]; [left; split; [auto|rewrite Ez; reflexivity]|right].
    rewrite Ez. destruct Hy as [E|E]; rewrite E in H; [discriminate|]. cbn in H. inv H. cbn.
    eexists. split; [reflexivity|]. apply sim_in_here. cbn. unfold sims. rewrite E, Ez. repeat split.
  - destruct a as [|c a]; [eapply (IH []); eauto; cbn; lia|]. cbn [app gaccount] in *. cbn [length] in Hn.
    assert (Hcol : forall d r r' pre pre' line line' col,
       tk_col (next_tok d r pre line col) = tk_col (next_tok d r' pre' line' col)).
    { clear. intros. unfold next_tok. destruct (_ =? _)%N; reflexivity. }
    destruct (negb (is_ws c)) eqn:Ew.
    { destruct (IH a _ _ (tk_pre (next_tok c (a ++ z) pre' line' col)) (tk_line (next_tok c (a ++ z) pre' line' col))
         _ _ _ _ _ ltac:(lia) (neat_cons _ _ Ht) H) as [[X1 X2]|(t1' & X1 & X2)].
      - left. split; auto. rewrite (Hcol c (a ++ z) (a ++ y) pre' pre line' line). auto.
      - right. exists t1'. split; [|auto]. rewrite (Hcol c (a ++ z) (a ++ y) pre' pre line' line). auto. }
    destruct (N.eqb_spec c c_tab).
    { inv H. right. eexists. split; [reflexivity|]. apply sim_in_cons, sim_in_here. repeat split. }
    destruct (N.eqb_spec c c_nl).
    { subst c. inv H. right. eexists. split; [reflexivity|]. apply sim_in_here. repeat split. }
    apply negb_false_iff in Ew. destruct a as [|d a].
    { cbn [app] in *. destruct Hz as [Ez|(r & Ez)]; [left; split; [auto|rewrite Ez; reflexivity]|].
      exfalso. destruct Ht as [[Ht|Ht]|Ht].
      - rewrite Ht in H. discriminate.
      - rewrite Ez in Ht. discriminate.
      - apply n1. apply (Ht [] c); auto. }
    cbn [app] in *. cbn [length] in Hn.
    assert (Hcol2 : forall y' z', tk_col (next_tok d y' (tk_pre (next_tok c (d :: y') pre line col)) (tk_line (next_tok c (d :: y') pre line col)) (tk_col (next_tok c (d :: y') pre line col))) =
      tk_col (next_tok d z' (tk_pre (next_tok c (d :: z') pre' line' col)) (tk_line (next_tok c (d :: z') pre' line' col)) (tk_col (next_tok c (d :: z') pre' line' col)))).
    { intros. rewrite (Hcol c (d :: y') (d :: z') pre pre' line line'). apply Hcol. }
    destruct (is_ws d).
    + inv H. right. eexists. split; [reflexivity|]. apply sim_in_cons, sim_in_cons, sim_in_here. split; [|split].
      * unfold next_tok. destruct (d =? c_nl)%N; reflexivity.
      * unfold next_tok. destruct (d =? c_nl)%N; reflexivity.
      * apply Hcol2.
    + edestruct (IH a) as [[X1 X2]|(t1' & X1 & X2)]; [lia| |exact H| | ].
      * eapply neat_cons, neat_cons; eauto.
      * left. split; auto. rewrite <- (Hcol2 (a ++ y) (a ++ z)). exact X2.
      * right. exists t1'. rewrite <- (Hcol2 (a ++ y) (a ++ z)). split; [exact X1|auto].
Qed.

Lemma parse_posting_sim w ty pay a t t' p t1 :
  (ty = TAutomated -> y <> [] /\ z <> []) -> neat a ->
  sims a t t' -> parse_posting w ty pay t = Ok (p, t1) -> expression_closed p ->
  aborts (parse_posting w ty pay t') \/
  exists t1', parse_posting w ty pay t' = Ok (p, t1') /\ fwd a t1 t1'.
Proof.
  intros Hty Ht (H1 & H2 & H3) H Hc. unfold parse_posting in *. rewrite H1 in H. rewrite H2, <- H3.
  bind_inv H. destruct a0 as [[acc fin] u].
  edestruct (gaccount_sim (length a)) as [[X1 X2]|(u' & X1 & X2)]; [reflexivity|exact Ht|exact Hb| | ].
  { left. split; auto. rewrite X2. reflexivity. }
  right. rewrite X1. cbn [bind]. bind_inv H. destruct a0 as [k acc']. rewrite (account_kind_ok _ _ u' _ Hb0). cbn [bind].
  destruct fin; [inv H; exists u'; split; [auto|left; auto]|].
  apply cw_sim_in in X2. destruct X2 as (b & Hb' & X2).
  edestruct (posting_loop_sim) as (t1' & Y1 & Y2); [exact Hty|exact X2|apply cw_head| |exact H|exact Hc|].
  2: { exists t1'. split; [exact Y1|]. eapply fwd_trans; eauto. }
  destruct X2 as (_ & X2 & _). rewrite X2, app_length. lia.
Qed.

(** ** Lines *)
Hypothesis Hm : unindented (tl z).
Lemma margin_cwl r : forall b pre line col, margin_from b r -> (b = true -> col = 0%nat) ->
  exists t, cwl r pre line col = (Blank, t) /\ tk_rest t = skip_blank r /\ (tk_rest t = [] \/ tk_col t = 0%nat).
Proof.
  clear. induction r as [|c r IH]; intros b pre line col H Hb; cbn [cwl margin_from skip_blank] in *.
  - eexists. split; [reflexivity|]. auto.
  - destruct (N.eqb_spec c c_nl).
    + subst c. change (is_ws c_nl) with true. cbn iota. apply (IH true); auto.
    + destruct (is_ws c).
      * apply (IH false); auto. discriminate.
      * rewrite (Hb H). eexists. split; [reflexivity|]. cbn. auto.
Qed.
(** The first run has ended, the second stands at the first line of the further text. *)
Definition done (t t' : tok) : Prop :=
  tk_rest t = [] /\ tk_rest t' = skip_blank (tl z) /\ (tk_rest t' = [] \/ tk_col t' = 0%nat).
Lemma cwl_passed t t' : passed t t' ->
  exists u u', consume_whitespaces_and_lines t = (Blank, u) /\
               consume_whitespaces_and_lines t' = (Blank, u') /\ done u u'.
Proof.
  intros (H1 & H2 & H3). unfold consume_whitespaces_and_lines. rewrite H1, H2. cbn [cwl].
  destruct H3 as [H3|H3].
  - unfold done. rewrite H3. do 2 eexists. repeat split; auto.
  - destruct (margin_cwl (tl z) true (tk_pre t') (tk_line t') (tk_col t') Hm (fun _ => H3)) as (u & E & E2 & E3).
    rewrite E. do 2 eexists. repeat split; auto.
Qed.
Definition next (a : str) (t t' : tok) : Prop :=
  (exists c b, suffix (c :: b) a /\ sims (c :: b) t t' /\ is_ws c = false).
Lemma cwl_sim a : forall pre line pre' line' col,
  exists ty t t', cwl (a ++ y) pre line col = (ty, t) /\ cwl (a ++ z) pre' line' col = (ty, t') /\
    (next a t t' \/ (ty = Blank /\ done t t')).
Proof.
  induction a as [|c a IH]; intros; cbn [app].
  - assert (E1 : exists t, cwl y pre line col = (Blank, t) /\ tk_rest t = []).
    { destruct Hy as [E|E]; rewrite E; cbn; eauto. }
    assert (E2 : exists t, cwl z pre' line' col = (Blank, t) /\ tk_rest t = skip_blank (tl z) /\ (tk_rest t = [] \/ tk_col t = 0%nat)).
    { destruct Hz as [E|(r & E)].
      - rewrite E. eexists. split; [reflexivity|]. cbn. auto.
      - pose proof Hm as Hm'. rewrite E in *. cbn [cwl tl]. change (c_nl =? c_nl)%N with true. cbn iota.
        apply (margin_cwl r true); auto. }
    destruct E1 as (t & E1 & F1), E2 as (t' & E2 & F2 & F3). do 3 eexists. split; [exact E1|]. split; [exact E2|].
    right. split; auto. split; auto.
  - cbn [cwl].
    assert (G : forall pre line pre' line' col, exists ty t t', cwl (a ++ y) pre line col = (ty, t) /\ cwl (a ++ z) pre' line' col = (ty, t') /\
    (next (c :: a) t t' \/ (ty = Blank /\ done t t'))).
    { intros. edestruct IH as (ty & t & t' & E1 & E2 & E3). exists ty, t, t'. split; [exact E1|]. split; [exact E2|].
      destruct E3 as [(c0 & b & X & X1 & X2)|E3]; [left; exists c0, b; auto|right; auto]. }
    destruct (c =? c_nl)%N; [apply G|]. destruct (is_ws c) eqn:Ew; [apply G|].
    do 3 eexists. repeat split. left. exists c, a. repeat split; auto.
Qed.
Lemma cwal_sim a t t' : fwd a t t' ->
  exists ty u u', consume_whitespaces_and_lines t = (ty, u) /\ consume_whitespaces_and_lines t' = (ty, u') /\
    (next a u u' \/ (ty = Blank /\ done u u')).
Proof.
  intros [(b & Hb & (H1 & H2 & H3))|H].
  - unfold consume_whitespaces_and_lines. rewrite H1, H2, <- H3.
    destruct (cwl_sim b (tk_pre t) (tk_line t) (tk_pre t') (tk_line t') (tk_col t)) as (ty & u & u' & E1 & E2 & E3).
    exists ty, u, u'. repeat split; auto. destruct E3 as [(c & d & X & X1 & X2)|E3]; [left; exists c, d; eauto|auto].
  - destruct (cwl_passed _ _ H) as (u & u' & E1 & E2 & E3). exists Blank, u, u'. auto.
Qed.
Definition block_end (a : str) (t t' : tok) : Prop := next a t t' \/ done t t'.
Lemma block_end_trans a b t t' : suffix a b -> block_end a t t' -> block_end b t t'.
Proof. intros H [(c & d & X & X1 & X2)|X]; [left; exists c, d; eauto|right; auto]. Qed.

(** One turn of a loop over the indented lines of a block. *)
Lemma turn a t t' c b u u' f' : sims (c :: b) u u' -> suffix (c :: b) a -> (length a < S f')%nat -> moves1 u t ->
  fwd (c :: b) t t' -> exists b', suffix b' a /\ fwd b' t t' /\ (length b' < f')%nat.
Proof.
  intros Hs Hb Hl M [(b' & Hb' & X)|X].
  - exists b'. split; [eauto|]. split; [left; exists b'; auto|]. pose proof (sims_progress _ _ _ _ _ _ Hs X M).
    apply suffix_len in Hb. lia.
  - exists []. split; [exists a; symmetry; apply app_nil_r|]. split; [right; auto|].
    pose proof (suffix_len _ _ Hb). cbn [length] in *. lia.
Qed.

Lemma add_comment_closed s ps ps' : add_comment_last s ps = Ok ps' -> Forall expression_closed ps' ->
  Forall expression_closed ps.
Proof.
  clear. unfold add_comment_last. destruct (rev ps) as [|p r] eqn:E; [discriminate|]. intros H Hf. inv H.
  assert (ps = rev r ++ [p]) by (rewrite <- (rev_involutive ps), E; auto). subst.
  apply Forall_app in Hf. destruct Hf as [H1 H2]. apply Forall_app. split; auto. inv H2. constructor; auto.
Qed.
Lemma entries_closed f : forall w ty pay b cms ps t cms' ps' t',
  entries f w ty pay b cms ps t = Ok (cms', ps', t') -> Forall expression_closed ps' -> Forall expression_closed ps.
Proof.
  clear. induction f as [|f IH]; intros w ty pay b cms ps t cms' ps' t' H Hf; [discriminate|].
  cbn [entries] in H. destruct (consume_whitespaces_and_lines t) as [[|] t1]; [inv H; auto|].
  destruct (get_char t1) as [c|]; [|discriminate]. destruct (c =? c_semi)%N.
  - destruct (parse_comment t1) as [s t2]. destruct b; [|eauto]. bind_inv H.
    eapply add_comment_closed; eauto.
  - destruct (is_numeric w c); [discriminate|]. bind_inv H. destruct a as [p t2].
    apply IH in H; auto. apply Forall_app in H. tauto.
Qed.
Lemma entries_sim f : forall f' w ty pay b cms ps a t t' cms' ps' t1,
  (ty = TAutomated -> y <> [] /\ z <> []) -> neat a ->
  fwd a t t' -> (length a < f')%nat ->
  entries f w ty pay b cms ps t = Ok (cms', ps', t1) -> Forall expression_closed ps' ->
  aborts (entries f' w ty pay b cms ps t') \/
  exists t1', entries f' w ty pay b cms ps t' = Ok (cms', ps', t1') /\ block_end a t1 t1'.
Proof.
  induction f as [|f IH]; intros f' w ty pay bb cms ps a t t' cms' ps' t1 Hty Ht Hs Hl H Hc; [discriminate|].
  destruct f' as [|f']; [lia|]. cbn [entries] in *.
  destruct (cwal_sim _ _ _ Hs) as (lt & u & u' & E1 & E2 & E3). rewrite E1 in H. rewrite E2.
  destruct lt.
  { inv H. right. exists u'. split; auto. unfold block_end. destruct E3 as [E3|[_ E3]]; auto. }
  destruct E3 as [(c & d & Hd & E3 & Hw)|[E3 _]]; [|discriminate].
  pose proof (sims_char _ _ _ _ E3) as [C1 C2]. rewrite C1 in H. rewrite C2.
  assert (K : forall bb cms ps v v', moves1 u v -> fwd (c :: d) v v' ->
     entries f w ty pay bb cms ps v = Ok (cms', ps', t1) ->
     aborts (entries f' w ty pay bb cms ps v') \/
     exists t1', entries f' w ty pay bb cms ps v' = Ok (cms', ps', t1') /\ block_end a t1 t1').
  { intros b0 cms0 ps0 v v' M Hv E. destruct (turn _ _ _ _ _ _ _ _ E3 Hd Hl M Hv) as (b' & X1 & X2 & X3).
    edestruct (IH f' w ty pay b0 cms0 ps0 b') as [X|(t1' & Y1 & Y2)];
      [exact Hty|eapply suffix_tidy; eauto|exact X2|exact X3|exact E|exact Hc|left; auto|].
    right. exists t1'. split; auto. eapply block_end_trans; eauto. }
  destruct (N.eqb_spec c c_semi).
  { destruct (parse_comment_sim _ _ _ _ E3) as (s & v & v' & F1 & F2 & F3). rewrite F1 in H. rewrite F2.
    assert (M : moves1 u v) by (eapply parse_comment_moves1; eauto; subst; reflexivity).
    assert (F4 : fwd (c :: d) v v') by (eapply fwd_trans; [|exact F3]; auto).
    destruct bb; [|eapply K; eauto]. bind_inv H. rewrite Hb. cbn [bind]. eapply K; eauto. }
  destruct (is_numeric w c); [discriminate|]. bind_inv H. destruct a0 as [p v].
  assert (Hp : expression_closed p).
  { pose proof (entries_closed _ _ _ _ _ _ _ _ _ _ _ H Hc) as X. apply Forall_app in X. destruct X as [_ X]. inv X. auto. }
  edestruct (parse_posting_sim w ty pay (c :: d)) as [[X1 X2]|(v' & X1 & X2)];
    [exact Hty|eapply suffix_tidy; eauto|exact E3|exact Hb|exact Hp| |].
  { left. split; auto. rewrite X2. reflexivity. }
  rewrite X1. cbn [bind]. eapply K; [|exact X2|exact H].
  eapply parse_posting_ok; [|exact Hb]. intros E. destruct (Hty E) as [Ny _]. destruct E3 as (E3 & _).
  rewrite E3. right. exists (c :: d). destruct Hy as [E4|E4]; [contradiction|]. rewrite E4. auto.
Qed.

(** Directives. *)
Ltac one_key K H k name Hk G :=
  destruct (str_eqb_spec k name); [eapply K; [apply Hk; subst; discriminate|exact G|exact H]|].
Lemma account_loop_sim f : forall f' w x a t t' x' t1,
  fwd a t t' -> (length a < f')%nat -> account_loop f w x t = Ok (x', t1) ->
  exists t1', account_loop f' w x t' = Ok (x', t1') /\ block_end a t1 t1'.
Proof.
  induction f as [|f IH]; intros f' w x a t t' x' t1 Hs Hl H; [discriminate|].
  destruct f' as [|f']; [lia|]. cbn [account_loop] in *.
  destruct (cwal_sim _ _ _ Hs) as (lt & u & u' & E1 & E2 & E3). rewrite E1 in H. rewrite E2.
  destruct lt.
  { inv H. exists u'. split; auto. unfold block_end. destruct E3 as [E3|[_ E3]]; auto. }
  destruct E3 as [(c & d & Hd & E3 & Hw)|[E3 _]]; [|discriminate].
  pose proof (sims_char _ _ _ _ E3) as [C1 C2]. rewrite C1 in H. rewrite C2.
  assert (K : forall x v v', moves1 u v -> fwd (c :: d) v v' ->
     account_loop f w x v = Ok (x', t1) ->
     exists t1', account_loop f' w x v' = Ok (x', t1') /\ block_end a t1 t1').
  { intros x0 v v' M Hv E. destruct (turn _ _ _ _ _ _ _ _ E3 Hd Hl M Hv) as (b' & X1 & X2 & X3).
    edestruct (IH f' w x0 b') as (t1' & Y1 & Y2); [exact X2|exact X3|exact E|].
    exists t1'. split; auto. eapply block_end_trans; eauto. }
  destruct (c =? c_semi)%N eqn:Es.
  { destruct (get_line_sim _ _ _ E3) as (s & v & v' & F1 & F2 & F3). rewrite F1 in H. rewrite F2.
    eapply K; eauto. eapply get_line_moves1; eauto. destruct E3 as (E3 & _). rewrite E3. discriminate. }
  destruct (get_string_sim w _ _ _ E3) as (k & v & v' & F1 & F2 & (b1 & Hb1 & F3)). rewrite F1 in H. rewrite F2.
  destruct (get_line_sim _ _ _ F3) as (l & v2 & v2' & G1 & G2 & G3). rewrite G1 in H. rewrite G2.
  pose proof (get_string_key _ _ _ _ _ C1 Hw F1) as Hk.
  assert (Hk3 : k <> [] -> moves1 u v2) by (intros; eapply moves1_l; [eauto|eapply get_line_moves; eauto]).
  assert (G4 : fwd (c :: d) v2 v2') by (eapply fwd_trans; eauto).
  assert (G5 : fwd (c :: d) v v') by (left; exists b1; auto).
  one_key K H k (L "note") Hk3 G4. one_key K H k (L "isin") Hk3 G4. one_key K H k (L "alias") Hk3 G4. one_key K H k (L "check") Hk3 G4.
  one_key K H k (L "assert") Hk3 G4.
  destruct (str_eqb_spec k (L "payee")).
  { destruct (w_rx_ok w (trim l)); [|discriminate]. eapply K; [apply Hk3; subst; discriminate|exact G4|exact H]. }
  one_key K H k (L "default") Hk G5. discriminate.
Qed.
Lemma commodity_loop_sim f : forall f' w x a t t' x' t1,
  fwd a t t' -> (length a < f')%nat -> commodity_loop f w x t = Ok (x', t1) ->
  exists t1', commodity_loop f' w x t' = Ok (x', t1') /\ block_end a t1 t1'.
Proof.
  induction f as [|f IH]; intros f' w x a t t' x' t1 Hs Hl H; [discriminate|].
  destruct f' as [|f']; [lia|]. cbn [commodity_loop] in *.
  destruct (cwal_sim _ _ _ Hs) as (lt & u & u' & E1 & E2 & E3). rewrite E1 in H. rewrite E2.
  destruct lt.
  { inv H. exists u'. split; auto. unfold block_end. destruct E3 as [E3|[_ E3]]; auto. }
  destruct E3 as [(c & d & Hd & E3 & Hw)|[E3 _]]; [|discriminate].
  pose proof (sims_char _ _ _ _ E3) as [C1 C2]. rewrite C1 in H. rewrite C2.
  assert (K : forall x v v', moves1 u v -> fwd (c :: d) v v' ->
     commodity_loop f w x v = Ok (x', t1) ->
     exists t1', commodity_loop f' w x v' = Ok (x', t1') /\ block_end a t1 t1').
  { intros x0 v v' M Hv E. destruct (turn _ _ _ _ _ _ _ _ E3 Hd Hl M Hv) as (b' & X1 & X2 & X3).
    edestruct (IH f' w x0 b') as (t1' & Y1 & Y2); [exact X2|exact X3|exact E|].
    exists t1'. split; auto. eapply block_end_trans; eauto. }
  destruct (N.eqb_spec c c_semi).
  { destruct (parse_comment_sim _ _ _ _ E3) as (s & v & v' & F1 & F2 & F3). rewrite F1 in H. rewrite F2.
    eapply K; [| |exact H]; [|eapply fwd_trans; [|exact F3]; auto].
    eapply parse_comment_moves1; eauto; subst; reflexivity. }
  destruct (get_string_sim w _ _ _ E3) as (k & v & v' & F1 & F2 & (b1 & Hb1 & F3)). rewrite F1 in H. rewrite F2.
  destruct (get_line_sim _ _ _ F3) as (l & v2 & v2' & G1 & G2 & G3). rewrite G1 in H. rewrite G2.
  pose proof (get_string_key _ _ _ _ _ C1 Hw F1) as Hk.
  assert (Hk3 : k <> [] -> moves1 u v2) by (intros; eapply moves1_l; [eauto|eapply get_line_moves; eauto]).
  assert (G4 : fwd (c :: d) v2 v2') by (eapply fwd_trans; eauto).
  assert (G5 : fwd (c :: d) v v') by (left; exists b1; auto).
  one_key K H k (L "note") Hk3 G4. one_key K H k (L "alias") Hk3 G4. one_key K H k (L "format") Hk3 G4.
  one_key K H k (L "default") Hk G5. discriminate.
Qed.
Lemma payee_loop_sim f : forall f' w x a t t' x' t1,
  fwd a t t' -> (length a < f')%nat -> payee_loop f w x t = Ok (x', t1) ->
  exists t1', payee_loop f' w x t' = Ok (x', t1') /\ block_end a t1 t1'.
Proof.
  induction f as [|f IH]; intros f' w x a t t' x' t1 Hs Hl H; [discriminate|].
  destruct f' as [|f']; [lia|]. cbn [payee_loop] in *.
  destruct (cwal_sim _ _ _ Hs) as (lt & u & u' & E1 & E2 & E3). rewrite E1 in H. rewrite E2.
  destruct lt.
  { inv H. exists u'. split; auto. unfold block_end. destruct E3 as [E3|[_ E3]]; auto. }
  destruct E3 as [(c & d & Hd & E3 & Hw)|[E3 _]]; [|discriminate].
  pose proof (sims_char _ _ _ _ E3) as [C1 C2]. rewrite C1 in H. rewrite C2.
  assert (K : forall x v v', moves1 u v -> fwd (c :: d) v v' ->
     payee_loop f w x v = Ok (x', t1) ->
     exists t1', payee_loop f' w x v' = Ok (x', t1') /\ block_end a t1 t1').
  { intros x0 v v' M Hv E. destruct (turn _ _ _ _ _ _ _ _ E3 Hd Hl M Hv) as (b' & X1 & X2 & X3).
    edestruct (IH f' w x0 b') as (t1' & Y1 & Y2); [exact X2|exact X3|exact E|].
    exists t1'. split; auto. eapply block_end_trans; eauto. }
  destruct (N.eqb_spec c c_semi).
  { destruct (parse_comment_sim _ _ _ _ E3) as (s & v & v' & F1 & F2 & F3). rewrite F1 in H. rewrite F2.
    eapply K; [| |exact H]; [|eapply fwd_trans; [|exact F3]; auto].
    eapply parse_comment_moves1; eauto; subst; reflexivity. }
  destruct (get_string_sim w _ _ _ E3) as (k & v & v' & F1 & F2 & (b1 & Hb1 & F3)). rewrite F1 in H. rewrite F2.
  destruct (get_line_sim _ _ _ F3) as (l & v2 & v2' & G1 & G2 & G3). rewrite G1 in H. rewrite G2.
  pose proof (get_string_key _ _ _ _ _ C1 Hw F1) as Hk.
  assert (Hk3 : k <> [] -> moves1 u v2) by (intros; eapply moves1_l; [eauto|eapply get_line_moves; eauto]).
  assert (G4 : fwd (c :: d) v2 v2') by (eapply fwd_trans; eauto).
  one_key K H k (L "alias") Hk3 G4. discriminate.
Qed.
(** The loop of the tag directive never gets past a comment. *)
Lemma tag_stuck f : forall w x t r, tk_rest t = c_semi :: r -> (tk_col t <> 0)%nat ->
  tag_loop f w x t = Panic OutOfFuel.
Proof.
  clear. induction f as [|f IH]; intros w x t r H Hc; [reflexivity|]. cbn [tag_loop].
  unfold consume_whitespaces_and_lines. rewrite H. cbn [cwl].
  change (c_semi =? c_nl)%N with false. change (is_ws c_semi) with false. cbn iota.
  destruct (tk_col t) eqn:E; [congruence|].
  cbn. rewrite (IH w x (mkt (tk_pre t) (c_semi :: r) (tk_line t) (S n)) r); auto; discriminate.
Qed.
Lemma tag_loop_sim f : forall f' w x a t t' x' t1,
  fwd a t t' -> (length a < f')%nat -> tag_loop f w x t = Ok (x', t1) ->
  exists t1', tag_loop f' w x t' = Ok (x', t1') /\ block_end a t1 t1'.
Proof.
  induction f as [|f IH]; intros f' w x a t t' x' t1 Hs Hl H; [discriminate|].
  destruct f' as [|f']; [lia|]. cbn [tag_loop] in *.
  destruct (cwal_sim _ _ _ Hs) as (lt & u & u' & E1 & E2 & E3). rewrite E1 in H. rewrite E2.
  destruct lt.
  { inv H. exists u'. split; auto. unfold block_end. destruct E3 as [E3|[_ E3]]; auto. }
  destruct E3 as [(c & d & Hd & E3 & Hw)|[E3 _]]; [|discriminate].
  pose proof (sims_char _ _ _ _ E3) as [C1 C2]. rewrite C1 in H. rewrite C2.
  assert (K : forall x v v', moves1 u v -> fwd (c :: d) v v' ->
     tag_loop f w x v = Ok (x', t1) ->
     exists t1', tag_loop f' w x v' = Ok (x', t1') /\ block_end a t1 t1').
  { intros x0 v v' M Hv E. destruct (turn _ _ _ _ _ _ _ _ E3 Hd Hl M Hv) as (b' & X1 & X2 & X3).
    edestruct (IH f' w x0 b') as (t1' & Y1 & Y2); [exact X2|exact X3|exact E|].
    exists t1'. split; auto. eapply block_end_trans; eauto. }
  destruct (N.eqb_spec c c_semi).
  { exfalso. rewrite (tag_stuck f w x u (d ++ y)) in H; [discriminate| |].
    - destruct E3 as (E3 & _). subst c. exact E3.
    - destruct t as [pre rest line col]. unfold consume_whitespaces_and_lines in E1. cbn in E1.
      apply cwl_eats in E1. destruct E1 as (p & _ & _ & _ & E1). apply E1. auto. }
  destruct (get_string_sim w _ _ _ E3) as (k & v & v' & F1 & F2 & (b1 & Hb1 & F3)). rewrite F1 in H. rewrite F2.
  destruct (get_line_sim _ _ _ F3) as (l & v2 & v2' & G1 & G2 & G3). rewrite G1 in H. rewrite G2.
  pose proof (get_string_key _ _ _ _ _ C1 Hw F1) as Hk.
  assert (Hk3 : k <> [] -> moves1 u v2) by (intros; eapply moves1_l; [eauto|eapply get_line_moves; eauto]).
  assert (G4 : fwd (c :: d) v2 v2') by (eapply fwd_trans; eauto).
  one_key K H k (L "check") Hk3 G4. one_key K H k (L "assert") Hk3 G4. discriminate.
Qed.
End Sim.
