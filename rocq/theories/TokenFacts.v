(** The tokenizer moves forward over its text: what each function consumes. *)
From Coq Require Import Lia.
From Verif Require Import Base BaseFacts Numerals Money Alist Comment Txn Peg Grammar PegFacts Dates Expr Tokens.
Open Scope Z_scope.

Fixpoint newlines (s : str) : Z :=
  match s with [] => 0 | c :: r => (if (c =? c_nl)%N then 1 else 0) + newlines r end.
Lemma newlines_app a b : newlines (a ++ b) = newlines a + newlines b.
Proof. induction a; simpl; lia. Qed.

(** [t'] is [t] moved forward over the text [p], with the line number counting the newlines. *)
Definition eats (t : tok) (p : str) (t' : tok) : Prop :=
  tk_rest t = p ++ tk_rest t' /\ tk_pre t' = rev p ++ tk_pre t /\ tk_line t' = tk_line t + newlines p.
Definition moves (t t' : tok) : Prop := exists p, eats t p t'.
Definition moves1 (t t' : tok) : Prop := exists p, eats t p t' /\ p <> [].

Lemma eats_nil t : eats t [] t.
Proof. split; auto. split; auto. simpl. lia. Qed.
Lemma eats_app t p t1 q t2 : eats t p t1 -> eats t1 q t2 -> eats t (p ++ q) t2.
Proof.
  intros (A1 & A2 & A3) (B1 & B2 & B3). split; [|split].
  - rewrite A1, B1. apply app_assoc.
  - rewrite B2, A2, rev_app_distr, app_assoc. auto.
  - rewrite B3, A3, newlines_app. lia.
Qed.
Lemma moves_refl t : moves t t.
Proof. exists []. apply eats_nil. Qed.
Lemma moves_trans a b c : moves a b -> moves b c -> moves a c.
Proof. intros (p & H) (q & H'). exists (p ++ q). eapply eats_app; eauto. Qed.
Lemma moves1_moves a b : moves1 a b -> moves a b.
Proof. intros (p & H & _). exists p. auto. Qed.
Lemma moves1_l a b c : moves1 a b -> moves b c -> moves1 a c.
Proof.
  intros (p & H & Hp) (q & H'). exists (p ++ q). split; [eapply eats_app; eauto|].
  destruct p; [congruence|discriminate].
Qed.
Lemma moves1_r a b c : moves a b -> moves1 b c -> moves1 a c.
Proof.
  intros (p & H) (q & H' & Hq). exists (p ++ q). split; [eapply eats_app; eauto|].
  destruct p; simpl; [auto|discriminate].
Qed.
Lemma moves_length a b : moves a b -> (length (tk_rest b) <= length (tk_rest a))%nat.
Proof. intros (p & H & _). rewrite H, app_length. lia. Qed.
Lemma moves1_length a b : moves1 a b -> (length (tk_rest b) < length (tk_rest a))%nat.
Proof.
  intros (p & (H & _) & Hp). rewrite H, app_length. destruct p; [congruence|simpl; lia].
Qed.
#[global] Hint Resolve moves_refl moves1_moves : mv.

(** Texts that end with a newline (or are empty): closed under moving forward. *)
Definition nlterm (s : str) : Prop := s = [] \/ exists s', s = s' ++ [c_nl].
Lemma nlterm_suffix p s : nlterm (p ++ s) -> nlterm s.
Proof.
  intros [H|(s' & H)].
  - apply app_eq_nil in H. left. tauto.
  - destruct s as [|c s] using rev_ind; [left; auto|]. right.
    rewrite app_assoc in H. apply app_inj_tail in H. destruct H as [_ ->]. eauto.
Qed.
Lemma nlterm_moves a b : moves a b -> nlterm (tk_rest a) -> nlterm (tk_rest b).
Proof. intros (p & H & _). rewrite H. apply nlterm_suffix. Qed.

(** A tokenizer position that moves by one character. *)
Lemma eats_cons t c r t' p :
  tk_rest t = c :: r ->
  eats {| tk_pre := c :: tk_pre t; tk_rest := r; tk_line := tk_line t + (if (c =? c_nl)%N then 1 else 0);
          tk_col := tk_col t |} p t' ->
  eats t (c :: p) t'.
Proof.
  intros E (H1 & H2 & H3). simpl in *. split; [|split].
  - rewrite E, H1. auto.
  - rewrite H2. simpl. rewrite <- app_assoc. auto.
  - simpl. rewrite H3. lia.
Qed.
(** [eats] does not look at columns. *)
Lemma eats_cong t t1 p t' : tk_rest t = tk_rest t1 -> tk_pre t = tk_pre t1 -> tk_line t = tk_line t1 ->
  eats t p t' -> eats t1 p t'.
Proof. unfold eats. intros -> -> ->. auto. Qed.

Notation mkt pre rest line col := {| tk_pre := pre; tk_rest := rest; tk_line := line; tk_col := col |}.

Lemma eats_step c r pre line col col1 p t' :
  eats (mkt (c :: pre) r (line + (if (c =? c_nl)%N then 1 else 0)) col1) p t' ->
  eats (mkt pre (c :: r) line col) (c :: p) t'.
Proof.
  intros H. eapply eats_cons; [reflexivity|]. eapply eats_cong; [| | |exact H]; auto.
Qed.
Lemma eats_step0 c r pre line col col1 p t' : (c =? c_nl)%N = false ->
  eats (mkt (c :: pre) r line col1) p t' ->
  eats (mkt pre (c :: r) line col) (c :: p) t'.
Proof.
  intros E H. eapply eats_step with (col1 := col1). rewrite E. replace (line + 0) with line by lia. auto.
Qed.
Lemma eats_step1 r pre line col col1 p t' :
  eats (mkt (c_nl :: pre) r (line + 1) col1) p t' ->
  eats (mkt pre (c_nl :: r) line col) (c_nl :: p) t'.
Proof. intros H. eapply eats_step with (col1 := col1). auto. Qed.

(** White space. *)
Lemma cwl_eats rest : forall pre line col ty t', cwl rest pre line col = (ty, t') ->
  exists p, eats (mkt pre rest line col) p t' /\ forallb is_ws p = true /\
  match tk_rest t' with c :: _ => is_ws c = false | [] => ty = Blank end /\
  (ty = Indented -> tk_rest t' <> [] /\ tk_col t' <> O).
Proof.
  induction rest as [|c rest IH]; intros pre line col ty t' H; simpl in H.
  - inv H. exists []. split; [apply eats_nil|]. repeat split; auto; discriminate.
  - destruct (N.eqb_spec c c_nl).
    + subst. apply IH in H. destruct H as (p & H1 & H2 & H3). exists (c_nl :: p).
      split; [eapply eats_step1; eauto|]. auto.
    + destruct (is_ws c) eqn:E.
      * apply IH in H. destruct H as (p & H1 & H2 & H3). exists (c :: p).
        split; [eapply eats_step0; eauto; apply N.eqb_neq; auto|]. simpl. rewrite E, H2. auto.
      * inv H. exists []. split; [apply eats_nil|]. simpl. split; auto. split; auto.
        destruct col; [discriminate|]. split; discriminate.
Qed.
Lemma cwal_moves t ty t' : consume_whitespaces_and_lines t = (ty, t') -> moves t t'.
Proof. destruct t as [pre rest line col]. unfold consume_whitespaces_and_lines. simpl. intros H. apply cwl_eats in H. destruct H as (p & H & _). exists p. auto. Qed.
Lemma cwal_indented t t' : consume_whitespaces_and_lines t = (Indented, t') -> tk_rest t' <> [] /\
  match tk_rest t' with c :: _ => is_ws c = false | [] => True end.
Proof.
  destruct t as [pre rest line col]. unfold consume_whitespaces_and_lines. simpl. intros H. apply cwl_eats in H.
  destruct H as (p & H & _ & H2 & H3). destruct (H3 eq_refl). destruct (tk_rest t'); auto.
Qed.
Lemma cwal_blank_head t t' : consume_whitespaces_and_lines t = (Blank, t') ->
  match tk_rest t' with c :: _ => is_ws c = false | [] => True end.
Proof.
  destruct t as [pre rest line col]. unfold consume_whitespaces_and_lines. simpl. intros H. apply cwl_eats in H.
  destruct H as (p & H & _ & H2 & H3). destruct (tk_rest t'); auto.
Qed.

Lemma cws_eats rest : forall pre line col, exists p,
  eats (mkt pre rest line col) p (cws rest pre line col) /\
  match tk_rest (cws rest pre line col) with c :: _ => is_ws c = false \/ c = c_nl | [] => True end /\
  forallb (fun c => is_ws c && negb (c =? c_nl)%N) p = true.
Proof.
  induction rest as [|c rest IH]; intros pre line col; simpl.
  - exists []. split; [apply eats_nil|auto].
  - destruct (is_ws c && negb (c =? c_nl)%N) eqn:E.
    + destruct (IH (c :: pre) line (S col)) as (p & H1 & H2 & H3). exists (c :: p).
      apply andb_true_iff in E. destruct E as [E1 E2]. apply negb_true_iff in E2.
      split; [eapply eats_step0; eauto|]. split; auto. simpl. rewrite E1, E2, H3. auto.
    + exists []. split; [apply eats_nil|]. split; auto. cbn [tk_rest]. apply andb_false_iff in E.
      destruct E as [E|E]; auto. apply negb_false_iff in E. apply N.eqb_eq in E. auto.
Qed.
Definition head_ok (t : tok) : Prop :=
  match tk_rest t with c :: _ => is_ws c = false \/ c = c_nl | [] => True end.
Lemma cw_moves t : moves t (consume_whitespaces t).
Proof. destruct t as [pre rest line col]. unfold consume_whitespaces. simpl. destruct (cws_eats rest pre line col) as (p & H & _). exists p. auto. Qed.
Lemma cw_head t : head_ok (consume_whitespaces t).
Proof. destruct t as [pre rest line col]. unfold consume_whitespaces. simpl. destruct (cws_eats rest pre line col) as (p & _ & H & _). auto. Qed.
#[global] Hint Resolve cw_moves cw_head : mv.

Lemma adv_eats t c r : tk_rest t = c :: r -> (c =? c_nl)%N = false -> eats t [c] (adv t).
Proof.
  destruct t as [pre rest line col]. simpl. intros -> H. unfold adv. simpl. eapply eats_step0; eauto. apply eats_nil.
Qed.
Lemma adv_moves1 t c : get_char t = Some c -> (c =? c_nl)%N = false -> moves1 t (adv t).
Proof.
  unfold get_char. destruct (tk_rest t) eqn:E; [discriminate|]. intros H Hc. inv H.
  exists [c]. split; [eapply adv_eats; eauto|discriminate].
Qed.
Lemma consume_str_moves s : forallb (fun c => negb (c =? c_nl)%N) s = true ->
  forall t t', consume_str s t = Ok t' -> eats t s t'.
Proof.
  induction s as [|x s IH]; simpl; intros Hn t t' H.
  - inv H. apply eats_nil.
  - apply andb_true_iff in Hn. destruct Hn as [Hx Hn]. apply negb_true_iff in Hx.
    destruct (tk_rest t) as [|c r] eqn:E; [discriminate|].
    destruct (N.eqb_spec c x); [|discriminate]. subst c. apply IH in H; auto.
    change (x :: s) with ([x] ++ s). eapply eats_app; [|exact H]. eapply adv_eats; eauto.
Qed.

Lemma gve_eats rest : forall pre line col opn cls acc e t', gve rest pre line col opn cls acc = (e, t') ->
  exists p, eats (mkt pre rest line col) p t' /\ e = acc ++ p.
Proof.
  induction rest as [|c rest IH]; intros pre line col opn cls acc e t' H; simpl in H.
  - inv H. exists []. split; [apply eats_nil|symmetry; apply app_nil_r].
  - assert (G : forall o k, (c =? c_nl)%N = false -> gve rest (c :: pre) line col o k (acc ++ [c]) = (e, t') ->
      exists p, eats (mkt pre (c :: rest) line col) p t' /\ e = acc ++ p).
    { intros o k Hc G. apply IH in G. destruct G as (p & G1 & G2). exists (c :: p).
      split; [eapply eats_step0; eauto|]. rewrite G2, <- app_assoc. auto. }
    destruct (N.eqb_spec c c_lp); [subst; eapply G; eauto|].
    destruct (N.eqb_spec c c_rp); [subst; eapply G; eauto|].
    destruct (N.eqb_spec c c_nl).
    + destruct (Nat.eqb opn cls).
      * inv H. exists []. split; [apply eats_nil|symmetry; apply app_nil_r].
      * apply IH in H. destruct H as (p & G1 & G2). exists (c :: p). subst c.
        split; [eapply eats_step1; eauto|]. rewrite G2, <- app_assoc. auto.
    + apply N.eqb_neq in n1. destruct (c =? c_semi)%N; [|eapply G; eauto].
      inv H. exists []. split; [apply eats_nil|symmetry; apply app_nil_r].
Qed.
Lemma gve_moves1 t e t' : get_char t = Some c_lp -> get_value_expression t = (e, t') -> moves1 t t'.
Proof.
  unfold get_value_expression, get_char. destruct t as [pre rest line col]. cbn [tk_rest tk_pre tk_line tk_col].
  destruct rest as [|c rest]; [discriminate|]. intros E H. inv E. cbn in H.
  change (c_lp =? c_lp)%N with true in H. apply gve_eats in H. destruct H as (p & H & _).
  exists (c_lp :: p). split; [eapply eats_step0; eauto|discriminate].
Qed.

Lemma gline_eats rest : forall pre line col s t', gline rest pre line col = (s, t') ->
  exists p, eats (mkt pre rest line col) p t' /\ (rest <> [] -> p <> []) /\
  ((p = s /\ tk_rest t' = []) \/ p = s ++ [c_nl]) /\ ~ In c_nl s.
Proof.
  induction rest as [|c rest IH]; intros pre line col s t' H; cbn [gline] in H.
  - inv H. exists []. split; [apply eats_nil|]. repeat split; auto.
  - destruct (N.eqb_spec c c_nl).
    + subst. inv H. exists [c_nl]. split; [eapply eats_step1; apply eats_nil|].
      split; [discriminate|]. split; auto.
    + destruct (gline rest (c :: pre) line col) as [s1 t1] eqn:E. inv H. apply IH in E.
      destruct E as (p & E1 & E2 & E3 & E4). exists (c :: p).
      split; [eapply eats_step0; eauto; apply N.eqb_neq; auto|]. split; [discriminate|].
      split; [|intros [|]; auto]. destruct E3 as [[-> ?]| ->]; auto.
Qed.
Lemma get_line_moves t s t' : get_line t = (s, t') -> moves t t'.
Proof. destruct t as [pre rest line col]. unfold get_line. simpl. intros H. apply gline_eats in H. destruct H as (p & H & _). exists p. auto. Qed.
Lemma get_line_moves1 t s t' : get_line t = (s, t') -> tk_rest t <> [] -> moves1 t t'.
Proof. destruct t as [pre rest line col]. unfold get_line. simpl. intros H Hn. apply gline_eats in H. destruct H as (p & H & H2 & _). exists p. auto. Qed.
(** If the text ends with a newline, stepping back after reading a line stops before the newline. *)
Lemma get_line_back t s t' : get_line t = (s, t') -> nlterm (tk_rest t) -> tk_rest t <> [] ->
  eats t s (back t') /\ exists r, tk_rest (back t') = c_nl :: r.
Proof.
  destruct t as [pre rest line col]. unfold get_line. cbn [tk_rest tk_pre tk_line tk_col].
  intros H Hn Hr. apply gline_eats in H. destruct H as (p & (H1 & H2 & H3) & H4 & H5 & Hs). cbn in H1, H2, H3.
  destruct H5 as [[-> He]| ->].
  - exfalso. destruct Hn as [|(s' & Hn)]; [contradiction|]. rewrite He, app_nil_r in H1.
    apply Hs. rewrite <- H1, Hn. apply in_or_app. right. left. auto.
  - unfold back. rewrite rev_app_distr in H2. cbn in H2. rewrite H2. split.
    + split; [|split].
      * cbn. rewrite H1, <- app_assoc. auto.
      * cbn. auto.
      * cbn. rewrite H3, newlines_app. cbn. lia.
    + cbn. eauto.
Qed.

Lemma gstr_eats w rest : forall pre line col q acc s t', gstr w rest pre line col q acc = (s, t') ->
  exists p, eats (mkt pre rest line col) p t'.
Proof.
  induction rest as [|c rest IH]; intros pre line col q acc s t' H; cbn [gstr] in H.
  - inv H. exists []. apply eats_nil.
  - destruct (N.eqb_spec c c_nl). { inv H. exists []. apply eats_nil. }
    apply N.eqb_neq in n.
    assert (G : forall col1 q acc, gstr w rest (c :: pre) line col1 q acc = (s, t') ->
                exists p, eats (mkt pre (c :: rest) line col) p t').
    { intros col1 q' acc' G. apply IH in G. destruct G as (p & G). exists (c :: p). eapply eats_step0; eauto. }
    destruct (c =? c_dq)%N.
    + destruct acc; [eapply G; eauto|]. destruct q; [|eapply G; eauto]. inv H. exists [c].
      eapply eats_step0; eauto. apply eats_nil.
    + destruct (_ && negb q); [|eapply G; eauto]. inv H. exists []. apply eats_nil.
Qed.
Lemma get_string_moves w t s t' : get_string w t = (s, t') -> moves t t'.
Proof.
  unfold get_string. destruct (gstr w _ _ _ _ false []) as [s1 t1] eqn:E. intros H. inv H.
  apply gstr_eats in E. destruct E as (p & E).
  eapply moves_trans; [apply cw_moves|]. eapply moves_trans; [|apply cw_moves]. exists p.
  eapply eats_cong; [| | |exact E]; auto.
Qed.
(** It consumes something when the first character may start a word. *)
Lemma gstr_first w c rest pre line col s t' :
  (c =? c_nl)%N = false ->
  (is_ws c || is_numeric w c || (c =? c_dot)%N || (c =? c_minus)%N || (c =? c_semi)%N) = false ->
  gstr w (c :: rest) pre line col false [] = (s, t') ->
  exists p, eats (mkt pre (c :: rest) line col) (c :: p) t'.
Proof.
  intros Hn Hc H. cbn [gstr] in H. rewrite Hn, Hc in H. cbn [negb andb] in H.
  destruct (c =? c_dq)%N; apply gstr_eats in H; destruct H as (p & H); exists p; eapply eats_step0; eauto.
Qed.
Lemma cw_id c r t : tk_rest t = c :: r -> is_ws c = false -> consume_whitespaces t = t.
Proof.
  destruct t as [pre rest line col]. cbn. intros -> H. unfold consume_whitespaces. cbn. rewrite H. auto.
Qed.
Lemma get_string_moves1 w t c s t' :
  get_char t = Some c ->
  (is_ws c || is_numeric w c || (c =? c_dot)%N || (c =? c_minus)%N || (c =? c_semi)%N) = false ->
  get_string w t = (s, t') -> moves1 t t'.
Proof.
  unfold get_char. destruct (tk_rest t) as [|c' r] eqn:Er; [discriminate|]. intros E Hc. inv E.
  assert (Hw : is_ws c = false). { destruct (is_ws c); auto. }
  unfold get_string. rewrite (cw_id _ _ _ Er Hw). rewrite Er.
  destruct (gstr w (c :: r) _ _ _ false []) as [s1 t1] eqn:E. intros H. inv H.
  apply gstr_first in E; auto.
  - destruct E as (p & E). eapply moves1_l; [|apply cw_moves]. exists (c :: p). split; [|discriminate].
    eapply eats_cong; [| | |exact E]; auto.
  - destruct (N.eqb_spec c c_nl); auto. subst. discriminate.
Qed.

Lemma parse_comment_moves1 t c s t' : get_char t = Some c -> (c =? c_nl)%N = false ->
  parse_comment t = (s, t') -> moves1 t t'.
Proof.
  intros Hc Hn H. unfold parse_comment in H. apply get_line_moves in H.
  eapply moves1_l; [eapply adv_moves1; eauto|]. eapply moves_trans; eauto with mv.
Qed.

(** Amounts. *)
Lemma is_numeric_nl w : is_numeric w c_nl = false.
Proof. reflexivity. Qed.
Lemma gamount_eats w rest : forall pre line col num den dec a t',
  gamount w rest pre line col num den dec = (a, t') ->
  exists p, eats (mkt pre rest line col) p t'.
Proof.
  induction rest as [|c rest IH]; intros pre line col num den dec a t' H; cbn [gamount] in H.
  - inv H. exists []. apply eats_nil.
  - assert (G : forall col1 num den dec, (c =? c_nl)%N = false -> gamount w rest (c :: pre) line col1 num den dec = (a, t') ->
      exists p, eats (mkt pre (c :: rest) line col) p t').
    { intros col1 n1 d1 k1 Hc G. apply IH in G. destruct G as (p & G). exists (c :: p). eapply eats_step0; eauto. }
    destruct (N.eqb_spec c c_dot).
    + destruct dec; [inv H; exists []; apply eats_nil|]. eapply G; eauto. subst. auto.
    + destruct ((c =? c_minus)%N || is_numeric w c) eqn:E; [|inv H; exists []; apply eats_nil].
      eapply G; eauto. destruct (N.eqb_spec c c_nl); auto. subst. discriminate.
Qed.
Lemma parse_amount_moves w t a t' : parse_amount w t = (a, t') -> moves t t'.
Proof.
  unfold parse_amount. destruct (gamount w _ _ _ _ [] 0 false) as [x t1] eqn:E. intros H. inv H.
  apply gamount_eats in E. destruct E as (p & E). exists p. eapply eats_cong; [| | |exact E]; auto.
Qed.
Lemma parse_amount_moves1 w t c a t' : get_char t = Some c ->
  is_numeric w c || (c =? c_dot)%N || (c =? c_minus)%N = true ->
  parse_amount w t = (a, t') -> moves1 t t'.
Proof.
  unfold get_char. destruct (tk_rest t) as [|c' r] eqn:Er; [discriminate|]. intros E Hc H. inv E.
  unfold parse_amount in H. rewrite Er in H.
  destruct (gamount w (c :: r) _ _ _ [] 0 false) as [x t1] eqn:E. inv H.
  cbn [gamount] in E. assert (Hn : (c =? c_nl)%N = false).
  { destruct (N.eqb_spec c c_nl); auto. subst. discriminate. }
  assert (G : forall num den dec, gamount w r (c :: tk_pre t) (tk_line t) (S (tk_col t)) num den dec = (x, t') -> moves1 t t').
  { intros num den dec G. apply gamount_eats in G. destruct G as (p & G). exists (c :: p).
    split; [|discriminate]. eapply eats_cong; [| | |eapply eats_step0 with (col := tk_col t); eauto]; auto. }
  destruct (c =? c_dot)%N; [eauto|]. rewrite orb_false_r in Hc. rewrite orb_comm in Hc. rewrite Hc in E. eauto.
Qed.
Lemma parse_money_moves w t m t' : parse_money w t = (m, t') -> moves t t'.
Proof.
  unfold parse_money. destruct (get_char t) as [c|] eqn:Ec.
  - destruct (is_numeric w c || (c =? c_dot)%N || (c =? c_minus)%N).
    + destruct (parse_amount w t) as [[q|e] t1] eqn:E.
      * destruct (get_string w t1) as [cur t2] eqn:E2. intros H. inv H.
        eapply moves_trans; [eapply parse_amount_moves|eapply get_string_moves]; eauto.
      * intros H. inv H. eapply parse_amount_moves; eauto.
    + destruct (get_string w t) as [cur t1] eqn:E. destruct (parse_amount w t1) as [[q|e] t2] eqn:E2;
        intros H; inv H; (eapply moves_trans; [eapply get_string_moves; eauto|eapply parse_amount_moves; eauto]).
  - intros H. inv H. apply moves_refl.
Qed.
Lemma parse_money_moves1 w t c m t' : get_char t = Some c ->
  is_ws c = false -> (c =? c_semi)%N = false ->
  parse_money w t = (m, t') -> moves1 t t'.
Proof.
  intros Hc Hw Hs. unfold parse_money. rewrite Hc.
  destruct (is_numeric w c || (c =? c_dot)%N || (c =? c_minus)%N) eqn:E.
  - destruct (parse_amount w t) as [[q|e] t1] eqn:E1.
    + destruct (get_string w t1) as [cur t2] eqn:E2. intros H. inv H.
      eapply moves1_l; [eapply parse_amount_moves1; eauto|eapply get_string_moves; eauto].
    + intros H. inv H. eapply parse_amount_moves1; eauto.
  - destruct (get_string w t) as [cur t1] eqn:E1.
    assert (M : moves1 t t1).
    { eapply get_string_moves1; eauto. rewrite Hs, Hw. rewrite orb_false_r. exact E. }
    destruct (parse_amount w t1) as [[q|e] t2] eqn:E2; intros H; inv H;
      (eapply moves1_l; [exact M|eapply parse_amount_moves; eauto]).
Qed.

(** Reading money stays on the line. *)
Lemma newlines_nonneg s : 0 <= newlines s.
Proof. induction s; simpl; [lia|]. destruct (_ =? _)%N; lia. Qed.
Lemma cw_line t : tk_line (consume_whitespaces t) = tk_line t.
Proof.
  unfold consume_whitespaces. destruct t as [pre rest line col]. cbn. revert pre col.
  induction rest as [|c rest IH]; intros; simpl; auto. destruct (_ && _); auto.
Qed.
Lemma get_string_line w t s t' : get_string w t = (s, t') -> tk_line t' = tk_line t.
Proof.
  unfold get_string. rewrite <- (cw_line t). destruct (consume_whitespaces t) as [pre rest line col]. cbn.
  assert (G : forall rest pre col q acc s t', gstr w rest pre line col q acc = (s, t') -> tk_line t' = line).
  { clear. induction rest as [|c rest IH]; intros pre col q acc s t' H; cbn [gstr] in H; [inv H; auto|].
    destruct (c =? c_nl)%N; [inv H; auto|]. destruct (c =? c_dq)%N.
    - destruct acc; [eauto|]. destruct q; [inv H; auto|eauto].
    - destruct (_ && negb q); [inv H; auto|eauto]. }
  destruct (gstr w rest pre line col false []) as [s1 t1] eqn:E. intros H. inv H. rewrite cw_line. eauto.
Qed.
Lemma parse_amount_line w t a t' : parse_amount w t = (a, t') -> tk_line t' = tk_line t.
Proof.
  unfold parse_amount. destruct t as [pre rest line col]. cbn.
  assert (G : forall rest pre col num den dec a t', gamount w rest pre line col num den dec = (a, t') -> tk_line t' = line).
  { clear. induction rest as [|c rest IH]; intros pre col num den dec a t' H; cbn [gamount] in H; [inv H; auto|].
    destruct (c =? c_dot)%N; [destruct dec; [inv H; auto|eauto]|].
    destruct (_ || _); [eauto|inv H; auto]. }
  destruct (gamount w rest pre line col [] 0 false) as [x t1] eqn:E. intros H. inv H. eauto.
Qed.
Lemma parse_money_line w t m t' : parse_money w t = (m, t') -> tk_line t' = tk_line t.
Proof.
  unfold parse_money. destruct (get_char t) as [c|] eqn:Ec; [|intros H; inv H; auto].
  destruct (is_numeric w c || (c =? c_dot)%N || (c =? c_minus)%N).
  - destruct (parse_amount w t) as [[q|e] t1] eqn:E.
    + destruct (get_string w t1) as [cur t2] eqn:E2. intros H. inv H.
      rewrite (get_string_line _ _ _ _ E2). eapply parse_amount_line; eauto.
    + intros H. inv H. eapply parse_amount_line; eauto.
  - destruct (get_string w t) as [cur t1] eqn:E. apply get_string_line in E.
    destruct (parse_amount w t1) as [[q|e] t2] eqn:E2; apply parse_amount_line in E2;
      intros H; inv H; congruence.
Qed.

(** Postings. *)
Lemma gaccount_eats n : forall rest pre line col acc a fin t', (length rest <= n)%nat ->
  gaccount rest pre line col acc = Ok (a, fin, t') ->
  exists p, eats (mkt pre rest line col) p t' /\
    (fin = true -> exists r, tk_rest t' = c_nl :: r) /\ (p = [] -> a = acc /\ fin = true).
Proof.
  induction n as [|n IH]; intros rest pre line col acc a fin t' Hl H.
  { destruct rest; [discriminate|simpl in Hl; lia]. }
  destruct rest as [|c r]; [discriminate|]. cbn [gaccount] in H. cbn [length] in Hl.
  assert (E1 : forall r0, eats (mkt pre (c :: r0) line col) [c] (next_tok c r0 pre line col)).
  { intros r0. unfold next_tok. destruct (c =? c_nl)%N eqn:E.
    - apply N.eqb_eq in E. subst. eapply eats_step1. apply eats_nil.
    - eapply eats_step0; eauto. apply eats_nil. }
  assert (T : forall c r pre line col, mkt (tk_pre (next_tok c r pre line col)) r (tk_line (next_tok c r pre line col)) (tk_col (next_tok c r pre line col)) = next_tok c r pre line col).
  { intros c0 r0 pre0 line0 col0. unfold next_tok. destruct (c0 =? c_nl)%N; auto. }
  destruct (negb (is_ws c)).
  - apply IH in H; [|lia]. destruct H as (p & H1 & H2 & H3). rewrite T in H1. exists (c :: p).
    split; [|split; [auto|discriminate]]. change (c :: p) with ([c] ++ p). eapply eats_app; eauto.
  - destruct (N.eqb_spec c c_tab).
    + inv H. exists [c_tab]. split; [|split; discriminate]. auto.
    + destruct (N.eqb_spec c c_nl).
      * subst. inv H. exists []. split; [|split].
        -- unfold next_tok. change (c_nl =? c_nl)%N with true. unfold back. cbn.
           split; [auto|split; [auto|]]. cbn. lia.
        -- intros _. exists r. auto.
        -- auto.
      * destruct r as [|d r']; [discriminate|]. 
        assert (E2 : eats (mkt pre (c :: d :: r') line col) [c; d]
                     (next_tok d r' (tk_pre (next_tok c (d :: r') pre line col))
                        (tk_line (next_tok c (d :: r') pre line col)) (tk_col (next_tok c (d :: r') pre line col)))).
        { change [c; d] with ([c] ++ [d]). eapply eats_app; [apply E1|]. rewrite <- T.
          unfold next_tok at 4. destruct (d =? c_nl)%N eqn:E.
          - apply N.eqb_eq in E. subst. eapply eats_step1. apply eats_nil.
          - eapply eats_step0; eauto. apply eats_nil. }
        destruct (is_ws d).
        -- inv H. exists [c; d]. split; [|split; discriminate]. auto.
        -- apply IH in H; [|cbn in Hl; lia]. destruct H as (p & H1 & H2 & H3). rewrite T in H1.
           exists ([c; d] ++ p). split; [|split; [auto|discriminate]]. eapply eats_app; eauto.
Qed.

(** One round of the posting loop moves forward, provided the text ends with a newline or the
    transaction is not automated. *)
Lemma posting_loop_ok f : forall w ty p t, head_ok t ->
  (ty = TAutomated -> nlterm (tk_rest t)) ->
  (length (tk_rest t) < f)%nat ->
  posting_loop f w ty p t <> Panic OutOfFuel /\
  (forall p' t', posting_loop f w ty p t = Ok (p', t') -> moves t t').
Proof.
  induction f as [|f IH]; intros w ty p t Hh Hnl Hf; [lia|].
  cbn [posting_loop].
  assert (G : forall p1 t1, moves1 t t1 ->
     posting_loop f w ty p1 (consume_whitespaces t1) <> Panic OutOfFuel /\
     (forall p' t', posting_loop f w ty p1 (consume_whitespaces t1) = Ok (p', t') -> moves t t')).
  { intros p1 t1 M. assert (M2 : moves1 t (consume_whitespaces t1)) by (eapply moves1_l; eauto with mv).
    assert (X := IH w ty p1 (consume_whitespaces t1)).
    destruct X as [X1 X2].
    - apply cw_head.
    - intros E. eapply nlterm_moves; [apply moves1_moves; exact M2|auto].
    - apply moves1_length in M2. lia.
    - split; auto. intros p' t' E. apply X2 in E. eapply moves_trans; [apply moves1_moves; exact M2|auto]. }
  destruct (get_char t) as [c|] eqn:Ec.
  2: { split; [discriminate|]. intros p' t' E. inv E. apply moves_refl. }
  assert (Hr : exists r, tk_rest t = c :: r).
  { unfold get_char in Ec. destruct (tk_rest t); inv Ec. eauto. }
  destruct Hr as (r & Hr).
  destruct (N.eqb_spec c c_lp).
  { subst. destruct (get_value_expression t) as [e t1] eqn:E. apply G. eapply gve_moves1; eauto. }
  destruct (N.eqb_spec c c_nl).
  { split; [discriminate|]. intros p' t' E. inv E. apply moves_refl. }
  assert (Hw : is_ws c = false).
  { unfold head_ok in Hh. rewrite Hr in Hh. destruct Hh; congruence. }
  apply N.eqb_neq in n0.
  destruct (N.eqb_spec c c_semi).
  { destruct (parse_comment t) as [s t1] eqn:E. split; [discriminate|]. intros p' t' E1. inv E1.
    apply moves1_moves. eapply parse_comment_moves1; eauto. }
  apply N.eqb_neq in n1.
  destruct (N.eqb_spec c c_eq).
  { destruct (parse_money w (consume_whitespaces (adv t))) as [[m|e0] t1] eqn:E; [|split; discriminate].
    apply G. eapply moves1_l; [eapply adv_moves1; eauto|]. eapply moves_trans; [apply cw_moves|].
    eapply parse_money_moves; eauto. }
  destruct (N.eqb_spec c c_at).
  { destruct (rp_money p); [|split; discriminate].
    assert (M1 : moves1 t (adv t)) by (eapply adv_moves1; eauto).
    destruct (get_char (adv t)) as [d|] eqn:Ed; [|split; discriminate].
    assert (M2 : moves1 t (if (d =? c_at)%N then adv (adv t) else adv t)).
    { destruct (N.eqb_spec d c_at); auto. subst. eapply moves1_l; [exact M1|].
      apply moves1_moves. eapply adv_moves1; eauto. }
    destruct (d =? c_at)%N.
    - destruct (parse_money w (consume_whitespaces (adv (adv t)))) as [[m|e1] t1] eqn:E; [|split; discriminate].
      apply G. eapply moves1_l; [exact M2|]. eapply moves_trans; [apply cw_moves|]. eapply parse_money_moves; eauto.
    - destruct (parse_money w (consume_whitespaces (adv t))) as [[m|e1] t1] eqn:E; [|split; discriminate].
      apply G. eapply moves1_l; [exact M2|]. eapply moves_trans; [apply cw_moves|]. eapply parse_money_moves; eauto. }
  destruct (parse_money w t) as [[m|e] t1] eqn:E.
  { apply G. eapply parse_money_moves1; eauto. }
  destruct ty; try (split; discriminate).
  destruct (get_line t1) as [l t2] eqn:El. apply G.
  assert (M1 : moves1 t t1) by (eapply parse_money_moves1; eauto).
  assert (N1 : nlterm (tk_rest t1)) by (eapply nlterm_moves; [apply moves1_moves; exact M1|auto]).
  destruct (tk_rest t1) eqn:E1.
  - (* the text was newline-terminated and the character read is not a newline *)
    exfalso. destruct M1 as (q & (A1 & _ & A3) & Hq). rewrite E1, app_nil_r in A1.
    specialize (Hnl eq_refl). destruct Hnl as [Hnl|(s' & Hnl)]; [congruence|].
    apply parse_money_line in E. rewrite <- A1, Hnl, newlines_app in A3.
    change (newlines [c_nl]) with 1 in A3. pose proof (newlines_nonneg s'). lia.
  - assert (B := get_line_back t1 l t2 El). rewrite E1 in B. specialize (B N1 ltac:(discriminate)).
    destruct B as [B _]. eapply moves1_l; [exact M1|]. exists l. auto.
Qed.

(** ** No function but the loops below runs out of fuel *)
Lemma account_kind_ok acc t u x : account_kind acc t = Ok x -> account_kind acc u = Ok x.
Proof. unfold account_kind. intros H. destruct acc as [|c r]; [auto|]. destruct (128 <=? c)%N; [auto|].
  destruct (c =? c_lp)%N; [destruct (last _ _ =? c_rp)%N; [auto|discriminate]|].
  destruct (c =? c_lb)%N; [destruct (last _ _ =? c_rb)%N; [auto|discriminate]|auto]. Qed.
Definition nofuel {A} (m : res A) : Prop := m <> Panic OutOfFuel.
Lemma in_file_ok {A} file (r : res A) x : in_file file r = Ok x <-> r = Ok x.
Proof. destruct r as [a|e|p]; cbn; [tauto| |split; discriminate]. destruct e; try (split; discriminate).
  destruct pos as [p|]; [destruct (at_file p)|]; split; discriminate. Qed.
Lemma in_file_panic {A} file (r : res A) x : in_file file r = Panic x <-> r = Panic x.
Proof. destruct r as [a|e|p]; cbn; [split; discriminate| |tauto]. destruct e; try (split; discriminate).
  destruct pos as [p|]; [destruct (at_file p)|]; split; discriminate. Qed.
Lemma nofuel_in_file {A} file (r : res A) : nofuel r -> nofuel (in_file file r).
Proof. intros H X. apply in_file_panic in X. auto. Qed.
Lemma nofuel_bind {A B} (m : res A) (f : A -> res B) :
  nofuel m -> (forall a, m = Ok a -> nofuel (f a)) -> nofuel (bind m f).
Proof.
  unfold nofuel. destruct m; simpl; intros H1 H2; [auto|discriminate|]. intros E. apply H1. congruence.
Qed.
Lemma nofuel_ok {A} (a : A) : nofuel (Ok a).
Proof. discriminate. Qed.
Lemma nofuel_err {A} e : nofuel (@Err A e).
Proof. discriminate. Qed.
Lemma nofuel_unwrap {A} (o : option A) : nofuel (unwrap o).
Proof. destruct o; discriminate. Qed.
Lemma nofuel_pnext ps : nofuel (pnext ps).
Proof. destruct ps; discriminate. Qed.
Lemma nofuel_gparse r s : nofuel (gparse r s).
Proof. apply gparse_fuel. Qed.
#[global] Hint Resolve nofuel_ok nofuel_err nofuel_unwrap nofuel_pnext nofuel_gparse : nf.
Ltac nf := repeat (first [ progress (intros; auto with nf)
                         | apply nofuel_bind; [solve [auto with nf]|intros]
                         | match goal with |- nofuel (match ?x with _ => _ end) => destruct x end
                         | discriminate ]).

Lemma nofuel_parse_string : forall p, nofuel (parse_string p).
Proof.
  fix IH 1. intros [r t kids]. destruct r; simpl; try discriminate.
  destruct kids as [|k kids]; [discriminate|apply IH].
Qed.
#[global] Hint Resolve nofuel_parse_string : nf.
Lemma nofuel_parse_date p : nofuel (parse_date p).
Proof. unfold parse_date. nf. Qed.
#[global] Hint Resolve nofuel_parse_date : nf.
Lemma nofuel_parse_rational p : nofuel (parse_rational p).
Proof. unfold parse_rational. nf. Qed.
Lemma nofuel_opt_item r st : nofuel (opt_item r st).
Proof. unfold opt_item. nf. Qed.
#[global] Hint Resolve nofuel_parse_rational nofuel_opt_item : nf.
Lemma nofuel_opt_date (o : option (pair rule)) :
  nofuel (match o with Some p => e <- parse_date p ;; Ok (Some e) | None => Ok None end).
Proof. nf. Qed.
Lemma nofuel_opt_str (o : option (pair rule)) {A} (f : str -> A) (d : A) :
  nofuel (match o with Some p => s <- parse_string p ;; Ok (f s) | None => Ok d end).
Proof. nf. Qed.
Lemma nofuel_header line : nofuel (parse_header line).
Proof.
  unfold parse_header.
  repeat (first [ apply nofuel_bind; [first [solve [auto with nf] | apply nofuel_opt_date | apply nofuel_opt_str | solve [nf]]|intros]
                | match goal with |- nofuel (let (_, _) := ?x in _) => destruct x end | solve [nf] ]).
Qed.
#[global] Hint Resolve nofuel_header : nf.
Lemma nofuel_price_line line : nofuel (parse_price_line line).
Proof.
  unfold parse_price_line.
  repeat (first [ apply nofuel_bind; [first [solve [auto with nf] | solve [nf]]|intros]
                | match goal with |- nofuel (let (_, _) := ?x in _) => destruct x end | solve [nf] ]).
Qed.
#[global] Hint Resolve nofuel_price_line : nf.
Lemma nofuel_gaccount n : forall rest pre line col acc, (length rest <= n)%nat -> nofuel (gaccount rest pre line col acc).
Proof.
  induction n as [|n IH]; intros rest pre line col acc Hl; destruct rest as [|c r]; try discriminate;
    cbn [length] in Hl; [lia|]. cbn [gaccount].
  destruct (negb (is_ws c)); [apply IH; lia|]. destruct (c =? c_tab)%N; [discriminate|].
  destruct (c =? c_nl)%N; [discriminate|]. destruct r as [|d r']; [discriminate|].
  destruct (is_ws d); [discriminate|]. apply IH. cbn in Hl. lia.
Qed.
Lemma nofuel_account_kind acc t : nofuel (account_kind acc t).
Proof. unfold account_kind. nf. Qed.
#[global] Hint Resolve nofuel_account_kind : nf.

(** ** Parsed postings *)
(** A cost comes with an amount and a kind of cost. *)
Definition rposting_ok (pay : option str) (p : rposting) : Prop :=
  rp_payee p = pay /\
  (rp_cost_type p = None -> rp_cost p = None) /\ (rp_money p = None -> rp_cost_type p = None /\ rp_cost p = None).
Lemma posting_loop_wf f : forall w ty p t p' t' pay,
  posting_loop f w ty p t = Ok (p', t') -> rposting_ok pay p -> rposting_ok pay p'.
Proof.
  induction f as [|f IH]; intros w ty p t p' t' pay H Hp; [discriminate|].
  destruct Hp as (P1 & P2 & P3). cbn [posting_loop] in H.
  destruct (get_char t) as [c|]; [|inv H; repeat split; auto; apply P3; auto].
  destruct (c =? c_lp)%N.
  { destruct (get_value_expression t). eapply IH; [exact H|]. repeat split; auto; apply P3; auto. }
  destruct (c =? c_nl)%N; [inv H; repeat split; auto; apply P3; auto|].
  destruct (c =? c_semi)%N.
  { destruct (parse_comment t). inv H. repeat split; auto; apply P3; auto. }
  destruct (c =? c_eq)%N.
  { destruct (parse_money w (consume_whitespaces (adv t))) as [[m|e] t1]; [|discriminate].
    eapply IH; [exact H|]. repeat split; auto; apply P3; auto. }
  destruct (c =? c_at)%N.
  { destruct (rp_money p) eqn:Em; [|discriminate]. destruct (get_char (adv t)) as [d|]; [|discriminate].
    destruct (d =? c_at)%N.
    - destruct (parse_money w (consume_whitespaces (adv (adv t)))) as [[m|e] t1]; [|discriminate].
      eapply IH; [exact H|]. repeat split; cbn in *; auto; congruence.
    - destruct (parse_money w (consume_whitespaces (adv t))) as [[m|e] t1]; [|discriminate].
      eapply IH; [exact H|]. repeat split; cbn in *; auto; congruence. }
  destruct (parse_money w t) as [[m|e] t1].
  { eapply IH; [exact H|]. repeat split; cbn; auto; discriminate. }
  destruct ty; try discriminate. destruct (get_line t1).
  eapply IH; [exact H|]. repeat split; auto; apply P3; auto.
Qed.
Lemma parse_posting_wf w ty pay t p t' : parse_posting w ty pay t = Ok (p, t') -> rposting_ok pay p.
Proof.
  unfold parse_posting. intros H. bind_inv H. destruct a as [[acc fin] t1]. bind_inv H. destruct a as [k acc'].
  destruct fin.
  - inv H. repeat split; auto.
  - eapply posting_loop_wf; [exact H|]. repeat split; auto.
Qed.
Lemma parse_posting_ok w ty pay t : 
  (ty = TAutomated -> nlterm (tk_rest t)) ->
  nofuel (parse_posting w ty pay t) /\
  (forall p t', parse_posting w ty pay t = Ok (p, t') -> moves1 t t').
Proof.
  intros Hnl. unfold parse_posting.
  destruct (gaccount (tk_rest t) (tk_pre t) (tk_line t) (tk_col t) []) as [[[acc fin] t1]|e|e] eqn:Eg; cbn [bind].
  2: { split; discriminate. }
  2: { split; [|discriminate]. intros H. inv H. eapply nofuel_gaccount; [|exact Eg]. auto. }
  destruct (account_kind acc t1) as [[k acc']|e|e] eqn:Ek; cbn [bind].
  2: { split; discriminate. }
  2: { split; [|discriminate]. pose proof (nofuel_account_kind acc t1) as X. rewrite Ek in X. intros H. apply X. congruence. }
  assert (M : moves1 t t1).
  { apply (gaccount_eats (length (tk_rest t))) in Eg; auto. destruct Eg as (p & E1 & _ & E3). exists p. split.
    - eapply eats_cong; [| | |exact E1]; auto.
    - intros ->. destruct (E3 eq_refl) as [-> _]. discriminate. }
  destruct fin; [split; [discriminate|]; intros p t' H; inv H; auto|].
  assert (M2 : moves1 t (consume_whitespaces t1)) by (eapply moves1_l; eauto with mv).
  destruct (posting_loop_ok (S (S (length (tk_rest (consume_whitespaces t1))))) w ty
              (rp_new acc' k pay) (consume_whitespaces t1)) as [X1 X2].
  - apply cw_head.
  - intros E. eapply nlterm_moves; [apply moves1_moves; exact M2|auto].
  - lia.
  - split; [exact X1|]. intros p t' H. apply X2 in H. eapply moves1_l; eauto.
Qed.

Lemma add_comment_last_wf c ps ps' pay :
  add_comment_last c ps = Ok ps' -> Forall (rposting_ok pay) ps -> Forall (rposting_ok pay) ps'.
Proof.
  unfold add_comment_last. destruct (rev ps) as [|p r] eqn:E; [discriminate|]. intros H Hf. inv H.
  assert (ps = rev r ++ [p]) by (rewrite <- (rev_involutive ps), E; auto). subst.
  apply Forall_app in Hf. destruct Hf as [H1 H2]. apply Forall_app. split; auto. inv H2.
  constructor; auto.
Qed.
Lemma entries_wf f : forall w ty pay parsed cms ps t cms' ps' t',
  entries f w ty pay parsed cms ps t = Ok (cms', ps', t') ->
  Forall (rposting_ok pay) ps -> Forall (rposting_ok pay) ps'.
Proof.
  induction f as [|f IH]; intros w ty pay parsed cms ps t cms' ps' t' H Hp; [discriminate|].
  cbn [entries] in H. destruct (consume_whitespaces_and_lines t) as [[|] t1]; [inv H; auto|].
  destruct (get_char t1) as [c|]; [|discriminate]. destruct (c =? c_semi)%N.
  - destruct (parse_comment t1) as [s t2]. destruct parsed.
    + bind_inv H. eapply IH; [exact H|]. eapply add_comment_last_wf; eauto.
    + eapply IH; eauto.
  - destruct (is_numeric w c); [discriminate|]. bind_inv H. destruct a as [p t2].
    eapply IH; [exact H|]. apply Forall_app. split; auto. constructor; auto.
    eapply parse_posting_wf; eauto.
Qed.
Lemma entries_ok f : forall w ty pay parsed cms ps t,
  (ty = TAutomated -> nlterm (tk_rest t)) ->
  (length (tk_rest t) < f)%nat ->
  nofuel (entries f w ty pay parsed cms ps t) /\
  (forall cms' ps' t', entries f w ty pay parsed cms ps t = Ok (cms', ps', t') -> moves t t').
Proof.
  induction f as [|f IH]; intros w ty pay parsed cms ps t Hnl Hf; [lia|]. cbn [entries].
  destruct (consume_whitespaces_and_lines t) as [[|] t1] eqn:Ew.
  { split; [discriminate|]. intros cms' ps' t' H. inv H. eapply cwal_moves; eauto. }
  pose proof (cwal_moves _ _ _ Ew) as M. destruct (cwal_indented _ _ Ew) as [Hne Hws].
  destruct (get_char t1) as [c|] eqn:Ec; [|split; discriminate].
  assert (Hnl1 : ty = TAutomated -> nlterm (tk_rest t1)) by (intros; eapply nlterm_moves; eauto).
  assert (G : forall parsed cms ps t2, moves1 t1 t2 ->
    nofuel (entries f w ty pay parsed cms ps t2) /\
    (forall cms' ps' t', entries f w ty pay parsed cms ps t2 = Ok (cms', ps', t') -> moves t t')).
  { intros b c' p' t2 M2. destruct (IH w ty pay b c' p' t2) as [X1 X2].
    - intros E. eapply nlterm_moves; [apply moves1_moves; exact M2|auto].
    - apply moves1_length in M2. apply moves_length in M. lia.
    - split; auto. intros a1 a2 a3 E. apply X2 in E. eapply moves_trans; [exact M|].
      eapply moves_trans; [apply moves1_moves; exact M2|exact E]. }
  destruct (N.eqb_spec c c_semi).
  - destruct (parse_comment t1) as [s t2] eqn:E.
    assert (M2 : moves1 t1 t2) by (eapply parse_comment_moves1; eauto; subst; auto).
    destruct parsed; [|apply G; auto].
    destruct (add_comment_last s ps) eqn:Ea; cbn [bind].
    + apply G; auto.
    + split; discriminate.
    + split; [|discriminate]. unfold add_comment_last in Ea. destruct (rev ps); inv Ea. discriminate.
  - destruct (is_numeric w c); [split; discriminate|].
    destruct (parse_posting_ok w ty pay t1 Hnl1) as [X1 X2].
    destruct (parse_posting w ty pay t1) as [[p t2]|e|e] eqn:E; cbn [bind].
    + apply G. eauto.
    + split; discriminate.
    + split; [intros E2; apply X1; congruence|discriminate].
Qed.

(** ** Transactions *)
Definition rtxn_ok (t : txn rposting) : Prop :=
  match t_type t with
  | TReal => (exists d, t_date t = Some d) /\
             (exists pay, Forall (rposting_ok (Some pay)) (t_postings t))
  | TAutomated => Forall (rposting_ok None) (t_postings t)
  | TPeriodic => False
  end.
Lemma parse_transaction_wf w t x t' : parse_transaction w t = Ok (x, t') -> rtxn_ok x /\ t_type x = TReal.
Proof.
  unfold parse_transaction. destruct (get_line t) as [line t1]. intros H. bind_inv H. bind_inv H.
  destruct a0 as [[cms ps] t2]. inv H. cbn. split; auto. split; [eauto|]. exists (h_payee a).
  eapply entries_wf; eauto.
Qed.
Lemma parse_automated_wf w t x t' : parse_automated w t = Ok (x, t') -> rtxn_ok x /\ t_type x = TAutomated.
Proof.
  unfold parse_automated. destruct (get_line t) as [line t1]. intros H. bind_inv H. bind_inv H.
  destruct a0 as [[cms ps] t2]. inv H. cbn. split; auto. eapply entries_wf; eauto.
Qed.
Lemma parse_transaction_ok w t : tk_rest t <> [] ->
  nofuel (parse_transaction w t) /\ (forall x t', parse_transaction w t = Ok (x, t') -> moves1 t t').
Proof.
  intros Hne. unfold parse_transaction. destruct (get_line t) as [line t1] eqn:El.
  pose proof (get_line_moves1 _ _ _ El Hne) as M.
  assert (X := fun pay cms => entries_ok (entries_fuel t1) w TReal pay false cms [] t1).
  split.
  - apply nofuel_bind; [auto with nf|intros h _]. apply nofuel_bind; [|intros [[? ?] ?] _; discriminate].
    apply X; [discriminate|unfold entries_fuel; lia].
  - intros x t' H. bind_inv H. bind_inv H. destruct a0 as [[cms ps] t2]. inv H.
    eapply moves1_l; [exact M|]. eapply X; [discriminate|unfold entries_fuel; lia|exact Hb0].
Qed.
Lemma parse_automated_ok w t : tk_rest t <> [] -> nlterm (tk_rest t) ->
  nofuel (parse_automated w t) /\ (forall x t', parse_automated w t = Ok (x, t') -> moves1 t t').
Proof.
  intros Hne Hnl. unfold parse_automated. destruct (get_line t) as [line t1] eqn:El.
  pose proof (get_line_moves1 _ _ _ El Hne) as M.
  assert (Hnl1 : nlterm (tk_rest t1)) by (eapply nlterm_moves; [apply moves1_moves; exact M|auto]).
  assert (X := fun pay cms => entries_ok (entries_fuel t1) w TAutomated pay false cms [] t1).
  split.
  - apply nofuel_bind; [auto with nf|intros h _]. apply nofuel_bind; [|intros [[? ?] ?] _; discriminate].
    apply X; [auto|unfold entries_fuel; lia].
  - intros x t' H. bind_inv H. bind_inv H. destruct a0 as [[cms ps] t2]. inv H.
    eapply moves1_l; [exact M|]. eapply X; [auto|unfold entries_fuel; lia|exact Hb0].
Qed.

(** ** Directives *)
Lemma get_string_key w t c k t' : get_char t = Some c -> is_ws c = false -> get_string w t = (k, t') ->
  k <> [] -> moves1 t t'.
Proof.
  intros Ec Hws Ek Hk. pose proof (get_string_moves _ _ _ _ Ek) as (p & Hp). exists p. split; auto. intros ->.
  destruct Hp as (P1 & P2 & P3). cbn in P1, P2.
  unfold get_char in Ec. destruct (tk_rest t) as [|c' r] eqn:Er; [congruence|]. inv Ec.
  unfold get_string in Ek. rewrite (cw_id _ _ _ Er Hws) in Ek. rewrite Er in Ek. cbn [gstr] in Ek.
  destruct (c =? c_nl)%N; [inv Ek; congruence|].
  assert (X : forall q acc s2 t4, gstr w r (c :: tk_pre t) (tk_line t) (S (tk_col t)) q acc = (s2, t4) ->
    c :: r = tk_rest (consume_whitespaces t4) -> False).
  { intros q acc s2 t4 E4 E. apply gstr_eats in E4. destruct E4 as (q1 & E4).
    pose proof (cw_moves t4) as (q2 & E5).
    pose proof (eats_app _ _ _ _ _ E4 E5) as (E6 & _). cbn in E6. apply (f_equal (@length N)) in E6, E.
    rewrite app_length in E6. cbn in E. lia. }
  destruct (c =? c_dq)%N.
  - destruct (gstr w r (c :: tk_pre t) (tk_line t) (S (tk_col t)) true []) as [s2 t4] eqn:E4. inv Ek.
    eapply X; eauto.
  - destruct ((is_ws c || is_numeric w c || (c =? c_dot)%N || (c =? c_minus)%N || (c =? c_semi)%N) && negb false);
      [inv Ek; congruence|].
    destruct (gstr w r (c :: tk_pre t) (tk_line t) (S (tk_col t)) false ([] ++ [c])) as [s2 t4] eqn:E4. inv Ek.
    eapply X; eauto.
Qed.

(** One turn of a directive's loop. *)
Ltac key_case G Hk Hk3 k name :=
  destruct (str_eqb_spec k name);
  [first [apply G; apply Hk3; subst; discriminate | apply G; apply Hk; subst; discriminate]|].
Lemma get_char_ws t c : get_char t = Some c ->
  match tk_rest t with c :: _ => is_ws c = false | [] => True end -> is_ws c = false.
Proof. unfold get_char. destruct (tk_rest t); [discriminate|]. intros E. inv E. auto. Qed.

Lemma account_loop_ok f : forall w a t, (length (tk_rest t) < f)%nat ->
  nofuel (account_loop f w a t) /\ (forall a' t', account_loop f w a t = Ok (a', t') -> moves t t').
Proof.
  induction f as [|f IH]; intros w a t Hf; [lia|]. cbn [account_loop].
  destruct (consume_whitespaces_and_lines t) as [[|] t1] eqn:Ew.
  { split; [discriminate|]. intros a' t' H. inv H. eapply cwal_moves; eauto. }
  pose proof (cwal_moves _ _ _ Ew) as M; destruct (cwal_indented _ _ Ew) as [Hne Hws].
  destruct (get_char t1) as [c|] eqn:Ec; [|split; discriminate]. pose proof (get_char_ws _ _ Ec Hws) as Hc.
  assert (G : forall a t2, moves1 t1 t2 ->
    nofuel (account_loop f w a t2) /\
    (forall a' t', account_loop f w a t2 = Ok (a', t') -> moves t t')).
  { intros a0 t2 M2. destruct (IH w a0 t2) as [X1 X2].
    - apply moves1_length in M2. apply moves_length in M. lia.
    - split; auto. intros a1 a3 E. apply X2 in E. eapply moves_trans; [exact M|].
      eapply moves_trans; [apply moves1_moves; exact M2|exact E]. }
  destruct (c =? c_semi)%N eqn:Es.
  { destruct (get_line t1) as [l t2] eqn:El. apply G. eapply get_line_moves1; eauto. }
  destruct (get_string w t1) as [k t2] eqn:Ek. destruct (get_line t2) as [l t3] eqn:El.
  pose proof (get_string_key _ _ _ _ _ Ec Hc Ek) as Hk.
  pose proof (get_line_moves _ _ _ El) as M3.
  assert (Hk3 : k <> [] -> moves1 t1 t3) by (intros; eapply moves1_l; eauto).
  key_case G Hk Hk3 k (L "note"). key_case G Hk Hk3 k (L "isin"). key_case G Hk Hk3 k (L "alias").
  key_case G Hk Hk3 k (L "check"). key_case G Hk Hk3 k (L "assert").
  destruct (str_eqb_spec k (L "payee")).
  { destruct (w_rx_ok w (trim l)); [|split; discriminate]. apply G; apply Hk3; subst; discriminate. }
  key_case G Hk Hk3 k (L "default").
  split; discriminate.
Qed.
Lemma commodity_loop_ok f : forall w a t, (length (tk_rest t) < f)%nat ->
  nofuel (commodity_loop f w a t) /\ (forall a' t', commodity_loop f w a t = Ok (a', t') -> moves t t').
Proof.
  induction f as [|f IH]; intros w a t Hf; [lia|]. cbn [commodity_loop].
  destruct (consume_whitespaces_and_lines t) as [[|] t1] eqn:Ew.
  { split; [discriminate|]. intros a' t' H. inv H. eapply cwal_moves; eauto. }
  pose proof (cwal_moves _ _ _ Ew) as M; destruct (cwal_indented _ _ Ew) as [Hne Hws].
  destruct (get_char t1) as [c|] eqn:Ec; [|split; discriminate]. pose proof (get_char_ws _ _ Ec Hws) as Hc.
  assert (G : forall a t2, moves1 t1 t2 ->
    nofuel (commodity_loop f w a t2) /\
    (forall a' t', commodity_loop f w a t2 = Ok (a', t') -> moves t t')).
  { intros a0 t2 M2. destruct (IH w a0 t2) as [X1 X2].
    - apply moves1_length in M2. apply moves_length in M. lia.
    - split; auto. intros a1 a3 E. apply X2 in E. eapply moves_trans; [exact M|].
      eapply moves_trans; [apply moves1_moves; exact M2|exact E]. }
  destruct (c =? c_semi)%N eqn:Es.
  { destruct (parse_comment t1) as [l t2] eqn:El. apply G. apply N.eqb_eq in Es.
    eapply parse_comment_moves1; eauto; subst; auto. }
  destruct (get_string w t1) as [k t2] eqn:Ek. destruct (get_line t2) as [l t3] eqn:El.
  pose proof (get_string_key _ _ _ _ _ Ec Hc Ek) as Hk.
  pose proof (get_line_moves _ _ _ El) as M3.
  assert (Hk3 : k <> [] -> moves1 t1 t3) by (intros; eapply moves1_l; eauto).
  key_case G Hk Hk3 k (L "note"). key_case G Hk Hk3 k (L "alias"). key_case G Hk Hk3 k (L "format").
  key_case G Hk Hk3 k (L "default").
  split; discriminate.
Qed.
Lemma payee_loop_ok f : forall w a t, (length (tk_rest t) < f)%nat ->
  nofuel (payee_loop f w a t) /\ (forall a' t', payee_loop f w a t = Ok (a', t') -> moves t t').
Proof.
  induction f as [|f IH]; intros w a t Hf; [lia|]. cbn [payee_loop].
  destruct (consume_whitespaces_and_lines t) as [[|] t1] eqn:Ew.
  { split; [discriminate|]. intros a' t' H. inv H. eapply cwal_moves; eauto. }
  pose proof (cwal_moves _ _ _ Ew) as M; destruct (cwal_indented _ _ Ew) as [Hne Hws].
  destruct (get_char t1) as [c|] eqn:Ec; [|split; discriminate]. pose proof (get_char_ws _ _ Ec Hws) as Hc.
  assert (G : forall a t2, moves1 t1 t2 ->
    nofuel (payee_loop f w a t2) /\
    (forall a' t', payee_loop f w a t2 = Ok (a', t') -> moves t t')).
  { intros a0 t2 M2. destruct (IH w a0 t2) as [X1 X2].
    - apply moves1_length in M2. apply moves_length in M. lia.
    - split; auto. intros a1 a3 E. apply X2 in E. eapply moves_trans; [exact M|].
      eapply moves_trans; [apply moves1_moves; exact M2|exact E]. }
  destruct (c =? c_semi)%N eqn:Es.
  { destruct (parse_comment t1) as [l t2] eqn:El. apply G. apply N.eqb_eq in Es.
    eapply parse_comment_moves1; eauto; subst; auto. }
  destruct (get_string w t1) as [k t2] eqn:Ek. destruct (get_line t2) as [l t3] eqn:El.
  pose proof (get_string_key _ _ _ _ _ Ec Hc Ek) as Hk.
  pose proof (get_line_moves _ _ _ El) as M3.
  assert (Hk3 : k <> [] -> moves1 t1 t3) by (intros; eapply moves1_l; eauto).
  key_case G Hk Hk3 k (L "alias"). split; discriminate.
Qed.
Lemma tag_loop_ok f : forall w a t, 
  ((length (tk_rest t) < f)%nat -> ~ In c_semi (tk_rest t) -> nofuel (tag_loop f w a t)) /\
  (forall a' t', tag_loop f w a t = Ok (a', t') -> moves t t').
Proof.
  induction f as [|f IH]; intros w a t; [split; [lia|discriminate]|]. cbn [tag_loop].
  destruct (consume_whitespaces_and_lines t) as [[|] t1] eqn:Ew.
  { split; [discriminate|]. intros a' t' H. inv H. eapply cwal_moves; eauto. }
  pose proof (cwal_moves _ _ _ Ew) as M; destruct (cwal_indented _ _ Ew) as [Hne Hws].
  destruct (get_char t1) as [c|] eqn:Ec; [|split; discriminate].
  pose proof (get_char_ws _ _ Ec Hws) as Hc.
  assert (G1 : forall a t2, moves1 t1 t2 -> (length (tk_rest t) < S f)%nat -> ~ In c_semi (tk_rest t) ->
    nofuel (tag_loop f w a t2)).
  { intros a0 t2 M2 Hl Hi. destruct (IH w a0 t2) as [X1 X2]. apply X1.
    - apply moves1_length in M2. apply moves_length in M. lia.
    - intros Hi2. apply Hi. destruct M as (q & M & _), M2 as (q2 & (M2 & _) & _). rewrite M, M2.
      rewrite !in_app_iff. auto. }
  assert (G2 : forall a t2, moves t1 t2 ->
    (forall a' t', tag_loop f w a t2 = Ok (a', t') -> moves t t')).
  { intros a0 t2 M2 a' t' E. apply IH in E. eapply moves_trans; [exact M|].
      eapply moves_trans; [exact M2|exact E]. }
  destruct (c =? c_semi)%N eqn:Es.
  { apply N.eqb_eq in Es. subst c. split; [|apply G2; auto with mv].
    intros _ Hi. exfalso. apply Hi. destruct M as (q & M & _). rewrite M. apply in_or_app. right.
    unfold get_char in Ec. destruct (tk_rest t1); inv Ec. left. auto. }
  destruct (get_string w t1) as [k t2] eqn:Ek. destruct (get_line t2) as [l t3] eqn:El.
  pose proof (get_string_key _ _ _ _ _ Ec Hc Ek) as Hk.
  pose proof (get_line_moves _ _ _ El) as M3.
  assert (Hk3 : k <> [] -> moves1 t1 t3) by (intros; eapply moves1_l; eauto).
  destruct (str_eqb_spec k (L "check")).
  { assert (k <> []) by (subst; discriminate). split; [apply G1|apply G2; apply moves1_moves]; auto. }
  destruct (str_eqb_spec k (L "assert")).
  { assert (k <> []) by (subst; discriminate). split; [apply G1|apply G2; apply moves1_moves]; auto. }
  split; discriminate.
Qed.

Lemma parse_account_ok w t : tk_rest t <> [] ->
  nofuel (parse_account w t) /\ (forall x t', parse_account w t = Ok (x, t') -> moves1 t t').
Proof.
  intros Hne. unfold parse_account. destruct (get_line t) as [line t1] eqn:El.
  pose proof (get_line_moves1 _ _ _ El Hne) as M.
  assert (X := fun a => account_loop_ok (entries_fuel t1) w a t1).
  split.
  - apply nofuel_bind; [auto with nf|intros h _]. apply X. unfold entries_fuel; lia.
  - intros x t' H. bind_inv H. apply X in H; [|unfold entries_fuel; lia]. eapply moves1_l; eauto.
Qed.
Lemma parse_commodity_ok w t : tk_rest t <> [] ->
  nofuel (parse_commodity w t) /\ (forall x t', parse_commodity w t = Ok (x, t') -> moves1 t t').
Proof.
  intros Hne. unfold parse_commodity. destruct (get_line t) as [line t1] eqn:El.
  pose proof (get_line_moves1 _ _ _ El Hne) as M.
  assert (X := fun a => commodity_loop_ok (entries_fuel t1) w a t1).
  split.
  - apply nofuel_bind; [auto with nf|intros h _]. apply nofuel_bind; [auto with nf|intros [? ?] _].
    apply nofuel_bind; [auto with nf|intros [? ?] _]. apply nofuel_bind; [auto with nf|intros ? _].
    apply X. unfold entries_fuel; lia.
  - intros x t' H. bind_inv H. bind_inv H. destruct a0. bind_inv H. destruct a0. bind_inv H.
    apply X in H; [|unfold entries_fuel; lia]. eapply moves1_l; eauto.
Qed.
Lemma parse_payee_ok w t : tk_rest t <> [] ->
  nofuel (parse_payee w t) /\ (forall x t', parse_payee w t = Ok (x, t') -> moves1 t t').
Proof.
  intros Hne. unfold parse_payee. destruct (get_line t) as [line t1] eqn:El.
  pose proof (get_line_moves1 _ _ _ El Hne) as M.
  assert (X := fun a => payee_loop_ok (entries_fuel t1) w a t1).
  split.
  - apply nofuel_bind; [auto with nf|intros h _]. apply nofuel_bind.
    + apply X. unfold entries_fuel; lia.
    + intros [? ?] _. nf.
  - intros x t' H. bind_inv H. bind_inv H. destruct a0 as [al t2]. apply X in Hb0; [|unfold entries_fuel; lia].
    destruct (forallb (w_rx_ok w) al); inv H. eapply moves1_l; eauto.
Qed.

(** A text in which a [tag] directive is followed by a comment. *)
Lemma re_directive_contains kw s x : re_directive kw s = Some x -> exists p r, s = p ++ kw ++ c_sp :: r.
Proof.
  revert x. induction s as [|c s IH]; intros x; simpl.
  - destruct (starts_with kw []) eqn:E; [|discriminate]. destruct kw; discriminate.
  - destruct (starts_with kw (c :: s)) eqn:E.
    + assert (K : c :: s = kw ++ skipn (length kw) (c :: s)).
      { clear -E. revert E. generalize (c :: s). induction kw as [|k kw IH]; intros l E; auto.
        destruct l as [|a l]; [discriminate|]. simpl in E. apply andb_true_iff in E. destruct E as [E1 E2].
        apply N.eqb_eq in E1. subst. simpl. f_equal. auto. }
      destruct (skipn (length kw) (c :: s)) as [|d r] eqn:Es.
      * intros H. apply IH in H. destruct H as (p & r & ->). exists (c :: p), r. auto.
      * destruct (N.eqb_spec d c_sp).
        -- intros _. exists [], r. subst. rewrite K. auto.
        -- intros H. apply IH in H. destruct H as (p & r0 & ->). exists (c :: p), r0. auto.
    + intros H. apply IH in H. destruct H as (p & r & ->). exists (c :: p), r. auto.
Qed.
Definition tag_then_comment (s : str) : Prop :=
  exists p q r, s = p ++ L "tag " ++ q ++ c_semi :: r.
Lemma tag_then_comment_suffix p s : tag_then_comment s -> tag_then_comment (p ++ s).
Proof. intros (a & b & c & ->). exists (p ++ a), b, c. rewrite <- !app_assoc. auto. Qed.
Lemma parse_tag_ok w t : tk_rest t <> [] ->
  (~ tag_then_comment (tk_rest t) -> nofuel (parse_tag w t)) /\
  (forall x t', parse_tag w t = Ok (x, t') -> moves1 t t').
Proof.
  intros Hne. unfold parse_tag. destruct (get_line t) as [line t1] eqn:El.
  pose proof (get_line_moves1 _ _ _ El Hne) as M.
  assert (X := fun a => tag_loop_ok (entries_fuel t1) w a t1).
  split.
  - intros Ht. destruct (re_directive (L "tag") line) as [n|] eqn:En; [|discriminate]. cbn [unwrap bind].
    apply X; [unfold entries_fuel; lia|]. intros Hi. apply Ht. apply in_split in Hi. destruct Hi as (u & v & Hi).
    apply re_directive_contains in En. destruct En as (p & r & En).
    destruct t as [pre rest ln col]. unfold get_line in El. cbn [tk_rest tk_pre tk_line tk_col] in *.
    apply gline_eats in El. destruct El as (p1 & (E1 & _) & _ & E2 & _). cbn in E1.
    destruct E2 as [[-> _]| ->]; rewrite E1, En, Hi; 
      [exists p, (r ++ u), v | exists p, (r ++ [c_nl] ++ u), v]; 
      repeat (rewrite <- ?app_assoc; cbn [app L]); auto.
  - intros x t' H. bind_inv H. apply X in H. eapply moves1_l; eauto.
Qed.
Lemma parse_price_ok t : tk_rest t <> [] ->
  nofuel (parse_price t) /\ (forall x t', parse_price t = Ok (x, t') -> moves1 t t').
Proof.
  intros Hne. unfold parse_price. destruct (get_line t) as [line t1] eqn:El.
  pose proof (get_line_moves1 _ _ _ El Hne) as M. split.
  - apply nofuel_bind; auto with nf.
  - intros x t' H. bind_inv H. inv H. auto.
Qed.
