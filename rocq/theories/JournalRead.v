(** Reading the parts of a journal: lines, amounts, postings, directives. *)
From Coq Require Import Lia.
From Verif Require Import Base BaseFacts Numerals Money Alist Comment Txn Peg Grammar PegFacts Dates Expr Tokens Spec SpecText SpecDates
  SpecTokens TokenFacts LiteralFacts PropLiteral PostingFacts SpecJournal.

(** ** Scanning *)
Fixpoint dropb (s : str) : str :=
  match s with c :: r => if is_ws c && negb (c =? c_nl)%N then dropb r else s | [] => [] end.
Lemma cws_rest s : forall pre line col, tk_rest (cws s pre line col) = dropb s.
Proof. induction s as [|c s IH]; intros; cbn; auto. destruct (is_ws c && negb (c =? c_nl)%N); auto. Qed.
Lemma cw_rest t : tk_rest (consume_whitespaces t) = dropb (tk_rest t).
Proof. apply cws_rest. Qed.
Lemma blanks_nil : blanks [].
Proof. intros c []. Qed.
Lemma blanks_cons c b : blanks (c :: b) <-> (is_ws c = true /\ c <> c_nl) /\ blanks b.
Proof.
  split.
  - intros H. split; [apply H; left; auto|]. intros x Hx. apply H. right. auto.
  - intros [H H2] x [<-|Hx]; auto.
Qed.
Lemma blanks_app a b : blanks a -> blanks b -> blanks (a ++ b).
Proof. intros H1 H2 c Hc. apply in_app_or in Hc. destruct Hc; auto. Qed.
Lemma dropb_blanks b r : blanks b -> dropb (b ++ r) = dropb r.
Proof.
  induction b as [|c b IH]; intros H; cbn; auto. apply blanks_cons in H. destruct H as [[H1 H2] H].
  rewrite H1. destruct (N.eqb_spec c c_nl); [congruence|]. cbn. auto.
Qed.
Definition solid (s : str) : Prop := first_is (fun c => is_ws c = false) s.
Definition ends (s : str) : Prop := match s with [] => True | c :: _ => is_ws c = true end.
Lemma dropb_solid s r : solid s -> dropb (s ++ r) = s ++ r.
Proof. intros (c & s' & -> & H). cbn. rewrite H. auto. Qed.
Lemma dropb_nl r : dropb (c_nl :: r) = c_nl :: r.
Proof. reflexivity. Qed.
Lemma dropb_drop s : dropb (dropb s) = dropb s.
Proof. induction s as [|c s IH]; cbn; auto. destruct (is_ws c && negb (c =? c_nl)%N) eqn:E; auto. cbn. rewrite E. auto. Qed.
Lemma adv_rest t c r : tk_rest t = c :: r -> tk_rest (adv t) = r.
Proof. intros H. unfold adv. rewrite H. auto. Qed.

Lemma gline_spec s : forall r pre line col, one_line s ->
  exists t', gline (s ++ c_nl :: r) pre line col = (s, t') /\ tk_rest t' = r /\ tk_col t' = O.
Proof.
  induction s as [|c s IH]; intros r pre line col H.
  - cbn. eexists. split; [reflexivity|]. auto.
  - cbn [app gline]. destruct (N.eqb_spec c c_nl) as [->|E]; [exfalso; apply H; left; auto|].
    destruct (IH r (c :: pre) line col) as (t' & -> & H1 & H2); [intros X; apply H; right; auto|]. eauto.
Qed.
Lemma get_line_spec s r t : one_line s -> tk_rest t = s ++ c_nl :: r ->
  exists t', get_line t = (s, t') /\ tk_rest t' = r /\ tk_col t' = O.
Proof. intros H E. unfold get_line. rewrite E. apply gline_spec. auto. Qed.

(** The position is at the beginning of the lines [s]. *)
Definition line_at (t : tok) (s : str) : Prop := (tk_rest t = s /\ tk_col t = O) \/ tk_rest t = c_nl :: s.
Lemma cwl_blanks b : forall r pre line col, blanks b -> exists pre',
  cwl (b ++ r) pre line col = cwl r pre' line (length b + col).
Proof.
  induction b as [|c b IH]; intros r pre line col H; cbn [app length].
  - exists pre. reflexivity.
  - apply blanks_cons in H. destruct H as [[H1 H2] H]. cbn [cwl]. destruct (N.eqb_spec c c_nl); [congruence|]. rewrite H1.
    destruct (IH r (c :: pre) line (S col) H) as (pre' & ->). exists pre'. f_equal. lia.
Qed.
Lemma cwl_lines g : blank_lines g -> forall r pre line, exists pre' line', cwl (g ++ r) pre line 0 = cwl r pre' line' 0.
Proof.
  induction 1 as [|b g Hb Hg IH]; intros r pre line; [exists pre, line; reflexivity|].
  rewrite <- app_assoc. destruct (cwl_blanks b ((c_nl :: g) ++ r) pre line 0 Hb) as (pre' & ->). cbn [app cwl]. rewrite N.eqb_refl.
  apply IH.
Qed.
Lemma at_line_cwl t s : line_at t s -> exists pre line, consume_whitespaces_and_lines t = cwl s pre line 0.
Proof.
  intros [[<- H]|H]; unfold consume_whitespaces_and_lines.
  - rewrite H. eauto.
  - rewrite H. cbn. eauto.
Qed.
Lemma at_line_indented t g b s r : line_at t (g ++ b ++ s ++ r) -> blank_lines g -> indent b -> solid s ->
  exists t1, consume_whitespaces_and_lines t = (Indented, t1) /\ tk_rest t1 = s ++ r.
Proof.
  intros H Hg [Hb Hn] (c & s' & -> & Hc). destruct (at_line_cwl _ _ H) as (pre & line & ->).
  destruct (cwl_lines g Hg (b ++ (c :: s') ++ r) pre line) as (p1 & l1 & ->).
  destruct (cwl_blanks b ((c :: s') ++ r) p1 l1 0 Hb) as (p2 & ->). cbn [app cwl].
  destruct (N.eqb_spec c c_nl) as [->|_]; [discriminate|]. rewrite Hc. destruct b; [congruence|]. cbn. eauto.
Qed.
(** What follows an item: blank lines and then an item, or nothing. *)
Definition margin (r : str) : Prop := exists g r', r = g ++ r' /\ blank_lines g /\ (blanks r' \/ solid r').
Definition ready (t : tok) (r : str) : Prop :=
  (tk_rest t = r \/ tk_rest t = trim_start r) /\ (tk_rest t = [] \/ tk_col t = O).
Lemma trim_start_blanks b r : blanks b -> trim_start (b ++ r) = trim_start r.
Proof. induction b as [|c b IH]; intros H; auto. apply blanks_cons in H. destruct H as [[H1 _] H]. cbn. rewrite H1. auto. Qed.
Lemma trim_start_lines g r : blank_lines g -> trim_start (g ++ r) = trim_start r.
Proof. induction 1 as [|b g Hb Hg IH]; auto. rewrite <- app_assoc, trim_start_blanks by auto. cbn. auto. Qed.
Lemma trim_start_solid s r : solid s -> trim_start (s ++ r) = s ++ r.
Proof. intros (c & s' & -> & H). cbn. rewrite H. auto. Qed.
Lemma at_line_margin t r : line_at t r -> margin r ->
  exists t1, consume_whitespaces_and_lines t = (Blank, t1) /\ ready t1 r /\ tk_rest t1 = trim_start r.
Proof.
  intros H (g & r' & -> & Hg & Hr). destruct (at_line_cwl _ _ H) as (pre & line & ->).
  destruct (cwl_lines g Hg r' pre line) as (p1 & l1 & ->). unfold ready. rewrite trim_start_lines by auto. destruct Hr as [Hr|Hr].
  - destruct (cwl_blanks r' [] p1 l1 0 Hr) as (p2 & E). rewrite app_nil_r in E. rewrite E. cbn.
    rewrite <- (app_nil_r r'), trim_start_blanks by auto. cbn. eexists. split; [reflexivity|]. cbn. auto.
  - pose proof (trim_start_solid r' [] Hr) as E. rewrite app_nil_r in E. rewrite E. destruct Hr as (c & r1 & -> & Hc). cbn [cwl].
    destruct (N.eqb_spec c c_nl) as [->|_]; [discriminate|]. rewrite Hc. eexists. split; [reflexivity|]. cbn. auto.
Qed.

(** ** Words *)
Definition word_char (w : world) (x : N) : Prop := is_ws x = false /\ is_numeric w x = false /\ ~ In x (L ".-;""").
Lemma gstr_word w c : forall r pre line col acc, (forall x, In x c -> word_char w x) ->
  exists pre' col', gstr w (c ++ r) pre line col false acc = gstr w r pre' line col' false (acc ++ c).
Proof.
  induction c as [|x c IH]; intros r pre line col acc H.
  - rewrite app_nil_r. cbn [app]. eauto.
  - cbn [app gstr]. destruct (H x (or_introl eq_refl)) as (H1 & H2 & H3). cbn in H3.
    destruct (N.eqb_spec x c_nl) as [->|E]; [discriminate|]. destruct (N.eqb_spec x c_dq) as [->|E1]; [exfalso; auto 10|].
    rewrite H1, H2. destruct (N.eqb_spec x c_dot) as [->|E2]; [exfalso; auto 10|]. destruct (N.eqb_spec x c_minus) as [->|E3]; [exfalso; auto 10|].
    destruct (N.eqb_spec x c_semi) as [->|E4]; [exfalso; auto 10|]. cbn [orb andb negb].
    destruct (IH r (x :: pre) line (S col) (acc ++ [x])) as (p & k & ->); [intros y Hy; apply H; right; auto|].
    rewrite <- app_assoc. eauto.
Qed.
Definition stopper (w : world) (r : str) : Prop :=
  match r with [] => True | c :: _ => is_ws c = true \/ is_numeric w c = true \/ In c (L ".-;") end.
Lemma gstr_stop w r pre line col acc : stopper w r ->
  gstr w r pre line col false acc = (acc, {| tk_pre := pre; tk_rest := r; tk_line := line; tk_col := col |}).
Proof.
  destruct r as [|c r]; auto. cbn [stopper gstr]. intros H. destruct (N.eqb_spec c c_nl); auto.
  destruct (N.eqb_spec c c_dq) as [->|E]. { destruct H as [H|[H|H]]; [discriminate..|]. cbn in H. intuition discriminate. }
  replace ((is_ws c || is_numeric w c || (c =? c_dot) || (c =? c_minus) || (c =? c_semi))%N && negb false) with true; auto.
  symmetry. rewrite andb_true_r. destruct H as [H|[H|H]]; [rewrite H; auto|rewrite H; rewrite orb_true_r; auto|].
  cbn in H. destruct H as [<-|[<-|[<-|[]]]]; rewrite ?orb_true_r; auto.
Qed.
Lemma get_string_word w t c r : solid c -> (forall x, In x c -> word_char w x) -> stopper w r -> tk_rest t = c ++ r ->
  exists t', get_string w t = (c, t') /\ tk_rest t' = dropb r.
Proof.
  intros Hs Hc Hr E. unfold get_string. rewrite cw_rest, E, dropb_solid by auto.
  destruct (gstr_word w c r (tk_pre (consume_whitespaces t)) (tk_line (consume_whitespaces t)) (tk_col (consume_whitespaces t)) [] Hc) as (p & k & ->).
  rewrite gstr_stop by auto. eexists. split; [reflexivity|]. rewrite cw_rest. auto.
Qed.
Lemma gstr_quoted w c : forall r pre line col acc, one_line c -> ~ In c_dq c ->
  exists pre' col', gstr w (c ++ r) pre line col true acc = gstr w r pre' line col' true (acc ++ c).
Proof.
  induction c as [|x c IH]; intros r pre line col acc H H2.
  - rewrite app_nil_r. cbn [app]. eauto.
  - cbn [app gstr]. destruct (N.eqb_spec x c_nl) as [->|E]; [exfalso; apply H; left; auto|].
    destruct (N.eqb_spec x c_dq) as [->|E1]; [exfalso; apply H2; left; auto|]. rewrite andb_false_r.
    destruct (IH r (x :: pre) line (S col) (acc ++ [x])) as (p & k & ->); [intros y; apply H; right; auto|intros y; apply H2; right; auto|].
    rewrite <- app_assoc. eauto.
Qed.
Lemma get_string_quoted w t c r : c <> [] -> one_line c -> ~ In c_dq c -> tk_rest t = (L """" ++ c ++ L """") ++ r ->
  exists t', get_string w t = (c, t') /\ tk_rest t' = dropb r.
Proof.
  intros Hn Hl Hq E. unfold get_string. rewrite cw_rest, E. rewrite dropb_solid by (exists c_dq, (c ++ L """"); auto).
  rewrite <- !app_assoc. change (L """" ++ c ++ L """" ++ r) with (c_dq :: c ++ c_dq :: r). cbn [gstr]. 
  change (c_dq =? c_nl)%N with false. change (c_dq =? c_dq)%N with true. cbn iota.
  match goal with |- context [gstr w (c ++ _) ?a ?b ?d true []] => destruct (gstr_quoted w c (c_dq :: r) a b d [] Hl Hq) as (p & k & ->) end.
  cbn [app gstr]. change (c_dq =? c_nl)%N with false. change (c_dq =? c_dq)%N with true. cbn iota.
  destruct c as [|x c]; [congruence|]. eexists. split; [reflexivity|]. rewrite cw_rest. auto.
Qed.
Lemma commodity_read w c ct t r : commodity_written w c ct -> stopper w r -> tk_rest t = ct ++ r ->
  exists t', get_string w t = (c, t') /\ tk_rest t' = dropb r.
Proof.
  intros [Hf Hc|Hn Hl Hq] Hr E.
  - apply get_string_word; auto. destruct Hf as (x & s & -> & _). exists x, s. split; auto. apply Hc. left. auto.
  - apply get_string_quoted; auto.
Qed.
Lemma commodity_first w c ct : commodity_written w c ct ->
  first_is (fun x => is_ws x = false /\ is_numeric w x = false /\ ~ In x (L "(=@.-;")) ct.
Proof.
  intros [Hf Hc|Hn Hl Hq].
  - destruct Hf as (x & s & -> & H). exists x, s. split; auto. destruct (Hc x (or_introl eq_refl)) as (H1 & H2 & H3).
    split; auto. split; auto. cbn in *. intuition auto.
  - exists c_dq, (c ++ L """"). split; auto. split; auto. split; [reflexivity|]. cbn. intuition discriminate.
Qed.
Lemma literal_first w s q : literal s q -> first_is (fun x => is_ws x = false /\ (is_numeric w x = true \/ In x (L ".-"))) s.
Proof.
  intros (neg & ip & point & fp & -> & H1 & H2 & Hp & Hn & _). destruct neg; [exists c_minus; eexists; split; [reflexivity|]; split; [auto|cbn; auto]|].
  apply only_digits_all in H1. destruct ip as [|c ip].
  - destruct point; [|exfalso; apply Hn; rewrite (Hp eq_refl); reflexivity]. exists c_dot. eexists. split; [reflexivity|]. split; [auto|cbn; auto].
  - exists c. eexists. split; [reflexivity|]. cbn in H1. apply andb_true_iff in H1. destruct H1 as [H1 _].
    split; [|left; apply is_digit_numeric; auto]. unfold is_digit in H1. apply andb_true_iff in H1. rewrite !N.leb_le in H1.
    unfold is_ws, is_sep. repeat match goal with |- context [(?a =? ?b)%N] => destruct (N.eqb_spec a b); [lia|] end.
    repeat match goal with |- context [(?a <=? ?b)%N] => destruct (N.leb_spec a b); cbn; try lia; auto end.
Qed.
(** ** Amounts *)
Lemma ends_no_more w r : blanks_not_numeric w -> ends r -> no_more w r.
Proof.
  intros Hw. destruct r as [|c r]; cbn; auto. intros H. split; [intros ->; discriminate|]. split; [intros ->; discriminate|]. apply Hw. auto.
Qed.
Lemma ends_stopper w r : ends r -> stopper w r.
Proof. destruct r; cbn; auto. Qed.
Lemma blanks_then w b s r : blanks_not_numeric w -> blanks b ->
  first_is (fun x => is_ws x = false /\ is_numeric w x = false /\ ~ In x (L "(=@.-;")) s -> no_more w (b ++ s ++ r).
Proof.
  intros Hw Hb (c & s' & -> & H1 & H2 & H3). destruct b as [|x b].
  - cbn. split; [intros ->; apply H3; cbn; auto 10|]. split; [intros ->; apply H3; cbn; auto 10|]. auto.
  - apply blanks_cons in Hb. destruct Hb as [[Hb _] _]. apply (ends_no_more w (x :: b ++ (c :: s') ++ r)); cbn; auto.
Qed.
Lemma money_read w q c s r t : blanks_not_numeric w -> money_written w q c s -> ends r -> tk_rest t = s ++ r ->
  exists t', parse_money w t = (inl (q, c), t') /\ dropb (tk_rest t') = dropb r.
Proof.
  intros Hw H Hr E. destruct H as [num b ct Hn Hb Hc|num b ct Hn Hb Hc]; rewrite <- !app_assoc in E; unfold parse_money, get_char; rewrite E.
  - destruct (literal_first w num q Hn) as (x & num' & -> & _ & Hx). cbn [app].
    replace (is_numeric w x || (x =? c_dot)%N || (x =? c_minus)%N) with true.
    2: { symmetry. destruct Hx as [Hx|Hx]; [rewrite Hx; auto|]. cbn in Hx. destruct Hx as [<-|[<-|[]]]; rewrite ?orb_true_r; auto. }
    destruct (C08_amounts_exact w t (x :: num') (b ++ ct ++ r) q Hn) as (t1 & -> & E1 & _); auto.
    { apply blanks_then; auto. eapply commodity_first; eauto. }
    assert (E2 : tk_rest (consume_whitespaces t1) = ct ++ r).
    { rewrite cw_rest, E1, dropb_blanks by auto. apply dropb_solid. destruct (commodity_first _ _ _ Hc) as (y & z & -> & Hy & _). exists y, z. auto. }
    destruct (commodity_read w c ct (consume_whitespaces t1) r Hc (ends_stopper _ _ Hr) E2) as (t2 & G & E3).
    assert (X : get_string w t1 = get_string w (consume_whitespaces t1)).
    { unfold get_string. destruct (commodity_first _ _ _ Hc) as (y & z & -> & Hy & _). 
      rewrite (cw_id y (z ++ r) (consume_whitespaces t1)); auto. }
    rewrite X, G. eexists. split; [reflexivity|]. rewrite E3. apply dropb_drop.
  - destruct (commodity_first _ _ _ Hc) as (x & ct' & -> & Hx & Hx2 & Hx3). cbn [app].
    replace (is_numeric w x || (x =? c_dot)%N || (x =? c_minus)%N) with false.
    2: { symmetry. rewrite Hx2. destruct (N.eqb_spec x c_dot) as [->|_]; [exfalso; apply Hx3; cbn; auto 10|].
         destruct (N.eqb_spec x c_minus) as [->|_]; [exfalso; apply Hx3; cbn; auto 10|]. auto. }
    destruct (literal_first w num q Hn) as (y & num' & -> & Hy & Hy2).
    destruct (commodity_read w c (x :: ct') t (b ++ (y :: num') ++ r) Hc) as (t1 & -> & E1); auto.
    { destruct b as [|z b]; [|apply blanks_cons in Hb; cbn; tauto]. cbn. destruct Hy2 as [Hy2|Hy2]; auto. right. right. cbn in *. tauto. }
    rewrite dropb_blanks, dropb_solid in E1 by (auto; exists y, num'; auto).
    destruct (C08_amounts_exact w t1 (y :: num') r q Hn) as (t2 & -> & E2 & _); auto using ends_no_more.
    eexists. split; [reflexivity|]. rewrite E2. auto.
Qed.
Lemma money_first w q c s : money_written w q c s ->
  first_is (fun x => is_ws x = false /\ ~ In x (L "(=@;")) s.
Proof.
  intros [num b ct Hn Hb Hc|num b ct Hn Hb Hc].
  - destruct (literal_first w num q Hn) as (x & n & -> & H1 & H2). exists x. eexists. split; [reflexivity|]. split; auto.
    intros H. cbn in H. destruct H2 as [H2|H2].
    + destruct H as [<-|[<-|[<-|[<-|[]]]]]; discriminate.
    + cbn in H2. destruct H2 as [<-|[<-|[]]]; intuition discriminate.
  - destruct (commodity_first _ _ _ Hc) as (x & n & -> & H1 & H2 & H3). exists x. eexists. split; [reflexivity|]. split; auto.
    intros H. apply H3. cbn in *. tauto.
Qed.

(** ** Postings *)
Lemma comment_read c s r t : comment_text c s -> tk_rest t = s ++ c_nl :: r ->
  exists t', parse_comment t = (c, t') /\ tk_rest t' = r /\ tk_col t' = O.
Proof.
  intros (b & -> & Hb & Hl & Hf) E. unfold parse_comment. apply get_line_spec; auto.
  rewrite cw_rest. rewrite <- app_assoc in E. change (L ";" ++ (b ++ c) ++ c_nl :: r) with (c_semi :: (b ++ c) ++ c_nl :: r) in E.
  rewrite (adv_rest _ _ _ E), <- app_assoc, dropb_blanks by auto. destruct c as [|x c]; [reflexivity|]. cbn.
  destruct (is_ws x) eqn:Ex; auto. exfalso. apply Hf. exists x, c. auto.
Qed.
Lemma comment_first c s : comment_text c s -> first_is (fun x => x = c_semi) s.
Proof. intros (b & -> & _). exists c_semi. eexists. split; reflexivity. Qed.
Definition recomment (cs : list str) (p : rposting) : rposting :=
  {| rp_account := rp_account p; rp_money := rp_money p; rp_cost_type := rp_cost_type p; rp_cost := rp_cost p;
     rp_balance := rp_balance p; rp_comments := cs; rp_expr := rp_expr p; rp_kind := rp_kind p; rp_payee := rp_payee p |}.
Definition step (w : world) (p : rposting) (x : str) (p' : rposting) : Prop :=
  solid x /\ forall ty f t r, ends r -> tk_rest t = x ++ r ->
    exists t', posting_loop (S f) w ty p t = posting_loop f w ty p' t' /\ tk_rest t' = dropb r.
Inductive steps (w : world) : rposting -> list str -> rposting -> Prop :=
| steps_nil p : steps w p [] p
| steps_cons p x p1 l p2 : step w p x p1 -> steps w p1 l p2 -> steps w p (x :: l) p2.
Lemma steps_app w p l p1 l2 p2 : steps w p l p1 -> steps w p1 l2 p2 -> steps w p (l ++ l2) p2.
Proof. induction 1; intros; cbn; auto. econstructor; eauto. Qed.
Ltac neqb x c H := destruct (N.eqb_spec x c) as [->|_]; [exfalso; first [discriminate|apply H; cbn; auto 10]|].
Lemma loop_end f w ty p t : tk_rest t = [] \/ (exists r, tk_rest t = c_nl :: r) -> posting_loop (S f) w ty p t = Ok (p, t).
Proof. intros [H|(r & H)]; cbn; unfold get_char; rewrite H; auto. Qed.
Lemma loop_comment f w ty p t c s r : comment_text c s -> tk_rest t = s ++ c_nl :: r ->
  exists t', posting_loop (S f) w ty p t = Ok (add_comment c p, t') /\ tk_rest t' = r /\ tk_col t' = O.
Proof.
  intros H E. destruct (comment_read _ _ _ _ H E) as (t' & G & E1). destruct (comment_first _ _ H) as (x & s' & -> & ->).
  cbn [posting_loop]. unfold get_char. rewrite E. cbn [app]. change (c_semi =? c_lp)%N with false. change (c_semi =? c_nl)%N with false.
  change (c_semi =? c_semi)%N with true. cbn iota. rewrite G. eauto.
Qed.
Lemma step_amount w p q c s : blanks_not_numeric w -> money_written w q c s -> step w p s (set_money (q, c) p).
Proof.
  intros Hw H. destruct (money_first _ _ _ _ H) as (x & s' & E0 & H1 & H2). split; [exists x, s'; auto|].
  intros ty f t r Hr E. destruct (money_read w q c s r t Hw H Hr E) as (t' & G & E1). cbn [posting_loop]. unfold get_char.
  rewrite E, E0. cbn [app]. neqb x c_lp H2. neqb x c_nl H2. neqb x c_semi H2. neqb x c_eq H2. neqb x c_at H2. rewrite G.
  eexists. split; [reflexivity|]. rewrite cw_rest. auto.
Qed.
Lemma ends_solid b s r : blanks b -> solid s -> dropb (b ++ s ++ r) = s ++ r.
Proof. intros. rewrite dropb_blanks by auto. apply dropb_solid. auto. Qed.
Lemma money_solid w q c s : money_written w q c s -> solid s.
Proof. intros H. destruct (money_first _ _ _ _ H) as (x & s' & -> & H1 & _). exists x, s'. auto. Qed.
Lemma step_balance w p q c b s : blanks_not_numeric w -> blanks b -> money_written w q c s -> step w p (L "=" ++ b ++ s) (set_balance (q, c) p).
Proof.
  intros Hw Hb H. split; [exists c_eq; eexists; split; reflexivity|].
  intros ty f t r Hr E. rewrite <- !app_assoc in E. change (L "=" ++ b ++ s ++ r) with (c_eq :: b ++ s ++ r) in E.
  cbn [posting_loop]. unfold get_char. rewrite E.
  change (c_eq =? c_lp)%N with false. change (c_eq =? c_nl)%N with false. change (c_eq =? c_semi)%N with false. change (c_eq =? c_eq)%N with true. cbn iota.
  assert (E2 : tk_rest (consume_whitespaces (adv t)) = s ++ r) by (rewrite cw_rest, (adv_rest _ _ _ E); apply ends_solid; eauto using money_solid).
  destruct (money_read w q c s r _ Hw H Hr E2) as (t' & -> & E1). eexists. split; [reflexivity|]. rewrite cw_rest. auto.
Qed.
Lemma step_cost w p ty0 q c b s : blanks_not_numeric w -> rp_money p <> None -> blanks b -> money_written w q c s ->
  step w p (match ty0 with PTotal => L "@@" | PPerUnit => L "@" end ++ b ++ s) (set_cost (q, c) (set_cost_type ty0 p)).
Proof.
  intros Hw Hm Hb H. split; [destruct ty0; eexists c_at, _; split; reflexivity|].
  intros ty f t r Hr E. cbn [posting_loop]. unfold get_char. destruct (rp_money p) as [m|]; [|congruence].
  destruct ty0; rewrite <- !app_assoc in E.
  - change (L "@@" ++ b ++ s ++ r) with (c_at :: c_at :: b ++ s ++ r) in E. rewrite E.
    change (c_at =? c_lp)%N with false. change (c_at =? c_nl)%N with false. change (c_at =? c_semi)%N with false. change (c_at =? c_eq)%N with false.
    change (c_at =? c_at)%N with true. cbn iota. rewrite (adv_rest _ _ _ E). change (c_at =? c_at)%N with true. cbn iota.
    assert (E2 : tk_rest (consume_whitespaces (adv (adv t))) = s ++ r).
    { rewrite cw_rest. rewrite (adv_rest (adv t) c_at (b ++ s ++ r)); [apply ends_solid; eauto using money_solid|]. apply (adv_rest _ _ _ E). }
    destruct (money_read w q c s r _ Hw H Hr E2) as (t' & -> & E1). eexists. split; [reflexivity|]. rewrite cw_rest. auto.
  - change (L "@" ++ b ++ s ++ r) with (c_at :: b ++ s ++ r) in E. rewrite E.
    change (c_at =? c_lp)%N with false. change (c_at =? c_nl)%N with false. change (c_at =? c_semi)%N with false. change (c_at =? c_eq)%N with false.
    change (c_at =? c_at)%N with true. cbn iota. rewrite (adv_rest _ _ _ E).
    assert (E2 : tk_rest (consume_whitespaces (adv t)) = s ++ r) by (rewrite cw_rest, (adv_rest _ _ _ E); apply ends_solid; eauto using money_solid).
    destruct (money_read w q c s r _ Hw H Hr E2) as (t' & G & E1).
    assert (X : exists x y, b ++ s ++ r = x :: y /\ (x =? c_at)%N = false).
    { destruct b as [|x b].
      - destruct (money_first _ _ _ _ H) as (x & s' & -> & _ & H2). exists x, (s' ++ r). split; auto. apply N.eqb_neq. intros ->. apply H2. cbn. auto.
      - exists x, (b ++ s ++ r). split; auto. apply blanks_cons in Hb. apply N.eqb_neq. intros ->. destruct Hb as [[Hb _] _]. discriminate. }
    destruct X as (x & y & -> & X). rewrite X. rewrite G. eexists. split; [reflexivity|]. rewrite cw_rest. auto.
Qed.
Definition add_all (cs : list str) (p : rposting) : rposting := fold_left (fun p c => add_comment c p) cs p.
Lemma steps_run w p l p' : steps w p l p' -> forall ty cs cm s tail z t f, comment_part cs cm ->
  (l ++ cm = [] /\ tk_rest t = c_nl :: z) \/ (spaced (l ++ cm) s /\ blanks tail /\ (cs <> [] -> tail = []) /\ tk_rest t = s ++ tail ++ c_nl :: z) ->
  (length l < f)%nat -> exists t', posting_loop f w ty p t = Ok (add_all cs p', t') /\ line_at t' z.
Proof.
  induction 1 as [p|p x p1 l p2 [Hx Hs] Hr IH]; intros ty cs cm s tail z t f Hc Ht Hf.
  - destruct f as [|f]; [lia|]. cbn [app] in Ht. destruct Hc as [[-> ->]|(c & s1 & -> & Hc & ->)].
    + destruct Ht as [[_ Ht]|[Ht _]]; [|inversion Ht]. rewrite loop_end by eauto. eexists. split; [reflexivity|]. right. auto.
    + destruct Ht as [[Ht _]|(Ht & _ & Htl & E)]; [discriminate|].
      assert (s = s1) by (inversion Ht; subst; auto; match goal with X : spaced [] _ |- _ => inversion X end). subst s1.
      rewrite Htl in E by discriminate. cbn [app] in E. destruct (loop_comment f w ty p t c s z Hc E) as (t' & G & E1 & E2).
      exists t'. split; [exact G|]. left. auto.
  - destruct f as [|f]; [cbn in Hf; lia|]. cbn [app length] in *. destruct Ht as [[Ht _]|(Ht & Hb & Htl & E)]; [discriminate|].
    inversion Ht as [x0 E0 E1|x0 b l0 s0 Hi Hsp E0 E1]; subst.
    + destruct (Hs ty f t (tail ++ c_nl :: z)) as (t' & -> & E2); auto.
      { destruct tail as [|y tail]; [reflexivity|]. apply blanks_cons in Hb. cbn. tauto. }
      apply (IH ty cs cm [] [] z t' f Hc); [|lia]. left. split; auto. rewrite E2, dropb_blanks by auto. reflexivity.
    + rewrite <- !app_assoc in E. destruct (Hs ty f t (b ++ s0 ++ tail ++ c_nl :: z)) as (t' & -> & E2); auto.
      { destruct Hi as [Hi Hn]. destruct b as [|y b]; [congruence|]. apply blanks_cons in Hi. cbn. tauto. }
      apply (IH ty cs cm s0 tail z t' f Hc); [|lia]. right. repeat (split; auto). rewrite E2. apply ends_solid; [apply Hi|].
      assert (So : solid s0); auto. destruct Hr as [p1|p1 y p3 l p4 Hy Hr].
      { cbn in Hsp. destruct Hc as [[-> ->]|(c & s1 & -> & Hc & ->)]; [inversion Hsp|].
        destruct (comment_first _ _ Hc) as (y & u & -> & ->). inversion Hsp; subst; [eexists c_semi, _; split; reflexivity|eexists c_semi, _; split; reflexivity]. }
      { destruct Hy as [(y1 & y2 & -> & Hy) _]. inversion Hsp; subst; eexists y1, _; (split; [reflexivity|auto]). }
Qed.
Lemma add_all_fields cs p : add_all cs p = recomment (rp_comments p ++ cs) p.
Proof.
  revert p. induction cs as [|c cs IH]; intros p; cbn.
  - rewrite app_nil_r. destruct p; reflexivity.
  - unfold add_all in IH. rewrite IH. cbn. unfold recomment. cbn. rewrite <- app_assoc. reflexivity.
Qed.
(** Numbers without commodity. *)
Lemma step_number w p q num ty f t r : blanks_not_numeric w -> literal num q -> ends r ->
  (exists z, dropb r = c_nl :: z) \/ (exists z, dropb r = c_semi :: z) -> tk_rest t = num ++ r ->
  exists t', posting_loop (S f) w ty p t = posting_loop f w ty (set_money (q, []) p) t' /\ tk_rest t' = dropb r.
Proof.
  intros Hw Hn Hr Hd E. destruct (literal_first w num q Hn) as (x & s & -> & Hx & Hx2).
  destruct (C08_amounts_exact w t (x :: s) r q Hn) as (t1 & G & E1 & _); auto using ends_no_more.
  cbn [posting_loop]. unfold get_char. rewrite E. cbn [app].
  assert (NX : forall y, In y (L "(=@;") -> x <> y).
  { intros y Hy ->. cbn in Hy. destruct Hx2 as [H2|H2].
    - destruct Hy as [<-|[<-|[<-|[<-|[]]]]]; discriminate.
    - cbn in H2. destruct H2 as [<-|[<-|[]]]; intuition discriminate. }
  destruct (N.eqb_spec x c_lp) as [->|_]; [exfalso; apply (NX c_lp); cbn; auto|].
  destruct (N.eqb_spec x c_nl) as [->|_]; [discriminate|].
  destruct (N.eqb_spec x c_semi) as [->|_]; [exfalso; apply (NX c_semi); cbn; auto|].
  destruct (N.eqb_spec x c_eq) as [->|_]; [exfalso; apply (NX c_eq); cbn; auto|].
  destruct (N.eqb_spec x c_at) as [->|_]; [exfalso; apply (NX c_at); cbn; auto|].
  unfold parse_money, get_char. rewrite E. cbn [app].
  replace (is_numeric w x || (x =? c_dot)%N || (x =? c_minus)%N) with true.
  2: { symmetry. destruct Hx2 as [H2|H2]; [rewrite H2; auto|]. cbn in H2. destruct H2 as [<-|[<-|[]]]; rewrite ?orb_true_r; auto. }
  rewrite G. unfold get_string. rewrite cw_rest, E1.
  rewrite gstr_stop by (destruct Hd as [(z & ->)|(z & ->)]; cbn; auto 10).
  eexists. split; [reflexivity|]. rewrite !cw_rest. cbn [tk_rest]. rewrite !dropb_drop. auto.
Qed.
(** Expressions. *)
Lemma count_cons c x s : count c (x :: s) = ((if (c =? x)%N then 1 else 0) + count c s)%nat.
Proof. unfold count. cbn. destruct (c =? x)%N; reflexivity. Qed.
Lemma gve_text e : forall r pre line col o c acc, one_line e -> ~ In c_semi e ->
  exists pre', gve (e ++ r) pre line col o c acc = gve r pre' line col (count c_lp e + o) (count c_rp e + c) (acc ++ e).
Proof.
  induction e as [|x e IH]; intros r pre line col o c acc H1 H2.
  - cbn. rewrite app_nil_r. eauto.
  - assert (H1' : one_line e) by (intros X; apply H1; right; auto). assert (H2' : ~ In c_semi e) by (intros X; apply H2; right; auto).
    rewrite !count_cons. cbn [app gve].
    destruct (N.eqb_spec x c_lp) as [->|E1].
    { destruct (IH r (c_lp :: pre) line col (S o) c (acc ++ [c_lp]) H1' H2') as (p & ->). exists p. rewrite <- app_assoc.
      change (c_lp =? c_lp)%N with true. change (c_rp =? c_lp)%N with false. cbn iota. f_equal; lia. }
    destruct (N.eqb_spec x c_rp) as [->|E2].
    { destruct (IH r (c_rp :: pre) line col o (S c) (acc ++ [c_rp]) H1' H2') as (p & ->). exists p. rewrite <- app_assoc.
      change (c_rp =? c_rp)%N with true. change (c_lp =? c_rp)%N with false. cbn iota. f_equal; lia. }
    destruct (N.eqb_spec x c_nl) as [->|E3]; [exfalso; apply H1; left; auto|].
    destruct (N.eqb_spec x c_semi) as [->|E4]; [exfalso; apply H2; left; auto|].
    destruct (IH r (x :: pre) line col o c (acc ++ [x]) H1' H2') as (p & ->). exists p. rewrite <- app_assoc.
    destruct (N.eqb_spec c_lp x); [congruence|]. destruct (N.eqb_spec c_rp x); [congruence|]. reflexivity.
Qed.
Lemma step_expression w p e ty f t r : expression_written e -> (exists z, r = c_nl :: z) \/ (exists z, r = c_semi :: z) -> tk_rest t = e ++ r ->
  exists t', posting_loop (S f) w ty p t = posting_loop f w ty (set_expr e p) t' /\ tk_rest t' = r.
Proof.
  intros ((x & e' & -> & ->) & Hl & Hs & Hc) Hr E. cbn [posting_loop]. unfold get_char. rewrite E. cbn [app].
  change (c_lp =? c_lp)%N with true. cbn iota. unfold get_value_expression. rewrite E.
  destruct (gve_text (c_lp :: e') r (tk_pre t) (tk_line t) (tk_col t) 0 0 [] Hl Hs) as (pre & ->). unfold closed in Hc. rewrite Hc, !Nat.add_0_r.
  cbn [app]. assert (G : gve r pre (tk_line t) (tk_col t) (count c_rp (c_lp :: e')) (count c_rp (c_lp :: e')) (c_lp :: e') =
    (c_lp :: e', {| tk_pre := pre; tk_rest := r; tk_line := tk_line t; tk_col := tk_col t |})).
  { destruct Hr as [(z & ->)|(z & ->)]; cbn [gve].
    - change (c_nl =? c_lp)%N with false. change (c_nl =? c_rp)%N with false. change (c_nl =? c_nl)%N with true. cbn iota. rewrite Nat.eqb_refl. auto.
    - reflexivity. }
  rewrite G. eexists. split; [reflexivity|]. rewrite cw_rest. cbn [tk_rest]. destruct Hr as [(z & ->)|(z & ->)]; reflexivity.
Qed.
(** The rest of the line of a posting. *)
Lemma spaced_length l s : spaced l s -> (length l <= S (length s))%nat.
Proof. induction 1 as [|x b l s [_ Hb] H IH]; cbn; [lia|]. rewrite !app_length. destruct b; [congruence|]. cbn. lia. Qed.
Lemma details_read w p cs d ty z t f : blanks_not_numeric w -> details w p cs d -> tk_rest t = d ++ c_nl :: z -> (3 + length d <= f)%nat ->
  exists t', posting_loop f w ty (rp_new (rp_account p) (rp_kind p) (rp_payee p)) t = Ok (recomment cs p, t') /\ line_at t' z.
Proof.
  intros Hw H E Hf. destruct H as [am co ba cm s tail H1 H2 H3 H4 H5 H6 H7 H8 H9|q num cm s tail H1 H2 H3 H4 H5 H6 H7 H8 H9 H10|e cm H1 H2 H3 H4 H5 H6 H7].
  - set (p0 := rp_new (rp_account p) (rp_kind p) (rp_payee p)).
    assert (X : steps w p0 (am ++ co ++ ba) (recomment [] p)).
    { destruct p as [acc m ct c b pc ex k pay]. cbn in *. subst ex p0.
      assert (A : exists p1, steps w (rp_new acc k pay) am p1 /\ (length am <= 1)%nat /\
        p1 = {| rp_account := acc; rp_money := m; rp_cost_type := None; rp_cost := None; rp_balance := None; rp_comments := []; rp_expr := None; rp_kind := k; rp_payee := pay |}).
      { destruct m as [[q c0]|]; cbn in H2.
        - destruct H2 as (s0 & H2 & ->). eexists. split; [econstructor; [apply step_amount; eauto|constructor]|]. split; [cbn; lia|]. reflexivity.
        - subst am. eexists. split; [constructor|]. split; [cbn; lia|reflexivity]. }
      destruct A as (p1 & A1 & A2 & A3).
      assert (B : exists p2, steps w p1 co p2 /\ (length co <= 1)%nat /\
        p2 = {| rp_account := acc; rp_money := m; rp_cost_type := ct; rp_cost := c; rp_balance := None; rp_comments := []; rp_expr := None; rp_kind := k; rp_payee := pay |}).
      { destruct ct as [ct|], c as [[q c0]|]; cbn in H3; try contradiction.
        - destruct H3 as (b0 & s0 & Hb & Hm & ->). eexists. split; [econstructor; [apply step_cost; eauto|constructor]|]. 
          + subst p1. cbn. intros ->. specialize (H6 eq_refl). discriminate.
          + split; [cbn; lia|]. subst p1. reflexivity.
        - subst co. eexists. split; [constructor|]. split; [cbn; lia|auto]. }
      destruct B as (p2 & B1 & B2 & B3).
      assert (C : exists p3, steps w p2 ba p3 /\ (length ba <= 1)%nat /\
        p3 = {| rp_account := acc; rp_money := m; rp_cost_type := ct; rp_cost := c; rp_balance := b; rp_comments := []; rp_expr := None; rp_kind := k; rp_payee := pay |}).
      { destruct b as [[q c0]|]; cbn in H4.
        - destruct H4 as (b0 & s0 & Hb & H4 & ->). eexists. split; [econstructor; [apply step_balance; eauto|constructor]|]. split; [cbn; lia|]. subst p2. reflexivity.
        - subst ba. eexists. split; [constructor|]. split; [cbn; lia|auto]. }
      destruct C as (p3 & C1 & C2 & C3).
      unfold recomment. cbn. rewrite <- C3. eapply steps_app; eauto. eapply steps_app; eauto. }
    rewrite <- app_assoc in E.
    destruct (steps_run w p0 _ _ X ty cs cm s tail z t f H5) as (t' & G & A).
    + right. split; [rewrite <- !app_assoc; auto|]. auto.
    + apply spaced_length in H7. rewrite !app_length in *. lia.
    + exists t'. rewrite G. split; auto. rewrite add_all_fields. reflexivity.
  - rewrite <- app_assoc in E. destruct f as [|f]; [lia|].
    assert (X : exists r, tk_rest t = num ++ r /\ ends r /\ ((dropb r = c_nl :: z /\ cs = []) \/ exists c s1, dropb r = s1 ++ c_nl :: z /\ cs = [c] /\ comment_text c s1)).
    { destruct H7 as [[-> ->]|(c & s1 & -> & Hc & ->)].
      - inversion H8; subst; [|match goal with X : spaced [] _ |- _ => inversion X end]. exists (tail ++ c_nl :: z). split; auto.
        split; [destruct tail as [|y tail]; [reflexivity|apply blanks_cons in H9; cbn; tauto]|]. left. rewrite dropb_blanks; auto.
      - rewrite (H10 ltac:(discriminate)) in *. inversion H8 as [|x b l s0 Hi Hsp E0 E1]; subst. inversion Hsp; subst; [|match goal with X : spaced [] _ |- _ => inversion X end].
        cbn [app] in E. rewrite <- !app_assoc in E. exists (b ++ s0 ++ c_nl :: z). split; auto. split.
        + destruct Hi as [Hi Hn]. destruct b as [|y b]; [congruence|]. apply blanks_cons in Hi. cbn. tauto.
        + right. exists c, s0. split; auto. apply ends_solid; [apply Hi|]. destruct (comment_first _ _ Hc) as (y & u & -> & ->). eexists c_semi, u. auto. }
    destruct X as (r & E1 & E2 & E3).
    destruct (step_number w (rp_new (rp_account p) (rp_kind p) (rp_payee p)) q num ty f t r Hw H6 E2) as (t1 & -> & E4); auto.
    { destruct E3 as [[-> _]|(c & s1 & -> & _ & Hc)]; eauto. right. destruct (comment_first _ _ Hc) as (y & u & -> & ->). cbn. eauto. }
    destruct f as [|f]; [lia|].
    assert (Q : set_money (q, []) (rp_new (rp_account p) (rp_kind p) (rp_payee p)) = recomment [] p).
    { destruct p; cbn in *; subst. reflexivity. }
    rewrite Q. destruct E3 as [[E3 ->]|(c & s1 & E3 & -> & Hc)].
    + rewrite loop_end by (rewrite E4, E3; eauto). eexists. split; [reflexivity|]. right. congruence.
    + rewrite E3 in E4. destruct (loop_comment f w ty (recomment [] p) t1 c s1 z Hc E4) as (t' & -> & E5). exists t'. split; [reflexivity|]. left. auto.
  - rewrite <- app_assoc in E. destruct f as [|f]; [lia|].
    destruct (step_expression w (rp_new (rp_account p) (rp_kind p) (rp_payee p)) e ty f t (concat cm ++ c_nl :: z) H6) as (t1 & -> & E4); auto.
    { destruct H7 as [[-> ->]|(c & s1 & -> & Hc & ->)]; cbn; eauto. right. destruct (comment_first _ _ Hc) as (y & u & -> & ->). cbn. eauto. }
    destruct f as [|f]; [lia|].
    assert (Q : set_expr e (rp_new (rp_account p) (rp_kind p) (rp_payee p)) = recomment [] p).
    { destruct p; cbn in *; subst. reflexivity. }
    rewrite Q. destruct H7 as [[-> ->]|(c & s1 & -> & Hc & ->)]; cbn [concat app] in E4.
    + rewrite loop_end by eauto. eexists. split; [reflexivity|]. right. auto.
    + rewrite app_nil_r in E4. destruct (loop_comment f w ty (recomment [] p) t1 c s1 z Hc E4) as (t' & -> & E5). exists t'. split; [reflexivity|]. left. auto.
Qed.
Lemma posting_line_read w p cs s ty z t : blanks_not_numeric w -> SpecJournal.posting_line w p cs s -> tk_rest t = s ++ c_nl :: z ->
  exists t', parse_posting w ty (rp_payee p) t = Ok (recomment cs p, t') /\ line_at t' z.
Proof.
  intros Hw (acc & Hp & Hf & _ & H) E. destruct (form_inner _ _ _ Hp Hf) as [I K]. unfold parse_posting. rewrite E.
  assert (B : bare_posting p -> rp_new (rp_account p) (rp_kind p) (rp_payee p) = recomment [] p).
  { intros (X1 & X2 & X3 & X4 & X5). destruct p; cbn in *; subst. reflexivity. }
  destruct H as [(-> & Hb & ->)|(sep & b & d & -> & Hs & Ho & Hbl & H)].
  - destruct (gaccount_nl acc z (tk_pre t) (tk_line t) (tk_col t) I) as (u & -> & U). cbn [bind]. rewrite K. cbn [bind].
    exists u. rewrite B by auto. split; auto. right. auto.
  - rewrite <- !app_assoc. destruct (gaccount_sep acc sep (b ++ d ++ c_nl :: z) (tk_pre t) (tk_line t) (tk_col t) I Hs) as (u & -> & U).
    cbn [bind]. rewrite K. cbn [bind].
    assert (E2 : tk_rest (consume_whitespaces u) = d ++ c_nl :: z \/ (d = [] /\ bare_posting p /\ cs = [])).
    { destruct H as [H|H]; auto. left. rewrite cw_rest, U, dropb_blanks by auto.
      assert (So : solid d).
      { destruct H as [am co ba cm s tail H1 H2 H3 H4 H5 H6 H7 H8 H9|q num cm s tail H1 H2 H3 H4 H5 H6 H7 H8 H9 H10|e cm H1 H2 H3 H4 H5 H6 H7].
        - assert (So : solid s); [|destruct So as (x & y & -> & So); eexists x, _; split; [reflexivity|auto]].
          assert (Hall : forall x, In x (am ++ co ++ ba ++ cm) -> solid x).
          { intros x Hx. apply in_app_or in Hx. destruct Hx as [Hx|Hx]; [|apply in_app_or in Hx; destruct Hx as [Hx|Hx]; [|apply in_app_or in Hx; destruct Hx as [Hx|Hx]]].
            - destruct (rp_money p) as [[q c]|]; cbn in H2; [|subst; destruct Hx]. destruct H2 as (s0 & H2 & ->). destruct Hx as [<-|[]]. eapply money_solid; eauto.
            - destruct (rp_cost_type p) as [[]|], (rp_cost p) as [[q c]|]; cbn in H3; try contradiction; [| |subst; destruct Hx];
                destruct H3 as (b0 & s0 & _ & _ & ->); destruct Hx as [<-|[]]; eexists c_at, _; split; reflexivity.
            - destruct (rp_balance p) as [[q c]|]; cbn in H4; [|subst; destruct Hx]. destruct H4 as (b0 & s0 & _ & _ & ->). destruct Hx as [<-|[]]. eexists c_eq, _; split; reflexivity.
            - destruct H5 as [[_ ->]|(c & s1 & _ & Hc & ->)]; [destruct Hx|]. destruct Hx as [<-|[]]. destruct (comment_first _ _ Hc) as (y & u' & -> & ->). eexists c_semi, u'. auto. }
          inversion H7 as [x Ex|x b1 l s0 Hi Hsp Ex]; rewrite <- Ex in Hall; [apply Hall; left; auto|]. 
          destruct (Hall x (or_introl eq_refl)) as (x1 & x2 & -> & Hx). eexists x1, _. split; [reflexivity|auto].
        - destruct (literal_first w num q H6) as (x & s1 & -> & Hx & _). inversion H8; subst; eexists x, _; (split; [reflexivity|auto]).
        - destruct H6 as ((x & e' & -> & ->) & _). eexists c_lp, _. split; reflexivity. }
      apply dropb_solid. auto. }
    destruct E2 as [E2|(-> & Hb & ->)].
    + destruct H as [(-> & Hb & ->)|H].
      * rewrite loop_end by (rewrite E2; cbn; eauto). eexists. rewrite B by auto. split; [reflexivity|]. right. auto.
      * cbn iota beta. apply (details_read w p cs d); auto. rewrite E2, app_length. cbn [length]. lia.
    + rewrite loop_end; [eexists; rewrite B by auto; split; [reflexivity|]; right; rewrite cw_rest, U, dropb_blanks by auto; reflexivity|].
      right. exists z. rewrite cw_rest, U, dropb_blanks by auto. reflexivity.
Qed.
