(** Where the tokenizer stands between items: at the start of a line.  With this, the texts on which
    reading might not end are narrowed to those of [ends_ok]. *)
From Coq Require Import Lia.
From Verif Require Import Base BaseFacts Numerals Money Alist Comment Txn Peg Grammar PegFacts Dates Expr Tokens
  TokenFacts SpecList AlistFacts JournalFacts SpecTokens.
Open Scope Z_scope.

Lemma newlines_count s : newlines s = Z.of_nat (count c_nl s).
Proof.
  unfold count. induction s as [|c s IH]; auto. cbn [newlines filter]. rewrite (N.eqb_sym c_nl c).
  destruct (c =? c_nl)%N; cbn [length]; lia.
Qed.

(** At the beginning of a line, as the consumed text shows. *)
Definition line_start (pre : str) : Prop := pre = [] \/ exists r, pre = c_nl :: r.
Lemma line_start_rev pre : line_start pre -> at_line_start (rev pre).
Proof. intros [-> | (r & ->)]; [left; auto|right]. exists (rev r). auto. Qed.
Definition margin (t : tok) : Prop := tk_col t = O /\ line_start (tk_pre t).
Definition end_or_margin (t : tok) : Prop := tk_rest t = [] \/ margin t.
Definition edge (t : tok) : Prop := end_or_margin t \/ exists r, tk_rest t = c_nl :: r.
(** A zero column is to be believed, unless the line is about to end. *)
Definition acc_col (t : tok) : Prop :=
  tk_col t = O -> tk_rest t = [] \/ line_start (tk_pre t) \/ exists r, tk_rest t = c_nl :: r.
Lemma edge_acc t : edge t -> acc_col t.
Proof. intros [[H|[_ H]]|H] _; auto. Qed.

Lemma gline_edge rest : forall pre line col s t, gline rest pre line col = (s, t) -> end_or_margin t.
Proof.
  induction rest as [|c rest IH]; intros pre line col s t H; cbn [gline] in H.
  - inv H. left. auto.
  - destruct (N.eqb_spec c c_nl).
    + inv H. right. split; cbn; auto. right. eauto.
    + destruct (gline rest (c :: pre) line col) as [s1 t1] eqn:E. inv H. eauto.
Qed.
Lemma get_line_edge t s t' : get_line t = (s, t') -> end_or_margin t'.
Proof. unfold get_line. apply gline_edge. Qed.
Lemma parse_comment_edge t s t' : parse_comment t = (s, t') -> end_or_margin t'.
Proof. apply get_line_edge. Qed.

Lemma cwl_margin rest : forall pre line col t, cwl rest pre line col = (Blank, t) ->
  acc_col (mkt pre rest line col) -> end_or_margin t.
Proof.
  induction rest as [|c rest IH]; intros pre line col t H A; cbn [cwl] in H.
  - inv H. left. auto.
  - destruct (N.eqb_spec c c_nl).
    + subst. eapply IH; [exact H|]. intros _. cbn. right. left. right. eauto.
    + destruct (is_ws c) eqn:E.
      * eapply IH; [exact H|]. intros X. cbn in X. discriminate.
      * destruct col; inv H. right. split; cbn; auto. destruct (A eq_refl) as [X|[X|(r & X)]]; auto; cbn in X.
        -- discriminate.
        -- inv X. congruence.
Qed.
Lemma cwal_margin t t' : consume_whitespaces_and_lines t = (Blank, t') -> acc_col t -> end_or_margin t'.
Proof. destruct t as [pre rest line col]. unfold consume_whitespaces_and_lines. cbn. apply cwl_margin. Qed.
Lemma cwal_col t t' : consume_whitespaces_and_lines t = (Indented, t') -> tk_col t' <> O.
Proof.
  destruct t as [pre rest line col]. unfold consume_whitespaces_and_lines. cbn. intros H. apply cwl_eats in H.
  destruct H as (p & _ & _ & _ & H). apply H. auto.
Qed.

Lemma cws_col rest : forall pre line col, (col <= tk_col (cws rest pre line col))%nat.
Proof.
  induction rest as [|c rest IH]; intros; cbn [cws]; [auto|]. destruct (_ && _); [|auto].
  specialize (IH (c :: pre) line (S col)). lia.
Qed.
Lemma cw_col t : (tk_col t <= tk_col (consume_whitespaces t))%nat.
Proof. unfold consume_whitespaces. apply cws_col. Qed.
Lemma gstr_col w rest : forall pre line col q acc s t, gstr w rest pre line col q acc = (s, t) -> (col <= tk_col t)%nat.
Proof.
  induction rest as [|c rest IH]; intros pre line col q acc s t H; cbn [gstr] in H.
  - inv H. auto.
  - assert (G : forall q acc, gstr w rest (c :: pre) line (S col) q acc = (s, t) -> (col <= tk_col t)%nat).
    { intros q1 a1 G. apply IH in G. lia. }
    destruct (c =? c_nl)%N; [inv H; auto|]. destruct (c =? c_dq)%N.
    + destruct acc; [eauto|]. destruct q; [|eauto]. inv H. cbn. lia.
    + destruct (_ && _); [|eauto]. inv H. auto.
Qed.
Lemma get_string_col w t s t' : get_string w t = (s, t') -> (tk_col t <= tk_col t')%nat.
Proof.
  unfold get_string. destruct (gstr w _ _ _ _ false []) as [s1 t1] eqn:E. intros H. inv H.
  apply gstr_col in E. pose proof (cw_col t). pose proof (cw_col t1). lia.
Qed.

(** A posting ends where its line ends. *)
Lemma posting_loop_edge f : forall w ty p t p' t', posting_loop f w ty p t = Ok (p', t') -> edge t'.
Proof.
  induction f as [|f IH]; intros w ty p t p' t' H; [discriminate|]. cbn [posting_loop] in H.
  destruct (get_char t) as [c|] eqn:Ec.
  2: { inv H. left. left. unfold get_char in Ec. destruct (tk_rest t'); congruence. }
  destruct (c =? c_lp)%N. { destruct (get_value_expression t). eauto. }
  destruct (N.eqb_spec c c_nl).
  { inv H. right. unfold get_char in Ec. destruct (tk_rest t'); inv Ec. eauto. }
  destruct (c =? c_semi)%N.
  { destruct (parse_comment t) eqn:E. inv H. left. eapply parse_comment_edge; eauto. }
  destruct (c =? c_eq)%N.
  { destruct (parse_money w (consume_whitespaces (adv t))) as [[m|e0] t1]; [eauto|discriminate]. }
  destruct (c =? c_at)%N.
  { destruct (rp_money p); [|discriminate]. destruct (get_char (adv t)) as [d|]; [|discriminate].
    destruct (d =? c_at)%N.
    - destruct (parse_money w (consume_whitespaces (adv (adv t)))) as [[m|e1] t1]; [eauto|discriminate].
    - destruct (parse_money w (consume_whitespaces (adv t))) as [[m|e1] t1]; [eauto|discriminate]. }
  destruct (parse_money w t) as [[m|e] t1]; [eauto|]. destruct ty; try discriminate.
  destruct (get_line t1). eauto.
Qed.
Lemma parse_posting_edge w ty pay t p t' : parse_posting w ty pay t = Ok (p, t') -> edge t'.
Proof.
  unfold parse_posting. intros H. bind_inv H. destruct a as [[acc fin] t1]. bind_inv H. destruct a as [k acc'].
  destruct fin.
  - inv H. apply (gaccount_eats (length (tk_rest t))) in Hb; auto. destruct Hb as (q & _ & X & _). right. auto.
  - eapply posting_loop_edge; eauto.
Qed.
Lemma entries_margin f : forall w ty pay parsed cms ps t cms' ps' t',
  entries f w ty pay parsed cms ps t = Ok (cms', ps', t') -> acc_col t -> end_or_margin t'.
Proof.
  induction f as [|f IH]; intros w ty pay parsed cms ps t cms' ps' t' H A; [discriminate|].
  cbn [entries] in H. destruct (consume_whitespaces_and_lines t) as [[|] t1] eqn:Ew.
  { inv H. eapply cwal_margin; eauto. }
  destruct (get_char t1) as [c|]; [|discriminate]. destruct (c =? c_semi)%N.
  - destruct (parse_comment t1) as [s t2] eqn:E. apply parse_comment_edge in E.
    assert (A2 : acc_col t2) by (apply edge_acc; left; auto). destruct parsed.
    + bind_inv H. eauto.
    + eauto.
  - destruct (is_numeric w c); [discriminate|]. bind_inv H. destruct a as [p t2].
    eapply IH; [exact H|]. apply edge_acc. eapply parse_posting_edge; eauto.
Qed.
Ltac loop_margin IH f :=
  repeat match goal with
  | H : (if str_eqb ?k ?n then _ else _) = Ok _ |- _ => destruct (str_eqb k n)
  | H : (if w_rx_ok ?w ?n then _ else _) = Ok _ |- _ => destruct (w_rx_ok w n)
  | H : Err _ = Ok _ |- _ => discriminate H
  | H : fail_at _ _ = Ok _ |- _ => discriminate H
  | H : Panic _ = Ok _ |- _ => discriminate H
  | H : _ = Ok _ |- _ => eapply IH; [exact H|auto]; fail
  end.
Lemma account_loop_margin f : forall w a t a' t', account_loop f w a t = Ok (a', t') -> acc_col t -> end_or_margin t'.
Proof.
  induction f as [|f IH]; intros w a t a' t' H A; [discriminate|]. cbn [account_loop] in H.
  destruct (consume_whitespaces_and_lines t) as [[|] t1] eqn:Ew. { inv H. eapply cwal_margin; eauto. }
  pose proof (cwal_col _ _ Ew) as Hc.
  destruct (get_char t1) as [c|]; [|discriminate]. destruct (c =? c_semi)%N.
  - destruct (get_line t1) as [s t2] eqn:E. apply get_line_edge in E.
    eapply IH; [exact H|]. apply edge_acc; left; auto.
  - destruct (get_string w t1) as [k t2] eqn:Ek. destruct (get_line t2) as [l t3] eqn:El. apply get_line_edge in El.
    assert (A2 : acc_col t3) by (apply edge_acc; left; auto).
    assert (A3 : acc_col t2). { intros X. apply get_string_col in Ek. lia. }
    loop_margin IH f.
Qed.
Lemma commodity_loop_margin f : forall w a t a' t', commodity_loop f w a t = Ok (a', t') -> acc_col t -> end_or_margin t'.
Proof.
  induction f as [|f IH]; intros w a t a' t' H A; [discriminate|]. cbn [commodity_loop] in H.
  destruct (consume_whitespaces_and_lines t) as [[|] t1] eqn:Ew. { inv H. eapply cwal_margin; eauto. }
  pose proof (cwal_col _ _ Ew) as Hc.
  destruct (get_char t1) as [c|]; [|discriminate]. destruct (c =? c_semi)%N.
  - destruct (parse_comment t1) as [s t2] eqn:E. apply parse_comment_edge in E.
    eapply IH; [exact H|]. apply edge_acc; left; auto.
  - destruct (get_string w t1) as [k t2] eqn:Ek. destruct (get_line t2) as [l t3] eqn:El. apply get_line_edge in El.
    assert (A2 : acc_col t3) by (apply edge_acc; left; auto).
    assert (A3 : acc_col t2). { intros X. apply get_string_col in Ek. lia. }
    loop_margin IH f.
Qed.
Lemma payee_loop_margin f : forall w a t a' t', payee_loop f w a t = Ok (a', t') -> acc_col t -> end_or_margin t'.
Proof.
  induction f as [|f IH]; intros w a t a' t' H A; [discriminate|]. cbn [payee_loop] in H.
  destruct (consume_whitespaces_and_lines t) as [[|] t1] eqn:Ew. { inv H. eapply cwal_margin; eauto. }
  destruct (get_char t1) as [c|]; [|discriminate]. destruct (c =? c_semi)%N.
  - destruct (parse_comment t1) as [s t2] eqn:E. apply parse_comment_edge in E.
    eapply IH; [exact H|]. apply edge_acc; left; auto.
  - destruct (get_string w t1) as [k t2] eqn:Ek. destruct (get_line t2) as [l t3] eqn:El. apply get_line_edge in El.
    assert (A2 : acc_col t3) by (apply edge_acc; left; auto).
    loop_margin IH f.
Qed.
Lemma tag_loop_margin f : forall w a t a' t', tag_loop f w a t = Ok (a', t') -> acc_col t -> end_or_margin t'.
Proof.
  induction f as [|f IH]; intros w a t a' t' H A; [discriminate|]. cbn [tag_loop] in H.
  destruct (consume_whitespaces_and_lines t) as [[|] t1] eqn:Ew. { inv H. eapply cwal_margin; eauto. }
  pose proof (cwal_col _ _ Ew) as Hc.
  destruct (get_char t1) as [c|]; [|discriminate]. destruct (c =? c_semi)%N.
  - eapply IH; [exact H|]. intros X. contradiction.
  - destruct (get_string w t1) as [k t2] eqn:Ek. destruct (get_line t2) as [l t3] eqn:El. apply get_line_edge in El.
    assert (A2 : acc_col t3) by (apply edge_acc; left; auto).
    loop_margin IH f.
Qed.

(** Every item leaves the tokenizer at the end of the text or at the start of a line. *)
Lemma item_margin inc w c l t l' t' :
  (forall x t', inc t = Ok (x, t') -> end_or_margin t') ->
  item inc w c l t = Ok (l', t') -> end_or_margin t'.
Proof.
  intros Hinc H. unfold item in H.
  assert (Hl : forall s t1, get_line t = (s, t1) -> acc_col t1).
  { intros s t1 E. apply edge_acc. left. eapply get_line_edge; eauto. }
  destruct (is_comment_char c). { destruct (parse_comment t) eqn:E. inv H. eapply parse_comment_edge; eauto. }
  destruct (is_numeric w c).
  { bind_inv H. destruct a as [x t1]. inv H. unfold parse_transaction in Hb. destruct (get_line t) eqn:E.
    bind_inv Hb. bind_inv Hb. destruct a0 as [[? ?] ?]. inv Hb. eapply entries_margin; eauto. }
  destruct (c =? c_eq)%N.
  { bind_inv H. destruct a as [x t1]. inv H. unfold parse_automated in Hb. destruct (get_line t) eqn:E.
    bind_inv Hb. bind_inv Hb. destruct a0 as [[? ?] ?]. inv Hb. eapply entries_margin; eauto. }
  destruct (c =? 105)%N. { bind_inv H. destruct a. inv H. eauto. }
  destruct (c =? 99)%N.
  { bind_inv H. destruct a as [x t1]. inv H. unfold parse_commodity in Hb. destruct (get_line t) eqn:E.
    bind_inv Hb. bind_inv Hb. destruct a0. bind_inv Hb. destruct a0. bind_inv Hb.
    eapply commodity_loop_margin; eauto. }
  destruct (c =? 112)%N.
  { bind_inv H. destruct a as [x t1]. inv H. unfold parse_payee in Hb. destruct (get_line t) eqn:E.
    bind_inv Hb. bind_inv Hb. destruct a0 as [al t2]. destruct (forallb _ _); inv Hb.
    eapply payee_loop_margin; eauto. }
  destruct (c =? 116)%N.
  { bind_inv H. destruct a as [x t1]. inv H. unfold parse_tag in Hb. destruct (get_line t) eqn:E.
    bind_inv Hb. eapply tag_loop_margin; eauto. }
  destruct (c =? 97)%N.
  { bind_inv H. destruct a as [x t1]. inv H. unfold parse_account in Hb. destruct (get_line t) eqn:E.
    bind_inv Hb. eapply account_loop_margin; eauto. }
  destruct (c =? 80)%N; [|discriminate].
  bind_inv H. destruct a as [x t1]. inv H. unfold parse_price in Hb. destruct (get_line t) eqn:E.
  bind_inv Hb. inv Hb. eapply get_line_edge; eauto.
Qed.
Lemma include_parse_margin tk w file seen t x t' :
  include_parse tk w file seen t = Ok (x, t') -> end_or_margin t'.
Proof.
  unfold include_parse. intros H. bind_inv H. destruct (get_line a) as [line t2] eqn:El. bind_inv H.
  destruct (find _ a0); [discriminate|]. bind_inv H. inv H. eapply get_line_edge; eauto.
Qed.
Lemma pass_include_margin t x t' : pass_include t = Ok (x, t') -> end_or_margin t' /\ moves1 t t'.
Proof.
  unfold pass_include. intros H. bind_inv H. destruct (get_line a) as [line t2] eqn:El. inv H.
  split; [eapply get_line_edge; eauto|]. apply consume_str_moves in Hb; [|reflexivity].
  eapply moves1_l; [|eapply get_line_moves; eauto]. eexists. split; [exact Hb|discriminate].
Qed.

(** ** Blank lines *)
Lemma il_app a b : indented_lines a -> indented_lines b -> indented_lines (a ++ b).
Proof.
  induction 1 as [|l r Hl Hc Hr IH]; intros Hb; auto. rewrite <- app_assoc. cbn [app]. constructor; auto.
Qed.
(** White space is blank lines and a last, unfinished, blank line. *)
Lemma ws_lines p : forallb is_ws p = true ->
  exists blk b, p = blk ++ b /\ indented_lines blk /\ forallb is_ws b = true /\ ~ In c_nl b.
Proof.
  induction p as [|c p IH]; intros H.
  - exists [], []. repeat split; auto. constructor.
  - cbn in H. apply andb_true_iff in H. destruct H as [Hc H]. destruct (IH H) as (blk & b & -> & I1 & I2 & I3).
    destruct (N.eqb_spec c c_nl).
    + subst. exists (c_nl :: blk), b. repeat split; auto. apply (il_line []); auto.
    + destruct I1 as [|l r Hl Hd Hr].
      * exists [], (c :: b). repeat split; [constructor| |].
        -- cbn. rewrite Hc, I2. auto.
        -- intros [|]; auto.
      * exists ((c :: l) ++ c_nl :: r), b. repeat split; auto.
        constructor; auto. intros [|]; auto.
Qed.

(** The lines of a tag directive. *)
Definition semi_block (s : str) : Prop :=
  exists blk b r, s = blk ++ b ++ c_semi :: r /\ indented_lines blk /\ b <> [] /\
                  forallb is_ws b = true /\ ~ In c_nl b.
Lemma cwl_trail rest : forall pre line col t, cwl rest pre line col = (Indented, t) ->
  exists p, rest = p ++ tk_rest t /\ forallb is_ws p = true /\
            (p = [] -> col <> O) /\ (forall q, p = q ++ [c_nl] -> False).
Proof.
  induction rest as [|c rest IH]; intros pre line col t H; cbn [cwl] in H; [discriminate|].
  destruct (N.eqb_spec c c_nl).
  - subst. apply IH in H. destruct H as (p & H1 & H2 & H3 & H4). exists (c_nl :: p). subst. repeat split; auto.
    + intros; discriminate.
    + intros q E. destruct q as [|d q]; inv E; [apply H3; auto|eapply H4; eauto].
  - destruct (is_ws c) eqn:E.
    + apply IH in H. destruct H as (p & H1 & H2 & H3 & H4). exists (c :: p). subst. repeat split; auto.
      * cbn. rewrite E, H2. auto.
      * intros; discriminate.
      * intros q X. destruct q as [|d q]; inv X; [congruence|eapply H4; eauto].
    + destruct col; inv H. exists []. repeat split; auto. intros q X. destruct q; discriminate.
Qed.
Lemma tag_loop_nofuel f : forall w a t, (tk_rest t = [] \/ tk_col t = O) -> (length (tk_rest t) < f)%nat ->
  ~ semi_block (tk_rest t) -> nofuel (tag_loop f w a t).
Proof.
  induction f as [|f IH]; intros w a t Hcol Hf Hs; [lia|]. cbn [tag_loop].
  destruct (consume_whitespaces_and_lines t) as [[|] t1] eqn:Ew; [discriminate|].
  pose proof (cwal_moves _ _ _ Ew) as M; destruct (cwal_indented _ _ Ew) as [Hne Hws].
  destruct (get_char t1) as [c|] eqn:Ec; [|discriminate].
  pose proof (get_char_ws _ _ Ec Hws) as Hc.
  assert (T : exists p, tk_rest t = p ++ tk_rest t1 /\ forallb is_ws p = true /\ p <> [] /\ forall q, p = q ++ [c_nl] -> False).
  { destruct t as [pre rest line col]. unfold consume_whitespaces_and_lines in Ew. cbn [tk_rest tk_pre tk_line tk_col] in *.
    apply cwl_trail in Ew. destruct Ew as (p & E1 & E2 & E3 & E4). exists p. split; auto. split; auto.
    split; auto. intros ->. destruct Hcol as [Hr|Hr]; [|apply E3; auto]. rewrite Hr in E1. symmetry in E1. auto. }
  destruct T as (p & T1 & T2 & T3 & T4).
  destruct (ws_lines _ T2) as (blk & b & -> & B1 & B2 & B3).
  assert (Hb : b <> []).
  { intros ->. rewrite app_nil_r in *.
    clear -T3 T4 B1. induction B1 as [|l r Hl Hd Hr IH].
    - congruence.
    - destruct r as [|x r].
      + apply (T4 l). auto.
      + apply IH; [discriminate|]. intros q E. apply (T4 (l ++ c_nl :: q)). rewrite E, <- app_assoc. auto. }
  assert (Er : exists r, tk_rest t1 = c :: r).
  { unfold get_char in Ec. destruct (tk_rest t1); inv Ec. eauto. }
  destruct Er as (r & Er).
  destruct (N.eqb_spec c c_semi) as [->|Hsemi].
  { exfalso. apply Hs. exists blk, b, r. rewrite T1, Er, <- app_assoc. auto. }
  destruct (get_string w t1) as [k t2] eqn:Ek. destruct (get_line t2) as [l t3] eqn:El.
  assert (Hk : k <> [] -> moves1 t1 t3).
  { intros Hk. eapply moves1_l; [eapply get_string_key; eauto|eapply get_line_moves; eauto]. }
  (* what the line consumed: no newline but the last *)
  assert (G : k <> [] -> forall a, nofuel (tag_loop f w a t3)).
  { intros Hk0 a0. specialize (Hk Hk0).
    pose proof (get_line_edge _ _ _ El) as Hedge.
    apply IH.
    - destruct Hedge as [|[]]; auto.
    - apply moves1_length in Hk. apply moves_length in M. lia.
    - intros (blk' & b' & r' & S1 & S2 & S3). apply Hs.
      pose proof (get_string_moves _ _ _ _ Ek) as (u & U1 & _ & U3). pose proof (get_string_line _ _ _ _ Ek) as U4.
      assert (U5 : ~ In c_nl u).
      { intros Hi. apply in_split in Hi. destruct Hi as (u1 & u2 & ->). rewrite newlines_app in U3. cbn [newlines] in U3.
        change (c_nl =? c_nl)%N with true in U3. cbv iota in U3. pose proof (newlines_nonneg u1). pose proof (newlines_nonneg u2). lia. }
      destruct t2 as [pre2 rest2 line2 col2]. unfold get_line in El. cbn [tk_rest tk_pre tk_line tk_col] in *.
      apply gline_eats in El. destruct El as (v & (V1 & _) & _ & V2 & V3). cbn [tk_rest] in V1.
      destruct V2 as [[-> V2]| ->].
      + rewrite V2 in S1. destruct blk', b'; try discriminate S1.
      + exists (blk ++ (b ++ u ++ l) ++ c_nl :: blk'), b', r'. split; [|split; auto].
        * rewrite T1, U1, V1, S1. repeat (rewrite <- app_assoc; cbn [app]). auto.
        * apply il_app; auto. constructor; auto.
          -- rewrite !in_app_iff. tauto.
          -- destruct b as [|d b]; [congruence|]. cbn in B2 |- *. apply andb_true_iff in B2. tauto. }
  destruct (str_eqb_spec k (L "check")); [apply G; subst; discriminate|].
  destruct (str_eqb_spec k (L "assert")); [apply G; subst; discriminate|]. discriminate.
Qed.

(** ** Reading ends *)
Lemma parse_tag_nofuel w t : ~ (exists line s, tk_rest t = line ++ c_nl :: s /\ ~ In c_nl line /\
    contains (L "tag ") line /\ semi_block s) -> nofuel (parse_tag w t).
Proof.
  intros Ht. unfold parse_tag. destruct (get_line t) as [line t1] eqn:El.
  destruct (re_directive (L "tag") line) as [n|] eqn:En; [|discriminate]. cbn [unwrap bind].
  pose proof (get_line_edge _ _ _ El) as Hedge.
  apply tag_loop_nofuel.
  - destruct Hedge as [|[]]; auto.
  - unfold entries_fuel. lia.
  - intros Hs. apply Ht. exists line, (tk_rest t1).
    destruct t as [pre rest ln col]. unfold get_line in El. cbn [tk_rest tk_pre tk_line tk_col] in *.
    apply gline_eats in El. destruct El as (p1 & (E1 & _) & _ & E2 & E3). cbn in E1.
    assert (Hc : contains (L "tag ") line).
    { apply re_directive_contains in En. destruct En as (p & r & ->). exists p, r. auto. }
    destruct E2 as [[-> E2]| ->].
    + exfalso. rewrite E2 in Hs. destruct Hs as (blk & b & r & Hs & _). destruct blk, b; discriminate.
    + rewrite E1, <- app_assoc. auto.
Qed.

Lemma nlt_nlterm s : newline_terminated s <-> nlterm s.
Proof. reflexivity. Qed.

(** A position of the main loop in [content]. *)
Definition stands (content : str) (t : tok) : Prop :=
  content = rev (tk_pre t) ++ tk_rest t /\ end_or_margin t.
Lemma stands_moves content t t' : stands content t -> moves t t' -> end_or_margin t' -> stands content t'.
Proof.
  intros [H _] (p & H1 & H2 & _) E. split; auto. rewrite H, H1, H2, rev_app_distr, rev_involutive, <- app_assoc. auto.
Qed.
Lemma stands_eq content t c : stands content t -> get_char t = Some c -> c = c_eq ->
  newline_terminated content \/ ~ line_begins c_eq content -> nlterm (tk_rest t).
Proof.
  intros [H Hm] Hc -> [Hn|Hn].
  - rewrite H in Hn. eapply nlterm_suffix. exact Hn.
  - exfalso. apply Hn. unfold get_char in Hc. destruct (tk_rest t) as [|d r] eqn:E; inv Hc.
    exists (rev (tk_pre t)), r. split; auto. destruct Hm as [Hm|[_ Hm]]; [congruence|].
    apply line_start_rev. auto.
Qed.
Lemma item_nofuel' inc w c l t content :
  nofuel (inc t) -> stands content t -> ends_ok content ->
  get_char t = Some c -> is_ws c = false ->
  nofuel (item inc w c l t).
Proof.
  intros Hinc Hst [Hok1 Hok2] Hc Hws. unfold item.
  assert (Hne : tk_rest t <> []). { unfold get_char in Hc. destruct (tk_rest t); discriminate. }
  destruct (is_comment_char c).
  { destruct (parse_comment t) as [s t1]. discriminate. }
  destruct (is_numeric w c).
  { apply nofuel_bind; [apply parse_transaction_ok; auto|intros [? ?] _; discriminate]. }
  destruct (N.eqb_spec c c_eq).
  { apply nofuel_bind; [apply parse_automated_ok; eauto using stands_eq|intros [? ?] _; discriminate]. }
  destruct (c =? 105)%N.
  { apply nofuel_bind; [auto|intros [? ?] _; discriminate]. }
  destruct (c =? 99)%N.
  { apply nofuel_bind; [apply parse_commodity_ok; auto|intros [? ?] _; discriminate]. }
  destruct (c =? 112)%N.
  { apply nofuel_bind; [apply parse_payee_ok; auto|intros [? ?] _; discriminate]. }
  destruct (c =? 116)%N.
  { apply nofuel_bind; [|intros [? ?] _; discriminate]. apply parse_tag_nofuel.
    intros (line & s & E1 & E2 & E3 & (blk & b & r & E4 & E5 & E6 & E7 & E8)). apply Hok2.
    destruct Hst as [Hst [Hm|[_ Hm]]]; [congruence|].
    exists (rev (tk_pre t)), line, blk, b, r. split; [rewrite Hst, E1, E4; auto|].
    split; [apply line_start_rev; auto|]. auto 10. }
  destruct (c =? 97)%N.
  { apply nofuel_bind; [apply parse_account_ok; auto|intros [? ?] _; discriminate]. }
  destruct (c =? 80)%N; [|discriminate].
  apply nofuel_bind; [apply parse_price_ok; auto|intros [? ?] _; discriminate].
Qed.
Lemma stands_acc content t : stands content t -> acc_col t.
Proof. intros [_ H]. apply edge_acc. left. auto. Qed.
Lemma main_loop_nofuel' f inc w content : forall l t,
  (forall t, nofuel (inc t)) -> (forall t x t', inc t = Ok (x, t') -> moves1 t t' /\ end_or_margin t') ->
  stands content t -> ends_ok content -> (length (tk_rest t) < f)%nat ->
  nofuel (main_loop f inc w l t).
Proof.
  induction f as [|f IH]; intros l t I1 I2 Hst Hok Hf; [lia|]. cbn [main_loop].
  destruct (tk_rest t) as [|c0 r] eqn:Er; [discriminate|].
  destruct (consume_whitespaces_and_lines t) as [[|] t1] eqn:Ew; [|discriminate].
  pose proof (cwal_moves _ _ _ Ew) as M. pose proof (cwal_blank_head _ _ Ew) as Hws.
  pose proof (stands_moves _ _ _ Hst M (cwal_margin _ _ Ew (stands_acc _ _ Hst))) as Hst1.
  destruct (get_char t1) as [c|] eqn:Ec.
  - pose proof (get_char_ws _ _ Ec Hws) as Hc. apply nofuel_bind; [eapply item_nofuel'; eauto|].
    intros [l' t2] E. destruct Hok as [Hok1 Hok2].
    assert (M2 : moves1 t1 t2).
    { eapply item_moves; [|exact Ec|auto| |exact E]. { intros x t' X. apply (I2 _ _ _ X). } intros. eapply stands_eq; eauto. }
    apply IH; auto.
    + eapply stands_moves; [exact Hst1|auto with mv|]. eapply item_margin; [|exact E]. intros x t' X. apply (I2 _ _ _ X).
    + split; auto.
    + apply moves1_length in M2. apply moves_length in M. rewrite Er in M. cbn [length] in *. lia.
  - apply IH; auto.
    assert (He : tk_rest t1 = []). { unfold get_char in Ec. destruct (tk_rest t1); [auto|discriminate]. }
    rewrite He. cbn [length] in *. lia.
Qed.
Lemma stands_start content : stands content (tok_of content).
Proof. split; auto. right. split; auto. left. auto. Qed.
Lemma tokenize_nofuel' w files :
  (forall pat l, w_glob w pat = Some l -> incl l files) ->
  (forall f c, In f files -> w_read w f = Some c -> ends_ok c) ->
  forall depth file seen content, ends_ok content -> (unseen files seen < depth)%nat ->
  nofuel (tokenize depth w file seen content).
Proof.
  intros Hglob Hread. induction depth as [|d IH]; intros file seen content Hc Hd; [lia|]. cbn [tokenize]. apply nofuel_in_file.
  eapply main_loop_nofuel'; [| |apply stands_start|exact Hc|cbn; lia].
  - intros t. unfold include_parse. apply nofuel_bind; [apply consume_str_nofuel|intros t1 _].
    destruct (get_line t1) as [line t2].
    destruct (w_glob w (include_pattern file line)) as [fs|] eqn:Eg; [|discriminate]. cbn [unwrap bind].
    destruct (find _ fs) eqn:Ef; [discriminate|]. apply nofuel_bind; [|discriminate].
    unfold include_files. apply foldM_nofuel. intros i f Hi.
    destruct (w_read w f) as [ct|] eqn:Er; [|discriminate].
    apply nofuel_bind; [|discriminate]. apply Hglob in Eg.
    apply IH; [eapply Hread; eauto|].
    pose proof (find_none _ _ Ef _ Hi) as Hs. cbn in Hs.
    pose proof (unseen_sadd f files seen (Eg _ Hi) Hs). lia.
  - intros t x t' H. split; [eapply include_parse_moves; eauto|eapply include_parse_margin; eauto].
Qed.

(** ** Positions *)
Lemma position_stands inc w content t :
  (forall t x t', inc t = Ok (x, t') -> moves1 t t' /\ end_or_margin t') ->
  (newline_terminated content \/ ~ line_begins c_eq content) ->
  position inc w content t -> stands content t /\ tk_line t = newlines (rev (tk_pre t)).
Proof.
  intros I Hok H. induction H as [|t t1 c l l' t2 H IH Ew Ec E].
  - split; [apply stands_start|reflexivity].
  - destruct IH as [Hst Hline].
    pose proof (cwal_moves _ _ _ Ew) as M. pose proof (cwal_blank_head _ _ Ew) as Hws.
    pose proof (get_char_ws _ _ Ec Hws) as Hc.
    pose proof (stands_moves _ _ _ Hst M (cwal_margin _ _ Ew (stands_acc _ _ Hst))) as Hst1.
    assert (M2 : moves1 t1 t2).
    { eapply item_moves; [|exact Ec|auto| |exact E]. { intros x t' X. apply (I _ _ _ X). } intros. eapply stands_eq; eauto. }
    split.
    + eapply stands_moves; [exact Hst1|auto with mv|]. eapply item_margin; [|exact E]. intros x t' X. apply (I _ _ _ X).
    + assert (M3 : moves t t2) by (eapply moves_trans; eauto with mv).
      destruct M3 as (p & P1 & P2 & P3). rewrite P3, P2, rev_app_distr, rev_involutive, newlines_app, Hline. auto.
Qed.
