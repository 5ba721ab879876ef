(** Where parse errors are reported: at positions the tokenizer has moved to. *)
From Coq Require Import Lia.
From Verif Require Import Base BaseFacts Numerals Money Alist Comment Txn Peg Grammar PegFacts Dates Expr Tokens TokenFacts
  SpecList AlistFacts SpecTokens TokenFacts2 JournalFacts SimFacts JournalSim IncludeFacts SpecErrors.
Open Scope Z_scope.

(** The errors of the main loop and of the include directive, and the others. *)
Definition indentation : parser_error := UnexpectedInput (Some (L "Unexpected indentation")).
Definition ordinary (e : parser_error) : Prop := e <> indentation /\ forall f, e <> IncludeLoop f.
(** Every error of [m] is at a position reached from [t]. *)
Definition placed {A} (t : tok) (m : res A) : Prop :=
  forall x, m = Err x -> exists e t', x = EParser e (Some (tok_place t')) /\ ordinary e /\ moves t t'.
Ltac ord := split; [let X := fresh in intros X; vm_compute in X; discriminate X|let X := fresh in intros ? X; discriminate X].
Definition unplaced {A} (m : res A) : Prop := forall x, m <> Err x.
Lemma placed_ok {A} t (a : A) : placed t (Ok a).
Proof. intros x0 H. discriminate. Qed.
Lemma placed_panic {A} t x : placed t (@Panic A x).
Proof. intros x0 H. discriminate. Qed.
Lemma placed_fail {A} t t' e : moves t t' -> ordinary e -> placed t (@fail_at A t' e).
Proof. intros M O x H. inv H. eauto. Qed.
Lemma placed_un {A} t (m : res A) : unplaced m -> placed t m.
Proof. intros H x E. exfalso. eapply H; eauto. Qed.
Lemma placed_moves {A} t t' (m : res A) : moves t t' -> placed t' m -> placed t m.
Proof. intros M H x E. destruct (H x E) as (e & u & -> & O & U). exists e, u. split; auto. split; auto. eapply moves_trans; eauto. Qed.
Lemma placed_bind {A B} t (m : res A) (f : A -> res B) :
  placed t m -> (forall a, m = Ok a -> placed t (f a)) -> placed t (bind m f).
Proof. intros H1 H2 x E. destruct m; cbn in E; [eapply H2; eauto|inv E; eapply H1; eauto|discriminate]. Qed.
Lemma unplaced_bind {A B} (m : res A) (f : A -> res B) :
  unplaced m -> (forall a, m = Ok a -> unplaced (f a)) -> unplaced (bind m f).
Proof. intros H1 H2 x E. destruct m; cbn in E; [eapply H2; eauto|inv E; eapply H1; eauto|discriminate]. Qed.
Lemma unplaced_ok {A} (a : A) : unplaced (Ok a).
Proof. intros ? H. discriminate. Qed.
Lemma unplaced_panic {A} x : unplaced (@Panic A x).
Proof. intros ? H. discriminate. Qed.
Lemma unplaced_unwrap {A} (o : option A) : unplaced (unwrap o).
Proof. destruct o; intros ? H; discriminate. Qed.
Lemma unplaced_pnext ps : unplaced (pnext ps).
Proof. destruct ps; intros ? H; discriminate. Qed.
Lemma unplaced_gparse r s : unplaced (gparse r s).
Proof. unfold gparse. destruct (peg _ _ _ _); intros ? H; discriminate. Qed.
#[global] Hint Resolve unplaced_ok unplaced_panic unplaced_unwrap unplaced_pnext unplaced_gparse : up.
Ltac up := repeat (first [ progress (intros; auto with up)
                         | apply unplaced_bind; [solve [auto with up]|intros]
                         | match goal with |- unplaced (match ?x with _ => _ end) => destruct x end ]).
Lemma unplaced_parse_string : forall p, unplaced (parse_string p).
Proof.
  fix IH 1. intros [r t kids]. destruct r; simpl; auto with up. destruct kids as [|k kids]; [auto with up|apply IH].
Qed.
#[global] Hint Resolve unplaced_parse_string : up.
Lemma unplaced_parse_date p : unplaced (parse_date p).
Proof. unfold parse_date. up. Qed.
Lemma unplaced_parse_rational p : unplaced (parse_rational p).
Proof. unfold parse_rational. up. Qed.
Lemma unplaced_opt_item r st : unplaced (opt_item r st).
Proof. unfold opt_item. up. Qed.
#[global] Hint Resolve unplaced_parse_date unplaced_parse_rational unplaced_opt_item : up.
Lemma unplaced_opt_date (o : option (pair rule)) :
  unplaced (match o with Some p => e <- parse_date p ;; Ok (Some e) | None => Ok None end).
Proof. up. Qed.
Lemma unplaced_opt_str (o : option (pair rule)) {A} (f : str -> A) (d : A) :
  unplaced (match o with Some p => s <- parse_string p ;; Ok (f s) | None => Ok d end).
Proof. up. Qed.
Lemma unplaced_header line : unplaced (parse_header line).
Proof.
  unfold parse_header.
  repeat (first [ apply unplaced_bind; [first [solve [auto with up] | apply unplaced_opt_date | apply unplaced_opt_str | solve [up]]|intros]
                | match goal with |- unplaced (let (_, _) := ?x in _) => destruct x end | solve [up] ]).
Qed.
Lemma unplaced_price_line line : unplaced (parse_price_line line).
Proof.
  unfold parse_price_line.
  repeat (first [ apply unplaced_bind; [first [solve [auto with up] | solve [up]]|intros]
                | match goal with |- unplaced (let (_, _) := ?x in _) => destruct x end | solve [up] ]).
Qed.
#[global] Hint Resolve unplaced_header unplaced_price_line : up.
Lemma unplaced_gaccount n : forall rest pre line col acc, (length rest <= n)%nat -> unplaced (gaccount rest pre line col acc).
Proof.
  induction n as [|n IH]; intros rest pre line col acc Hl; destruct rest as [|c r]; cbn [gaccount]; auto with up;
    cbn [length] in Hl; [lia|].
  destruct (negb (is_ws c)); [apply IH; lia|]. destruct (c =? c_tab)%N; [auto with up|].
  destruct (c =? c_nl)%N; [auto with up|]. destruct r as [|d r']; [auto with up|].
  destruct (is_ws d); [auto with up|]. apply IH. cbn in Hl. lia.
Qed.
Lemma account_kind_placed acc t : placed t (account_kind acc t).
Proof.
  unfold account_kind. destruct acc as [|c r]; [apply placed_panic|]. destruct (128 <=? c)%N; [apply placed_panic|].
  destruct (c =? c_lp)%N; [destruct (last _ _ =? c_rp)%N; [apply placed_ok|apply placed_fail; [apply moves_refl|ord]]|].
  destruct (c =? c_lb)%N; [destruct (last _ _ =? c_rb)%N; [apply placed_ok|apply placed_fail; [apply moves_refl|ord]]|apply placed_ok].
Qed.

Lemma parse_amount_ordinary w t e t1 : parse_amount w t = (inr e, t1) -> ordinary e.
Proof.
  unfold parse_amount. destruct (gamount _ _ _ _ _ _ _ _) as [[num den|] u]; [|intros H; inv H; ord].
  destruct (parse_bigint num); intros H; inv H. ord.
Qed.
Lemma parse_money_ordinary w t e t1 : parse_money w t = (inr e, t1) -> ordinary e.
Proof.
  unfold parse_money. destruct (get_char t) as [c|]; [|intros H; inv H; ord].
  destruct (is_numeric w c || (c =? c_dot)%N || (c =? c_minus)%N).
  - destruct (parse_amount w t) as [[q|x] u] eqn:E; [destruct (get_string w u); discriminate|]. intros H. inv H.
    eapply parse_amount_ordinary; eauto.
  - destruct (get_string w t) as [cur u]. destruct (parse_amount w u) as [[q|x] u2] eqn:E; intros H; inv H.
    eapply parse_amount_ordinary; eauto.
Qed.

Lemma posting_loop_placed f : forall w ty p t, head_ok t ->
  (ty = TAutomated -> nlterm (tk_rest t)) -> placed t (posting_loop f w ty p t).
Proof.
  induction f as [|f IH]; intros w ty p t Hh Hnl; [apply placed_panic|].
  cbn [posting_loop].
  assert (G : forall p1 t1, moves t t1 -> placed t (posting_loop f w ty p1 (consume_whitespaces t1))).
  { intros p1 t1 M. assert (M2 : moves t (consume_whitespaces t1)) by (eapply moves_trans; [exact M|apply cw_moves]).
    eapply placed_moves; [exact M2|]. apply IH; [apply cw_head|]. intros E. eapply nlterm_moves; [exact M2|auto]. }
  destruct (get_char t) as [c|] eqn:Ec; [|apply placed_ok].
  assert (Hr : exists r, tk_rest t = c :: r).
  { unfold get_char in Ec. destruct (tk_rest t); inv Ec. eauto. }
  destruct Hr as (r & Hr).
  destruct (N.eqb_spec c c_lp).
  { subst. destruct (get_value_expression t) as [e t1] eqn:E. apply G. apply moves1_moves. eapply gve_moves1; eauto. }
  destruct (N.eqb_spec c c_nl); [apply placed_ok|].
  assert (Hw : is_ws c = false).
  { unfold head_ok in Hh. rewrite Hr in Hh. destruct Hh; congruence. }
  apply N.eqb_neq in n0.
  destruct (N.eqb_spec c c_semi).
  { destruct (parse_comment t) as [s t1] eqn:E. apply placed_ok. }
  apply N.eqb_neq in n1.
  assert (Ma : moves t (adv t)) by (apply moves1_moves; eapply adv_moves1; eauto).
  assert (Mm : forall u m t1, moves t u -> parse_money w (consume_whitespaces u) = (m, t1) -> moves t t1).
  { intros u m t1 Mu E. eapply moves_trans; [exact Mu|]. eapply moves_trans; [apply cw_moves|]. eapply parse_money_moves; eauto. }
  destruct (N.eqb_spec c c_eq).
  { destruct (parse_money w (consume_whitespaces (adv t))) as [[m|e0] t1] eqn:E; [apply G|apply placed_fail; [|eapply parse_money_ordinary; eauto]]; eapply Mm; eauto. }
  destruct (N.eqb_spec c c_at).
  { destruct (rp_money p); [|apply placed_fail; [apply moves_refl|ord]].
    destruct (get_char (adv t)) as [d|] eqn:Ed; [|apply placed_panic].
    destruct (N.eqb_spec d c_at).
    - assert (M2 : moves t (adv (adv t))).
      { eapply moves_trans; [exact Ma|]. apply moves1_moves. subst. eapply adv_moves1; eauto. }
      destruct (parse_money w (consume_whitespaces (adv (adv t)))) as [[m|e1] t1] eqn:E; [apply G|apply placed_fail; [|eapply parse_money_ordinary; eauto]]; eapply Mm; eauto.
    - destruct (parse_money w (consume_whitespaces (adv t))) as [[m|e1] t1] eqn:E; [apply G|apply placed_fail; [|eapply parse_money_ordinary; eauto]]; eapply Mm; eauto. }
  destruct (parse_money w t) as [[m|e] t1] eqn:E.
  { apply G. eapply parse_money_moves; eauto. }
  pose proof (parse_money_moves _ _ _ _ E) as M0.
  destruct ty; try (apply placed_fail; [exact M0|eapply parse_money_ordinary; eauto]).
  destruct (get_line t1) as [l t2] eqn:El. apply G.
  assert (M1 : moves1 t t1) by (eapply parse_money_moves1; eauto).
  assert (N1 : nlterm (tk_rest t1)) by (eapply nlterm_moves; [exact M0|auto]).
  destruct (tk_rest t1) eqn:E1.
  - exfalso. destruct M1 as (q & (A1 & _ & A3) & Hq). rewrite E1, app_nil_r in A1.
    specialize (Hnl eq_refl). destruct Hnl as [Hnl|(s' & Hnl)]; [congruence|].
    apply parse_money_line in E. rewrite <- A1, Hnl, newlines_app in A3.
    change (newlines [c_nl]) with 1 in A3. pose proof (newlines_nonneg s'). lia.
  - assert (B := get_line_back t1 l t2 El). rewrite E1 in B. specialize (B N1 ltac:(discriminate)).
    destruct B as [B _]. eapply moves_trans; [exact M0|]. exists l. auto.
Qed.
Lemma parse_posting_placed w ty pay t : (ty = TAutomated -> nlterm (tk_rest t)) -> placed t (parse_posting w ty pay t).
Proof.
  intros Hnl. unfold parse_posting. apply placed_bind; [apply placed_un; eapply unplaced_gaccount; eauto|].
  intros [[acc fin] t1] Eg.
  assert (M : moves t t1).
  { apply (gaccount_eats (length (tk_rest t))) in Eg; auto. destruct Eg as (p & E1 & _ & E3). exists p.
    eapply eats_cong; [| | |exact E1]; auto. }
  apply placed_bind; [eapply placed_moves; [exact M|apply account_kind_placed]|]. intros [k acc'] _.
  destruct fin; [apply placed_ok|].
  assert (M2 : moves t (consume_whitespaces t1)) by (eapply moves_trans; [exact M|apply cw_moves]).
  eapply placed_moves; [exact M2|]. apply posting_loop_placed; [apply cw_head|].
  intros E. eapply nlterm_moves; [exact M2|auto].
Qed.
Lemma entries_placed f : forall w ty pay parsed cms ps t,
  (ty = TAutomated -> nlterm (tk_rest t)) -> placed t (entries f w ty pay parsed cms ps t).
Proof.
  induction f as [|f IH]; intros w ty pay parsed cms ps t Hnl; [apply placed_panic|]. cbn [entries].
  destruct (consume_whitespaces_and_lines t) as [[|] t1] eqn:Ew; [apply placed_ok|].
  pose proof (cwal_moves _ _ _ Ew) as M. eapply placed_moves; [exact M|].
  assert (Hnl1 : ty = TAutomated -> nlterm (tk_rest t1)) by (intros E; eapply nlterm_moves; eauto).
  assert (G : forall parsed cms ps t2, moves t1 t2 -> placed t1 (entries f w ty pay parsed cms ps t2)).
  { intros b c' p' t2 M2. eapply placed_moves; [exact M2|]. apply IH. intros E. eapply nlterm_moves; eauto. }
  destruct (get_char t1) as [c|] eqn:Ec; [|apply placed_panic].
  destruct (N.eqb_spec c c_semi).
  - destruct (parse_comment t1) as [s t2] eqn:E.
    assert (M2 : moves t1 t2) by (apply moves1_moves; eapply parse_comment_moves1; eauto; subst; auto).
    destruct parsed; [|apply G; auto]. apply placed_bind; [|intros ps' _; apply G; auto].
    apply placed_un. unfold add_comment_last. destruct (rev ps); auto with up.
  - destruct (is_numeric w c); [apply placed_fail; [apply moves_refl|ord]|].
    apply placed_bind; [apply parse_posting_placed; auto|]. intros [p t2] E. apply G.
    apply moves1_moves. eapply parse_posting_ok; eauto.
Qed.
Lemma parse_transaction_placed w t : placed t (parse_transaction w t).
Proof.
  unfold parse_transaction. destruct (get_line t) as [line t1] eqn:El. apply get_line_moves in El.
  eapply placed_moves; [exact El|].
  apply placed_bind; [apply placed_un; auto with up|]. intros h _.
  apply placed_bind; [apply entries_placed; discriminate|]. intros [[? ?] ?] _. apply placed_ok.
Qed.
Lemma parse_automated_placed w t : nlterm (tk_rest t) -> placed t (parse_automated w t).
Proof.
  intros Hn. unfold parse_automated. destruct (get_line t) as [line t1] eqn:El. apply get_line_moves in El.
  eapply placed_moves; [exact El|].
  apply placed_bind; [apply placed_un; auto with up|]. intros h _.
  apply placed_bind; [apply entries_placed|]. { intros _. eapply nlterm_moves; eauto. } intros [[? ?] ?] _. apply placed_ok.
Qed.
(** The loops of the directives. *)
Ltac dir_loop IH M :=
  repeat match goal with
  | |- placed _ (Ok _) => apply placed_ok
  | |- placed _ (Panic _) => apply placed_panic
  | |- placed _ (fail_at _ _) => apply placed_fail; [auto|ord]
  | |- placed _ (if ?b then _ else _) => destruct b
  | |- placed _ _ => eapply placed_moves; [|apply IH]; auto with mv
  end.
Lemma account_loop_placed f : forall w a t, placed t (account_loop f w a t).
Proof.
  induction f as [|f IH]; intros w a t; [apply placed_panic|]. cbn [account_loop].
  destruct (consume_whitespaces_and_lines t) as [[|] t1] eqn:Ew; [apply placed_ok|].
  pose proof (cwal_moves _ _ _ Ew) as M. eapply placed_moves; [exact M|].
  destruct (get_char t1) as [c|] eqn:Ec; [|apply placed_panic].
  destruct (c =? c_semi)%N.
  { destruct (get_line t1) as [l t2] eqn:El. eapply placed_moves; [eapply get_line_moves; eauto|apply IH]. }
  destruct (get_string w t1) as [k t2] eqn:Ek. destruct (get_line t2) as [l t3] eqn:El.
  pose proof (get_string_moves _ _ _ _ Ek) as M2. pose proof (get_line_moves _ _ _ El) as M3.
  pose proof (moves_trans _ _ _ M2 M3) as M4. dir_loop IH M4.
Qed.
Lemma commodity_loop_placed f : forall w a t, placed t (commodity_loop f w a t).
Proof.
  induction f as [|f IH]; intros w a t; [apply placed_panic|]. cbn [commodity_loop].
  destruct (consume_whitespaces_and_lines t) as [[|] t1] eqn:Ew; [apply placed_ok|].
  pose proof (cwal_moves _ _ _ Ew) as M. eapply placed_moves; [exact M|].
  destruct (get_char t1) as [c|] eqn:Ec; [|apply placed_panic].
  destruct (N.eqb_spec c c_semi).
  { destruct (parse_comment t1) as [l t2] eqn:El. eapply placed_moves; [|apply IH].
    apply moves1_moves. eapply parse_comment_moves1; eauto; subst; auto. }
  destruct (get_string w t1) as [k t2] eqn:Ek. destruct (get_line t2) as [l t3] eqn:El.
  pose proof (get_string_moves _ _ _ _ Ek) as M2. pose proof (get_line_moves _ _ _ El) as M3.
  pose proof (moves_trans _ _ _ M2 M3) as M4. dir_loop IH M4.
Qed.
Lemma payee_loop_placed f : forall w a t, placed t (payee_loop f w a t).
Proof.
  induction f as [|f IH]; intros w a t; [apply placed_panic|]. cbn [payee_loop].
  destruct (consume_whitespaces_and_lines t) as [[|] t1] eqn:Ew; [apply placed_ok|].
  pose proof (cwal_moves _ _ _ Ew) as M. eapply placed_moves; [exact M|].
  destruct (get_char t1) as [c|] eqn:Ec; [|apply placed_panic].
  destruct (N.eqb_spec c c_semi).
  { destruct (parse_comment t1) as [l t2] eqn:El. eapply placed_moves; [|apply IH].
    apply moves1_moves. eapply parse_comment_moves1; eauto; subst; auto. }
  destruct (get_string w t1) as [k t2] eqn:Ek. destruct (get_line t2) as [l t3] eqn:El.
  pose proof (get_string_moves _ _ _ _ Ek) as M2. pose proof (get_line_moves _ _ _ El) as M3.
  pose proof (moves_trans _ _ _ M2 M3) as M4. dir_loop IH M4.
Qed.
Lemma tag_loop_placed f : forall w a t, placed t (tag_loop f w a t).
Proof.
  induction f as [|f IH]; intros w a t; [apply placed_panic|]. cbn [tag_loop].
  destruct (consume_whitespaces_and_lines t) as [[|] t1] eqn:Ew; [apply placed_ok|].
  pose proof (cwal_moves _ _ _ Ew) as M. eapply placed_moves; [exact M|].
  destruct (get_char t1) as [c|] eqn:Ec; [|apply placed_panic].
  destruct (N.eqb_spec c c_semi); [apply IH|].
  destruct (get_string w t1) as [k t2] eqn:Ek. destruct (get_line t2) as [l t3] eqn:El.
  pose proof (get_string_moves _ _ _ _ Ek) as M2. pose proof (get_line_moves _ _ _ El) as M3.
  pose proof (moves_trans _ _ _ M2 M3) as M4. dir_loop IH M4.
Qed.
Lemma parse_account_placed w t : placed t (parse_account w t).
Proof.
  unfold parse_account. destruct (get_line t) as [line t1] eqn:El. apply get_line_moves in El.
  eapply placed_moves; [exact El|]. apply placed_bind; [apply placed_un; auto with up|]. intros; apply account_loop_placed.
Qed.
Lemma parse_commodity_placed w t : placed t (parse_commodity w t).
Proof.
  unfold parse_commodity. destruct (get_line t) as [line t1] eqn:El. apply get_line_moves in El.
  eapply placed_moves; [exact El|]. apply placed_bind; [apply placed_un; auto with up|intros ? _].
  apply placed_bind; [apply placed_un; auto with up|intros [? ?] _].
  apply placed_bind; [apply placed_un; auto with up|intros [? ?] _].
  apply placed_bind; [apply placed_un; auto with up|intros ? _]. apply commodity_loop_placed.
Qed.
Lemma parse_payee_placed w t : placed t (parse_payee w t).
Proof.
  unfold parse_payee. destruct (get_line t) as [line t1] eqn:El. apply get_line_moves in El.
  eapply placed_moves; [exact El|]. apply placed_bind; [apply placed_un; auto with up|intros ? _].
  apply placed_bind; [apply payee_loop_placed|intros [? ?] _]. destruct (forallb _ _); [apply placed_ok|apply placed_panic].
Qed.
Lemma parse_tag_placed w t : placed t (parse_tag w t).
Proof.
  unfold parse_tag. destruct (get_line t) as [line t1] eqn:El. apply get_line_moves in El.
  eapply placed_moves; [exact El|]. apply placed_bind; [apply placed_un; auto with up|]. intros; apply tag_loop_placed.
Qed.
Lemma parse_price_placed t : placed t (parse_price t).
Proof.
  unfold parse_price. destruct (get_line t) as [line t1] eqn:El. apply placed_un. up.
Qed.

(** ** One item, the main loop, and the files *)
Lemma placed_item {A B} t (m : res (A * tok)) (f : A -> tok -> B) : placed t m -> placed t ('(x, t1) <- m ;; Ok (f x t1)).
Proof. intros H. apply placed_bind; auto. intros [? ?] _. apply placed_ok. Qed.
Lemma placed_item_ne inc w c l t : c <> 105%N -> (c = c_eq -> nlterm (tk_rest t)) -> placed t (item inc w c l t).
Proof.
  intros Hc Hn. unfold item.
  destruct (is_comment_char c). { destruct (parse_comment t). apply placed_ok. }
  destruct (is_numeric w c). { apply placed_bind; [apply parse_transaction_placed|intros [? ?] _; apply placed_ok]. }
  destruct (N.eqb_spec c c_eq). { apply placed_bind; [apply parse_automated_placed; auto|intros [? ?] _; apply placed_ok]. }
  destruct (N.eqb_spec c 105); [congruence|].
  destruct (c =? 99)%N. { apply placed_bind; [apply parse_commodity_placed|intros [? ?] _; apply placed_ok]. }
  destruct (c =? 112)%N. { apply placed_bind; [apply parse_payee_placed|intros [? ?] _; apply placed_ok]. }
  destruct (c =? 116)%N. { apply placed_bind; [apply parse_tag_placed|intros [? ?] _; apply placed_ok]. }
  destruct (c =? 97)%N. { apply placed_bind; [apply parse_account_placed|intros [? ?] _; apply placed_ok]. }
  destruct (c =? 80)%N. { apply placed_bind; [apply parse_price_placed|intros [? ?] _; apply placed_ok]. }
  apply placed_fail; [apply moves_refl|ord].
Qed.
(** [t] is a position in [content], with the right line number. *)
Definition reached (content : str) (t : tok) : Prop :=
  content = rev (tk_pre t) ++ tk_rest t /\ tk_line t = newlines (rev (tk_pre t)).
Lemma reached_moves content t t' : reached content t -> moves t t' -> reached content t'.
Proof.
  intros [H1 H2] (p & P1 & P2 & P3). split.
  - rewrite P2, rev_app_distr, rev_involutive, <- app_assoc, <- P1. auto.
  - rewrite P3, P2, rev_app_distr, rev_involutive, newlines_app, H2. auto.
Qed.
Definition indented_tok (t : tok) : Prop :=
  exists a blanks c r, tk_pre t = rev blanks ++ a /\ line_start a /\ blanks <> [] /\ forallb is_ws blanks = true /\
    ~ In c_nl blanks /\ is_ws c = false /\ tk_rest t = c :: r /\ tk_col t = length blanks.
Lemma cwl_indented rest : forall pre line col b t,
  (exists a, pre = rev b ++ a /\ line_start a /\ forallb is_ws b = true /\ ~ In c_nl b /\ col = length b) ->
  cwl rest pre line col = (Indented, t) -> indented_tok t.
Proof.
  induction rest as [|c rest IH]; intros pre line col b t (a & E1 & E2 & E3 & E4 & E5) H; cbn [cwl] in H; [discriminate|].
  destruct (N.eqb_spec c c_nl).
  - apply (IH _ _ _ [] t) in H; auto. exists (c :: pre). cbn. split; auto. split; [right; subst; eauto|auto].
  - destruct (is_ws c) eqn:Ec.
    + apply (IH _ _ _ (b ++ [c]) t) in H; auto. exists a. subst. rewrite rev_app_distr. split; auto. split; auto.
      rewrite forallb_app, E3. cbn. rewrite Ec. split; auto. rewrite in_app_iff, app_length. cbn. split; [|lia].
      intros [|[|[]]]; auto.
    + destruct col; inv H. exists a, b, c, rest. cbn. repeat split; auto. intros ->. discriminate.
Qed.
Lemma cwal_indented_tok t t' : end_or_margin t -> consume_whitespaces_and_lines t = (Indented, t') -> indented_tok t'.
Proof.
  intros Hm H. destruct t as [pre rest line col]. unfold consume_whitespaces_and_lines in H. cbn [tk_rest tk_pre tk_line tk_col] in H.
  destruct Hm as [Hm|[Hm1 Hm2]]; cbn in *; [subst; discriminate|].
  apply (cwl_indented rest pre line col [] t'); auto. exists pre. subst. auto 10.
Qed.
Lemma main_loop_err inc w content :
  (forall t x t', inc t = Ok (x, t') -> pass_include t = Ok (pl_new, t')) ->
  (newline_terminated content \/ ~ line_begins c_eq content) ->
  forall f l t x, position pass_include w content t -> main_loop f inc w l t = Err x ->
  (exists t0 t1, position pass_include w content t0 /\ consume_whitespaces_and_lines t0 = (Blank, t1) /\
     get_char t1 = Some 105%N /\ reached content t1 /\ line_start (tk_pre t1) /\ inc t1 = Err x) \/
  exists e t', x = EParser e (Some (tok_place t')) /\ reached content t' /\
    (ordinary e \/ e = indentation /\ indented_tok t').
Proof.
  intros Hp Hok.
  assert (I2 : forall t x t', pass_include t = Ok (x, t') -> moves1 t t' /\ end_or_margin t').
  { intros t x t' X. apply pass_include_margin in X. tauto. }
  induction f as [|f IH]; intros l t x Hpos H; [discriminate|]. cbn [main_loop] in H.
  destruct (position_stands _ _ _ _ I2 Hok Hpos) as [Hst Hline].
  assert (R : reached content t) by (split; [apply Hst|exact Hline]).
  destruct (tk_rest t) as [|c0 r] eqn:Er; [discriminate|].
  destruct (consume_whitespaces_and_lines t) as [[|] t1] eqn:Ew; pose proof (cwal_moves _ _ _ Ew) as M.
  2: { inv H. right. do 2 eexists. split; [reflexivity|]. split; [eapply reached_moves; eauto|]. right. split; [reflexivity|].
       eapply cwal_indented_tok; [|exact Ew]. apply Hst. }
  pose proof (cwal_blank_head _ _ Ew) as Hws.
  pose proof (stands_moves _ _ _ Hst M (cwal_margin _ _ Ew (stands_acc _ _ Hst))) as Hst1.
  pose proof (reached_moves _ _ _ R M) as R1.
  destruct (get_char t1) as [c|] eqn:Ec.
  2: { assert (He : tk_rest t1 = []). { unfold get_char in Ec. destruct (tk_rest t1); [auto|discriminate]. }
       destruct f as [|f]; [discriminate|]. cbn [main_loop] in H. rewrite He in H. discriminate. }
  pose proof (get_char_ws _ _ Ec Hws) as Hc.
  destruct (item inc w c l t1) as [[l' t2]|y|y] eqn:E; cbn [bind] in H; [| |discriminate].
  - assert (E' : exists l2, item pass_include w c l t1 = Ok (l2, t2)).
    { rewrite item_is in *. destruct (N.eq_dec c 105) as [->|Hne].
      - rewrite item_datum_i in *. bind_inv E. destruct a. bind_inv Hb. destruct a. inv Hb. inv E.
        rewrite (Hp _ _ _ Hb0). cbn. eauto.
      - rewrite (item_datum_inc pass_include inc); auto. destruct (item_datum inc w c t1) as [[d u]|?|?]; inv E. cbn. eauto. }
    destruct E' as (l2 & E'). eapply IH; [|exact H]. eapply pos_item; eauto.
  - inv H. destruct (N.eq_dec c 105) as [->|Hne].
    + left. exists t, t1. split; auto. split; auto. split; auto. split; auto. split.
      * destruct Hst1 as [_ [Hm|[_ Hm]]]; auto. unfold get_char in Ec. rewrite Hm in Ec. discriminate.
      * rewrite item_is, item_datum_i in E. destruct (inc t1) as [[? ?]|?|?]; cbn in E; inv E; auto.
    + right. destruct (placed_item_ne inc w c l t1 Hne) with (x := x) as (e & t' & -> & O & M'); auto.
      { intros ->. eapply stands_eq; eauto. }
      exists e, t'. split; auto. split; [eapply reached_moves; eauto|auto].
Qed.
Lemma reachable_step w f g h : reachable w f g -> includes w g h -> reachable w f h.
Proof. induction 1; intros Hi; [eapply reach_step; [eauto|apply reach_refl]|eapply reach_step; eauto]. Qed.
Lemma newlines_count s : newlines s = Z.of_nat (count c_nl s).
Proof.
  unfold count. induction s as [|c s IH]; [reflexivity|]. cbn [newlines filter]. rewrite N.eqb_sym.
  destruct (c_nl =? c)%N; cbn [length]; lia.
Qed.
(** Reading a file fails: where. *)
Definition failure (w : world) (g content : str) (x : error) : Prop :=
  (x = EParser (UnexpectedInput None) None /\ misspelt_include content) \/
  exists e p, x = EParser e (Some p) /\ at_file p = Some g /\ lies_in content p /\
    (e = indentation -> indented_at content p) /\
    (forall h, e = IncludeLoop h -> after_include w (Some g) content h p /\ includes w g h /\ on_cycle w h).
Lemma consume_str_err s : forall t x, consume_str s t = Err x -> x = EParser (UnexpectedInput None) None /\
  forall r, tk_rest t <> s ++ r.
Proof.
  induction s as [|c s IH]; intros t x H; [discriminate|]. cbn [consume_str] in H.
  destruct (tk_rest t) as [|d r] eqn:E. { inv H. split; auto. intros; discriminate. }
  destruct (N.eqb_spec d c); [|inv H; split; [auto|]; intros r0 X; inv X; congruence].
  apply IH in H. destruct H as [-> H]. split; auto. intros r0 X. unfold adv in H. rewrite E in H. cbn in H. inv X. eapply H; eauto.
Qed.
Lemma include_files_err tk w seen files : forall i x,
  foldM (fun items f => match w_read w f with
                        | None => Panic PExplicit
                        | Some content => new <- tk f (sadd str_eqb f seen) content ;; Ok (pl_append items new)
                        end) i files = Err x ->
  exists g c, In g files /\ w_read w g = Some c /\ tk g (sadd str_eqb g seen) c = Err x.
Proof.
  induction files as [|f files IH]; intros i x H; cbn in H; [discriminate|].
  destruct (w_read w f) as [c|] eqn:Er; [|discriminate].
  destruct (tk f (sadd str_eqb f seen) c) as [l|y|y] eqn:E; cbn in H; [|inv H; exists f, c; split; [left; auto|auto]|discriminate].
  apply IH in H. destruct H as (g & c' & H1 & H2). exists g, c'. split; [right; auto|auto].
Qed.
Lemma tokenize_err w : forall depth f seen content x, w_read w f = Some content ->
  (forall g c, reachable w f g -> w_read w g = Some c -> newline_terminated c \/ ~ line_begins c_eq c) ->
  (forall s, existsb (str_eqb s) seen = true -> reachable w s f) ->
  tokenize depth w (Some f) seen content = Err x ->
  exists g c, reachable w f g /\ w_read w g = Some c /\ failure w g c x.
Proof.
  induction depth as [|d IH]; intros f seen content x Hr Hok Hseen H; [discriminate|]. cbn [tokenize] in H.
  set (tk := fun f0 seen' c => tokenize d w (Some f0) seen' c) in *.
  destruct (main_loop _ _ _ _ _) as [l|y|y] eqn:E; cbn [in_file] in H; [discriminate| |discriminate].
  apply main_loop_err with (content := content) in E; [|apply include_pass|eapply Hok; [apply reach_refl|auto]|apply pos_start].
  destruct E as [(t0 & t1 & Hpos & Ew & Ec & R1 & Hls & E)|(e & t' & -> & R & Ho)].
  - unfold include_parse in E. destruct (consume_str (L "include ") t1) as [t2|z|z] eqn:Es; cbn [bind] in E; [| |discriminate].
    + destruct (get_line t2) as [line t3] eqn:El.
      destruct (w_glob w (include_pattern (Some f) line)) as [fs|] eqn:Eg; [|discriminate]. cbn [unwrap bind] in E.
      pose proof Es as Hs. apply consume_str_moves in Hs; [|reflexivity].
      pose proof El as Hl. destruct t2 as [pre2 rest2 line2 col2]. unfold get_line in Hl. cbn [tk_rest tk_pre tk_line tk_col] in Hl.
      apply gline_eats in Hl. destruct Hl as (p & Hp & _ & P2 & P3). cbn [tk_rest] in Hp.
      assert (X : exists r, tk_rest t1 = L "include " ++ line ++ r /\
        (r = [] /\ p = line \/ (exists r', r = c_nl :: r') /\ p = line ++ [c_nl])).
      { destruct Hs as (S1 & _). destruct Hp as (Q1 & _). cbn in Q1. destruct P2 as [[-> P2]| ->].
        - exists []. rewrite S1. cbn [tk_rest]. rewrite Q1, P2. auto.
        - exists (c_nl :: tk_rest t3). rewrite S1. cbn [tk_rest]. rewrite Q1, <- app_assoc. split; auto. right. eauto. }
      destruct X as (r & X1 & X2).
      assert (Hil : include_line w content line).
      { exists t0, t1, r. split; auto. split; auto. split; auto. split; auto. destruct X2 as [[-> _]|[X2 _]]; auto. }
      assert (Hinc : forall g, In g fs -> includes w f g).
      { intros g Hg. exists content. split; auto. exists line, fs. auto. }
      destruct (find _ fs) as [h|] eqn:Ef.
      * inv E. cbn [at_file tok_place] in H. inv H. exists f, content. split; [apply reach_refl|]. split; auto. right.
        pose proof (eats_app _ _ _ _ _ Hs Hp) as Ht.
        assert (R3 : reached content t3) by (eapply reached_moves; [exact R1|eexists; exact Ht]).
        do 2 eexists. split; [reflexivity|]. split; [reflexivity|]. split; [|split].
        -- split; [symmetry; apply R3|]. exists (rev (tk_pre t3)), (tk_rest t3). split; [apply R3|]. cbn. rewrite <- newlines_count. apply R3.
        -- intros; discriminate.
        -- intros h' Hh. inv Hh. apply find_some in Ef. destruct Ef as [F1 F2]. split.
           ++ exists (rev (tk_pre t1)), line, r, fs. split; [rewrite <- X1; apply R1|]. split; [apply line_start_rev; auto|].
              split; [auto|]. split; [auto|]. split; [auto|]. cbn [at_line].
              destruct Ht as (_ & _ & Ht). rewrite newlines_app in Ht. change (newlines (L "include ")) with 0 in Ht.
              assert (Z0 : newlines line = 0).
              { clear - P3. induction line as [|c line IH]; auto. cbn. destruct (N.eqb_spec c c_nl); [exfalso; apply P3; left; auto|].
                rewrite IH; auto. intros ?. apply P3. right. auto. }
              destruct R1 as [_ R1]. rewrite Ht, R1, newlines_count.
              destruct X2 as [[-> ->]|[X2 ->]]; [left|right]; split; auto; rewrite ?newlines_app, ?Z0; cbn; lia.
           ++ split; [apply Hinc; auto|]. assert (Rh : reachable w h' f) by (apply Hseen; auto). pose proof (Hinc _ F1) as Hi.
              inversion Rh as [|? k ? K1 K2]; subst; [eexists; split; [exact Hi|apply reach_refl]|].
              exists k. split; auto. eapply reachable_step; eauto.
      * unfold include_files in E.
        match type of E with bind ?m _ = _ => destruct m as [l0|z|z] eqn:Ei; cbn [bind] in E; [discriminate| |discriminate] end. inv E.
        apply (include_files_err tk) in Ei. destruct Ei as (g & c & G1 & G2 & G3).
        pose proof (Hinc _ G1) as Hi.
        assert (Hn : exists g' c', reachable w g g' /\ w_read w g' = Some c' /\ failure w g' c' y).
        { unfold tk in G3. eapply IH; [exact G2| | |exact G3].
          - intros g' c' Hg'. apply Hok. eapply reach_step; eauto.
          - intros s Hs'. rewrite existsb_sadd in Hs'. apply orb_true_iff in Hs'. destruct Hs' as [Hs'|Hs'].
            + eapply reachable_step; [apply Hseen; exact Hs'|auto].
            + destruct (str_eqb_spec s g); [subst; apply reach_refl|discriminate]. }
        destruct Hn as (g' & c' & N1 & N2 & N3). exists g', c'. split; [eapply reach_step; eauto|]. split; auto.
        assert (x = y); [|subst; auto].
        destruct N3 as [[-> _]|(e & p0 & -> & Q & _)]; [inv H; auto|]. rewrite Q in H. inv H. auto.
    + inv E. apply consume_str_err in Es. destruct Es as [-> Es]. inv H. exists f, content. split; [apply reach_refl|]. split; auto.
      left. split; auto. unfold get_char in Ec. destruct (tk_rest t1) as [|c r] eqn:Et; inv Ec.
      exists (rev (tk_pre t1)), r. split; [rewrite <- Et; apply R1|]. split; [apply line_start_rev; auto|exact Es].
  - cbn [at_file tok_place] in H. inv H. exists f, content. split; [apply reach_refl|]. split; auto. right.
    do 2 eexists. split; [reflexivity|]. split; [reflexivity|]. split; [|split].
    + split; [symmetry; apply R|]. exists (rev (tk_pre t')), (tk_rest t'). split; [apply R|]. cbn. rewrite <- newlines_count. apply R.
    + intros ->. destruct Ho as [[Ho _]|[_ (a & blanks & c & r & I1 & I2' & I3 & I4 & I5 & I6 & I7 & I8)]]; [congruence|].
      destruct R as [R1 R2]. exists (rev a), blanks, c, r. rewrite R1, I1, I7, rev_app_distr, rev_involutive, <- app_assoc.
      split; auto. split; [apply line_start_rev; auto|]. do 4 (split; [assumption|]). cbn [at_line at_col]. split; auto.
      rewrite R2, I1, rev_app_distr, rev_involutive, newlines_app, newlines_count.
      assert (Z0 : newlines blanks = 0).
      { clear - I5. induction blanks as [|x b IH]; auto. cbn. destruct (N.eqb_spec x c_nl); [exfalso; apply I5; left; auto|].
        rewrite IH; auto. intros ?. apply I5. right. auto. }
      lia.
    + intros h Hh. subst. destruct Ho as [[_ Ho]|[Ho _]]; [exfalso; eapply Ho; eauto|discriminate].
Qed.
