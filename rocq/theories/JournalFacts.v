(** Facts about whole parsed journals: what the parser returns, and that it returns. *)
From Coq Require Import Lia.
From Verif Require Import Base BaseFacts Numerals Money Alist Comment Txn Peg Grammar PegFacts Dates Expr Tokens
  TokenFacts SpecList AlistFacts.
Open Scope Z_scope.

(** ** What the parser returns *)
Record journal_ok (w : world) (l : pledger) : Prop := {
  jo_accounts : buildable w ac_name ac_aliases (pl_accounts l);
  jo_payees : buildable w py_name py_aliases (pl_payees l);
  jo_commodities : buildable w cu_name cu_aliases (pl_commodities l);
  jo_txns : Forall rtxn_ok (pl_txns l);
}.
Lemma journal_ok_new w : journal_ok w pl_new.
Proof. constructor; cbn; auto; constructor. Qed.
Lemma journal_ok_append w a b : journal_ok w a -> journal_ok w b -> journal_ok w (pl_append a b).
Proof.
  intros [A1 A2 A3 A4] [B1 B2 B3 B4]. constructor; cbn.
  - apply buildable_append; auto.
  - apply buildable_append; auto.
  - apply buildable_append; auto.
  - apply Forall_app; auto.
Qed.

Lemma item_wf inc w c l t l' t' :
  (forall t x t', inc t = Ok (x, t') -> journal_ok w x) ->
  item inc w c l t = Ok (l', t') -> journal_ok w l -> journal_ok w l'.
Proof.
  intros Hinc H J. pose proof J as [J1 J2 J3 J4]. unfold item in H.
  destruct (is_comment_char c).
  { destruct (parse_comment t). inv H. constructor; auto. }
  destruct (is_numeric w c).
  { bind_inv H. destruct a as [x t1]. inv H. apply parse_transaction_wf in Hb. constructor; auto. cbn.
    apply Forall_app. split; auto. constructor; [apply Hb|constructor]. }
  destruct (c =? c_eq)%N.
  { bind_inv H. destruct a as [x t1]. inv H. apply parse_automated_wf in Hb. constructor; auto. cbn.
    apply Forall_app. split; auto. constructor; [apply Hb|constructor]. }
  destruct (c =? 105)%N.
  { bind_inv H. destruct a as [x t1]. inv H. apply journal_ok_append; eauto. }
  destruct (c =? 99)%N.
  { bind_inv H. destruct a as [x t1]. inv H. constructor; auto. cbn. apply buildable_insert; auto. }
  destruct (c =? 112)%N.
  { bind_inv H. destruct a as [x t1]. inv H. constructor; auto. cbn. apply buildable_insert; auto. }
  destruct (c =? 116)%N.
  { bind_inv H. destruct a as [x t1]. inv H. constructor; auto. }
  destruct (c =? 97)%N.
  { bind_inv H. destruct a as [x t1]. inv H. constructor; auto. cbn. apply buildable_insert; auto. }
  destruct (c =? 80)%N; [|discriminate].
  bind_inv H. destruct a as [x t1]. inv H. constructor; auto.
Qed.
Lemma main_loop_wf f inc w : forall l t l',
  (forall t x t', inc t = Ok (x, t') -> journal_ok w x) ->
  main_loop f inc w l t = Ok l' -> journal_ok w l -> journal_ok w l'.
Proof.
  induction f as [|f IH]; intros l t l' Hinc H J; [discriminate|]. cbn [main_loop] in H.
  destruct (tk_rest t); [inv H; auto|].
  destruct (consume_whitespaces_and_lines t) as [[|] t1]; [|discriminate].
  destruct (get_char t1) as [c|].
  - bind_inv H. destruct a as [l1 t2]. eapply IH; [auto|exact H|]. eapply item_wf; eauto.
  - eapply IH; eauto.
Qed.
Lemma tokenize_wf depth w : forall file seen content l,
  tokenize depth w file seen content = Ok l -> journal_ok w l.
Proof.
  induction depth as [|d IH]; intros file seen content l H; [discriminate|]. cbn [tokenize] in H. apply in_file_ok in H.
  eapply main_loop_wf; [|exact H|apply journal_ok_new].
  intros t x t' Hi. unfold include_parse in Hi. bind_inv Hi. destruct (get_line a) as [line t2].
  bind_inv Hi. destruct (find _ a0); [discriminate|]. bind_inv Hi. inv Hi.
  unfold include_files in Hb1. clear Hb Hb0.
  assert (G : forall i, journal_ok w i -> foldM (fun items f =>
           match w_read w f with
           | None => Panic PExplicit
           | Some content =>
               new <- tokenize d w (Some f) (sadd str_eqb f seen) content ;; Ok (pl_append items new)
           end) i a0 = Ok x -> journal_ok w x).
  { clear Hb1. induction a0 as [|f fs IHf]; intros i Ji E; cbn in E; [inv E; auto|].
    destruct (w_read w f) as [ct|]; [|discriminate]. bind_inv E. bind_inv Hb. inv Hb.
    eapply IHf; [|exact E]. apply journal_ok_append; auto. eapply IH; eauto. }
  apply (G pl_new); auto. apply journal_ok_new.
Qed.

(** ** It returns *)
(** Texts without the two constructs on which the tokenizer does not advance. *)
Definition text_ok (s : str) : Prop := (nlterm s \/ ~ In c_eq s) /\ ~ tag_then_comment s.
Lemma text_ok_suffix p s : text_ok (p ++ s) -> text_ok s.
Proof.
  intros [H1 H2]. split.
  - destruct H1 as [H1|H1]; [left; eapply nlterm_suffix; eauto|right]. rewrite in_app_iff in H1. tauto.
  - intros H. apply H2. apply tag_then_comment_suffix. auto.
Qed.
Lemma text_ok_moves a b : moves a b -> text_ok (tk_rest a) -> text_ok (tk_rest b).
Proof. intros (p & H & _). rewrite H. apply text_ok_suffix. Qed.

Lemma item_moves inc w c l t l' t' :
  (forall x t', inc t = Ok (x, t') -> moves1 t t') ->
  get_char t = Some c -> is_ws c = false ->
  (c = c_eq -> nlterm (tk_rest t)) ->
  item inc w c l t = Ok (l', t') -> moves1 t t'.
Proof.
  intros Hinc Hc Hws Hnl H. unfold item in H.
  assert (Hne : tk_rest t <> []). { unfold get_char in Hc. destruct (tk_rest t); discriminate. }
  destruct (is_comment_char c).
  { destruct (parse_comment t) as [s t1] eqn:E. inv H. eapply parse_comment_moves1; eauto.
    destruct (N.eqb_spec c c_nl); auto. subst. discriminate. }
  destruct (is_numeric w c).
  { bind_inv H. destruct a as [x t1]. inv H. eapply parse_transaction_ok; eauto. }
  destruct (N.eqb_spec c c_eq).
  { bind_inv H. destruct a as [x t1]. inv H. eapply parse_automated_ok; eauto. }
  destruct (c =? 105)%N.
  { bind_inv H. destruct a as [x t1]. inv H. eauto. }
  destruct (c =? 99)%N.
  { bind_inv H. destruct a as [x t1]. inv H. eapply parse_commodity_ok; eauto. }
  destruct (c =? 112)%N.
  { bind_inv H. destruct a as [x t1]. inv H. eapply parse_payee_ok; eauto. }
  destruct (c =? 116)%N.
  { bind_inv H. destruct a as [x t1]. inv H. eapply parse_tag_ok; eauto. }
  destruct (c =? 97)%N.
  { bind_inv H. destruct a as [x t1]. inv H. eapply parse_account_ok; eauto. }
  destruct (c =? 80)%N; [|discriminate].
  bind_inv H. destruct a as [x t1]. inv H. eapply parse_price_ok; eauto.
Qed.
Lemma text_ok_nl t c : text_ok (tk_rest t) -> get_char t = Some c -> c = c_eq -> nlterm (tk_rest t).
Proof.
  intros [[H|H] _] E ->; auto. exfalso. apply H. unfold get_char in E. destruct (tk_rest t); inv E. left. auto.
Qed.
Lemma item_nofuel inc w c l t :
  nofuel (inc t) ->
  get_char t = Some c -> is_ws c = false -> text_ok (tk_rest t) ->
  nofuel (item inc w c l t).
Proof.
  intros Hinc Hc Hws Ht. unfold item.
  assert (Hne : tk_rest t <> []). { unfold get_char in Hc. destruct (tk_rest t); discriminate. }
  destruct (is_comment_char c).
  { destruct (parse_comment t) as [s t1]. discriminate. }
  destruct (is_numeric w c).
  { apply nofuel_bind; [apply parse_transaction_ok; auto|intros [? ?] _; discriminate]. }
  destruct (N.eqb_spec c c_eq).
  { apply nofuel_bind; [apply parse_automated_ok; eauto using text_ok_nl|intros [? ?] _; discriminate]. }
  destruct (c =? 105)%N.
  { apply nofuel_bind; [auto|intros [? ?] _; discriminate]. }
  destruct (c =? 99)%N.
  { apply nofuel_bind; [apply parse_commodity_ok; auto|intros [? ?] _; discriminate]. }
  destruct (c =? 112)%N.
  { apply nofuel_bind; [apply parse_payee_ok; auto|intros [? ?] _; discriminate]. }
  destruct (c =? 116)%N.
  { apply nofuel_bind; [apply parse_tag_ok; auto; apply Ht|intros [? ?] _; discriminate]. }
  destruct (c =? 97)%N.
  { apply nofuel_bind; [apply parse_account_ok; auto|intros [? ?] _; discriminate]. }
  destruct (c =? 80)%N; [|discriminate].
  apply nofuel_bind; [apply parse_price_ok; auto|intros [? ?] _; discriminate].
Qed.
(** Leaving the empty part of a file costs at most one turn. *)
Lemma cwal_rest t t' ty c r : consume_whitespaces_and_lines t = (ty, t') -> tk_rest t = c :: r ->
  tk_rest t' = [] -> moves1 t t'.
Proof.
  intros H Hr He. apply cwal_moves in H. destruct H as (p & H). exists p. split; auto.
  intros ->. destruct H as (H & _). cbn in H. rewrite Hr, He in H. discriminate.
Qed.
Lemma main_loop_nofuel f inc w : forall l t,
  (forall t, nofuel (inc t)) -> (forall t x t', inc t = Ok (x, t') -> moves1 t t') ->
  text_ok (tk_rest t) -> (length (tk_rest t) < f)%nat ->
  nofuel (main_loop f inc w l t).
Proof.
  induction f as [|f IH]; intros l t I1 I2 Ht Hf; [lia|]. cbn [main_loop].
  destruct (tk_rest t) as [|c0 r] eqn:Er; [discriminate|]. rewrite <- Er in Ht.
  destruct (consume_whitespaces_and_lines t) as [[|] t1] eqn:Ew; [|discriminate].
  pose proof (cwal_moves _ _ _ Ew) as M. pose proof (cwal_blank_head _ _ Ew) as Hws.
  assert (Ht1 : text_ok (tk_rest t1)) by (eapply text_ok_moves; eauto).
  destruct (get_char t1) as [c|] eqn:Ec.
  - pose proof (get_char_ws _ _ Ec Hws) as Hc. apply nofuel_bind; [apply item_nofuel; auto|].
    intros [l' t2] E.
    assert (M2 : moves1 t1 t2) by (eapply item_moves; eauto using text_ok_nl).
    apply IH; auto.
    + eapply text_ok_moves; [apply moves1_moves; exact M2|auto].
    + apply moves1_length in M2. apply moves_length in M. rewrite Er in M. cbn [length] in *. lia.
  - apply IH; auto.
    assert (He : tk_rest t1 = []). { unfold get_char in Ec. destruct (tk_rest t1); [auto|discriminate]. }
    rewrite He. cbn [length] in *. lia.
Qed.

Lemma include_parse_moves tk w file seen t x t' :
  include_parse tk w file seen t = Ok (x, t') -> moves1 t t'.
Proof.
  unfold include_parse. intros H. bind_inv H. destruct (get_line a) as [line t2] eqn:El. bind_inv H.
  destruct (find _ a0); [discriminate|]. bind_inv H. inv H.
  apply consume_str_moves in Hb; [|reflexivity]. eapply moves1_l; [|eapply get_line_moves; eauto].
  eexists. split; [exact Hb|discriminate].
Qed.
Lemma consume_str_nofuel s : forall t, nofuel (consume_str s t).
Proof.
  induction s as [|c s IH]; intros t; cbn [consume_str]; [discriminate|].
  destruct (tk_rest t); [discriminate|]. destruct (_ =? _)%N; [auto|discriminate].
Qed.

(** Files not yet on the way to the current one. *)
Definition unseen (files seen : list str) : nat :=
  length (filter (fun f => negb (existsb (str_eqb f) seen)) files).
Lemma existsb_sadd f g seen : existsb (str_eqb f) (sadd str_eqb g seen) = existsb (str_eqb f) seen || str_eqb f g.
Proof.
  unfold sadd. destruct (existsb (str_eqb g) seen) eqn:E.
  - destruct (str_eqb_spec f g).
    + subst. rewrite E. auto.
    + rewrite orb_false_r. auto.
  - rewrite existsb_app. cbn. rewrite orb_false_r. auto.
Qed.
Lemma unseen_sadd f files seen : In f files -> existsb (str_eqb f) seen = false ->
  (unseen files (sadd str_eqb f seen) < unseen files seen)%nat.
Proof.
  intros Hi He. unfold unseen.
  assert (A : forall l, (length (filter (fun g => negb (existsb (str_eqb g) (sadd str_eqb f seen))) l)
                         <= length (filter (fun g => negb (existsb (str_eqb g) seen)) l))%nat).
  { induction l as [|g l IH]; cbn [filter length]; auto. rewrite existsb_sadd.
    destruct (existsb (str_eqb g) seen); cbn; auto. destruct (str_eqb g f); cbn; lia. }
  induction files as [|g files IH]; [contradiction|]. cbn [filter]. rewrite (existsb_sadd g).
  destruct Hi as [->|Hi].
  - rewrite He. destruct (str_eqb_spec f f); [|congruence]. cbn. specialize (A files). lia.
  - specialize (IH Hi). destruct (existsb (str_eqb g) seen); cbn; auto. destruct (str_eqb g f); cbn; lia.
Qed.
Lemma foldM_nofuel {A B} (f : B -> A -> res B) l : (forall b a, In a l -> nofuel (f b a)) ->
  forall i, nofuel (foldM f i l).
Proof.
  induction l as [|a l IH]; intros Hf i; cbn; [discriminate|]. apply nofuel_bind.
  - apply Hf. left. auto.
  - intros b _. apply IH. intros. apply Hf. right. auto.
Qed.
Lemma tokenize_nofuel w files :
  (forall pat l, w_glob w pat = Some l -> incl l files) ->
  (forall f c, In f files -> w_read w f = Some c -> text_ok c) ->
  forall depth file seen content, text_ok content -> (unseen files seen < depth)%nat ->
  nofuel (tokenize depth w file seen content).
Proof.
  intros Hglob Hread. induction depth as [|d IH]; intros file seen content Hc Hd; [lia|]. cbn [tokenize]. apply nofuel_in_file.
  apply main_loop_nofuel.
  - intros t. unfold include_parse. apply nofuel_bind; [apply consume_str_nofuel|intros t1 _].
    destruct (get_line t1) as [line t2].
    destruct (w_glob w (include_pattern file line)) as [fs|] eqn:Eg; [|discriminate]. cbn [unwrap bind].
    destruct (find _ fs) eqn:Ef; [discriminate|]. apply nofuel_bind; [|discriminate].
    unfold include_files. apply foldM_nofuel. intros i f Hi.
    destruct (w_read w f) as [ct|] eqn:Er; [|discriminate].
    apply nofuel_bind; [|discriminate]. apply Hglob in Eg.
    apply IH; [eapply Hread; eauto|].
    pose proof (find_none _ _ Ef _ Hi) as Hs. cbn in Hs.
    pose proof (unseen_sadd f files seen (Eg _ Hi) Hs). lia.
  - intros t x t'. apply include_parse_moves.
  - exact Hc.
  - cbn. lia.
Qed.
