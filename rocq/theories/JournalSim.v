(** What is read from a journal, piece by piece, and how pieces of text compose. *)
From Verif Require Import Base Numerals Money Alist Comment Txn Peg Grammar Dates Expr Tokens BaseFacts TokenFacts
  JournalFacts SpecTokens SimFacts.
From Coq Require Import Lia.

(** ** The pieces read by the main loop, before they are put into the ledger *)
Inductive datum :=
| DTxn (x : txn rposting) | DPrice (p : parsed_price) | DComment (s : str) | DAcc (a : account)
| DPay (p : payee) | DCur (c : currency) | DTag (t : tagdir) | DInc (l : pledger).
Definition apply_datum (w : world) (l : pledger) (d : datum) : pledger :=
  match d with
  | DTxn x => add_txn x l | DPrice x => add_price x l | DComment x => add_lcomment x l
  | DAcc x => add_acc w x l | DPay x => add_pay w x l | DCur x => add_cur w x l | DTag x => add_tag x l
  | DInc x => pl_append l x
  end.
Definition item_datum (inc : tok -> res (pledger * tok)) (w : world) (c : N) (t : tok) : res (datum * tok) :=
  if is_comment_char c then let (s, t1) := parse_comment t in Ok (DComment s, t1)
  else if is_numeric w c then '(x, t1) <- parse_transaction w t ;; Ok (DTxn x, t1)
  else if (c =? c_eq)%N then '(x, t1) <- parse_automated w t ;; Ok (DTxn x, t1)
  else if (c =? 105)%N then '(x, t1) <- inc t ;; Ok (DInc x, t1)
  else if (c =? 99)%N then '(x, t1) <- parse_commodity w t ;; Ok (DCur x, t1)
  else if (c =? 112)%N then '(x, t1) <- parse_payee w t ;; Ok (DPay x, t1)
  else if (c =? 116)%N then '(x, t1) <- parse_tag w t ;; Ok (DTag x, t1)
  else if (c =? 97)%N then '(x, t1) <- parse_account w t ;; Ok (DAcc x, t1)
  else if (c =? 80)%N then '(x, t1) <- parse_price t ;; Ok (DPrice x, t1)
  else fail_at t (UnexpectedInput None).
Fixpoint data_loop (fuel : nat) (inc : tok -> res (pledger * tok)) (w : world) (t : tok) : res (list datum) :=
  match fuel with
  | O => Panic OutOfFuel
  | S f =>
      match tk_rest t with
      | [] => Ok []
      | _ :: _ =>
          match consume_whitespaces_and_lines t with
          | (Blank, t1) =>
              match get_char t1 with
              | None => data_loop f inc w t1
              | Some c => '(d, t2) <- item_datum inc w c t1 ;; ds <- data_loop f inc w t2 ;; Ok (d :: ds)
              end
          | (Indented, t1) => fail_at t1 (UnexpectedInput (Some (L "Unexpected indentation")))
          end
      end
  end.
Lemma item_is inc w c l t :
  item inc w c l t = ('(d, t1) <- item_datum inc w c t ;; Ok (apply_datum w l d, t1)).
Proof.
  unfold item, item_datum. destruct (is_comment_char c); [destruct (parse_comment t); reflexivity|].
  repeat match goal with
         | |- (if ?b then _ else _) = _ => destruct b;
              [match goal with |- bind ?m _ = _ => destruct m as [[? ?]|?|?]; reflexivity end|]
         end; reflexivity.
Qed.
Lemma main_loop_is f : forall inc w l t,
  main_loop f inc w l t = (ds <- data_loop f inc w t ;; Ok (fold_left (apply_datum w) ds l)).
Proof.
  induction f as [|f IH]; intros; [reflexivity|]. cbn [main_loop data_loop].
  destruct (tk_rest t); [reflexivity|]. destruct (consume_whitespaces_and_lines t) as [[|] t1]; [|reflexivity].
  destruct (get_char t1); [|apply IH]. rewrite item_is. destruct (item_datum inc w n0 t1) as [[d t2]|e|e]; try reflexivity.
  cbn [bind]. rewrite IH. destruct (data_loop f inc w t2); reflexivity.
Qed.

(** Data free of the exceptional cases. *)
Definition txn_closed (x : txn rposting) : Prop := Forall expression_closed (t_postings x).
Definition datum_ok (strict : Prop) (d : datum) : Prop :=
  match d with DTxn x => txn_closed x /\ (strict -> t_type x = TReal) | _ => True end.

Section Sim.
Variables y z : str.
Hypothesis Hy : y = [] \/ y = [c_nl].
Hypothesis Hz : z = [] \/ exists r, z = c_nl :: r.
Hypothesis Hm : unindented (tl z).
Notation sims := (sims y z). Notation fwd := (fwd y z). Notation block_end := (block_end y z).
Notation aborts := (aborts z).
Let strict := y = [] \/ z = [].

Lemma fwd_len a t t' : fwd a t t' -> exists b, suffix b a /\ fwd b t t' /\ (length b <= length (tk_rest t'))%nat.
Proof.
  intros [(b & Hb & H)|H].
  - exists b. split; auto. split; [left; exists b; split; auto; apply suffix_refl|].
    destruct H as (_ & H & _). rewrite H, app_length. lia.
  - exists []. split; [exists a; symmetry; apply app_nil_r|]. split; [right; auto|]. cbn. lia.
Qed.

Lemma parse_transaction_sim w a t t' x t1 : sims a t t' -> neat y z a ->
  parse_transaction w t = Ok (x, t1) -> txn_closed x ->
  aborts (parse_transaction w t') \/
  exists t1', parse_transaction w t' = Ok (x, t1') /\ block_end a t1 t1'.
Proof.
  intros Hs Ht H Hc. unfold parse_transaction in *.
  destruct (get_line_sim _ _ Hy Hz _ _ _ Hs) as (s & u & u' & E1 & E2 & E3). rewrite E1 in H. rewrite E2.
  bind_inv H. rewrite Hb. cbn [bind]. bind_inv H. destruct a1 as [[cms ps] t2]. inv H.
  destruct (fwd_len _ _ _ E3) as (b & Hb1 & Hb2 & Hb3).
  edestruct (entries_sim y z Hy Hz Hm (entries_fuel u) (entries_fuel u') w TReal) as [[X1 X2]|(v & X1 & X2)];
    [discriminate|eapply suffix_tidy; eauto|exact Hb2| |exact Hb0|exact Hc| |].
  2: { left. split; auto. rewrite X2. reflexivity. }
  2: { right. rewrite X1. eexists. split; [reflexivity|]. eapply block_end_trans; eauto. }
  unfold entries_fuel. lia.
Qed.
Lemma parse_automated_sim w a t t' x t1 : sims a t t' -> neat y z a ->
  parse_automated w t = Ok (x, t1) -> txn_closed x -> ~ strict ->
  aborts (parse_automated w t') \/
  exists t1', parse_automated w t' = Ok (x, t1') /\ block_end a t1 t1'.
Proof.
  intros Hs Ht H Hc Hst. unfold parse_automated in *.
  destruct (get_line_sim _ _ Hy Hz _ _ _ Hs) as (s & u & u' & E1 & E2 & E3). rewrite E1 in H. rewrite E2.
  bind_inv H. rewrite Hb. cbn [bind]. bind_inv H. destruct a1 as [[cms ps] t2]. inv H.
  destruct (fwd_len _ _ _ E3) as (b & Hb1 & Hb2 & Hb3).
  edestruct (entries_sim y z Hy Hz Hm (entries_fuel u) (entries_fuel u') w TAutomated) as [[X1 X2]|(v & X1 & X2)];
    [|eapply suffix_tidy; eauto|exact Hb2| |exact Hb0|exact Hc| |].
  3: { left. split; auto. rewrite X2. reflexivity. }
  3: { right. rewrite X1. eexists. split; [reflexivity|]. eapply block_end_trans; eauto. }
  - intros _. unfold strict in Hst. tauto.
  - unfold entries_fuel. lia.
Qed.
Lemma parse_account_sim w a t t' x t1 : sims a t t' -> parse_account w t = Ok (x, t1) ->
  exists t1', parse_account w t' = Ok (x, t1') /\ block_end a t1 t1'.
Proof.
  intros Hs H. unfold parse_account in *.
  destruct (get_line_sim _ _ Hy Hz _ _ _ Hs) as (s & u & u' & E1 & E2 & E3). rewrite E1 in H. rewrite E2.
  bind_inv H. rewrite Hb. cbn [bind].
  destruct (fwd_len _ _ _ E3) as (b & Hb1 & Hb2 & Hb3).
  edestruct (account_loop_sim y z Hy Hz Hm) as (v & X1 & X2); [exact Hb2| |exact H|].
  2: { exists v. split; [exact X1|]. eapply block_end_trans; eauto. }
  unfold entries_fuel. lia.
Qed.
Lemma parse_commodity_sim w a t t' x t1 : sims a t t' -> parse_commodity w t = Ok (x, t1) ->
  exists t1', parse_commodity w t' = Ok (x, t1') /\ block_end a t1 t1'.
Proof.
  intros Hs H. unfold parse_commodity in *.
  destruct (get_line_sim _ _ Hy Hz _ _ _ Hs) as (s & u & u' & E1 & E2 & E3). rewrite E1 in H. rewrite E2.
  bind_inv H. rewrite Hb. cbn [bind]. bind_inv H. rewrite Hb0. destruct a1 as [top r1]. cbn [bind].
  bind_inv H. rewrite Hb1. destruct a1 as [cc r2]. cbn [bind]. bind_inv H. rewrite Hb2. cbn [bind].
  destruct (fwd_len _ _ _ E3) as (b & Hx1 & Hx2 & Hx3).
  edestruct (commodity_loop_sim y z Hy Hz Hm) as (v & X1 & X2); [exact Hx2| |exact H|].
  2: { exists v. split; [exact X1|]. eapply block_end_trans; eauto. }
  unfold entries_fuel. lia.
Qed.
Lemma parse_payee_sim w a t t' x t1 : sims a t t' -> parse_payee w t = Ok (x, t1) ->
  exists t1', parse_payee w t' = Ok (x, t1') /\ block_end a t1 t1'.
Proof.
  intros Hs H. unfold parse_payee in *.
  destruct (get_line_sim _ _ Hy Hz _ _ _ Hs) as (s & u & u' & E1 & E2 & E3). rewrite E1 in H. rewrite E2.
  bind_inv H. rewrite Hb. cbn [bind]. bind_inv H. destruct a1 as [al t2].
  destruct (fwd_len _ _ _ E3) as (b & Hx1 & Hx2 & Hx3).
  edestruct (payee_loop_sim y z Hy Hz Hm) as (v & X1 & X2); [exact Hx2| |exact Hb0|].
  2: { rewrite X1. cbn [bind]. destruct (forallb (w_rx_ok w) al); [|discriminate]. inv H.
       eexists. split; [reflexivity|]. eapply block_end_trans; eauto. }
  unfold entries_fuel. lia.
Qed.
Lemma parse_tag_sim w a t t' x t1 : sims a t t' -> parse_tag w t = Ok (x, t1) ->
  exists t1', parse_tag w t' = Ok (x, t1') /\ block_end a t1 t1'.
Proof.
  intros Hs H. unfold parse_tag in *.
  destruct (get_line_sim _ _ Hy Hz _ _ _ Hs) as (s & u & u' & E1 & E2 & E3). rewrite E1 in H. rewrite E2.
  bind_inv H. rewrite Hb. cbn [bind].
  destruct (fwd_len _ _ _ E3) as (b & Hb1 & Hb2 & Hb3).
  edestruct (tag_loop_sim y z Hy Hz Hm) as (v & X1 & X2); [exact Hb2| |exact H|].
  2: { exists v. split; [exact X1|]. eapply block_end_trans; eauto. }
  unfold entries_fuel. lia.
Qed.
Lemma parse_price_sim a t t' x t1 : sims a t t' -> parse_price t = Ok (x, t1) ->
  exists t1', parse_price t' = Ok (x, t1') /\ fwd a t1 t1'.
Proof.
  intros Hs H. unfold parse_price in *.
  destruct (get_line_sim _ _ Hy Hz _ _ _ Hs) as (s & u & u' & E1 & E2 & E3). rewrite E1 in H. rewrite E2.
  bind_inv H. rewrite Hb. inv H. cbn. eauto.
Qed.
(** What is needed of the handler of the include directive. *)
Definition inc_sim (inc : tok -> res (pledger * tok)) : Prop :=
  forall a t t' x t1, sims a t t' -> inc t = Ok (x, t1) -> exists t1', inc t' = Ok (x, t1') /\ fwd a t1 t1'.
Lemma consume_str_sim s : ~ In c_nl s -> forall a t t' t1, sims a t t' -> consume_str s t = Ok t1 ->
  exists t1' b, consume_str s t' = Ok t1' /\ suffix b a /\ sims b t1 t1'.
Proof.
  induction s as [|x s IH]; intros Hn a t t' t1 Hs H; cbn [consume_str] in *.
  - inv H. exists t', a. repeat split; auto; try apply suffix_refl; apply Hs.
  - destruct a as [|c a].
    + exfalso. destruct Hs as (Hs & _). rewrite Hs in H. cbn in H. destruct Hy as [E|E]; rewrite E in H; [discriminate|].
      destruct (N.eqb_spec c_nl x); [|discriminate]. apply Hn. left. auto.
    + pose proof (sims_adv _ _ _ _ _ _ Hs) as Ha. destruct Hs as (Hs1 & Hs2 & _). rewrite Hs1 in H. rewrite Hs2. cbn in *.
      destruct (c =? x)%N; [|discriminate]. edestruct (IH ltac:(tauto) _ _ _ _ Ha H) as (t1' & b & X1 & X2 & X3).
      exists t1', b. split; auto. split; auto. apply suffix_cons. auto.
Qed.
Lemma include_sim tk w file seen : inc_sim (include_parse tk w file seen).
Proof.
  intros a t t' x t1 Hs H. unfold include_parse in *. bind_inv H.
  edestruct (consume_str_sim (L "include ")) as (u & b & X1 & X2 & X3); [|exact Hs|exact Hb|].
  { intros X. vm_compute in X. repeat (destruct X as [X|X]; [discriminate|]). exact X. }
  rewrite X1. cbn [bind].
  destruct (get_line_sim _ _ Hy Hz _ _ _ X3) as (s & v & v' & E1 & E2 & E3). rewrite E1 in H. rewrite E2.
  bind_inv H. rewrite Hb0. cbn [bind]. destruct (find _ a1); [discriminate|]. bind_inv H. rewrite Hb1. inv H.
  cbn [bind]. eexists. split; [reflexivity|]. eapply fwd_trans; eauto.
Qed.

(** After an item both runs are at the next line that is not blank. *)
Definition at_item (a : str) (t t' : tok) : Prop := fwd a t t' \/ done z t t'.
Lemma item_sim inc w c a t t' d t1 : inc_sim inc -> sims (c :: a) t t' -> neat y z (c :: a) ->
  item_datum inc w c t = Ok (d, t1) -> datum_ok strict d ->
  aborts (item_datum inc w c t') \/
  exists t1', item_datum inc w c t' = Ok (d, t1') /\ at_item (c :: a) t1 t1'.
Proof.
  intros Hi Hs Ht H Hd. unfold item_datum in *.
  assert (B : forall t t', block_end (c :: a) t t' -> at_item (c :: a) t t').
  { intros u u' [(x & b & X1 & X2 & _)|X]; [left; left; exists (x :: b); auto|right; auto]. }
  destruct (is_comment_char c).
  { destruct (parse_comment_sim _ _ Hy Hz _ _ _ _ Hs) as (s & u & u' & E1 & E2 & E3). rewrite E1 in H. rewrite E2.
    inv H. right. eexists. split; [reflexivity|]. left. eapply fwd_trans; [|exact E3]. apply suffix_cons, suffix_refl. }
  destruct (is_numeric w c).
  { bind_inv H. destruct a0 as [x u]. inv H.
    edestruct parse_transaction_sim as [[X1 X2]|(t1' & X1 & X2)]; [exact Hs|exact Ht|exact Hb|apply Hd| |].
    - left. split; auto. rewrite X2. reflexivity.
    - right. rewrite X1. eexists. split; [reflexivity|auto]. }
  destruct (c =? c_eq)%N.
  { bind_inv H. destruct a0 as [x u]. inv H.
    edestruct parse_automated_sim as [[X1 X2]|(t1' & X1 & X2)]; [exact Hs|exact Ht|exact Hb|apply Hd| | |].
    - intros X. destruct Hd as [_ Hd]. specialize (Hd X). apply parse_automated_wf in Hb. destruct Hb. congruence.
    - left. split; auto. rewrite X2. reflexivity.
    - right. rewrite X1. eexists. split; [reflexivity|auto]. }
  right.
  destruct (c =? 105)%N.
  { bind_inv H. destruct a0 as [x u]. inv H. edestruct Hi as (t1' & X1 & X2); [exact Hs|exact Hb|].
    rewrite X1. eexists. split; [reflexivity|left; auto]. }
  destruct (c =? 99)%N.
  { bind_inv H. destruct a0 as [x u]. inv H. edestruct parse_commodity_sim as (t1' & X1 & X2); [exact Hs|exact Hb|].
    rewrite X1. eexists. split; [reflexivity|auto]. }
  destruct (c =? 112)%N.
  { bind_inv H. destruct a0 as [x u]. inv H. edestruct parse_payee_sim as (t1' & X1 & X2); [exact Hs|exact Hb|].
    rewrite X1. eexists. split; [reflexivity|auto]. }
  destruct (c =? 116)%N.
  { bind_inv H. destruct a0 as [x u]. inv H. edestruct parse_tag_sim as (t1' & X1 & X2); [exact Hs|exact Hb|].
    rewrite X1. eexists. split; [reflexivity|auto]. }
  destruct (c =? 97)%N.
  { bind_inv H. destruct a0 as [x u]. inv H. edestruct parse_account_sim as (t1' & X1 & X2); [exact Hs|exact Hb|].
    rewrite X1. eexists. split; [reflexivity|auto]. }
  destruct (c =? 80)%N; [|discriminate].
  bind_inv H. destruct a0 as [x u]. inv H. edestruct parse_price_sim as (t1' & X1 & X2); [exact Hs|exact Hb|].
  rewrite X1. eexists. split; [reflexivity|left; auto].
Qed.

(** The whole text: the second run reads what the first one read, then goes on with the rest. *)
Lemma skip_blank_len r : (length (skip_blank r) <= length r)%nat.
Proof. induction r as [|c r IH]; cbn; auto. destruct (is_ws c); cbn; lia. Qed.
Lemma skip_blank_head r : match skip_blank r with c :: _ => is_ws c = false | [] => True end.
Proof. induction r as [|c r IH]; cbn; auto. destruct (is_ws c) eqn:E; cbn; auto. Qed.
Lemma data_fuel f : forall f' inc w t ds, data_loop f inc w t = Ok ds -> (f <= f')%nat -> data_loop f' inc w t = Ok ds.
Proof.
  clear. induction f as [|f IH]; intros f' inc w t ds H Hf; [discriminate|]. destruct f' as [|f']; [lia|].
  cbn [data_loop] in *. destruct (tk_rest t); auto. destruct (consume_whitespaces_and_lines t) as [[|] t1]; auto.
  destruct (get_char t1); [|apply IH; [auto|lia]]. bind_inv H. destruct a as [d t2]. rewrite Hb. cbn [bind] in *.
  bind_inv H. rewrite (IH f' _ _ _ _ Hb0); [auto|lia].
Qed.
Definition goes_on (f' : nat) inc w (t' : tok) (ds : list datum) : Prop :=
  exists f2 t2, (length (tk_rest t2) < f2)%nat /\ tk_rest t2 = skip_blank (tl z) /\
    (tk_rest t2 = [] \/ tk_col t2 = 0%nat) /\ (nlterm (tk_rest t') -> moves t' t2) /\
    data_loop f' inc w t' = (ds2 <- data_loop f2 inc w t2 ;; Ok (ds ++ ds2)).
Lemma cwl_at_item r : forall pre line, match r with c :: _ => is_ws c = false | [] => True end ->
  cwl r pre line 0 = (Blank, mkt pre r line 0).
Proof.
  intros pre line. destruct r as [|c r]; cbn; auto. intros H. rewrite H.
  destruct (N.eqb_spec c c_nl); [subst; discriminate|reflexivity].
Qed.
Lemma data_sim inc w : inc_sim inc -> (forall t x t', inc t = Ok (x, t') -> moves1 t t') ->
  forall f f' a t t' ds, at_item a t t' -> neat y z a ->
  (length (tk_rest t') < f')%nat ->
  data_loop f inc w t = Ok ds -> Forall (datum_ok strict) ds ->
  aborts (data_loop f' inc w t') \/ goes_on f' inc w t' ds.
Proof.
  intros Hi Hi2. induction f as [|f IH]; intros f' a t t' ds Hs Ht Hf H Hd; [discriminate|].
  destruct f' as [|f']; [lia|]. cbn [data_loop] in H.
  destruct Hs as [Hs|Hs].
  2: { right. destruct Hs as (H1 & H2 & H3). rewrite H1 in H. inv H.
       exists (S f'), t'. do 3 (split; auto). split; [auto with mv|]. cbn [app]. destruct (data_loop (S f') inc w t'); reflexivity. }
  destruct (cwal_sim y z Hy Hz Hm _ _ _ Hs) as (ty & u & u' & E1 & E2 & E3).
  (* once the first run is at its end *)
  assert (Dn : ty = Blank -> done z u u' -> ds = [] -> goes_on (S f') inc w t' ds).
  { intros -> (D1 & D2 & D3) ->. pose proof (cwal_moves _ _ _ E2) as M. apply moves_length in M.
    destruct (tk_rest t') as [|x r] eqn:Er.
    - exists (S f'), t'. assert (Eu : tk_rest u' = []) by (destruct (tk_rest u'); [auto|cbn in M; lia]).
      rewrite Er, <- D2, Eu. do 3 (split; auto). split; [auto with mv|]. cbn. rewrite Er. reflexivity.
    - exists (S f'), u'. split; [lia|]. split; [auto|]. split; [auto|]. split; [intros _; eapply cwal_moves; eauto|]. cbn [app].
      assert (X : data_loop (S f') inc w t' = data_loop (S f') inc w u').
      { cbn [data_loop]. rewrite Er, E2. destruct (tk_rest u') as [|c r2] eqn:Eu.
        - unfold get_char. rewrite Eu. destruct f' as [|f']; [cbn in Hf; lia|]. cbn [data_loop]. rewrite Eu. reflexivity.
        - destruct D3 as [D3|D3]; [discriminate|].
          assert (X : consume_whitespaces_and_lines u' = (Blank, u')).
          { unfold consume_whitespaces_and_lines. rewrite D3, Eu. rewrite cwl_at_item.
            - destruct u' as [a1 a2 a3 a4]. cbn in *. subst. reflexivity.
            - pose proof (skip_blank_head (tl z)) as X. rewrite <- D2 in X. exact X. }
          rewrite X. reflexivity. }
      rewrite X. destruct (data_loop (S f') inc w u'); reflexivity. }
  destruct (tk_rest t) as [|x r] eqn:Er.
  { inv H. right. destruct E3 as [(c & d & Hd1 & E3 & Hw)|[E3 E4]]; [|auto]. exfalso.
    pose proof (cwal_moves _ _ _ E1) as M. apply moves_length in M. destruct E3 as (E3 & _). rewrite Er, E3 in M.
    cbn in M. lia. }
  rewrite E1 in H. destruct ty; [|discriminate].
  destruct E3 as [(c & d & Hd1 & E3 & Hw)|[_ E4]].
  - pose proof (sims_char _ _ _ _ _ _ E3) as [C1 C2]. rewrite C1 in H. bind_inv H. destruct a0 as [dt v]. bind_inv H. inv H.
    inv Hd. edestruct (item_sim inc w) as [[X1 X2]|(v' & X1 & X2)];
      [exact Hi|exact E3|eapply suffix_tidy; eauto|exact Hb|assumption| |].
    + left. split; auto. cbn [data_loop]. destruct (tk_rest t') as [|x' r'] eqn:Er'.
      { exfalso. pose proof (cwal_moves _ _ _ E2) as M. apply moves_length in M. destruct E3 as (_ & E3 & _).
        rewrite Er', E3 in M. cbn in M. lia. }
      rewrite E2, C2, X2. reflexivity.
    + assert (Ei : item_datum inc w c u' = Ok (dt, v')) by exact X1.
      assert (Nr : tk_rest t' <> []).
      { intros Er'. pose proof (cwal_moves _ _ _ E2) as M. apply moves_length in M. destruct E3 as (_ & E3 & _).
        rewrite Er', E3 in M. cbn in M. lia. }
      assert (Es : data_loop (S f') inc w t' = (ds <- data_loop f' inc w v' ;; Ok (dt :: ds))).
      { cbn [data_loop]. destruct (tk_rest t'); [congruence|]. rewrite E2, C2, Ei. reflexivity. }
      assert (Hl : (length (tk_rest v') < f')%nat).
      { assert (Hl : (length (tk_rest v') < length (tk_rest u'))%nat).
        { destruct X2 as [[(b & Hb1 & X2)|X2]|X2].
          - assert (M1 : moves1 u v).
            { eapply (item_moves inc w c pl_new u (apply_datum w pl_new dt) v); eauto.
              - intros ->. destruct Hy as [E|E].
                + exfalso. change (item_datum inc w c_eq u) with
                    ('(x, t1) <- parse_automated w u ;; Ok (DTxn x, t1)) in Hb.
                  bind_inv Hb. destruct a1 as [xx vv]. inv Hb. apply parse_automated_wf in Hb2.
                  match goal with X : datum_ok _ _ |- _ => destruct X as [_ X]; destruct Hb2 as [_ Hb2];
                    rewrite X in Hb2; [discriminate|left; exact E] end.
                + destruct E3 as (E3 & _). rewrite E3, E. right. eexists. reflexivity.
              - rewrite item_is, Hb. reflexivity. }
            pose proof (sims_progress _ _ _ _ _ _ _ _ E3 X2 M1).
            destruct E3 as (_ & E3 & _), X2 as (_ & X2 & _). rewrite E3, X2, !app_length. lia.
          - destruct E3 as (_ & E3 & _), X2 as (_ & X2 & _). rewrite E3, X2. cbn [app length]. rewrite app_length.
            destruct z; cbn; lia.
          - destruct E3 as (_ & E3 & _), X2 as (_ & X2 & _). rewrite E3, X2. cbn [app length]. rewrite app_length.
            pose proof (skip_blank_len (tl z)). destruct z; cbn in *; lia. }
        pose proof (cwal_moves _ _ _ E2) as M. apply moves_length in M. lia. }
      edestruct (IH f' (c :: d) v v') as [[Y1 Y2]|(f2 & t2 & Y1 & Y2 & Y3 & Ym & Y4)];
        [exact X2|eapply suffix_tidy; eauto|exact Hl|exact Hb0|assumption| |].
      * left. split; auto. rewrite Es, Y2. reflexivity.
      * right. exists f2, t2. do 3 (split; auto). split.
        { intros Hn. pose proof (cwal_moves _ _ _ E2) as M.
          assert (M2 : moves1 u' v').
          { eapply (item_moves inc w c pl_new u' (apply_datum w pl_new dt) v'); eauto.
            - intros _. eapply nlterm_moves; eauto.
            - rewrite item_is, Ei. reflexivity. }
          eapply moves_trans; [exact M|]. eapply moves_trans; [apply moves1_moves; exact M2|]. apply Ym.
          eapply nlterm_moves; [apply moves1_moves; exact M2|]. eapply nlterm_moves; eauto. }
        rewrite Es, Y4. destruct (data_loop f2 inc w t2); reflexivity.
  - right. apply Dn; auto. destruct E4 as (E4 & _). unfold get_char in H. rewrite E4 in H.
    destruct f as [|f]; [discriminate|]. cbn [data_loop] in H. rewrite E4 in H. inv H. auto.
Qed.
End Sim.
