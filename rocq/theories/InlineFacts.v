(** Pieces of journal: reading them one after the other, with and without a final newline, through
    include directives or in place. *)
From Coq Require Import Lia.
From Verif Require Import Base BaseFacts Numerals Money Alist Comment Txn Peg Grammar PegFacts Dates Expr Tokens
  TokenFacts SpecList AlistFacts JournalFacts SpecTokens TokenFacts2 SimFacts JournalSim IncludeFacts.
Open Scope Z_scope.

(** ** What the data contribute *)
Definition d_txns (d : datum) := match d with DTxn x => [x] | DInc l => pl_txns l | _ => [] end.
Definition d_prices (d : datum) := match d with DPrice x => [x] | DInc l => pl_prices l | _ => [] end.
Definition d_comments (d : datum) := match d with DComment x => [x] | DInc l => pl_comments l | _ => [] end.
Lemma fold_data w ds : forall l,
  pl_txns (fold_left (apply_datum w) ds l) = pl_txns l ++ flat_map d_txns ds /\
  pl_prices (fold_left (apply_datum w) ds l) = pl_prices l ++ flat_map d_prices ds /\
  pl_comments (fold_left (apply_datum w) ds l) = pl_comments l ++ flat_map d_comments ds.
Proof.
  induction ds as [|d ds IH]; intros l; cbn [fold_left flat_map].
  - rewrite !app_nil_r. auto.
  - destruct (IH (apply_datum w l d)) as (E1 & E2 & E3). rewrite E1, E2, E3.
    destruct d; cbn; rewrite <- ?app_assoc; auto.
Qed.
Lemma tokenize_S d w file seen content : tokenize (S d) w file seen content =
  in_file file (main_loop (S (length content)) (include_parse (fun f seen' c => tokenize d w (Some f) seen' c) w file seen) w pl_new (tok_of content)).
Proof. reflexivity. Qed.
Lemma tokenize_data d w file seen content l : tokenize (S d) w file seen content = Ok l ->
  exists ds, data_loop (S (length content)) (include_parse (fun f seen' c => tokenize d w (Some f) seen' c) w file seen)
               w (tok_of content) = Ok ds /\ l = fold_left (apply_datum w) ds pl_new.
Proof. cbn [tokenize]. intros H. apply in_file_ok in H. rewrite main_loop_is in H. bind_inv H. inv H. eauto. Qed.
Lemma data_closed w ds (strict : Prop) : closed_expressions (fold_left (apply_datum w) ds pl_new) ->
  (forall x, In (DTxn x) ds -> strict -> t_type x = TReal) -> Forall (datum_ok strict) ds.
Proof.
  intros H Hr. destruct (fold_data w ds pl_new) as (E & _ & _). unfold closed_expressions in H. rewrite E in H. cbn in H.
  apply Forall_forall. intros d Hd. destruct d; cbn; auto. split; [|eauto].
  rewrite Forall_forall in H. apply H. apply in_flat_map. exists (DTxn x). split; auto. left. auto.
Qed.

(** ** Texts without lines beginning with some character *)
Lemma data_stands (P : datum -> Prop) inc w content :
  (forall t x t', inc t = Ok (x, t') -> moves1 t t' /\ end_or_margin t') ->
  newline_terminated content \/ ~ line_begins c_eq content ->
  (forall c t d t2, stands content t -> get_char t = Some c -> item_datum inc w c t = Ok (d, t2) -> P d) ->
  forall f t ds, stands content t -> data_loop f inc w t = Ok ds -> Forall P ds.
Proof.
  intros I Hok HP. induction f as [|f IH]; intros t ds Hst H; [discriminate|]. cbn [data_loop] in H.
  destruct (tk_rest t) as [|x r] eqn:Er; [inv H; constructor|].
  destruct (consume_whitespaces_and_lines t) as [[|] t1] eqn:Ew; [|discriminate].
  pose proof (cwal_moves _ _ _ Ew) as M. pose proof (cwal_blank_head _ _ Ew) as Hws.
  pose proof (stands_moves _ _ _ Hst M (cwal_margin _ _ Ew (stands_acc _ _ Hst))) as Hst1.
  destruct (get_char t1) as [c|] eqn:Ec; [|eauto]. bind_inv H. destruct a as [d t2]. bind_inv H. inv H.
  pose proof (get_char_ws _ _ Ec Hws) as Hc.
  constructor; [eauto|]. eapply IH; [|exact Hb0].
  assert (E : item inc w c pl_new t1 = Ok (apply_datum w pl_new d, t2)) by (rewrite item_is, Hb; auto).
  assert (M2 : moves1 t1 t2).
  { eapply item_moves; [|exact Ec|auto| |exact E]. { intros x0 t' X. apply (I _ _ _ X). } intros. eapply stands_eq; eauto. }
  eapply stands_moves; [exact Hst1|auto with mv|]. eapply item_margin; [|exact E]. intros x0 t' X. apply (I _ _ _ X).
Qed.
Lemma stands_begins content t c : stands content t -> get_char t = Some c -> line_begins c content.
Proof.
  intros [H Hm] Hc. unfold get_char in Hc. destruct (tk_rest t) as [|d r] eqn:E; inv Hc.
  exists (rev (tk_pre t)), r. split; auto. destruct Hm as [Hm|[_ Hm]]; [congruence|]. apply line_start_rev. auto.
Qed.
(** Automated transactions begin with an equals sign. *)
Lemma data_real inc w content f ds :
  (forall t x t', inc t = Ok (x, t') -> moves1 t t' /\ end_or_margin t') ->
  ~ line_begins c_eq content -> data_loop f inc w (tok_of content) = Ok ds ->
  forall x, In (DTxn x) ds -> t_type x = TReal.
Proof.
  intros I Hn H x Hx.
  assert (F : Forall (fun d => match d with DTxn x => t_type x = TReal | _ => True end) ds).
  { eapply data_stands; [exact I|right; exact Hn| |apply stands_start|exact H].
    intros c t d t2 Hs Hc E. assert (Hne : (c =? c_eq)%N = false).
    { apply N.eqb_neq. intros ->. apply Hn. eapply stands_begins; eauto. }
    unfold item_datum in E. rewrite Hne in E.
    destruct (is_comment_char c). { destruct (parse_comment t). inv E. auto. }
    destruct (is_numeric w c). { bind_inv E. destruct a. inv E. eapply parse_transaction_wf; eauto. }
    repeat match type of E with (if ?b then _ else _) = _ => destruct b; [bind_inv E; destruct a; inv E; auto|] end.
    discriminate. }
  rewrite Forall_forall in F. apply (F _ Hx).
Qed.
(** Without include directives the handler does not matter. *)
Lemma data_inc inc inc' w content :
  newline_terminated content -> ~ line_begins 105 content ->
  forall f t, stands content t -> data_loop f inc w t = data_loop f inc' w t.
Proof.
  intros Hok Hn. induction f as [|f IH]; intros t Hst; [auto|]. cbn [data_loop].
  destruct (tk_rest t) as [|x r] eqn:Er; [auto|].
  destruct (consume_whitespaces_and_lines t) as [[|] t1] eqn:Ew; [|auto].
  pose proof (cwal_moves _ _ _ Ew) as M. pose proof (cwal_blank_head _ _ Ew) as Hws.
  pose proof (stands_moves _ _ _ Hst M (cwal_margin _ _ Ew (stands_acc _ _ Hst))) as Hst1.
  destruct (get_char t1) as [c|] eqn:Ec; [|auto].
  assert (Hc : c <> 105%N). { intros ->. apply Hn. eapply stands_begins; eauto. }
  rewrite (item_datum_inc inc inc'); auto. destruct (item_datum inc' w c t1) as [[d t2]|?|?] eqn:E; cbn [bind]; auto.
  rewrite (IH t2); auto.
  rewrite (item_datum_inc inc' pass_include) in E; auto.
  assert (E2 : item pass_include w c pl_new t1 = Ok (apply_datum w pl_new d, t2)) by (rewrite item_is, E; auto).
  assert (M2 : moves1 t1 t2).
  { eapply item_moves; [|exact Ec|eapply get_char_ws; eauto| |exact E2].
    { intros x0 t' X. apply pass_include_margin in X. tauto. } intros. eapply stands_eq; eauto. }
  eapply stands_moves; [exact Hst1|auto with mv|]. eapply item_margin; [|exact E2].
  intros x0 t' X. apply pass_include_margin in X. tauto.
Qed.

(** ** Reading from any place *)
Definition reads (inc : tok -> res (pledger * tok)) (w : world) (s : str) (ds : list datum) : Prop :=
  forall t f, tk_rest t = s -> tk_col t = O -> (length s < f)%nat -> data_loop f inc w t = Ok ds.
Definition good_inc (inc : tok -> res (pledger * tok)) : Prop :=
  (forall y z, (y = [] \/ y = [c_nl]) -> (z = [] \/ exists r, z = c_nl :: r) -> inc_sim y z inc) /\
  (forall t x t', inc t = Ok (x, t') -> moves1 t t').
Lemma good_include tk w file seen : good_inc (include_parse tk w file seen).
Proof. split; [intros; apply include_sim; auto|intros; eapply include_parse_moves; eauto]. Qed.
Definition starts_flush (s : str) : Prop := match s with c :: _ => is_ws c = false | [] => True end.
Lemma flush_unindented s : starts_flush s -> unindented s /\ skip_blank s = s.
Proof.
  destruct s as [|c s]; [cbn; auto|]. cbn [starts_flush skip_blank]. intros H. rewrite H. split; auto.
  unfold unindented. cbn. destruct (N.eqb_spec c c_nl); [subst; discriminate|]. rewrite ?H. auto.
Qed.
Lemma strict_no : ~ ([c_nl] = [] \/ forall r : str, c_nl :: r = []).
Proof. intros [H|H]; [discriminate|]. specialize (H []). discriminate. Qed.

(** A piece followed by other text. *)
Lemma piece_then inc w a0 b ds f t : good_inc inc -> tidy a0 -> starts_flush b ->
  data_loop (S (length (a0 ++ [c_nl]))) inc w (tok_of (a0 ++ [c_nl])) = Ok ds ->
  Forall (datum_ok False) ds ->
  tk_rest t = a0 ++ c_nl :: b -> tk_col t = O -> (length (tk_rest t) < f)%nat ->
  exists f2 t2, (length (tk_rest t2) < f2)%nat /\ tk_rest t2 = b /\ (b = [] \/ tk_col t2 = O) /\
    (nlterm (tk_rest t) -> moves t t2) /\
    data_loop f inc w t = (ds2 <- data_loop f2 inc w t2 ;; Ok (ds ++ ds2)).
Proof.
  intros [G1 G2] Ht Hb H Hd Er Ec Hf. destruct (flush_unindented b Hb) as [U1 U2].
  assert (Hy : [c_nl] = [] \/ [c_nl] = [c_nl]) by auto.
  assert (Hz : c_nl :: b = [] \/ exists r, c_nl :: b = c_nl :: r) by eauto.
  destruct (data_sim [c_nl] (c_nl :: b) Hy Hz U1 inc w (G1 _ _ Hy Hz) G2 (S (length (a0 ++ [c_nl]))) f a0 (tok_of (a0 ++ [c_nl])) t ds)
    as [[X _]|(f2 & t2 & X1 & X2 & X3 & Xm & X4)].
  - left. left. exists a0. split; [apply suffix_refl|]. repeat split; auto.
  - right. exact Ht.
  - exact Hf.
  - exact H.
  - eapply Forall_impl; [|exact Hd]. intros d Hx. destruct d; cbn in *; auto. destruct Hx as [Hx _]. split; auto.
    intros [X|X]; discriminate.
  - discriminate.
  - cbn [tl] in X2. rewrite U2 in X2. exists f2, t2. split; auto. split; auto. split; [rewrite X2 in X3; auto|auto].
Qed.
Lemma reads_app inc w a0 b dsa dsb : good_inc inc -> tidy a0 -> starts_flush b ->
  data_loop (S (length (a0 ++ [c_nl]))) inc w (tok_of (a0 ++ [c_nl])) = Ok dsa -> Forall (datum_ok False) dsa ->
  reads inc w b dsb -> reads inc w (a0 ++ c_nl :: b) (dsa ++ dsb).
Proof.
  intros G Ht Hb H Hd Hr t f Er Ec Hf. rewrite <- Er in Hf.
  destruct (piece_then inc w a0 b dsa f t G Ht Hb H Hd Er Ec Hf) as (f2 & t2 & X1 & X2 & X3 & _ & X4). rewrite X4.
  destruct X3 as [->|X3].
  - assert (E : dsb = []).
    { assert (E := Hr (tok_of []) 1%nat eq_refl eq_refl ltac:(cbn; lia)). cbn in E. congruence. }
    subst. destruct f2; [lia|]. cbn [data_loop]. rewrite X2. reflexivity.
  - rewrite (Hr t2 f2 X2 X3); [reflexivity|rewrite <- X2; auto].
Qed.
Lemma reads_nil inc w : reads inc w [] [].
Proof. intros t f H _ Hf. destruct f; [cbn in Hf; lia|]. cbn. rewrite H. auto. Qed.

(** ** Pieces *)
Lemma piece_data w a inc : piece w a ->
  exists a0 ds, a = a0 ++ [c_nl] /\ tidy a0 /\
    data_loop (S (length a)) inc w (tok_of a) = Ok ds /\ Forall (datum_ok False) ds.
Proof.
  intros ((c & r & E & Hc) & Hn & Ht & Hi & (l & Hl & Hx)).
  destruct Hn as [Hn|(a0 & Hn)]; [congruence|]. unfold tokenize_string in Hl. apply tokenize_data in Hl.
  destruct Hl as (ds & H1 & ->). exists a0, ds. split; auto. split; [|split].
  - intros x d E2 Hd. apply (Ht x); auto. rewrite Hn, E2, <- app_assoc. auto.
  - rewrite <- H1. apply (data_inc inc _ w a); auto; [right; exists a0; auto|apply stands_start].
  - eapply data_closed; eauto. contradiction.
Qed.
Scheme inlined_ind2 := Minimality for inlined Sort Prop
  with inlined_all_ind2 := Minimality for inlined_all Sort Prop.
Combined Scheme inlined_mut from inlined_ind2, inlined_all_ind2.
Lemma inlined_flush w :
  (forall file s s', inlined w file s s' -> starts_flush s /\ starts_flush s') /\
  (forall gs ts, inlined_all w gs ts -> starts_flush ts).
Proof.
  apply inlined_mut; cbn; auto.
  - intros file a s s' ((c & r & -> & Hc) & _) _ _. cbn. auto.
  - intros file line files texts s s' _ _ _ H _ [_ H2]. split; auto. destruct texts; cbn; auto.
  - intros g c gs text texts _ _ [_ H] _ H2. destruct text; cbn; auto.
Qed.
Definition same_kinds (ds ds' : list datum) : Prop :=
  flat_map d_txns ds = flat_map d_txns ds' /\ flat_map d_prices ds = flat_map d_prices ds' /\
  flat_map d_comments ds = flat_map d_comments ds'.
Lemma flush_or_nil_app inc w ta tb dsa dsb : good_inc inc ->
  (ta = [] \/ exists a0, ta = a0 ++ [c_nl] /\ tidy a0) -> starts_flush tb ->
  reads inc w ta dsa -> Forall (datum_ok False) dsa -> reads inc w tb dsb -> reads inc w (ta ++ tb) (dsa ++ dsb).
Proof.
  intros G [->|(a0 & -> & Ht)] Hb Ha Hd Hr.
  - assert (E : dsa = []).
    { assert (E := Ha (tok_of []) 1%nat eq_refl eq_refl ltac:(cbn; lia)). cbn in E. congruence. }
    subst. auto.
  - rewrite <- app_assoc. cbn [app]. apply reads_app; auto.
Qed.
Definition ended (t : str) : Prop := t = [] \/ exists a0, t = a0 ++ [c_nl] /\ tidy a0.
Lemma ended_app a b : ended a -> ended b -> ended (a ++ b).
Proof.
  intros Ha [->|(b0 & -> & Hb)]; [rewrite app_nil_r; auto|]. right. exists (a ++ b0). split; [apply app_assoc|].
  intros x c E Hc. destruct b0 as [|d b0 _] using rev_ind.
  - rewrite app_nil_r in E. destruct Ha as [->|(a0 & -> & Ha)]; [destruct x; discriminate|].
    apply app_inj_tail in E. destruct E as [_ <-]. auto.
  - rewrite app_assoc in E. apply app_inj_tail in E. destruct E as [_ <-]. eapply Hb; eauto.
Qed.

Section Inline.
Variable w : world.
Variable noinc : tok -> res (pledger * tok).
Hypothesis Hno : good_inc noinc.
Notation tk d := (fun f seen' c => tokenize d w (Some f) seen' c).
Lemma inline_data :
  (forall file s s', inlined w file s s' -> forall d seen f t ds, tk_rest t = s -> (s = [] \/ tk_col t = O) ->
     data_loop f (include_parse (tk d) w file seen) w t = Ok ds ->
     ended s' /\ exists ds', reads noinc w s' ds' /\ same_kinds ds ds' /\ Forall (datum_ok False) ds') /\
  (forall gs ts, inlined_all w gs ts -> forall d seen i l,
     foldM (fun items f =>
           match w_read w f with
           | None => Panic PExplicit
           | Some content => new <- tk d f (sadd str_eqb f seen) content ;; Ok (pl_append items new)
           end) i gs = Ok l ->
     ended ts /\ exists ds', reads noinc w ts ds' /\ Forall (datum_ok False) ds' /\
       pl_txns l = pl_txns i ++ flat_map d_txns ds' /\ pl_prices l = pl_prices i ++ flat_map d_prices ds' /\
       pl_comments l = pl_comments i ++ flat_map d_comments ds').
Proof.
  apply inlined_mut.
  - intros file d seen f t ds Er Ec H. split; [left; auto|]. exists [].
    split; [apply reads_nil|]. destruct f; [discriminate|]. cbn in H. rewrite Er in H. inv H. repeat split; auto.
  - intros file a s s' Hp Hin IH d seen f t ds Er Ec H.
    destruct (piece_data w a (include_parse (tk d) w file seen) Hp) as (a0 & dsa & Ea & Ht & Hd & Hcl).
    destruct (piece_data w a noinc Hp) as (a0' & dsa' & Ea' & Ht' & Hd' & Hcl').
    destruct (proj1 (inlined_flush w) _ _ _ Hin) as [F1 F2].
    assert (dsa' = dsa).
    { rewrite (data_inc noinc (include_parse (tk d) w file seen) w a) in Hd'; [congruence| | |apply stands_start].
      - right. exists a0. auto.
      - apply Hp. }
    subst dsa'. subst a. apply app_inj_tail in Ea'. destruct Ea' as [<- _].
    rewrite <- app_assoc in Er. cbn [app] in Er.
    assert (Hcol : tk_col t = O). { destruct Ec as [Ec|Ec]; auto. destruct a0; discriminate. }
    destruct (piece_then _ w a0 s dsa (S (f + length (tk_rest t))) t (good_include (tk d) w file seen) Ht F1 Hd Hcl Er Hcol ltac:(lia))
      as (f2 & t2 & X1 & X2 & X3 & _ & X4).
    rewrite (data_fuel f _ _ _ _ _ H) in X4; [|lia]. symmetry in X4. bind_inv X4. inv X4.
    destruct (IH d seen f2 t2 a eq_refl X3 Hb) as (En & ds' & R1 & (K1 & K2 & K3) & R3).
    split.
    + apply ended_app; auto. right. eauto.
    + exists (dsa ++ ds'). split.
      * rewrite <- app_assoc. cbn [app]. apply reads_app; auto.
      * split; [|apply Forall_app; auto]. unfold same_kinds. rewrite !flat_map_app, K1, K2, K3. auto.
  - intros file line files texts s s' Hnl Hg Hall IHall Hin IH d seen f t ds Er Ec H.
    assert (Hcol : tk_col t = O). { destruct Ec as [Ec|Ec]; [discriminate|auto]. }
    destruct f as [|f]; [discriminate|]. cbn [data_loop] in H.
    assert (Ew : consume_whitespaces_and_lines t = (Blank, t)).
    { unfold consume_whitespaces_and_lines. rewrite Hcol, Er. rewrite cwl_at_item by reflexivity.
      destruct t as [p r l k]. cbn in *. subst. auto. }
    assert (Eg : get_char t = Some 105%N). { unfold get_char. rewrite Er. reflexivity. }
    rewrite Ew, Eg in H. rewrite Er in H. cbn [L app] in H.
    rewrite item_datum_i in H. bind_inv H. destruct a as [x0 t2]. bind_inv Hb. destruct a as [x1 t3]. inv Hb.
    bind_inv H. inv H. unfold include_parse in Hb0.
    destruct (consume_include (line ++ c_nl :: s) t Er) as (v & V1 & V2). rewrite V1 in Hb0. cbn [bind] in Hb0.
    assert (Hedge : forall s t4, get_line v = (s, t4) -> end_or_margin t4) by (intros; eapply get_line_edge; eauto).
    unfold get_line in Hb0, Hedge. rewrite V2 in Hb0, Hedge.
    destruct (gline_line line Hnl (c_nl :: s) (tk_pre v) (tk_line v) (tk_col v) ltac:(eauto)) as (v2 & V3 & V4). rewrite V3 in Hb0.
    specialize (Hedge _ _ V3). rewrite Hg in Hb0. cbn [unwrap bind] in Hb0.
    destruct (find _ files); [discriminate|]. bind_inv Hb0. inv Hb0.
    destruct (IHall d seen pl_new x1 Hb1) as (En1 & ds1 & R1 & R2 & K1 & K2 & K3). cbn in K1, K2, K3.
    cbn [tl] in V4.
    destruct (IH d seen f t2 a V4) with (2 := Hb) as (En2 & ds2 & Q1 & (Q2 & Q3 & Q4) & Q5).
    { destruct Hedge as [E|[E _]]; [left; congruence|right; auto]. }
    split; [apply ended_app; auto|]. exists (ds1 ++ ds2).
    split.
    + apply flush_or_nil_app; auto. apply (proj1 (inlined_flush w) _ _ _ Hin).
    + split; [|apply Forall_app; auto]. unfold same_kinds. rewrite !flat_map_app. cbn [flat_map d_txns d_prices d_comments].
      rewrite K1, K2, K3, Q2, Q3, Q4. auto.
  - intros d seen i l H. cbn in H. inv H. split; [left; auto|]. exists []. split; [apply reads_nil|].
    cbn. rewrite !app_nil_r. auto.
  - intros g c gs text texts Hr Hin IH Hall IHall d seen i l H. cbn in H. bind_inv H. rewrite Hr in Hb. bind_inv Hb. inv Hb.
    destruct d as [|d]; [discriminate|]. apply tokenize_data in Hb0. destruct Hb0 as (dsg & E1 & ->).
    destruct (IH d (sadd str_eqb g seen) (S (length c)) (tok_of c) dsg eq_refl (or_intror eq_refl) E1) as (En1 & ds1 & R1 & (K1 & K2 & K3) & R3).
    destruct (IHall (S d) seen _ _ H) as (En2 & ds2 & Q1 & Q2 & Q3 & Q4 & Q5).
    split; [apply ended_app; auto|]. exists (ds1 ++ ds2). split.
    + apply flush_or_nil_app; auto. apply (proj2 (inlined_flush w) _ _ Hall).
    + split; [apply Forall_app; auto|]. rewrite Q3, Q4, Q5. cbn.
      destruct (fold_data w dsg pl_new) as (G1 & G2 & G3). rewrite G1, G2, G3, K1, K2, K3, !flat_map_app, <- !app_assoc. auto.
Qed.
End Inline.

Lemma inline_ok w file content text depth seen l : inlined w file content text ->
  tokenize depth w file seen content = Ok l ->
  exists l', tokenize_string 1 w text = Ok l' /\
    pl_txns l' = pl_txns l /\ pl_prices l' = pl_prices l /\ pl_comments l' = pl_comments l.
Proof.
  intros Hin H. destruct depth as [|d]; [discriminate|]. apply tokenize_data in H. destruct H as (ds & E & ->).
  set (noinc := include_parse (fun f seen' c => tokenize 0 w (Some f) seen' c) w None []).
  assert (Hno : good_inc noinc) by apply good_include.
  destruct (proj1 (inline_data w noinc Hno) _ _ _ Hin d seen (S (length content)) (tok_of content) ds eq_refl (or_intror eq_refl) E) as (_ & ds' & R & (K1 & K2 & K3) & _).
  exists (fold_left (apply_datum w) ds' pl_new). unfold tokenize_string. rewrite tokenize_S, main_loop_is. fold noinc.
  rewrite (R (tok_of text) (S (length text)) eq_refl eq_refl ltac:(lia)). cbn [bind]. split; auto.
  destruct (fold_data w ds pl_new) as (G1 & G2 & G3). destruct (fold_data w ds' pl_new) as (F1 & F2 & F3).
  rewrite G1, G2, G3, F1, F2, F3, K1, K2, K3. auto.
Qed.

(** ** The final newline *)
Lemma newline_added depth w file seen s l : tokenize depth w file seen s = Ok l ->
  ~ line_begins c_eq s -> closed_expressions l -> tokenize depth w file seen (s ++ [c_nl]) = Ok l.
Proof.
  intros H Hn Hc. destruct depth as [|d]; [discriminate|]. apply tokenize_data in H. destruct H as (ds & E & ->).
  set (inc := include_parse _ w file seen) in *.
  assert (I : forall t x t', inc t = Ok (x, t') -> moves1 t t' /\ end_or_margin t').
  { intros t x t' X. split; [eapply include_parse_moves; eauto|eapply include_parse_margin; eauto]. }
  pose proof (data_real inc w s _ ds I Hn E) as Hreal.
  cbn [tokenize]. apply in_file_ok. rewrite main_loop_is. fold inc.
  destruct (good_include (fun f seen' c => tokenize d w (Some f) seen' c) w file seen) as [G1 G2].
  assert (Hy : @nil N = [] \/ @nil N = [c_nl]) by auto.
  assert (Hz : [c_nl] = [] \/ exists r, [c_nl] = c_nl :: r) by eauto.
  destruct (data_sim [] [c_nl] Hy Hz Logic.I inc w (G1 _ _ Hy Hz) G2 (S (length s)) (S (length (s ++ [c_nl]))) s (tok_of s) (tok_of (s ++ [c_nl])) ds)
    as [[X _]|(f2 & t2 & X1 & X2 & X3 & _ & X4)].
  - left. left. exists s. split; [apply suffix_refl|]. repeat split; cbn; auto. symmetry. apply app_nil_r.
  - left. left. auto.
  - cbn. lia.
  - exact E.
  - eapply data_closed; eauto.
  - discriminate.
  - rewrite X4. cbn in X2. destruct f2; [lia|]. cbn [data_loop]. rewrite X2. cbn. rewrite app_nil_r. auto.
Qed.
Lemma newline_removed depth w file seen s l : tokenize depth w file seen (s ++ [c_nl]) = Ok l ->
  ~ line_begins c_eq (s ++ [c_nl]) -> closed_expressions l ->
  tokenize depth w file seen s = Ok l \/ tokenize depth w file seen s = Panic PExplicit.
Proof.
  intros H Hn Hc. destruct depth as [|d]; [discriminate|]. apply tokenize_data in H. destruct H as (ds & E & ->).
  set (inc := include_parse _ w file seen) in *.
  assert (I : forall t x t', inc t = Ok (x, t') -> moves1 t t' /\ end_or_margin t').
  { intros t x t' X. split; [eapply include_parse_moves; eauto|eapply include_parse_margin; eauto]. }
  pose proof (data_real inc w _ _ ds I Hn E) as Hreal.
  rewrite tokenize_S, main_loop_is, in_file_ok, in_file_panic. fold inc.
  destruct (good_include (fun f seen' c => tokenize d w (Some f) seen' c) w file seen) as [G1 G2].
  assert (Hy : [c_nl] = [] \/ [c_nl] = [c_nl]) by auto.
  assert (Hz : @nil N = [] \/ exists r, @nil N = c_nl :: r) by eauto.
  destruct (data_sim [c_nl] [] Hy Hz Logic.I inc w (G1 _ _ Hy Hz) G2 (S (length (s ++ [c_nl]))) (S (length s)) s (tok_of (s ++ [c_nl])) (tok_of s) ds)
    as [[_ X]|(f2 & t2 & X1 & X2 & X3 & _ & X4)].
  - left. left. exists s. split; [apply suffix_refl|]. repeat split; cbn; auto. symmetry. apply app_nil_r.
  - left. right. auto.
  - cbn. lia.
  - exact E.
  - eapply data_closed; eauto.
  - right. fold inc in X. rewrite X. reflexivity.
  - left. rewrite X4. cbn in X2. destruct f2; [lia|]. cbn [data_loop]. rewrite X2. cbn. rewrite app_nil_r. auto.
Qed.
