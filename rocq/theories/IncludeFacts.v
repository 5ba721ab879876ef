(** The include graph and inlining. *)
From Coq Require Import Lia.
From Verif Require Import Base BaseFacts Numerals Money Alist Comment Txn Peg Grammar PegFacts Dates Expr Tokens
  TokenFacts SpecList AlistFacts JournalFacts SpecTokens TokenFacts2 SimFacts JournalSim.
Open Scope Z_scope.

(** ** Two handlers of the include directive *)
Lemma item_datum_inc inc inc' w c t : c <> 105%N -> item_datum inc w c t = item_datum inc' w c t.
Proof.
  intros H. unfold item_datum. apply N.eqb_neq in H. rewrite H. reflexivity.
Qed.
Lemma item_datum_i inc w t : item_datum inc w 105 t = ('(x, t1) <- inc t ;; Ok (DInc x, t1)).
Proof. reflexivity. Qed.
Lemma item_next inc inc' w c l l' t x t1 x' t1' :
  (forall y u y' u', inc t = Ok (y, u) -> inc' t = Ok (y', u') -> u = u') ->
  item inc w c l t = Ok (x, t1) -> item inc' w c l' t = Ok (x', t1') -> t1 = t1'.
Proof.
  intros Hi. rewrite !item_is. destruct (N.eq_dec c 105) as [->|Hc].
  - rewrite !item_datum_i. destruct (inc t) as [[y u]|?|?] eqn:E; cbn; try discriminate.
    destruct (inc' t) as [[y' u']|?|?] eqn:E'; cbn; try discriminate. intros H H'. inv H. inv H'. eauto.
  - rewrite (item_datum_inc inc inc'); auto. destruct (item_datum inc' w c t) as [[d u]|?|?]; cbn; try discriminate.
    intros H H'. inv H. inv H'. auto.
Qed.
(** Both stop after the line. *)
Lemma include_pass tk w file seen t x t1 : include_parse tk w file seen t = Ok (x, t1) ->
  pass_include t = Ok (pl_new, t1).
Proof.
  unfold include_parse, pass_include. intros H. bind_inv H. rewrite Hb. cbn. destruct (get_line a) as [line t2].
  bind_inv H. destruct (find _ a0); [discriminate|]. bind_inv H. inv H. auto.
Qed.

(** A run that succeeds comes to every position. *)
Lemma run_position inc w content f0 l0 l' :
  (forall t x t1, inc t = Ok (x, t1) -> pass_include t = Ok (pl_new, t1)) ->
  main_loop f0 inc w l0 (tok_of content) = Ok l' ->
  forall t, position pass_include w content t -> exists f l, main_loop f inc w l t = Ok l'.
Proof.
  intros Hi H0 t H. induction H as [|t t1 c l1 l2 t2 H IH Ew Ec E]; [eauto|].
  destruct IH as (f & l & IH). destruct f as [|f]; [discriminate|]. cbn [main_loop] in IH.
  destruct (tk_rest t) as [|x r] eqn:Er.
  { exfalso. unfold consume_whitespaces_and_lines in Ew. rewrite Er in Ew. inv Ew. discriminate. }
  rewrite Ew, Ec in IH. bind_inv IH. destruct a as [l3 t3].
  assert (t2 = t3).
  { eapply item_next; [|exact E|exact Hb]. intros y u y' u' E1 E2. apply Hi in E2. congruence. }
  subst. eauto.
Qed.
Lemma gline_line line : ~ In c_nl line -> forall r pre ln col, (r = [] \/ exists r', r = c_nl :: r') ->
  exists t, gline (line ++ r) pre ln col = (line, t) /\ tk_rest t = tl r.
Proof.
  induction line as [|c line IH]; intros Hn r pre ln col Hr; cbn [app gline].
  - destruct Hr as [->|(r' & ->)]; cbn; eauto.
  - destruct (N.eqb_spec c c_nl); [exfalso; apply Hn; left; auto|].
    destruct (IH ltac:(intros X; apply Hn; right; auto) r (c :: pre) ln col Hr) as (t & E1 & E2). rewrite E1. eauto.
Qed.
Lemma consume_include r t : tk_rest t = L "include " ++ r ->
  exists t1, consume_str (L "include ") t = Ok t1 /\ tk_rest t1 = r.
Proof.
  generalize (L "include "). intros s. revert t. induction s as [|c s IH]; intros t H; cbn [consume_str].
  - eauto.
  - rewrite H. cbn [app]. rewrite N.eqb_refl. apply IH. unfold adv. rewrite H. auto.
Qed.
(** What a successful run did with an include directive. *)
Lemma run_include tk w file seen content f0 l0 l' line :
  main_loop f0 (include_parse tk w file seen) w l0 (tok_of content) = Ok l' ->
  include_line w content line ->
  exists files l, w_glob w (include_pattern file line) = Some files /\
    (forall g, In g files -> existsb (str_eqb g) seen = false) /\
    include_files tk w seen files = Ok l.
Proof.
  intros H (t & t1 & r & Hp & Ew & Er & Hn & Hr).
  destruct (run_position _ _ _ _ _ _ (include_pass tk w file seen) H t Hp) as (f & l & E).
  destruct f as [|f]; [discriminate|]. cbn [main_loop] in E.
  destruct (tk_rest t) as [|x r0] eqn:Ert.
  { exfalso. unfold consume_whitespaces_and_lines in Ew. rewrite Ert in Ew. inv Ew. cbn in Er. discriminate. }
  rewrite Ew in E. unfold get_char in E. rewrite Er in E. cbn [L app] in E. bind_inv E. destruct a as [l1 t2].
  clear E. change (L "include ") with (105%N :: tl (L "include ")) in Er. rewrite item_is in Hb.
  match type of Hb with context [item_datum _ _ ?c _] => change c with 105%N in Hb end.
  rewrite item_datum_i in Hb. bind_inv Hb. destruct a as [d u]. bind_inv Hb0. destruct a as [x0 u0]. clear Hb Hb0.
  unfold include_parse in Hb1. destruct (consume_include (line ++ r) t1 Er) as (v & V1 & V2). rewrite V1 in Hb1. cbn [bind] in Hb1.
  unfold get_line in Hb1. rewrite V2 in Hb1.
  destruct (gline_line line Hn r (tk_pre v) (tk_line v) (tk_col v) Hr) as (v2 & V3 & _). rewrite V3 in Hb1.
  destruct (w_glob w (include_pattern file line)) as [files|]; [|discriminate]. cbn [unwrap bind] in Hb1.
  destruct (find _ files) eqn:Ef; [discriminate|]. bind_inv Hb1. exists files, a. split; auto. split; auto.
  intros g Hg. apply (find_none _ _ Ef _ Hg).
Qed.
Lemma include_files_all tk w seen files : forall i l,
  foldM (fun items f =>
           match w_read w f with
           | None => Panic PExplicit
           | Some content => new <- tk f (sadd str_eqb f seen) content ;; Ok (pl_append items new)
           end) i files = Ok l ->
  forall g, In g files -> exists c lg, w_read w g = Some c /\ tk g (sadd str_eqb g seen) c = Ok lg.
Proof.
  induction files as [|f files IH]; intros i l H g Hg; [contradiction|]. cbn in H. bind_inv H.
  destruct (w_read w f) as [c|] eqn:Er; [|discriminate]. bind_inv Hb. inv Hb. destruct Hg as [->|Hg]; eauto.
Qed.

(** [g] was read with success, on the way [seen]. *)
Definition was_read (w : world) (g : str) (seen : list str) : Prop :=
  exists d c l, w_read w g = Some c /\ tokenize d w (Some g) seen c = Ok l /\ existsb (str_eqb g) seen = true.
Lemma was_read_names w d file seen content l g : tokenize d w file seen content = Ok l -> names w file content g ->
  existsb (str_eqb g) seen = false /\ was_read w g (sadd str_eqb g seen).
Proof.
  intros H (line & files & Hi & Hg & Hin). destruct d as [|d]; [discriminate|]. cbn [tokenize] in H. apply in_file_ok in H.
  destruct (run_include _ _ _ _ _ _ _ _ _ H Hi) as (files' & l1 & E1 & E2 & E3).
  assert (files' = files) by congruence. subst. split; [auto|].
  destruct (include_files_all _ _ _ _ _ _ E3 g Hin) as (c & lg & F1 & F2). exists d, c, lg. split; auto. split; auto.
  rewrite existsb_sadd. destruct (str_eqb_spec g g); [apply orb_true_r|congruence].
Qed.
Lemma was_read_step w f seen g : was_read w f seen -> includes w f g ->
  existsb (str_eqb g) seen = false /\ was_read w g (sadd str_eqb g seen).
Proof.
  intros (d & c & l & H1 & H2 & H3) (c' & H4 & H5). assert (c' = c) by congruence. subst.
  eapply was_read_names; eauto.
Qed.
Lemma was_read_far w g h : reachable w g h -> forall seen, was_read w g seen ->
  exists seen', was_read w h seen' /\ forall x, existsb (str_eqb x) seen = true -> existsb (str_eqb x) seen' = true.
Proof.
  induction 1 as [g|g g' h Hg Hr IH]; intros seen H; [eauto|].
  destruct (was_read_step _ _ _ _ H Hg) as [H1 H2]. destruct (IH _ H2) as (s' & H3 & H4). exists s'. split; auto.
  intros x Hx. apply H4. rewrite existsb_sadd, Hx. auto.
Qed.
Lemma was_read_back w g h : reachable w g h -> forall seen, was_read w g seen ->
  existsb (str_eqb h) seen = true -> g = h.
Proof.
  induction 1 as [g|g g' h Hg Hr IH]; intros seen H Hs; [auto|].
  destruct (was_read_step _ _ _ _ H Hg) as [H1 H2].
  assert (g' = h). { eapply IH; eauto. rewrite existsb_sadd, Hs. auto. }
  subst. congruence.
Qed.
Lemma was_read_acyclic w g seen : was_read w g seen -> ~ on_cycle w g.
Proof.
  intros H (g' & Hg & Hr). destruct (was_read_step _ _ _ _ H Hg) as [H1 H2].
  assert (Hs : existsb (str_eqb g) seen = true) by (destruct H as (d & c & l & _ & _ & H); auto).
  assert (g' = g). { eapply was_read_back; eauto. rewrite existsb_sadd, Hs. auto. }
  subst. congruence.
Qed.

(** ** When only a cycle can be wrong *)
Definition ok_or_loop {A} (m : res A) : Prop := (exists a, m = Ok a) \/ exists f p, m = Err (EParser (IncludeLoop f) p).
Lemma pass_step inc w c l l2 t x t1 : item pass_include w c l t = Ok (x, t1) ->
  (c = 105%N -> ok_or_loop (inc t) /\ forall y u, inc t = Ok (y, u) -> u = t1) ->
  (exists x', item inc w c l2 t = Ok (x', t1)) \/ exists f p, item inc w c l2 t = Err (EParser (IncludeLoop f) p).
Proof.
  intros H Hi. rewrite item_is in *. destruct (N.eq_dec c 105) as [->|Hc].
  - rewrite item_datum_i. destruct (Hi eq_refl) as [[([y u] & E)|(f & p & E)] Hu]; rewrite E; cbn; eauto.
    rewrite (Hu _ _ E). eauto.
  - rewrite (item_datum_inc inc pass_include); auto. destruct (item_datum pass_include w c t) as [[d u]|?|?]; cbn in *; inv H.
    eauto.
Qed.
Lemma pass_run inc w content : (forall t t1, position pass_include w content t ->
    consume_whitespaces_and_lines t = (Blank, t1) -> forall x u, pass_include t1 = Ok (x, u) ->
    ok_or_loop (inc t1) /\ forall y v, inc t1 = Ok (y, v) -> v = u) ->
  forall f l l2 t l', position pass_include w content t -> main_loop f pass_include w l t = Ok l' ->
  ok_or_loop (main_loop f inc w l2 t).
Proof.
  intros Hi. induction f as [|f IH]; intros l l2 t l' Hp H; [discriminate|]. cbn [main_loop] in *.
  destruct (tk_rest t) as [|x r] eqn:Er; [left; eauto|].
  destruct (consume_whitespaces_and_lines t) as [[|] t1] eqn:Ew; [|discriminate].
  destruct (get_char t1) as [c|] eqn:Ec.
  - bind_inv H. destruct a as [l3 t3].
    assert (Hp3 : position pass_include w content t3) by (eapply pos_item; eauto).
    assert (Hi1 : c = 105%N -> ok_or_loop (inc t1) /\ forall y u, inc t1 = Ok (y, u) -> u = t3).
    { intros ->. rewrite item_is, item_datum_i in Hb. bind_inv Hb. destruct a. bind_inv Hb0. destruct a. inv Hb0. inv Hb.
      exact (Hi _ _ Hp Ew _ _ Hb1). }
    destruct (pass_step inc w c l l2 t1 l3 t3 Hb Hi1) as [(x' & E)|(g & p & E)].
    + rewrite E. cbn [bind]. eapply IH; eauto.
    + rewrite E. right. exists g, p. reflexivity.
  - assert (E1 : tk_rest t1 = []) by (unfold get_char in Ec; destruct (tk_rest t1); congruence).
    destruct f as [|f]; [discriminate|]. cbn [main_loop]. rewrite E1. left. eauto.
Qed.
Lemma ok_or_loop_in_file {A} file (m : res A) : ok_or_loop m -> ok_or_loop (in_file file m).
Proof. intros [[a ->]|(f & p & ->)]; [left; cbn; eauto|right]. cbn. destruct p as [p|]; [destruct (at_file p)|]; eauto. Qed.
Lemma foldM_ok_or_loop {A B} (f : B -> A -> res B) l : (forall b a, In a l -> ok_or_loop (f b a)) ->
  forall i, ok_or_loop (foldM f i l).
Proof.
  induction l as [|a l IH]; intros H i; cbn; [left; eauto|].
  destruct (H i a (or_introl eq_refl)) as [(b & E)|(g & p0 & E)]; rewrite E; cbn.
  - apply IH. intros; apply H; right; auto.
  - right. eauto.
Qed.
Lemma pass_include_inv t x u : pass_include t = Ok (x, u) ->
  exists line r, tk_rest t = L "include " ++ line ++ r /\ ~ In c_nl line /\ (r = [] \/ exists r', r = c_nl :: r') /\
    forall tk w file seen, include_parse tk w file seen t =
      (files <- unwrap (w_glob w (include_pattern file line)) ;;
       match find (fun f => existsb (str_eqb f) seen) files with
       | Some f => fail_at u (IncludeLoop f)
       | None => l <- include_files tk w seen files ;; Ok (l, u)
       end).
Proof.
  unfold pass_include, include_parse. intros H. bind_inv H. destruct (get_line a) as [line t2] eqn:El. inv H.
  exists line. rewrite Hb. cbn [bind]. rewrite El. pose proof Hb as Hc. apply consume_str_moves in Hc; [|reflexivity]. destruct Hc as (Hc & _).
  destruct a as [pre rest ln col]. unfold get_line in El. cbn [tk_rest tk_pre tk_line tk_col] in *.
  apply gline_eats in El. destruct El as (p & (E1 & _) & _ & E2 & E3). cbn [tk_rest] in E1.
  destruct E2 as [[-> E2]| ->].
  - exists []. rewrite E2, app_nil_r in E1. subst. rewrite Hc, app_nil_r. auto 10.
  - exists (c_nl :: tk_rest u). subst. rewrite Hc, <- app_assoc. eauto 10.
Qed.
Lemma sound_runs w files : forall depth f seen,
  (forall g, reachable w f g -> sound_alone w g) -> (forall g, reachable w f g -> In g files) ->
  (unseen files seen < depth)%nat ->
  forall c, w_read w f = Some c -> ok_or_loop (tokenize depth w (Some f) seen c).
Proof.
  induction depth as [|d IH]; intros f seen Hs Hf Hd c Hc; [lia|]. cbn [tokenize]. apply ok_or_loop_in_file.
  destruct (Hs f (reach_refl _ _)) as (c' & l & S1 & S2 & S3). assert (c' = c) by congruence. subst c'.
  eapply pass_run; [|apply pos_start|exact S2].
  intros t t1 Hp Ew x u Hx. destruct (pass_include_inv _ _ _ Hx) as (line & r & R1 & R2 & R3 & R4). rewrite R4.
  assert (Hl : include_line w c line). { exists t, t1, r. auto. }
  destruct (w_glob w (include_pattern (Some f) line)) as [fs|] eqn:Eg; [|exfalso; eapply S3; eauto]. cbn [unwrap bind].
  destruct (find _ fs) eqn:Ef. { split; [right; unfold fail_at; eauto|discriminate]. }
  assert (Hinc : forall g, In g fs -> includes w f g).
  { intros g Hg. exists c. split; auto. exists line, fs. auto. }
  assert (Ho : ok_or_loop (include_files (fun f0 seen' c0 => tokenize d w (Some f0) seen' c0) w seen fs)).
  { unfold include_files. apply foldM_ok_or_loop. intros i g Hg.
    assert (Hr : forall h, reachable w g h -> reachable w f h) by (intros; eapply reach_step; eauto).
    destruct (Hs g (Hr g (reach_refl _ _))) as (cg & _ & G1 & _ & _). rewrite G1.
    destruct (IH g (sadd str_eqb g seen)) with (c := cg) as [(lg & E)|(h & p & E)]; auto.
    - pose proof (find_none _ _ Ef _ Hg) as X. cbn in X.
      pose proof (unseen_sadd g files seen (Hf _ (Hr g (reach_refl _ _))) X). lia.
    - rewrite E. left. cbn. eauto.
    - rewrite E. right. cbn. eauto. }
  destruct Ho as [(lx & E)|(h & p & E)]; rewrite E; cbn.
  - split; [left; eauto|]. intros y v X. inv X. auto.
  - split; [right; eauto|discriminate].
Qed.

(** ** Reading ends when only finitely many files can be reached *)
Lemma reach_loop_nofuel inc w content :
  (forall t x t', inc t = Ok (x, t') -> pass_include t = Ok (pl_new, t')) -> ends_ok content ->
  (forall t t1, position pass_include w content t -> consume_whitespaces_and_lines t = (Blank, t1) -> nofuel (inc t1)) ->
  forall f l t, position pass_include w content t -> (length (tk_rest t) < f)%nat ->
  nofuel (main_loop f inc w l t).
Proof.
  intros Hp Hok Hn. pose proof Hok as [Hok1 Hok2].
  assert (I2 : forall t x t', pass_include t = Ok (x, t') -> moves1 t t' /\ end_or_margin t').
  { intros t x t' X. apply pass_include_margin in X. tauto. }
  induction f as [|f IH]; intros l t Hpos Hf; [lia|]. cbn [main_loop].
  destruct (position_stands _ _ _ _ I2 Hok1 Hpos) as [Hst _].
  destruct (tk_rest t) as [|c0 r] eqn:Er; [discriminate|].
  destruct (consume_whitespaces_and_lines t) as [[|] t1] eqn:Ew; [|discriminate].
  pose proof (cwal_moves _ _ _ Ew) as M. pose proof (cwal_blank_head _ _ Ew) as Hws.
  pose proof (stands_moves _ _ _ Hst M (cwal_margin _ _ Ew (stands_acc _ _ Hst))) as Hst1.
  destruct (get_char t1) as [c|] eqn:Ec.
  - pose proof (get_char_ws _ _ Ec Hws) as Hc. apply nofuel_bind; [eapply item_nofuel'; eauto|].
    intros [l' t2] E.
    assert (E' : exists l2, item pass_include w c l t1 = Ok (l2, t2)).
    { rewrite item_is in *. destruct (N.eq_dec c 105) as [->|Hne].
      - rewrite item_datum_i in *. bind_inv E. destruct a. bind_inv Hb. destruct a. inv Hb. inv E.
        rewrite (Hp _ _ _ Hb0). cbn. eauto.
      - rewrite (item_datum_inc pass_include inc); auto. destruct (item_datum inc w c t1) as [[d u]|?|?]; inv E. cbn. eauto. }
    destruct E' as (l2 & E').
    assert (M2 : moves1 t1 t2).
    { eapply item_moves; [|exact Ec|auto| |exact E']. { intros x t' X. apply (I2 _ _ _ X). } intros. eapply stands_eq; eauto. }
    apply IH; auto.
    + eapply pos_item; eauto.
    + apply moves1_length in M2. apply moves_length in M. rewrite Er in M. cbn [length] in *. lia.
  - assert (He : tk_rest t1 = []). { unfold get_char in Ec. destruct (tk_rest t1); [auto|discriminate]. }
    destruct f as [|f]; [cbn in Hf; lia|]. cbn [main_loop]. rewrite He. discriminate.
Qed.
Lemma reach_nofuel w files :
  forall depth file seen content,
  (forall g h, names w file content g -> reachable w g h -> In h files /\ forall c, w_read w h = Some c -> ends_ok c) ->
  ends_ok content -> (unseen files seen < depth)%nat ->
  nofuel (tokenize depth w file seen content).
Proof.
  induction depth as [|d IH]; intros file seen content Hf Hc Hd; [lia|]. cbn [tokenize]. apply nofuel_in_file.
  eapply reach_loop_nofuel; [apply include_pass|exact Hc| |apply pos_start|cbn; lia].
  intros t t1 Hp Ew. destruct (pass_include t1) as [[x u]|e|e] eqn:Hx.
  - destruct (pass_include_inv _ _ _ Hx) as (line & r & R1 & R2 & R3 & R4). rewrite R4.
    assert (Hl : include_line w content line). { exists t, t1, r. auto. }
    destruct (w_glob w (include_pattern file line)) as [fs|] eqn:Eg; [|discriminate]. cbn [unwrap bind].
    destruct (find _ fs) eqn:Ef; [discriminate|]. apply nofuel_bind; [|discriminate].
    unfold include_files. apply foldM_nofuel. intros i g Hg.
    destruct (w_read w g) as [ct|] eqn:Er; [|discriminate].
    assert (Hnm : names w file content g) by (exists line, fs; auto).
    apply nofuel_bind; [|discriminate]. apply IH.
    + intros g' h Hg' Hr. apply (Hf g h Hnm). eapply reach_step; [|exact Hr]. exists ct. auto.
    + apply (Hf g g Hnm (reach_refl _ _)). auto.
    + pose proof (find_none _ _ Ef _ Hg) as X. cbn in X.
      destruct (Hf g g Hnm (reach_refl _ _)) as [Hi _].
      pose proof (unseen_sadd g files seen Hi X). lia.
  - unfold include_parse. unfold pass_include in Hx. destruct (consume_str (L "include ") t1); cbn in *; [|discriminate|].
    + destruct (get_line a); discriminate.
    + pose proof (consume_str_nofuel (L "include ") t1). discriminate.
  - unfold include_parse. unfold pass_include in Hx. pose proof (consume_str_nofuel (L "include ") t1) as X.
    destruct (consume_str (L "include ") t1); cbn in *; [|discriminate|].
    + destruct (get_line a); discriminate.
    + intros E. apply X. congruence.
Qed.
