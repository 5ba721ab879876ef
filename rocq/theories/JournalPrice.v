(** Price lines and the first line of a commodity directive, read as they were written (SpecJournal). *)
From Coq Require Import Lia.
From Verif Require Import Base BaseFacts Numerals Money Alist Comment Txn Peg Grammar PegFacts Dates Expr Tokens Spec SpecText SpecDates
  SpecTokens TokenFacts LiteralFacts PropLiteral SpecExpr ExprFacts DateFacts SpecJournal JournalRead JournalHeader.

(** A commodity, up to a space, a semicolon or the end. *)
Definition commodity_end (r : str) : Prop := r = [] \/ first_is (fun c => c = c_sp \/ c = c_semi) r.
Lemma commodity_stop r : commodity_end r -> P (ENot (R Rreserved) ~~ ENot separator ~~ any) r PFail.
Proof. intros [->|(c & x & -> & [->| ->])]; run 60%nat. Qed.
Lemma commodity_star : forall cur r, forallb currency_char cur = true -> commodity_end r ->
  P (EStar (ENot (R Rreserved) ~~ ENot separator ~~ any)) (cur ++ r) (POk [] r).
Proof.
  induction cur as [|c cur IH]; intros r H F.
  - cbn [app]. apply s_star0. apply commodity_stop. auto.
  - cbn in H. apply andb_true_iff in H. destruct H as [Hc H]. cbn [app].
    eapply (s_star1 grammar _ _ [] (cur ++ r) []); [|apply IH; auto].
    unfold currency_char in Hc. apply andb_true_iff in Hc. destruct Hc as [Hs Hr]. apply negb_true_iff in Hs, Hr.
    eapply (s_seq_ok grammar _ _ _ [] (c :: cur ++ r) []).
    { apply s_not. eapply s_rule_fail; [reflexivity|]. cbn in Hr. repeat (apply orb_false_iff in Hr; destruct Hr as [? Hr]).
      cbn [alts]. repeat (apply s_alt2; [apply s_str_fail; apply strip1; assumption|]). apply s_str_fail; apply strip1; assumption. }
    eapply (s_seq_ok grammar _ _ _ [] (c :: cur ++ r) []).
    { apply s_not. apply s_class_fail. auto. }
    apply s_class. auto.
Qed.
Lemma p_commodity_word cur r : currency_ok cur -> commodity_end r ->
  P (R Rcurrency) (cur ++ r) (POk [Pair Rcurrency cur [Pair Runquoted cur []]] r).
Proof.
  intros [H H0] F. destruct cur as [|c cur]; [destruct H0|]. destruct H0 as (E1 & E2 & E3).
  cbn [forallb] in H. apply andb_true_iff in H. destruct H as [Hc H].
  pose proof Hc as Hc'. unfold currency_char in Hc. apply andb_true_iff in Hc. destruct Hc as [Hs Hr]. apply negb_true_iff in Hs, Hr.
  cbn in Hr. repeat (apply orb_false_iff in Hr; destruct Hr as [? Hr]).
  assert (NR : P (ENot (R Rreserved)) (c :: cur ++ r) (POk [] (c :: cur ++ r))).
  { apply s_not. eapply s_rule_fail; [reflexivity|].
    cbn [alts]. repeat (apply s_alt2; [apply s_str_fail; apply strip1; assumption|]). apply s_str_fail; apply strip1; assumption. }
  eapply s_rule; [reflexivity|]. apply s_alt2.
  - eapply s_rule_fail; [reflexivity|]. apply s_alt2; apply s_seq_fail1; apply s_str_fail; apply strip1; assumption.
  - eapply s_rule; [reflexivity|]. cbn [app].
    eapply (s_seq_ok grammar _ _ _ [] (c :: cur ++ r) []); [exact NR|].
    eapply (s_seq_ok grammar _ _ _ [] (c :: cur ++ r) []); [apply s_not, s_str_fail, strip1, N.eqb_neq, E1|].
    eapply (s_seq_ok grammar _ _ _ [] (c :: cur ++ r) []); [apply s_not, s_str_fail, strip1, N.eqb_neq, E2|].
    eapply (s_seq_ok grammar _ _ _ [] (c :: cur ++ r) []); [apply s_not, s_str_fail, strip1, N.eqb_neq, E3|].
    eapply (s_seq_ok grammar _ _ _ [] (cur ++ r) []).
    + eapply (s_seq_ok grammar _ _ _ [] (c :: cur ++ r) []); [exact NR|].
      eapply (s_seq_ok grammar _ _ _ [] (c :: cur ++ r) []); [apply s_not, s_class_fail; auto|]. apply s_class. auto.
    + apply commodity_star; auto.
Qed.
Lemma p_commodity c ct r : price_commodity c ct -> commodity_end r -> exists kids,
  P (R Rcurrency) (ct ++ r) (POk [Pair Rcurrency ct kids] r) /\ parse_string (Pair Rcurrency ct kids) = Ok c.
Proof.
  intros [Hf Hc|Hl Hq Hb] Hr.
  - exists [Pair Runquoted c []]. split; [|reflexivity]. apply p_commodity_word; auto. split.
    + apply forallb_forall. intros x Hx. destruct (Hc x Hx) as (H1 & H2 & _). unfold currency_char. rewrite H1. cbn [negb andb].
      apply negb_true_iff, not_true_is_false. intros H. apply existsb_exists in H. destruct H as (y & Hy & E). apply N.eqb_eq in E. subst y.
      apply H2. cbn in Hy |- *. intuition auto 20.
    + destruct Hf as (x & s & -> & H). split; [|split]; intros ->; apply H; cbn; auto 10.
  - eexists. split.
    + eapply s_rule; [reflexivity|]. apply s_alt1. apply (p_string c_dq c r); [auto|apply plain_in_quotes; auto].
    + cbn [parse_string]. unfold unquote. change (tl ([c_dq] ++ c ++ [c_dq])) with (c ++ [c_dq]). rewrite removelast_last. auto.
Qed.
Lemma price_commodity_first c ct : price_commodity c ct -> first_is (fun x => (x < 48 \/ 57 < x)%N /\ x <> c_sp) ct.
Proof.
  intros [(x & s & -> & H) Hc|Hl Hq Hb].
  - exists x, s. split; auto. split.
    + destruct (N.lt_ge_cases x 48) as [A|A]; [auto|]. destruct (N.lt_ge_cases 57 x) as [B|B]; [auto|]. exfalso. apply H. cbn.
      assert (X : (x = 48 \/ x = 49 \/ x = 50 \/ x = 51 \/ x = 52 \/ x = 53 \/ x = 54 \/ x = 55 \/ x = 56 \/ x = 57)%N) by lia.
      intuition (subst; auto 20).
    + intros ->. destruct (Hc c_sp (or_introl eq_refl)) as (X & _). discriminate.
  - exists c_dq, (c ++ L """"). split; [reflexivity|]. split; [left; reflexivity|discriminate].
Qed.
Lemma first_skip f s r : first_is (fun x => f x /\ x <> c_sp) s -> skip (s ++ r) = s ++ r.
Proof. intros (c & x & -> & _ & H). apply skip_first. auto. Qed.
Lemma spaces1_end b r : spaces1 b -> commodity_end (b ++ r).
Proof. intros [H Hn]. destruct b as [|c b]; [congruence|]. apply spaces_tl in H. destruct H as [-> _]. right. exists c_sp, (b ++ r). auto. Qed.
Lemma p_plain n q r : plain_number n q -> match r with c :: _ => is_digit c || (c =? c_dot)%N | [] => false end = false ->
  P (R Rnumber) (n ++ r) (POk [Pair Rnumber n []] r).
Proof.
  intros (_ & neg & ip & fp & -> & Hi & Hn & Hf) Hr. eapply s_rule; [reflexivity|].
  assert (R1 : match r with c :: _ => is_digit c | [] => false end = false) by (destruct r; auto; apply orb_false_iff in Hr; tauto).
  assert (R2 : match r with c :: d :: _ => (c =? c_dot)%N && is_digit d | _ => false end = false).
  { destruct r as [|c [|d r]]; auto. apply orb_false_iff in Hr. destruct Hr as [_ ->]. auto. }
  destruct Hf as [->|(x & -> & Hx & Hx2)].
  - apply (number_body_neg neg ip false [] r); auto; try discriminate. intros z [].
  - apply (number_body_neg neg ip true x r); auto; discriminate.
Qed.
Lemma plain_first n q : plain_number n q -> first_is (fun x => True /\ x <> c_sp) n.
Proof.
  intros (_ & neg & ip & fp & -> & Hi & Hn & Hf). destruct neg; [eexists _, _; split; [reflexivity|split; [auto|discriminate]]|].
  destruct ip as [|c ip]; [congruence|]. eexists _, _. split; [reflexivity|]. split; auto. specialize (Hi c (or_introl eq_refl)). intros ->. unfold c_sp in Hi. lia.
Qed.
Lemma p_remark b5 cm : spaces b5 -> (cm = [] \/ first_is (fun x => x = c_semi) cm) ->
  exists k, P (wss ~~ EOpt (R Rcomment) ~~ R Rend) (b5 ++ cm) (POk k []).
Proof.
  intros Hb Hc.
  assert (E : P (R Rend) [] (POk [Pair Rend [] [Pair REOI [] []]] [])).
  { eapply (s_rule grammar Rend _ [] []); [reflexivity|]. apply s_alt1. eapply (s_rule grammar REOI _ [] []); [reflexivity|]. apply s_eoi. }
  destruct Hc as [->|(c & r & -> & ->)].
  - eexists. eapply (s_seq_ok grammar _ _ _ [] [] _); [rewrite <- (skip_spaces b5 [] Hb : skip (b5 ++ []) = []) at 2; apply p_wss|].
    eapply (s_seq_ok grammar _ _ _ [] [] _); [|exact E]. apply s_alt2; [|apply s_empty]. eapply s_rule_fail; [reflexivity|]. apply s_seq_fail1, s_str_fail. auto.
  - eexists. eapply (s_seq_ok grammar _ _ _ [] (c_semi :: r) _).
    { pose proof (p_wss (b5 ++ c_semi :: r)) as W. rewrite skip_spaces in W by auto. exact W. }
    eapply (s_seq_ok grammar _ _ _ [Pair Rcomment (c_semi :: r) []] [] _); [|exact E]. apply s_alt1.
    pose proof (s_rule grammar Rcomment (T (L ";") ~~ EStar any) (c_semi :: r) [] [] eq_refl) as X. rewrite app_nil_r in X. apply X.
    apply (s_seq_ok grammar _ _ _ [] r []); [apply (s_str grammar (L ";"))|].
    pose proof (s_class_star grammar (fun _ => true) r [] ) as Y. rewrite app_nil_r in Y. apply Y; [apply forallb_forall; auto|auto].
Qed.
Lemma remark_end b5 cm : spaces b5 -> (cm = [] \/ first_is (fun x => x = c_semi) cm) -> commodity_end (b5 ++ cm).
Proof.
  intros Hb Hc. destruct b5 as [|c b5]; [|apply spaces_tl in Hb; destruct Hb as [-> _]; right; eexists c_sp, _; split; [reflexivity|auto]].
  destruct Hc as [->|(c & r & -> & ->)]; [left; auto|right; eexists c_semi, _; split; [reflexivity|auto]].
Qed.
Lemma day_skip n d r : day_written n d -> skip (d ++ r) = d ++ r.
Proof. intros H. destruct (day_first _ _ H) as (c & s & -> & Hc). apply skip_first. intros ->. unfold c_sp in Hc. lia. Qed.
Lemma p_wss_skip b r s : spaces b -> skip r = s -> P wss (b ++ r) (POk [] s).
Proof. intros Hb <-. rewrite <- (skip_spaces b r Hb). apply p_wss. Qed.
(** The line of a price, without its newline. *)
Lemma price_line_read p s : price_written p s -> exists line, s = line ++ [c_nl] /\ one_line line /\ parse_price_line line = Ok p.
Proof.
  intros [p0 b1 d b2 c b3 n b4 o b5 cm H1 Hd H2 Hc H3 Hn H4 Ho H5 Hcm Hl]. clear p s. rename p0 into p.
  exists (L "P" ++ b1 ++ d ++ b2 ++ c ++ b3 ++ n ++ b4 ++ o ++ b5 ++ cm). split; [rewrite <- !app_assoc; reflexivity|].
  assert (Cl : forall a t, price_commodity a t -> one_line t).
  { intros a t [Hf Hx|Hx Hy Hz]; [intros Hi; apply Hx in Hi; destruct Hi as (_ & _ & Hi); congruence|].
    intros Hi. apply in_app_or in Hi. destruct Hi as [[Hi|[]]|Hi]; [discriminate|]. apply in_app_or in Hi. destruct Hi as [Hi|[Hi|[]]]; [auto|discriminate]. }
  assert (Sl : forall b, spaces b -> one_line b). { intros b Hb Hi. apply Hb in Hi. discriminate. }
  assert (Dg : forall t, only_digits t -> one_line t). { intros t Ht Hi. apply Ht in Hi. unfold c_nl in Hi. lia. }
  assert (Ap : forall a b, one_line a -> one_line b -> one_line (a ++ b)). { intros a b Ha Hb Hi. apply in_app_or in Hi. destruct Hi; auto. }
  split.
  { apply Ap; [intros [Hi|[]]; discriminate|]. apply Ap; [apply Sl; auto|]. apply Ap.
    { destruct Hd as (y & m & dd & (ty & tm & td & a & -> & Hy & _ & _ & (Hm & _) & (Hdd & _) & Ha) & _).
      assert (Hal : one_line [a]). { intros [Hi|[]]. subst a. cbn in Ha. intuition discriminate. }
      apply Ap; [apply Dg; auto|]. change (a :: tm ++ a :: td) with ([a] ++ tm ++ [a] ++ td). repeat apply Ap; auto. }
    apply Ap; [apply Sl; apply H2|]. apply Ap; [eapply Cl; eauto|]. apply Ap; [apply Sl; apply H3|]. apply Ap.
    { destruct Hn as (_ & neg & ip & fp & -> & Hi & _ & Hf). apply Ap; [destruct neg; [intros [X|[]]; discriminate|intros []]|]. apply Ap; [auto|].
      destruct Hf as [->|(r & -> & Hr & _)]; [intros []|]. apply Ap; [intros [X|[]]; discriminate|auto]. }
    apply Ap; [apply Sl; apply H4|]. apply Ap; [eapply Cl; eauto|]. apply Ap; [apply Sl; auto|auto]. }
  clear Ap Dg Sl Cl.
  destruct (p_commodity _ _ (b3 ++ n ++ b4 ++ o ++ b5 ++ cm) Hc (spaces1_end _ _ H3)) as (k1 & K1 & S1).
  destruct (p_commodity _ _ (b5 ++ cm) Ho (remark_end _ _ H5 Hcm)) as (k2 & K2 & S2).
  destruct (p_remark b5 cm H5 Hcm) as (k3 & K3).
  assert (Hb2 : exists b2', b2 = c_sp :: b2' /\ spaces b2').
  { destruct H2 as [Hs Hx]. destruct b2 as [|x b2]; [congruence|]. apply spaces_tl in Hs. destruct Hs as [-> Hs]. eauto. }
  destruct Hb2 as (b2' & -> & Hb2').
  assert (Hb4 : exists b4', b4 = c_sp :: b4' /\ spaces b4').
  { destruct H4 as [Hs Hx]. destruct b4 as [|x b4]; [congruence|]. apply spaces_tl in Hs. destruct Hs as [-> Hs]. eauto. }
  destruct Hb4 as (b4' & -> & Hb4').
  assert (TL : P price_tail ((c_sp :: b2') ++ c ++ b3 ++ n ++ (c_sp :: b4') ++ o ++ b5 ++ cm)
    (POk ([Pair Rcurrency c k1] ++ [Pair Rnumber n []] ++ [Pair Rcurrency o k2] ++ k3) [])).
  { unfold price_tail. pose proof (p_wsplus _ (c ++ b3 ++ n ++ (c_sp :: b4') ++ o ++ b5 ++ cm) H2) as W.
    rewrite (first_skip _ _ _ (price_commodity_first _ _ Hc)) in W. refine (s_seq_ok grammar _ _ _ _ _ _ _ W _). clear W.
    refine (s_seq_ok grammar _ _ _ _ _ ([Pair Rnumber n []] ++ [Pair Rcurrency o k2] ++ k3) _ K1 _).
    eapply (s_seq_ok grammar _ _ _ [] (n ++ (c_sp :: b4') ++ o ++ b5 ++ cm)). { apply p_wss_skip; [apply H3|]. apply (first_skip _ _ _ (plain_first _ _ Hn)). }
    eapply (s_seq_ok grammar _ _ _ [Pair Rnumber n []] _ ([Pair Rcurrency o k2] ++ k3)); [eapply p_plain; eauto|].
    apply (s_seq_ok grammar _ _ _ [] (o ++ b5 ++ cm)). { apply p_wss_skip; [apply H4|]. apply (first_skip _ _ _ (price_commodity_first _ _ Ho)). }
    refine (s_seq_ok grammar _ _ _ _ _ k3 _ K2 K3). }
  set (tail := (c_sp :: b2') ++ c ++ b3 ++ n ++ (c_sp :: b4') ++ o ++ b5 ++ cm) in *.
  destruct (day_read _ _ tail Hd eq_refl) as (tx & kids & D1 & D2).
  assert (NT : P (EOpt (ws ~~ R Rtime)) tail (POk [] tail)).
  { apply s_alt2; [|apply s_empty]. eapply s_seq_fail2; [apply p_ws|]. apply p_time_none.
    destruct b2' as [|x b2']; [|apply spaces_tl in Hb2'; destruct Hb2' as [-> _]; reflexivity].
    destruct (price_commodity_first _ _ Hc) as (x & y & -> & Hx & _). cbn. unfold is_digit. lia. }
  assert (B : P (snd (grammar Rprice)) (L "P" ++ b1 ++ d ++ tail) (POk ([Pair Rdate tx kids] ++ [] ++ [Pair Rcurrency c k1] ++ [Pair Rnumber n []] ++ [Pair Rcurrency o k2] ++ k3) [])).
  { rewrite price_body. apply (s_seq_ok grammar _ _ _ [] (b1 ++ d ++ tail)); [apply s_str|].
    apply (s_seq_ok grammar _ _ _ [] (d ++ tail)); [apply p_wss_skip; auto; eapply day_skip; eauto|].
    refine (s_seq_ok grammar _ _ _ _ _ _ _ D2 _). refine (s_seq_ok grammar _ _ _ [] _ _ _ NT TL). }
  destruct (p_rule Rprice _ _ _ _ eq_refl B) as (q & _ & X). unfold parse_price_line. rewrite (gparse_pegs_ok _ _ _ _ X).
  cbn [bind pnext p_kids app]. rewrite D1. cbn [bind pnext Grammar.p_rule]. rewrite S1. cbn [bind pnext].
  rewrite (C08_grammar_numbers_read n (pp_quantity p)) by apply Hn. cbn [bind pnext]. rewrite S2. cbn [bind]. destruct p. reflexivity.
Qed.
Lemma price_read p s r t : price_written p s -> tk_rest t = s ++ r -> exists t', parse_price t = Ok (p, t') /\ tk_rest t' = r /\ tk_col t' = O.
Proof.
  intros H E. destruct (price_line_read _ _ H) as (line & -> & Hl & Hp). rewrite <- app_assoc in E. change ([c_nl] ++ r) with (c_nl :: r) in E.
  destruct (get_line_spec _ _ _ Hl E) as (t1 & G & E1 & E2). exists t1. unfold parse_price. rewrite G, Hp. auto.
Qed.
(** The first line of a commodity directive. *)
Lemma commodity_line_read n nt b1 b2 cm : price_commodity n nt -> spaces1 b1 -> spaces b2 ->
  (cm = [] \/ first_is (fun x => x = c_semi) cm) -> exists q c ks,
  gparse Rcommodity (L "commodity" ++ b1 ++ nt ++ b2 ++ cm) = Ok [Pair Rcommodity q (c :: ks)] /\ parse_string c = Ok n.
Proof.
  intros Hn Hb1 Hb2 Hcm. destruct (p_commodity _ _ (b2 ++ cm) Hn (remark_end _ _ Hb2 Hcm)) as (k1 & K1 & S1).
  destruct (p_remark b2 cm Hb2 Hcm) as (k3 & K3).
  assert (B : P (snd (grammar Rcommodity)) (L "commodity" ++ b1 ++ nt ++ b2 ++ cm) (POk ([Pair Rcurrency nt k1] ++ k3) [])).
  { apply (s_seq_ok grammar _ _ _ [] (b1 ++ nt ++ b2 ++ cm)); [apply s_str|].
    pose proof (p_wsplus _ (nt ++ b2 ++ cm) Hb1) as W. rewrite (first_skip _ _ _ (price_commodity_first _ _ Hn)) in W.
    refine (s_seq_ok grammar _ _ _ _ _ _ _ W _). refine (s_seq_ok grammar _ _ _ _ _ _ _ K1 K3). }
  destruct (p_rule Rcommodity _ _ _ _ eq_refl B) as (q & _ & X). eexists _, _, _. split; [apply (gparse_pegs_ok _ _ _ _ X)|exact S1].
Qed.
