(** Properties C40, C41 and C44: filters, queries and comparisons. *)
From Coq Require Import Lia.
From Verif Require Import Base BaseFacts Numerals Money Alist Comment Txn Peg Grammar Dates Expr Filter Tokens Price
  Ledger SpecList AlistFacts LedgerFacts Reports EvalFacts SpecQuery PropTxn.
Open Scope Z_scope.

(** ** C40 *)
Theorem C40_filter : forall w o q t p cs d, t_date t = Some d ->
  (in_period o d /\ wanted_kind o p ->
     filter_posting w o q t p cs = match q with None => Ok (true, cs) | Some n => filter_expression w n p t cs end) /\
  (~ (in_period o d /\ wanted_kind o p) -> filter_posting w o q t p cs = Ok (false, cs)).
Proof.
  intros w o q t p cs d Ed. unfold filter_posting, in_period, wanted_kind. rewrite Ed. cbn [unwrap bind].
  destruct (o_real o && negb (kind_eqb (p_kind p) Real)) eqn:K.
  - split; auto. intros [_ H]. apply andb_true_iff in K. destruct K as [K1 K2]. rewrite (H K1) in K2. discriminate.
  - assert (Kw : o_real o = true -> p_kind p = Real).
    { intros E. rewrite E in K. cbn in K. destruct (p_kind p); auto; discriminate. }
    destruct (o_end o) as [e|] eqn:Ee; cbn [bind].
    + destruct (Z.leb_spec e d).
      * split; auto. intros [[_ H2] _]. specialize (H2 e eq_refl). lia.
      * destruct (o_begin o) as [b|] eqn:Eb; cbn [bind].
        -- destruct (Z.ltb_spec d b); split; auto.
           ++ intros [[H1 _] _]. specialize (H1 b eq_refl). lia.
           ++ intros X. exfalso. apply X. split; auto. split; intros ? [= <-]; lia.
        -- split; auto. intros X. exfalso. apply X. split; auto. split; [intros ? [=]|intros ? [= <-]; lia].
    + destruct (o_begin o) as [b|] eqn:Eb; cbn [bind].
      * destruct (Z.ltb_spec d b); split; auto.
        -- intros [[H1 _] _]. specialize (H1 b eq_refl). lia.
        -- intros X. exfalso. apply X. split; auto. split; [intros ? [= <-]; lia|intros ? [=]].
      * split; auto. intros X. exfalso. apply X. split; auto. split; intros ? [=].
Qed.
Print Assumptions C40_filter.
Lemma period_dec o d p : (in_period o d /\ wanted_kind o p) \/ ~ (in_period o d /\ wanted_kind o p).
Proof.
  unfold in_period, wanted_kind.
  assert (A : (forall b, o_begin o = Some b -> b <= d) \/ ~ (forall b, o_begin o = Some b -> b <= d)).
  { destruct (o_begin o) as [b|]; [|left; discriminate]. destruct (Z_le_dec b d); [left; intros ? [= <-]; auto|right; intros H; apply n; auto]. }
  assert (B : (forall e, o_end o = Some e -> d < e) \/ ~ (forall e, o_end o = Some e -> d < e)).
  { destruct (o_end o) as [b|]; [|left; discriminate]. destruct (Z_lt_dec d b); [left; intros ? [= <-]; auto|right; intros H; apply n; auto]. }
  assert (C : (o_real o = true -> p_kind p = Real) \/ ~ (o_real o = true -> p_kind p = Real)).
  { destruct (o_real o); [|left; discriminate]. destruct (p_kind p); [left; auto|right; intros H; discriminate (H eq_refl)..]. }
  tauto.
Qed.
(** Each filter decision says whether the posting is to be reported. *)
Theorem C40_decision : forall w o q t p cs b cs' d, t_date t = Some d ->
  filter_posting w o q t p cs = Ok (b, cs') -> (b = true <-> reported w o q cs t p).
Proof.
  intros w o q t p cs b cs' d Ed H. destruct (C40_filter w o q t p cs d Ed) as [H1 H2].
  assert (R : reported w o q cs t p <-> (in_period o d /\ wanted_kind o p) /\ query_holds w q t p cs).
  { unfold reported. rewrite Ed. split; [intros (? & [= <-] & A & B & C)|intros [[A B] C]; exists d]; auto. }
  rewrite R. destruct (period_dec o d p) as [P|P].
  - rewrite (H1 P) in H. destruct q as [n|]; cbn [query_holds].
    + unfold filter_expression in H. destruct (eval w n p t cs) as [[v c]| |]; try discriminate. cbn in H.
      destruct v as [| |b'| | | | | |]; try discriminate. injection H as <- <-.
      split; [intros ->; split; auto; exists c; auto|intros (_ & c' & X)]. congruence.
    + injection H as <- <-. tauto.
  - rewrite (H2 P) in H. injection H as <- <-. split; [discriminate|tauto].
Qed.
Print Assumptions C40_decision.
(** The reports look at exactly the postings to be reported, in order; what earlier postings taught
    about commodities makes no difference. *)
Lemma select_postings_spec w o q t d cs : t_date t = Some d -> buildable w cu_name cu_aliases cs -> forall ps cs1 l cs2,
  between w q cs cs1 -> select_postings w o q t ps cs1 = Ok (l, cs2) ->
  selection (reported w o q cs t) ps l /\ between w q cs cs2.
Proof.
  intros Ed B. induction ps as [|p ps IH]; cbn; intros cs1 l cs2 Bt H.
  - injection H as <- <-. split; [constructor|auto].
  - pose proof (filter_between w o q t p cs cs1 B Bt) as F.
    destruct (filter_posting w o q t p cs) as [[b c]|e|x] eqn:E.
    + destruct F as (cs3 & F & Bt3). rewrite F in H. cbn in H. bind_inv H. destruct a as [l' cs4]. injection H as <- <-.
      destruct (IH _ _ _ Bt3 Hb) as [S1 Bt4]. split; auto.
      pose proof (C40_decision w o q t p cs b c d Ed E) as D. destruct b; constructor; auto; [apply D; auto|].
      intros X. apply D in X. discriminate.
    + rewrite F in H. discriminate.
    + rewrite F in H. discriminate.
Qed.
Theorem C40_report_selection : forall w o q cs ts sel cs', buildable w cu_name cu_aliases cs ->
  (forall t, In t ts -> exists d, t_date t = Some d) ->
  select_txns w o q ts cs = Ok (sel, cs') ->
  Forall2 (fun t s => fst s = t /\ selection (reported w o q cs t) (t_postings t) (snd s)) ts sel.
Proof.
  intros w o q cs ts sel cs' B D H.
  assert (G : forall ts, (forall t, In t ts -> exists d, t_date t = Some d) -> forall cs1 sel cs', between w q cs cs1 ->
    select_txns w o q ts cs1 = Ok (sel, cs') ->
    Forall2 (fun t s => fst s = t /\ selection (reported w o q cs t) (t_postings t) (snd s)) ts sel).
  { clear -B. induction ts as [|t ts IH]; cbn; intros D cs1 sel cs' Bt H.
    - injection H as <- <-. constructor.
    - bind_inv H. destruct a as [ps c1]. bind_inv H. destruct a as [l c2]. injection H as <- <-.
      destruct (D t (or_introl eq_refl)) as (d & Ed).
      destruct (select_postings_spec w o q t d cs Ed B _ _ _ _ Bt Hb) as [S1 Bt2]. constructor; [split; auto|].
      eapply IH; eauto. }
  eapply G; eauto. left. auto.
Qed.
Print Assumptions C40_report_selection.
(** Asking again gives the same answer, whatever was asked in between. *)
Theorem C40_same_answer_again : forall w o q t p cs t0 p0 b0 cs1, buildable w cu_name cu_aliases cs ->
  filter_posting w o q t0 p0 cs = Ok (b0, cs1) ->
  match filter_posting w o q t p cs, filter_posting w o q t p cs1 with
  | Ok (b, _), Ok (b', _) => b = b'
  | Err e, Err e' => e = e'
  | Panic x, Panic x' => x = x'
  | _, _ => False
  end.
Proof.
  intros w o q t p cs t0 p0 b0 cs1 B H.
  pose proof (filter_between w o q t0 p0 cs cs B (or_introl eq_refl)) as F0. rewrite H in F0.
  destruct F0 as (c & F0 & Bt). try rewrite H in F0. injection F0 as <-.
  pose proof (filter_between w o q t p cs cs1 B Bt) as F.
  destruct (filter_posting w o q t p cs) as [[b c]|e|x]; [destruct F as (c2 & -> & _); auto|rewrite F; auto|rewrite F; auto].
Qed.
Print Assumptions C40_same_answer_again.

Definition p40 (acc : String.string) (n : Z) (k : kind) : posting :=
  {| p_account := L acc; p_amount := Some (M (qz n) (L "EUR")); p_balance := None; p_cost := None; p_kind := k; p_comments := [];
     p_tags := []; p_payee := None; p_origin := FromTransaction |}.
Definition t40 (d : Z) : txn posting :=
  {| t_date := Some d; t_edate := None; t_cleared := CUnknown; t_code := None; t_desc := []; t_payee := None;
     t_postings := [p40 "Food" 7 Real; p40 "Cash" (-7) Real; p40 "Plan" 9 Virtual]; t_comments := []; t_type := TReal; t_tags := [] |}.
Definition o40 : opts := {| o_real := true; o_begin := Some 10; o_end := Some 12; o_query := []; o_depth := None; o_exchange := None;
  o_no_balance_check := false |}.
(** amount > 5 EUR *)
Definition q40 : option node := Some (NBinary BGt NAmount (NMoney (L "EUR") (qz 5))).
Example C40_case : match select_txns w0 o40 q40 [t40 9; t40 10; t40 11; t40 12] l_new with
  | Ok (sel, _) => map (fun s => map p_account (snd s)) sel = [[]; [L "Food"]; [L "Food"]; []]
  | _ => False
  end /\ match select_txns w0 {| o_real := false; o_begin := None; o_end := None; o_query := []; o_depth := None; o_exchange := None;
  o_no_balance_check := false |} None [t40 9] l_new with
  | Ok (sel, _) => map (fun s => length (snd s)) sel = [3%nat]
  | _ => False
  end.
Proof. split; vm_compute; reflexivity. Qed.

(** ** C41 *)
Definition words_of (cls : list clause) : list str := flat_map clause_words cls.
Lemma connective_dec s : connective s \/ ~ connective s.
Proof.
  unfold connective, blank, is_word. generalize (trim s). intros t.
  destruct (str_eqb_spec t []), (str_eqb_spec t (L "and")), (str_eqb_spec t (L "or")), (str_eqb_spec t (L "expr")); tauto.
Qed.
(** Every list of words is a list of clauses followed by words that are not terms. *)
Theorem C41_every_query : forall ws, exists cls rest, ws = words_of cls ++ rest /\ Forall clause_ok cls /\ Forall connective rest.
Proof.
  induction ws as [|x ws (cls & rest & -> & H1 & H2)] using rev_ind.
  - exists [], []. repeat constructor.
  - destruct (connective_dec x).
    + exists cls, (rest ++ [x]). rewrite app_assoc. split; auto. split; auto. apply Forall_app. auto.
    + exists (cls ++ [{| cl_before := rest; cl_term := x |}]), []. split.
      * unfold words_of. rewrite flat_map_app. cbn. rewrite !app_nil_r, app_assoc. auto.
      * split; [|constructor]. apply Forall_app. split; auto. constructor; [|constructor]. split; auto.
Qed.
Print Assumptions C41_every_query.

(** What the words between two terms say. *)
Fixpoint flags_after (ws : list str) (and expr : bool) : bool * bool :=
  match ws with
  | [] => (and, expr)
  | x :: r =>
      let t := trim x in
      if str_eqb t [] then flags_after r and expr
      else if str_eqb t (L "and") then flags_after r true expr
      else if str_eqb t (L "or") then flags_after r false expr
      else flags_after r and true
  end.
Lemma loop_connectives ws r : forall acc and first expr, Forall connective ws ->
  query_loop (ws ++ r) acc and first expr = let (a, e) := flags_after ws and expr in query_loop r acc a first e.
Proof.
  induction ws as [|x ws IH]; intros acc and first expr H; auto. inversion H as [|? ? Hx Hw]; subst. cbn [app query_loop flags_after]; cbv zeta.
  unfold connective, blank, is_word in Hx.
  destruct (str_eqb_spec (trim x) []); auto. destruct (str_eqb_spec (trim x) (L "and")); auto.
  destruct (str_eqb_spec (trim x) (L "or")); auto. destruct (str_eqb_spec (trim x) (L "expr")); auto. tauto.
Qed.
Lemma flags_expr ws : forall and expr, snd (flags_after ws and expr) = true <->
  expr = true \/ Exists (fun x => trim x <> [] /\ trim x <> L "and" /\ trim x <> L "or") ws.
Proof.
  induction ws as [|x ws IH]; intros and expr; cbn [flags_after fst snd]; cbv zeta.
  - split; auto. intros [H|H]; auto. inversion H.
  - rewrite Exists_cons. destruct (str_eqb_spec (trim x) []); [rewrite IH; tauto|].
    destruct (str_eqb_spec (trim x) (L "and")); [rewrite IH; tauto|].
    destruct (str_eqb_spec (trim x) (L "or")); rewrite IH; tauto.
Qed.
Lemma flags_and ws : forall and expr, fst (flags_after ws and expr) = true <->
  (and = true /\ Forall (fun x => ~ is_word (L "or") x) ws) \/
  (exists a k b, ws = a ++ k :: b /\ is_word (L "and") k /\ Forall (fun x => ~ is_word (L "or") x) b).
Proof.
  unfold is_word. induction ws as [|x ws IH]; intros and expr; cbn [flags_after fst snd]; cbv zeta.
  - split; [left; auto|]. intros [[H _]|(a & k & b & H & _)]; auto. destruct a; discriminate.
  - assert (G : (exists a k b, x :: ws = a ++ k :: b /\ trim k = L "and" /\ Forall (fun x => ~ trim x = L "or") b) <->
      (trim x = L "and" /\ Forall (fun x => ~ trim x = L "or") ws) \/
      (exists a k b, ws = a ++ k :: b /\ trim k = L "and" /\ Forall (fun x => ~ trim x = L "or") b)).
    { split.
      - intros (a & k & b & E & H1 & H2). destruct a as [|y a]; cbn in E; injection E as -> ->; [left; auto|right; eauto 7].
      - intros [[H1 H2]|(a & k & b & -> & H1 & H2)]; [exists [], x, ws; auto|exists (x :: a), k, b; auto]. }
    rewrite G. rewrite Forall_cons_iff.
    destruct (str_eqb_spec (trim x) []) as [E|E].
    { rewrite IH. rewrite E. assert (X : [] <> L "and") by discriminate. assert (Y : [] <> L "or") by discriminate. tauto. }
    destruct (str_eqb_spec (trim x) (L "and")) as [E2|E2].
    { rewrite IH. rewrite E2. assert (Y : L "and" <> L "or") by discriminate. tauto. }
    destruct (str_eqb_spec (trim x) (L "or")) as [E3|E3].
    { rewrite IH. assert (Z : (false = true) <-> False) by (split; discriminate || contradiction). rewrite Z. tauto. }
    rewrite IH. tauto.
Qed.
Lemma term_text_means c : clause_ok c ->
  term_means c (term_text (snd (flags_after (cl_before c) false false)) (trim (cl_term c))).
Proof.
  intros [Hb Ht].
  assert (V : taken_verbatim c <-> snd (flags_after (cl_before c) false false) = true).
  { rewrite flags_expr. unfold taken_verbatim. split.
    - intros H. right. eapply Exists_impl; [|exact H]. unfold is_word. intros a ->. repeat split; discriminate.
    - intros [H|H]; [discriminate|]. rewrite Forall_forall in Hb. apply Exists_exists in H. destruct H as (x & Hx & H).
      apply Exists_exists. exists x. split; auto. specialize (Hb x Hx). unfold connective, blank, is_word in *. tauto. }
  destruct (snd (flags_after (cl_before c) false false)) eqn:E; cbn [term_text].
  - apply tm_expr. tauto.
  - assert (NV : ~ taken_verbatim c) by (rewrite V; discriminate). destruct (trim (cl_term c)) as [|x r] eqn:Et.
    + exfalso. apply Ht. left. exact Et.
    + destruct (N.eqb_spec x c_at); [subst; eapply tm_payee; eauto|]. destruct (N.eqb_spec x 37); [subst; eapply tm_tag; eauto|].
      destruct (N.eqb_spec x c_slash).
      * subst. change (L "account =~ " ++ c_slash :: r) with (L "account =~ /" ++ r). eapply tm_regex; eauto.
      * rewrite <- Et. apply tm_account; auto. intros y k Hk. rewrite Et. unfold c_at, c_slash in *.
        destruct Hk as [<-|[<-|[<-|[]]]]; intros [= -> _]; auto.
Qed.
Lemma loop_clauses cls : Forall clause_ok cls -> cls <> [] -> exists q, query_means cls q /\
  forall rest, query_loop (words_of cls ++ rest) [] false true false = query_loop rest q false false false.
Proof.
  induction cls as [|c cls IH] using rev_ind; [congruence|]. intros H _. apply Forall_app in H. destruct H as [H1 H2].
  inversion H2 as [|? ? Hc _]; subst. pose proof (term_text_means c Hc) as TM.
  assert (NT : forall r acc a first e, query_loop (cl_term c :: r) acc a first e =
     query_loop r (acc ++ (if negb first then (if a then L " and (" else L " or (") else L "(") ++ term_text e (trim (cl_term c)) ++ L ")") false false false).
  { intros r acc a first e. destruct Hc as [_ Hc]. unfold connective, blank, is_word in Hc. cbn [query_loop].
    destruct (str_eqb_spec (trim (cl_term c)) []); [tauto|]. destruct (str_eqb_spec (trim (cl_term c)) (L "and")); [tauto|].
    destruct (str_eqb_spec (trim (cl_term c)) (L "or")); [tauto|]. destruct (str_eqb_spec (trim (cl_term c)) (L "expr")); [tauto|]. auto. }
  pose proof (flags_and (cl_before c) false false) as FA.
  assert (FA2 : fst (flags_after (cl_before c) false false) = true <-> joined_by_and c).
  { rewrite FA. unfold joined_by_and. split; [intros [[X _]|X]; [discriminate|auto]|auto]. }
  destruct (flags_after (cl_before c) false false) as [a e] eqn:Ef. cbn [fst snd] in *.
  assert (W : forall rest, words_of (cls ++ [c]) ++ rest = words_of cls ++ cl_before c ++ cl_term c :: rest).
  { intros rest. unfold words_of. rewrite flat_map_app. cbn. unfold clause_words. rewrite <- !app_assoc. cbn. auto. }
  destruct cls as [|c0 cls'].
  - exists (L "(" ++ term_text e (trim (cl_term c)) ++ L ")"). split; [apply (qm_one c); auto|]. intros rest. rewrite W. cbn [words_of flat_map app].
    rewrite loop_connectives, Ef, NT by apply Hc. auto.
  - destruct (IH H1 ltac:(discriminate)) as (q & Q & E). clear IH. destruct a.
    + exists (q ++ L " and (" ++ term_text e (trim (cl_term c)) ++ L ")"). split; [apply qm_and; tauto|].
      intros rest. rewrite W, E, loop_connectives, Ef, NT by apply Hc. auto.
    + exists (q ++ L " or (" ++ term_text e (trim (cl_term c)) ++ L ")"). split; [apply qm_or; auto; rewrite <- FA2; discriminate|].
      intros rest. rewrite W, E, loop_connectives, Ef, NT by apply Hc. auto.
Qed.
Theorem C41_translation : forall cls rest, Forall clause_ok cls -> cls <> [] -> Forall connective rest ->
  exists q, query_means cls q /\ preprocess_query (words_of cls ++ rest) = L "(" ++ q ++ L ")".
Proof.
  intros cls rest H Hn Hr. destruct (loop_clauses cls H Hn) as (q & Q & E). exists q. split; auto. unfold preprocess_query. rewrite E.
  rewrite <- (app_nil_r rest), loop_connectives by auto. destruct (flags_after rest false false). auto.
Qed.
Print Assumptions C41_translation.
(** The meaning is unique, so the translation is determined. *)
Lemma term_means_fun c e e' : term_means c e -> term_means c e' -> e = e'.
Proof.
  intros H H'. inversion H as [V|x V E|x V E|x V E|V N]; subst; inversion H' as [V'|x' V' E'|x' V' E'|x' V' E'|V' N']; subst; auto; try contradiction;
    try (rewrite E in E'; try discriminate; injection E' as ->; auto);
    try (exfalso; eapply N; [|exact E']; cbn; auto); try (exfalso; eapply N'; [|exact E]; cbn; auto).
Qed.
Theorem C41_translation_unique : forall cls q q', query_means cls q -> query_means cls q' -> q = q'.
Proof.
  intros cls q q' H. revert q'. induction H as [c e T|cs c q e Q IH J T|cs c q e Q IH J T]; intros q' H'.
  - inversion H' as [c' e' T' E|cs' c' q0 e' Q' J' T' E|cs' c' q0 e' Q' J' T' E]; subst.
    + rewrite (term_means_fun _ _ _ T T'). auto.
    + destruct cs' as [|? [|]]; try discriminate. inversion Q'; destruct cs; discriminate.
    + destruct cs' as [|? [|]]; try discriminate. inversion Q'; destruct cs; discriminate.
  - inversion H' as [c' e' T' E|cs' c' q0 e' Q' J' T' E|cs' c' q0 e' Q' J' T' E].
    + destruct cs as [|? [|]]; try discriminate. inversion Q; destruct cs; discriminate.
    + apply app_inj_tail in E. destruct E; subst. rewrite (IH _ Q'), (term_means_fun _ _ _ T T'). auto.
    + apply app_inj_tail in E. destruct E; subst. contradiction.
  - inversion H' as [c' e' T' E|cs' c' q0 e' Q' J' T' E|cs' c' q0 e' Q' J' T' E].
    + destruct cs as [|? [|]]; try discriminate. inversion Q; destruct cs; discriminate.
    + apply app_inj_tail in E. destruct E; subst. contradiction.
    + apply app_inj_tail in E. destruct E; subst. rewrite (IH _ Q'), (term_means_fun _ _ _ T T'). auto.
Qed.
Print Assumptions C41_translation_unique.
(** No terms, no filter; some terms, the filter is their translation. *)
Theorem C41_no_terms_no_filter : forall w o, Forall connective (o_query o) -> query_node w o = Ok None.
Proof.
  intros w o H. unfold query_node, preprocess_query. rewrite <- (app_nil_r (o_query o)), loop_connectives by auto.
  destruct (flags_after (o_query o) false false). reflexivity.
Qed.
Print Assumptions C41_no_terms_no_filter.
Lemma utf8_len_app a b : utf8_len (a ++ b) = (utf8_len a + utf8_len b)%nat.
Proof. induction a; cbn; auto. rewrite IHa. lia. Qed.
Theorem C41_filter_is_translation : forall w o cls rest q, Forall clause_ok cls -> cls <> [] -> Forall connective rest ->
  o_query o = words_of cls ++ rest -> query_means cls q ->
  query_node w o = (n <- build_root w (L "(" ++ q ++ L ")") ;; Ok (Some n)).
Proof.
  intros w o cls rest q H Hn Hr E Q. destruct (C41_translation cls rest H Hn Hr) as (q' & Q' & T).
  rewrite (C41_translation_unique _ _ _ Q Q'). unfold query_node. rewrite E, T.
  assert (X : Nat.ltb 2 (utf8_len (L "(" ++ q' ++ L ")")) = true).
  { apply Nat.ltb_lt. rewrite !utf8_len_app. cbn. assert (1 <= utf8_len q')%nat; [|lia].
    destruct Q'; rewrite ?utf8_len_app; cbn; lia. }
  rewrite X. auto.
Qed.
Print Assumptions C41_filter_is_translation.
Definition cls41 : list clause := [{| cl_before := []; cl_term := L "food" |}; {| cl_before := [L "and"]; cl_term := L "@shop" |};
  {| cl_before := [L "and"; L "or"; L "expr"]; cl_term := L "(amount > 5)" |}].
Example C41_case : Forall clause_ok cls41 /\ words_of cls41 = [L "food"; L "and"; L "@shop"; L "and"; L "or"; L "expr"; L "(amount > 5)"] /\
  preprocess_query (words_of cls41) = L "((account =~ /(?i)food/) and (payee =~ /(?i)shop/) or ((amount > 5)))".
Proof.
  split; [|split; vm_compute; reflexivity].
  assert (N : forall s, (trim s <> [] /\ trim s <> L "and" /\ trim s <> L "or" /\ trim s <> L "expr") -> ~ connective s).
  { unfold connective, blank, is_word. tauto. }
  assert (C : forall k, In k [L "and"; L "or"; L "expr"] -> connective k).
  { intros k [<-|[<-|[<-|[]]]]; unfold connective, is_word; vm_compute; auto. }
  apply Forall_forall. intros c [<-|[<-|[<-|[]]]]; (split; [apply Forall_forall; intros x Hx; apply C; cbn in Hx |- *; tauto|]);
    apply N; repeat split; discriminate.
Qed.

(** ** C44 *)
Lemma str_cmp_lt a : forall b, str_cmp a b = Lt -> text_before (Some a) (Some b).
Proof.
  induction a as [|x a IH]; intros [|y b]; cbn; try discriminate.
  - intros _. apply (tb_prefix [] y b).
  - destruct (N.compare_spec x y) as [->|H|H]; try discriminate.
    + intros E. apply IH in E. inversion E as [|s c t|p x' s y' t Hxy]; subst.
      * apply (tb_prefix (y :: a) c t).
      * apply (tb_first (y :: p) x' s y' t); auto.
    + intros _. apply (tb_first [] x a y b). auto.
Qed.
Lemma str_cmp_antisym a : forall b, str_cmp b a = CompOpp (str_cmp a b).
Proof.
  induction a as [|x a IH]; intros [|y b]; cbn; auto. rewrite (N.compare_antisym x y). destruct (x ?= y)%N; cbn; auto.
Qed.
Lemma str_cmp_eq a : forall b, str_cmp a b = Eq -> a = b.
Proof.
  induction a as [|x a IH]; intros [|y b]; cbn; try discriminate; auto.
  destruct (N.compare_spec x y) as [->|H|H]; try discriminate. intros E. f_equal. auto.
Qed.
Lemma str_cmp_refl a : str_cmp a a = Eq.
Proof. induction a; cbn; auto. rewrite N.compare_refl. auto. Qed.
Lemma text_before_cmp a b : text_before a b -> opt_str_cmp a b = Lt.
Proof.
  intros H. destruct H as [s|s c t|p x s y t H]; cbn; auto.
  - induction s; cbn; auto. rewrite N.compare_refl. auto.
  - induction p; cbn; [apply N.compare_lt_iff in H; rewrite H; auto|]. rewrite N.compare_refl. auto.
Qed.
Lemma opt_str_cmp_antisym a b : opt_str_cmp b a = CompOpp (opt_str_cmp a b).
Proof. destruct a, b; cbn; auto. apply str_cmp_antisym. Qed.
Lemma opt_str_cmp_spec a b : match opt_str_cmp a b with Lt => text_before a b | Eq => a = b | Gt => text_before b a end.
Proof.
  destruct a as [a|], b as [b|]; cbn; auto; try constructor. destruct (str_cmp a b) eqn:E.
  - f_equal. apply str_cmp_eq. auto.
  - apply str_cmp_lt. auto.
  - apply str_cmp_lt. rewrite str_cmp_antisym, E. auto.
Qed.
Lemma qc_cmp_spec a b : match qc_cmp a b with Lt => (a < b)%Qc | Eq => a = b | Gt => (b < a)%Qc end.
Proof.
  unfold qc_cmp. destruct (a ?= b)%Qc eqn:E.
  - apply Qceq_alt. auto.
  - apply Qclt_alt. auto.
  - apply Qcgt_alt. auto.
Qed.
Lemma qc_cmp_of a b c : match c with Lt => (a < b)%Qc | Eq => a = b | Gt => (b < a)%Qc end -> qc_cmp a b = c.
Proof. unfold qc_cmp. destruct c; [apply Qceq_alt|apply Qclt_alt|apply Qcgt_alt]. Qed.
Lemma ordered_cmp l r c : ordered l r c -> value_cmp l r = Ok (Some c) /\ value_eq l r = Ok (match c with Eq => true | _ => false end).
Proof.
  intros [l0 r0 a b c0 Ql Qr U H|a b c0 H|a b c0 H].
  - apply qc_cmp_of in H. assert (E : qc_eqb a b = match c0 with Eq => true | _ => false end).
    { destruct (qc_eqb_spec a b) as [E|E].
      - subst b c0. pose proof (qc_cmp_spec a a) as X. destruct (qc_cmp a a); auto; exfalso; exact (Qclt_not_eq _ _ X eq_refl).
      - destruct c0; auto. exfalso. apply E. apply Qceq_alt. auto. }
    destruct Ql as [a|m], Qr as [b|m']; cbn [value_cmp value_eq]; try (rewrite H, E; auto).
    destruct m as [|a u], m' as [|b v]; cbn [money_cmp money_eqb m_amount bind] in *.
    + rewrite H. split; auto. f_equal. rewrite <- E. symmetry. apply (reflect_iff _ _ (qc_eqb_spec 0 0)). auto.
    + rewrite H. split; auto. f_equal. rewrite <- E. destruct (qc_eqb_spec b 0), (qc_eqb_spec 0 b); auto; congruence.
    + rewrite H, E. auto.
    + assert (u = v) by (eapply U; eauto). subst v. rewrite str_eqb_refl. cbn. rewrite H, andb_true_r, E. auto.
  - cbn. assert (H2 : opt_str_cmp a b = c0).
    { destruct c0; [subst; destruct b; cbn; auto; apply str_cmp_refl|apply text_before_cmp; auto|].
      rewrite opt_str_cmp_antisym, (text_before_cmp _ _ H). auto. }
    rewrite H2. split; auto. f_equal. pose proof (opt_str_cmp_spec a b) as S. rewrite H2 in S.
    assert (R : opt_eqb str_eqb a b = true <-> a = b).
    { destruct a as [a|], b as [b|]; cbn; try (split; congruence). destruct (str_eqb_spec a b); split; congruence. }
    destruct c0; [apply R; auto| |]; (destruct (opt_eqb str_eqb a b) eqn:E; auto; exfalso; assert (a = b) by (apply R; auto); subst b;
      pose proof (text_before_cmp _ _ S) as X; destruct a; cbn in X; rewrite ?str_cmp_refl in X; discriminate).
  - cbn. assert (H2 : (a ?= b) = c0).
    { destruct c0; [apply Z.compare_eq_iff; auto|apply Z.compare_lt_iff; auto|apply Z.compare_gt_iff; auto]. }
    rewrite H2. split; auto. f_equal. destruct (Z.eqb_spec a b).
    + subst. rewrite Z.compare_refl. auto.
    + destruct c0; auto; contradiction.
Qed.
(** The five operators on values that have an order. *)
Theorem C44_order : forall w t l r c, ordered l r c ->
  eval_binary w t BLt l r = Ok (VBool (match c with Lt => true | _ => false end)) /\
  eval_binary w t BEq l r = Ok (VBool (match c with Eq => true | _ => false end)) /\
  eval_binary w t BGt l r = Ok (VBool (match c with Gt => true | _ => false end)) /\
  eval_binary w t BLe l r = Ok (VBool (match c with Gt => false | _ => true end)) /\
  eval_binary w t BGe l r = Ok (VBool (match c with Lt => false | _ => true end)).
Proof.
  intros w t l r c H. destruct (ordered_cmp _ _ _ H) as [E1 E2].
  assert (NR : forall rx, r <> VRegex rx) by (destruct H as [? ? ? ? ? ? Q| |]; [destruct Q|..]; discriminate).
  unfold eval_binary. rewrite E1. cbn [bind]. repeat split; auto.
  destruct r; try (rewrite E2; reflexivity). exfalso. eapply NR; eauto.
Qed.
Print Assumptions C44_order.
(** Exactly one of the three holds. *)
Theorem C44_trichotomy : forall l r, kind_of l = kind_of r -> kind_of l <> KOther -> same_unit l r ->
  exists c, ordered l r c /\ forall c', ordered l r c' -> c' = c.
Proof.
  intros l r K N U.
  assert (X : exists c, ordered l r c).
  { assert (Q : forall l r a b, quantity l a -> quantity r b -> same_unit l r -> exists c, ordered l r c).
    { intros l0 r0 a b Ql Qr U0. exists (qc_cmp a b). eapply or_quantity; eauto. apply qc_cmp_spec. }
    destruct l, r; try discriminate K; try (exfalso; apply N; reflexivity); try (eapply Q; eauto; constructor).
    - eexists. apply or_text. apply opt_str_cmp_spec.
    - exists (d ?= d0). apply or_date. destruct (Z.compare_spec d d0); auto. }
  destruct X as (c & H). exists c. split; auto. intros c' H'. destruct (ordered_cmp _ _ _ H), (ordered_cmp _ _ _ H'). congruence.
Qed.
Print Assumptions C44_trichotomy.
(** Values of different kinds, or without order: the four orderings are false. *)
Theorem C44_different_kinds : forall w t l r op, kind_of l <> kind_of r \/ kind_of l = KOther -> In op [BLt; BGt; BLe; BGe] ->
  eval_binary w t op l r = Ok (VBool false).
Proof.
  intros w t l r op H Hop. assert (E : value_cmp l r = Ok None).
  { destruct l, r; cbn in *; auto; destruct H as [H|H]; try congruence; exfalso; apply H; auto. }
  destruct Hop as [<-|[<-|[<-|[<-|[]]]]]; cbn; rewrite E; auto.
Qed.
Print Assumptions C44_different_kinds.
(** Money of different commodities is never equal and cannot be ordered. *)
Theorem C44_different_commodities : forall w t a c b d op, c <> d ->
  eval_binary w t BEq (VMoney (M a c)) (VMoney (M b d)) = Ok (VBool false) /\
  (In op [BLt; BGt; BLe; BGe] -> eval_binary w t op (VMoney (M a c)) (VMoney (M b d)) = Panic PExplicit).
Proof.
  intros w t a c b d op H. assert (E : str_eqb c d = false) by (destruct (str_eqb_spec c d); congruence). split.
  - cbn. rewrite E, andb_false_r. auto.
  - intros [<-|[<-|[<-|[<-|[]]]]]; cbn; rewrite E; auto.
Qed.
Print Assumptions C44_different_commodities.
Theorem C44_logic : forall w t p a b,
  eval_binary w t BAnd (VBool a) (VBool b) = Ok (VBool (a && b)) /\
  eval_binary w t BOr (VBool a) (VBool b) = Ok (VBool (a || b)) /\
  eval_unary w p UNot (VBool a) = Ok (VBool (negb a)) /\
  eval_binary w t BEq (VBool a) (VBool b) = Ok (VBool (Bool.eqb a b)).
Proof. intros w t p [] []; auto. Qed.
Print Assumptions C44_logic.
Example C44_case : ordered (VNumber (qz 3)) (VMoney (M (qz 5) (L "EUR"))) Lt /\
  ordered (VString (Some (L "ab"))) (VString (Some (L "aa"))) Gt /\ ordered (VMoney MZero) (VMoney (M (qz 0) (L "EUR"))) Eq.
Proof.
  split; [|split].
  - eapply or_quantity; [constructor..| |reflexivity]. intros ? ? ? ? [=].
  - apply or_text. exact (tb_first (L "a") 97 [] 98 [] eq_refl).
  - eapply or_quantity; [constructor..| |reflexivity]. intros ? ? ? ? [=].
Qed.
