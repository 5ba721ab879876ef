(** Property C41, for automated transactions: the query of a rule, written on one line, is that of
    its words. *)
From Verif Require Import Base BaseFacts Numerals Money Alist Txn Expr Filter Tokens SpecQuery SpecWords PropQuery.

(** ** The words found *)
Definition norm (l : list str) : list str := filter (fun x => negb (str_eqb x [])) (map trim l).
Fixpoint qloop (terms : list str) (acc : str) (and first expr : bool) : str :=
  match terms with
  | [] => acc
  | term :: r =>
      if str_eqb term (L "and") then qloop r acc true first expr
      else if str_eqb term (L "or") then qloop r acc false first expr
      else if str_eqb term (L "expr") then qloop r acc and first true
      else
        let j := if negb first then (if and then L " and (" else L " or (") else L "(" in
        qloop r (acc ++ j ++ term_text expr term ++ L ")") false false false
  end.
Lemma loop_norm l : forall acc a f e, query_loop l acc a f e = qloop (norm l) acc a f e.
Proof.
  induction l as [|x l IH]; intros; cbn [query_loop]; auto. unfold norm. cbn [map filter]. fold (norm l).
  destruct (str_eqb (trim x) []); cbn [negb]; [apply IH|]. cbn [qloop].
  destruct (str_eqb (trim x) (L "and")); [apply IH|]. destruct (str_eqb (trim x) (L "or")); [apply IH|].
  destruct (str_eqb (trim x) (L "expr")); apply IH.
Qed.
Lemma norm_cons x l : norm (x :: l) = norm [x] ++ norm l.
Proof. unfold norm. cbn. destruct (negb _); auto. Qed.
Lemma norm_space x : norm [c_sp :: x] = norm [x].
Proof. unfold norm. cbn [map]. reflexivity. Qed.

Lemma parts_regex b cur in_str x : ~ In c_dq b -> ~ In c_slash b ->
  query_parts (c_slash :: b ++ c_slash :: x) cur false in_str = query_parts x (cur ++ c_slash :: b ++ [c_slash]) false in_str.
Proof.
  intros H1 H2. cbn [query_parts]. change (c_slash =? c_sp)%N with false. change (c_slash =? c_dq)%N with false.
  change (c_slash =? c_slash)%N with true. cbn [andb negb].
  assert (G : forall cur, query_parts (b ++ c_slash :: x) cur true in_str = query_parts x (cur ++ b ++ [c_slash]) false in_str).
  { clear cur. induction b as [|c b IH]; intros cur; cbn [app query_parts].
    - change (c_slash =? c_sp)%N with false. change (c_slash =? c_dq)%N with false. change (c_slash =? c_slash)%N with true. auto.
    - rewrite !andb_false_r.
      destruct (N.eqb_spec c c_dq); [exfalso; apply H1; left; auto|]. destruct (N.eqb_spec c c_slash); [exfalso; apply H2; left; auto|].
      rewrite IH; [|intros X; apply H1; right; auto|intros X; apply H2; right; auto]. rewrite <- app_assoc. auto. }
  rewrite G, <- app_assoc. auto.
Qed.
Lemma parts_quoted q : quotable q -> forall cur x,
  query_parts (q ++ c_dq :: x) cur false true = query_parts x (cur ++ q) false false.
Proof.
  induction 1 as [|c s H1 H2 _ IH|b s H1 H2 _ IH]; intros cur x.
  - cbn. rewrite app_nil_r. auto.
  - cbn [app query_parts]. rewrite andb_false_r. cbn [andb].
    destruct (N.eqb_spec c c_dq); [contradiction|]. destruct (N.eqb_spec c c_slash); [contradiction|].
    rewrite IH, <- app_assoc. auto.
  - cbn [app]. rewrite <- app_assoc. cbn [app]. rewrite parts_regex, IH by auto. f_equal. rewrite <- app_assoc. cbn. rewrite <- app_assoc. auto.
Qed.
Lemma parts_word w t : word_written w t -> forall cur x, query_parts (t ++ x) cur false false = query_parts x (cur ++ w) false false.
Proof.
  induction 1 as [|c w s H1 H2 H3 _ IH|b w s H1 H2 _ IH|q w s Q _ IH]; intros cur x.
  - cbn. rewrite app_nil_r. auto.
  - cbn [app query_parts]. destruct (N.eqb_spec c c_sp); [contradiction|]. cbn [andb].
    destruct (N.eqb_spec c c_dq); [contradiction|]. destruct (N.eqb_spec c c_slash); [contradiction|].
    rewrite IH, <- app_assoc. auto.
  - cbn [app]. rewrite <- app_assoc. cbn [app]. rewrite parts_regex, IH by auto. f_equal. rewrite <- app_assoc. cbn. rewrite <- app_assoc. auto.
  - cbn [app]. rewrite <- app_assoc. cbn [app query_parts]. change (c_dq =? c_sp)%N with false. change (c_dq =? c_dq)%N with true. cbn [andb negb].
    rewrite parts_quoted, IH by auto. rewrite <- app_assoc. auto.
Qed.
Lemma parts_spaces b : only_spaces b -> b <> [] -> forall cur x,
  norm (query_parts (b ++ x) cur false false) = norm [cur] ++ norm (query_parts x [c_sp] false false).
Proof.
  induction b as [|c b IH]; intros H Hn cur x; [congruence|]. rewrite (H c (or_introl eq_refl)).
  cbn [app query_parts]. change (c_sp =? c_sp)%N with true. change (c_sp =? c_dq)%N with false. change (c_sp =? c_slash)%N with false. cbn [andb negb app].
  rewrite norm_cons. f_equal. destruct b as [|c' b]; auto.
  rewrite IH; [reflexivity|intros y Hy; apply H; right; auto|discriminate].
Qed.
Lemma written_parts ws s : query_written ws s -> forall cur, cur = [] \/ s = [] \/ (exists r, s = c_sp :: r) ->
  norm (query_parts s cur false false) = norm [cur] ++ norm ws.
Proof.
  induction 1 as [b Hb|b w t ws s Hb Hw Hq IH Hs]; intros cur Hc.
  - destruct b as [|c b]; [cbn [query_parts]; rewrite app_nil_r; auto|].
    rewrite <- (app_nil_r (c :: b)), parts_spaces by (auto; discriminate). f_equal.
  - assert (E : forall cur, norm (query_parts (t ++ s) cur false false) = norm [cur ++ w] ++ norm ws).
    { intros cur'. rewrite (parts_word _ _ Hw). apply IH. right. destruct ws as [|w' ws].
      - inversion Hq; subst. destruct s as [|c s]; auto. right. exists s. rewrite (H c (or_introl eq_refl)). auto.
      - right. apply Hs. discriminate. }
    rewrite (norm_cons w). destruct b as [|c b].
    + cbn [app]. rewrite E. destruct Hc as [->|Hc]; [reflexivity|].
      assert (t = []).
      { inversion Hw; subst; auto; cbn in Hc; destruct Hc as [Hc|(r & Hc)]; try discriminate; injection Hc as Hc _; contradiction || discriminate. }
      subst t. inversion Hw. subst w. rewrite app_nil_r. reflexivity.
    + rewrite parts_spaces by (auto; discriminate). rewrite E. reflexivity.
Qed.
Lemma rule_query_words {P} (t : txn P) ws : query_written ws (t_desc t) -> get_filter_query t = preprocess_query ws.
Proof.
  intros H. unfold get_filter_query, preprocess_query. rewrite !loop_norm. f_equal. f_equal. f_equal.
  rewrite (written_parts _ _ H) by auto. reflexivity.
Qed.

(** The query of a rule is the documented translation of its words: regexes and quoted texts are
    one word each, whatever blanks they contain. *)
Theorem C41_rule_translation : forall P (t : txn P) cls rest, Forall clause_ok cls -> cls <> [] -> Forall connective rest ->
  query_written (words_of cls ++ rest) (t_desc t) ->
  exists q, query_means cls q /\ get_filter_query t = L "(" ++ q ++ L ")".
Proof. intros P t cls rest H1 H2 H3 H4. rewrite (rule_query_words t _ H4). apply C41_translation; auto. Qed.
Print Assumptions C41_rule_translation.
(** A case: a regex with a blank, a quoted expression. *)
Definition rule41 : txn rposting := {| t_date := None; t_edate := None; t_cleared := CUnknown; t_code := None;
  t_desc := L " /Food and  drink/ and @shop and or expr ""(amount > 5)"" "; t_payee := None; t_postings := []; t_comments := []; t_type := TAutomated; t_tags := [] |}.
Definition cls_rule41 : list clause := [{| cl_before := []; cl_term := L "/Food and  drink/" |}; {| cl_before := [L "and"]; cl_term := L "@shop" |};
  {| cl_before := [L "and"; L "or"; L "expr"]; cl_term := L "(amount > 5)" |}].
Lemma plain_word w : forallb (fun c => negb (c =? c_sp)%N && negb (c =? c_dq)%N && negb (c =? c_slash)%N) w = true -> word_written w w.
Proof.
  induction w as [|c w IH]; cbn; intros H; [constructor|]. apply andb_prop in H. destruct H as [H H'].
  destruct (N.eqb_spec c c_sp); [discriminate|]. destruct (N.eqb_spec c c_dq); [discriminate|]. destruct (N.eqb_spec c c_slash); [discriminate|].
  constructor; auto.
Qed.
Lemma spaces_b s : forallb (N.eqb c_sp) s = true -> only_spaces s.
Proof. rewrite forallb_forall. intros H c Hc. apply H in Hc. apply N.eqb_eq in Hc. auto. Qed.
Example C41_rule_case : Forall clause_ok cls_rule41 /\ query_written (words_of cls_rule41) (t_desc rule41) /\
  get_filter_query rule41 = L "((account =~ /Food and  drink/) and (payee =~ /(?i)shop/) or ((amount > 5)))".
Proof.
  assert (N : forall s, (trim s <> [] /\ trim s <> L "and" /\ trim s <> L "or" /\ trim s <> L "expr") -> ~ connective s).
  { unfold connective, blank, is_word. tauto. }
  assert (C : forall k, In k [L "and"; L "or"; L "expr"] -> connective k).
  { intros k [<-|[<-|[<-|[]]]]; unfold connective, is_word; vm_compute; auto. }
  split; [|split; [|vm_compute; reflexivity]].
  { apply Forall_forall. intros c [<-|[<-|[<-|[]]]]; (split; [apply Forall_forall; intros x Hx; apply C; cbn in Hx |- *; tauto|]);
    apply N; repeat split; discriminate. }
  assert (W : forall b w t ws s r, only_spaces b -> word_written w t -> query_written ws s -> s = c_sp :: r -> query_written (w :: ws) (b ++ t ++ s)).
  { intros. eapply qw_word; eauto. }
  assert (SP : only_spaces [c_sp]) by (apply spaces_b; reflexivity).
  assert (NS : only_spaces []) by (intros c []).
  change (t_desc rule41) with ([c_sp] ++ (c_slash :: L "Food and  drink" ++ c_slash :: []) ++ [c_sp] ++ L "and" ++ [c_sp] ++ L "@shop" ++ [c_sp] ++ L "and" ++
    [c_sp] ++ L "or" ++ [c_sp] ++ L "expr" ++ [c_sp] ++ (c_dq :: L "(amount > 5)" ++ c_dq :: []) ++ [c_sp]).
  change (words_of cls_rule41) with [c_slash :: L "Food and  drink" ++ c_slash :: []; L "and"; L "@shop"; L "and"; L "or"; L "expr"; L "(amount > 5)" ++ []].
  eapply W; [exact SP| | |reflexivity].
  { apply ww_regex; [| |constructor]; intros X; cbn in X; repeat (destruct X as [X|X]; [discriminate|]); destruct X. }
  do 5 (eapply W; [exact SP|apply plain_word; reflexivity| |reflexivity]).
  eapply W; [exact SP| | |reflexivity].
  { apply ww_quoted; [|constructor]. repeat (apply qt_char; [discriminate|discriminate|]). constructor. }
  apply qw_end. exact SP.
Qed.
