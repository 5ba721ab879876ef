(** C80: the value of an expression. *)
From Coq Require Import Lia.
From Verif Require Import Base BaseFacts Numerals Money Alist Comment Txn Peg Grammar Dates Expr Filter Ledger Spec SpecText SpecList
  AlistFacts LedgerFacts EvalFacts SpecQuery PropQuery SpecExpr ExprFacts PropTxn PropLedger PropExpr PropTagQuery NumFacts LiteralFacts SpecWorth WorthFacts.
Open Scope Qc_scope.

(** The evaluator gives an expression the value that the rules give it, and none if they give it none. *)
Theorem C80_value : forall w e p t cs v, buildable w cu_name cu_aliases cs ->
  (exists cs', eval w (denotes e) p t cs = Ok (v, cs')) <-> worth w t cs (literals e) p e v.
Proof.
  intros w e p t cs v B. rewrite literals_lits.
  destruct (reg_ok w (lits (denotes e)) cs B) as [B1 G1]. destruct (eval_reg w (denotes e) p t cs (reg w (lits (denotes e)) cs) B (grows_refl _ _)) as [E L].
  assert (K : known w cs (reg w (lits (denotes e)) cs) (lits (denotes e)) e) by (intros x Hx; apply reg_literal; auto; rewrite <- literals_lits; auto).
  rewrite <- (worth_iff w t cs (reg w (lits (denotes e)) cs) (lits (denotes e)) e K). rewrite E. split.
  - intros (cs' & X). rewrite X. reflexivity.
  - destruct (eval w (denotes e) p t cs) as [[v' c]| |]; cbn; try discriminate. intros [= ->]. eauto.
Qed.
Print Assumptions C80_value.
(** From the text: an expression in parentheses, followed by anything. *)
Theorem C80_value_of_text : forall w e x, written w e -> exists n, build_root w (L "(" ++ text_of e ++ L ")" ++ x) = Ok n /\
  forall p t cs v, buildable w cu_name cu_aliases cs -> (exists cs', eval w n p t cs = Ok (v, cs')) <-> worth w t cs (literals e) p e v.
Proof.
  intros w e x W. exists (denotes e). split; [apply C46_parsed_as_written_partial; auto|]. intros. apply C80_value. auto.
Qed.
Print Assumptions C80_value_of_text.
(** The rules give one value at most. *)
Theorem C80_one_value : forall w t cs p e v v', buildable w cu_name cu_aliases cs -> worth w t cs (literals e) p e v -> worth w t cs (literals e) p e v' -> v = v'.
Proof. intros w t cs p e v v' B H H'. apply C80_value in H; auto. apply C80_value in H'; auto. destruct H as [? H], H' as [? H']. congruence. Qed.
Print Assumptions C80_one_value.

(** On the command line: [expr] and a condition.  The postings for which the query holds are those for which the
    condition is true. *)
Lemma trim_parens s : trim (L "(" ++ s ++ L ")") = L "(" ++ s ++ L ")".
Proof.
  unfold trim, trim_end. assert (E : trim_start (L "(" ++ s ++ L ")") = L "(" ++ s ++ L ")") by reflexivity. rewrite E.
  rewrite app_assoc, rev_app_distr. cbn [rev app L]. assert (E2 : forall r, trim_start (rev (L ")") ++ r) = rev (L ")") ++ r) by reflexivity.
  rewrite E2, rev_app_distr, !rev_involutive. reflexivity.
Qed.
Lemma not_word s k : In k [L "and"; L "or"; L "expr"] -> L "(" ++ s ++ L ")" <> k.
Proof. intros [<-|[<-|[<-|[]]]]; discriminate. Qed.
Theorem C80_condition : forall w o e, written w e -> o_query o = [L "expr"; L "(" ++ text_of e ++ L ")"] ->
  exists n, query_node w o = Ok (Some n) /\
    forall t p cs, buildable w cu_name cu_aliases cs -> query_holds w (Some n) t p cs <-> worth w t cs (literals e) p e (VBool true).
Proof.
  intros w o e W Q. set (c := {| cl_before := [L "expr"]; cl_term := L "(" ++ text_of e ++ L ")" |}).
  assert (T : taken_verbatim c) by (apply Exists_cons_hd; vm_compute; reflexivity).
  assert (CO : clause_ok c).
  { split; [constructor; [right; right; right; vm_compute; reflexivity|constructor]|]. unfold connective, blank, is_word. cbn [cl_term c]. rewrite trim_parens.
    intros [H|[H|[H|H]]]; [discriminate|apply (not_word _ _) in H..]; cbn; auto. }
  exists (denotes e). split.
  - rewrite (C41_filter_is_translation w o [c] [] (L "(" ++ trim (cl_term c) ++ L ")")); [|constructor; auto|discriminate|constructor|exact Q|apply qm_one; apply tm_expr; auto].
    cbn [cl_term c]. rewrite trim_parens.
    pose proof (C46_parsed_as_written_partial w (CParen (CParen e)) [] W) as P. cbn [denotes] in P. rewrite app_nil_r in P. cbn [text_of] in P. rewrite <- ?app_assoc in P. rewrite <- ?app_assoc. rewrite P. reflexivity.
  - intros t p cs B. exact (C80_value w e p t cs (VBool true) B).
Qed.
Print Assumptions C80_condition.
(** In a rule: the amount that an expression adds for a posting is the amount it is worth or, if it is worth a number,
    so many times the amount of the posting. *)
Theorem C80_rule_amount : forall w e p t cs m, written w e -> buildable w cu_name cu_aliases cs ->
  (exists cs', eval_value_expression w (L "(" ++ text_of e ++ L ")") p t cs = Ok (m, cs')) <->
  (worth w t cs (literals e) p e (VMoney m) \/ exists q a, worth w t cs (literals e) p e (VNumber q) /\ p_amount p = Some a /\ scaled q a m).
Proof.
  intros w e p t cs m W B. unfold eval_value_expression. pose proof (C46_parsed_as_written_partial w e [] W) as P. rewrite app_nil_r in P. rewrite P. cbn [bind].
  split.
  - intros (cs' & H). bind_inv H. destruct a as [v c]. assert (X : worth w t cs (literals e) p e v) by (apply C80_value; eauto). destruct v; try discriminate H.
    + right. destruct (p_amount p) as [a|] eqn:E; try discriminate H. injection H as H _. exists q, a. split; auto. split; auto. apply mul_scaled. auto.
    + injection H as -> _. auto.
  - intros [H|(q & a & H & E & S)]; apply C80_value in H; auto; destruct H as (c & H); rewrite H; cbn [bind].
    + eauto.
    + rewrite E. cbn. apply mul_scaled in S. rewrite S. eauto.
Qed.
Print Assumptions C80_rule_amount.

(** ** Cases *)
(** (any((account =~ /Food/)) and ((amount + 2 eur) > 5.50 EUR)) *)
Definition e80 : cexp :=
  CBin OAnd (CFun FAny (CBin OMatch (CVar KAccount) (CRegex (L "Food"))))
    (CBin OGt (CBin OAdd (CVar KAmount) (CMoney (L "2") None (L "eur"))) (CMoney (L "5") (Some (L "50")) (L "EUR"))).
Definition q80 (acc : String.string) (n : Z) : posting :=
  {| p_account := L acc; p_amount := Some (M (qz n) (L "EUR")); p_balance := None; p_cost := None; p_kind := Real; p_comments := [];
     p_tags := []; p_payee := Some (L "Shop"); p_origin := FromTransaction |}.
Definition t80 : txn posting :=
  {| t_date := Some 10%Z; t_edate := None; t_cleared := CUnknown; t_code := None; t_desc := L "Shop"; t_payee := None;
     t_postings := [q80 "Cash" 7; q80 "Food" (-7)]; t_comments := []; t_type := TReal; t_tags := [] |}.
Definition w80 : world := {| w_lower := w_lower w0; w_numeric := w_numeric w0; w_rx := fun r s => str_eqb r s; w_rx_ok := fun _ => true; w_read := w_read w0;
  w_glob := w_glob w0; w_two_timer := w_two_timer w0; w_now := w_now w0; w_ord := w_ord w0; w_width := w_width w0 |}.
Definition cs80 : alist currency := cur_insert w80 (currency_from (L "EUR")) l_new.
Example C80_case : written w80 e80 /\ text_of e80 = L "(any((account =~ /Food/)) and ((amount + 2 eur) > 5.50 EUR))" /\ buildable w80 cu_name cu_aliases cs80 /\
  worth w80 t80 cs80 (literals e80) (q80 "Cash" 7) e80 (VBool true) /\ worth w80 t80 cs80 (literals e80) (q80 "Food" (-7)) e80 (VBool false).
Proof.
  assert (B : buildable w80 cu_name cu_aliases cs80) by (apply buildable_insert; constructor).
  split; [cbn [written e80 is_number is_word_op]; repeat apply conj; auto; try (apply only_digits_all; reflexivity); try discriminate; try (intros X; cbn in X; intuition discriminate); tauto|].
  split; [reflexivity|]. split; [auto|]. split; apply C80_value; auto; eexists; vm_compute; reflexivity.
Qed.
(** A number in a rule: 10 percent of the posting. *)
Example C80_rule_case : worth w80 t80 cs80 [] (q80 "Cash" 7) (CNumber (L "0") (Some (L "10"))) (VNumber (number_value (L "0") (Some (L "10")))) /\
  match eval_value_expression w80 (L "(0.10)") (q80 "Cash" 7) t80 cs80 with Ok (m, _) => money_eqb m (M (qz 7 / qz 10) (L "EUR")) = true | _ => False end.
Proof. split; [constructor|]. vm_compute. reflexivity. Qed.
