(** Properties of value expressions: C46 (parsing), C42 (chains), C43 (evaluation), C41 (meaning of queries). *)
From Coq Require Import Lia.
From Verif Require Import Base BaseFacts Numerals Money Alist Comment Txn Peg Grammar Dates Expr Filter Ledger Spec SpecText SpecList
  AlistFacts LedgerFacts PegFacts NumFacts LiteralFacts PropLiteral EvalFacts SpecQuery PropQuery SpecExpr ExprFacts PropTxn PropLedger PropPrice.

(** ** C46 *)
(** Every written expression, in parentheses, is parsed to its tree, whatever follows the closing parenthesis. *)
Theorem C46_parsed_as_written_partial : forall w e x, written w e -> build_root w (L "(" ++ text_of e ++ L ")" ++ x) = Ok (denotes e).
Proof.
  intros w e x W. eapply root_reads; [|apply (text_first w e W)]. apply close_expr. apply reads; auto; [constructor|].
  intros _ (o & y & Ho & E). destruct o; discriminate.
Qed.
Print Assumptions C46_parsed_as_written_partial.
(** An operation is already in parentheses. *)
Theorem C46_operations_partial : forall w o a b x, written w (CBin o a b) ->
  build_root w (text_of (CBin o a b) ++ x) = Ok (NBinary (op_node o) (denotes a) (denotes b)).
Proof.
  intros w o a b x (Wa & Wb & N). cbn [text_of]. rewrite <- !app_assoc. eapply (root_reads w); [|apply (text_first w a Wa)].
  eapply a_bin; [apply reads; auto| |apply (text_first w b Wb)].
  - constructor.
  - intros Hn (o' & y & Hw & E). apply N. split; auto. destruct o, o'; cbn in *; auto; try discriminate; destruct Hw.
  - apply reads; auto; [constructor|]. intros _ (o' & y & Hw & E). destruct o'; discriminate.
Qed.
Print Assumptions C46_operations_partial.
(** What is left out, and why: a bare number before "and" takes the word for a commodity ... *)
Theorem C46_number_before_and_refuted : forall w,
  let e := CBin OAnd (CNumber (L "5") None) (CBin OEq (CVar KAccount) (CVar KAccount)) in
  text_of e = L "(5 and (account == account))" /\ build_root w (text_of e) = Panic PUnwrap.
Proof. intros w. split; vm_compute; reflexivity. Qed.
(** ... and "!=" and "!" are in the grammar but abort. *)
Theorem C46_not_equal_refuted : forall w, gparse Rvalue_expr (L "(account != payee)") <> Panic PUnwrap /\ build_root w (L "(account != payee)") = Panic PExplicit.
Proof. intros w. split; [intros H; vm_compute in H; discriminate H|vm_compute; reflexivity]. Qed.
Theorem C46_bang_refuted : forall w, gparse Rvalue_expr (L "(! (1 == 1))") <> Panic PUnwrap /\ build_root w (L "(! (1 == 1))") = Panic PExplicit.
Proof. intros w. split; [intros H; vm_compute in H; discriminate H|vm_compute; reflexivity]. Qed.
Print Assumptions C46_number_before_and_refuted.
Print Assumptions C46_not_equal_refuted.
Print Assumptions C46_bang_refuted.
Definition e46 : cexp :=
  CBin OAnd (CBin OMatch (CVar KPayee) (CRegex (L "(?i)shop")))
    (CNot (CBin OLt (CFun FAbs (CVar KAmount)) (CMoney (L "12") (Some (L "50")) (L "EUR")))).
Example C46_case_text : text_of e46 = L "((payee =~ /(?i)shop/) and (not (abs(amount) < 12.50 EUR)))". Proof. reflexivity. Qed.
Example C46_case : written w0 e46.
Proof.
  cbn [written e46 is_number is_word_op]. repeat apply conj; auto; try (apply only_digits_all; reflexivity); try discriminate;
    try (intros X; cbn in X; intuition discriminate); tauto.
Qed.
(** Strings with quotes in them. *)
Fixpoint quotes_check (q : N) (s : str) : bool :=
  match s with
  | [] => true
  | c :: r => if (c =? 92)%N then match r with [] => false | d :: r' => if (d =? q)%N then quotes_check q r' else quotes_check q r end
              else negb (c =? q)%N && quotes_check q r
  end.
Lemma quotes_check_ok q s : quotes_check q s = true -> in_quotes q s.
Proof.
  assert (G : forall n s, (length s <= n)%nat -> quotes_check q s = true -> in_quotes q s).
  { clear s. induction n as [|n IH]; intros s Hl H; destruct s as [|c s]; try apply iq_end; [cbn in Hl; lia|]. cbn [length] in Hl. cbn [quotes_check] in H.
    destruct (c =? 92)%N eqn:Hc.
    - apply N.eqb_eq in Hc. subst c. destruct s as [|d s]; [discriminate|]. cbn [length] in Hl. destruct (d =? q)%N eqn:Hd.
      + apply N.eqb_eq in Hd. subst d. apply iq_quote. apply IH; [lia|auto].
      + apply iq_backslash; [apply N.eqb_neq; auto|]. apply IH; [cbn; lia|auto].
    - apply andb_prop in H. destruct H as [H1 H2]. apply iq_char; [destruct (N.eqb_spec c q); auto; discriminate|apply N.eqb_neq; auto|]. apply IH; [lia|auto]. }
  intros H. eapply G; eauto.
Qed.
Example C46_case_quotes : let e := CBin OEq (CFun FTag (CString c_sq (L "it\'s"))) (CString c_dq (L "a \""b\c")) in
  text_of e = L "(tag('it\'s') == ""a \""b\c"")" /\ written w0 e.
Proof.
  split; [reflexivity|]. cbn [written]. split; [|split; [|intros [[] _]]]; (split; [auto|]; apply quotes_check_ok; reflexivity).
Qed.

(** ** C42 *)
(** A chain of operators of one binding strength, weaker than product, of any length: only the first two
    operands are used. *)
Theorem C42_only_the_first_two : forall w k a0 o a l x, (0 < k)%nat -> chain_written w a0 ((o, a) :: l) ->
  Forall (fun p => precedence (fst p) = k) ((o, a) :: l) ->
  build_root w (chain_text a0 ((o, a) :: l) ++ x) = Ok (NBinary (op_node o) (denotes a0) (denotes a)).
Proof.
  intros w k a0 o a l x Hk W F. unfold chain_text. rewrite <- !app_assoc, rest_tail.
  eapply root_reads; [apply (chain_reads w k); auto|apply (text_first w a0); eapply chain_head; eauto].
  inversion F as [|? ? E]; subst. cbn [fst]. split; auto. pose proof (orung_lt o). cbn [fst] in *. lia.
Qed.
Print Assumptions C42_only_the_first_two.
(** A product of three or more factors aborts. *)
Theorem C42_long_product_aborts : forall w a0 o a o2 a2 l x, chain_written w a0 ((o, a) :: (o2, a2) :: l) ->
  precedence o = O -> precedence o2 = O ->
  build_root w (chain_text a0 ((o, a) :: (o2, a2) :: l) ++ x) = Panic PUnwrap.
Proof.
  intros w a0 o a o2 a2 l x W P1 P2. unfold chain_text. rewrite <- !app_assoc, rest_tail.
  destruct (product_stops w a0 o a o2 a2 l x W P1 P2) as (p & H & _). unfold build_root. rewrite (gparse_pegs_fail Rvalue_expr); auto.
  eapply s_rule_fail; [reflexivity|]. eapply s_seq_fail2; [apply s_str|]. eapply s_seq_fail2; [apply p_wss|].
  rewrite (text_first w a0) by (eapply chain_head; eauto). eapply s_seq_fail2; [exact H|]. eapply s_seq_fail2; [apply p_wss|].
  rewrite op_skip. apply s_str_fail. destruct o2; try discriminate; reflexivity.
Qed.
Print Assumptions C42_long_product_aborts.
(** With two operands both take part, for every operator. *)
Theorem C42_two_operands_partial : forall w a0 o a x, chain_written w a0 [(o, a)] ->
  build_root w (chain_text a0 [(o, a)] ++ x) = Ok (NBinary (op_node o) (denotes a0) (denotes a)).
Proof.
  intros w a0 o a x W. destruct W as (W0 & N & W & _). unfold chain_text. cbn [tail_text]. rewrite !app_nil_r, <- !app_assoc.
  pose proof (C46_operations_partial w o a0 a x) as H. cbn [text_of] in H. rewrite <- !app_assoc in H. apply H. cbn. auto.
Qed.
Print Assumptions C42_two_operands_partial.
(** 1 + 2 + 3 is not 6 but 3, and "x or y or z" does not hold although z does. *)
Definition p42 : posting :=
  {| p_account := L "Assets:Bank"; p_amount := None; p_balance := None; p_cost := None; p_kind := Real; p_comments := [];
     p_tags := []; p_payee := None; p_origin := FromTransaction |}.
Definition t42 : txn posting := set_postings (@txn_new posting TReal) [p42].
(** The answer to a condition. *)
Definition holds (w : world) (s : str) : res bool :=
  n <- build_root w s ;; '(b, _) <- filter_expression w n p42 t42 l_new ;; Ok b.
Theorem C42_all_operands_refuted : forall w,
  holds w (L "((1 + 2 + 3) == 6)") = Ok false /\ holds w (L "((1 + 2 + 3) == 3)") = Ok true /\
  holds w (L "(1 == 1)") = Ok true /\ holds w (L "((1 == 2) or (1 == 3) or (1 == 1))") = Ok false.
Proof. intros w. repeat split; vm_compute; reflexivity. Qed.
Print Assumptions C42_all_operands_refuted.
Example C42_case : chain_written w0 (CNumber (L "1") None) [(OAdd, CNumber (L "2") None); (OSub, CVar KAmount); (OAdd, CNumber (L "3") (Some (L "5")))] /\
  chain_text (CNumber (L "1") None) [(OAdd, CNumber (L "2") None); (OSub, CVar KAmount); (OAdd, CNumber (L "3") (Some (L "5")))] = L "(1 + 2 - amount + 3.5)".
Proof.
  split; [|reflexivity]. cbn [written chain_written is_number is_word_op]. repeat apply conj; auto; try (apply only_digits_all; reflexivity); try discriminate; tauto.
Qed.

(** ** C43 *)
Lemma money_sum_cases w p t cs cs1 cs2 o a b ma mb : o = BAdd \/ o = BSub ->
  eval w a p t cs = Ok (VMoney ma, cs1) -> eval w b p t cs1 = Ok (VMoney mb, cs2) ->
  (exists m, eval_binary w t o (VMoney ma) (VMoney mb) = Ok (VMoney m)) \/
  (exists x, eval_binary w t o (VMoney ma) (VMoney mb) = Panic x) /\ goes_wrong w t p cs (NBinary o a b).
Proof.
  intros Ho Ea Eb. destruct ma as [|x c], mb as [|y d].
  - left. destruct Ho as [-> | ->]; eexists; vm_compute; reflexivity.
  - left. cbn. destruct Ho as [-> | ->]; cbn; unfold money_add, money_sub, to_money; cbn; repeat (match goal with |- context [qc_eqb ?u ?v] => destruct (qc_eqb u v) end; cbn); eauto.
  - left. cbn. destruct Ho as [-> | ->]; cbn; unfold money_add, money_sub, to_money; cbn; repeat (match goal with |- context [qc_eqb ?u ?v] => destruct (qc_eqb u v) end; cbn); eauto.
  - destruct (str_eqb_spec c d) as [-> | N].
    + left. destruct Ho as [-> | ->]; cbn; unfold money_add, money_sub, to_money; cbn; rewrite str_eqb_refl; cbn; repeat (match goal with |- context [qc_eqb ?u ?v] => destruct (qc_eqb u v) end; cbn); eauto.
    + assert (G : goes_wrong w t p cs (NBinary o a b)) by (eapply gw_mix; eauto; tauto).
      assert (E : (exists m, eval_binary w t o (VMoney (M x c)) (VMoney (M y d)) = Ok (VMoney m)) \/ (exists e, eval_binary w t o (VMoney (M x c)) (VMoney (M y d)) = Panic e)); [|destruct E as [E|E]; auto].
      destruct Ho as [-> | ->]; unfold eval_binary; destruct (to_money _); eauto.
Qed.
Definition fine (w : world) (t : txn posting) (p : posting) (cs : alist currency) (n : node) (T : ty) : Prop :=
  (exists v cs', eval w n p t cs = Ok (v, cs') /\ has_type v T /\ buildable w cu_name cu_aliases cs') \/
  ((exists x, eval w n p t cs = Panic x) /\ goes_wrong w t p cs n).


Lemma any_fine w t e : (forall p cs, buildable w cu_name cu_aliases cs -> fine w t p cs e TBool) ->
  forall ps cs, buildable w cu_name cu_aliases cs -> incl ps (t_postings t) ->
  (exists b cs', any_loop (fun p' cs' => eval w e p' t cs') ps cs = Ok (b, cs') /\ buildable w cu_name cu_aliases cs') \/
  ((exists x, any_loop (fun p' cs' => eval w e p' t cs') ps cs = Panic x) /\ exists p' cs', In p' (t_postings t) /\ goes_wrong w t p' cs' e).
Proof.
  intros H. induction ps as [|q ps IH]; intros cs B I; cbn [any_loop]; [left; eauto|].
  destruct (H q cs B) as [(v & cs1 & E & HT & B1)|[(x & E) G]]; rewrite E; cbn [bind].
  - destruct v as [| |b| | | | | |]; try destruct HT. destruct b; [left; eauto|]. apply IH; auto. intros y Hy. apply I. right. auto.
  - right. split; eauto. exists q, cs. split; auto. apply I. left. auto.
Qed.

(** A well-typed expression has a value of its type, unless it aborts for one of the listed reasons. *)
Theorem C43_well_typed : forall w n T, well_typed n T -> forall t p cs, buildable w cu_name cu_aliases cs ->
  (exists v cs', eval w n p t cs = Ok (v, cs') /\ has_type v T) \/ ((exists x, eval w n p t cs = Panic x) /\ goes_wrong w t p cs n).
Proof.
  intros w n T WT t.
  assert (K : forall p cs, buildable w cu_name cu_aliases cs -> fine w t p cs n T).
  { Ltac child IH p cs B v cs1 E HT B1 :=
      destruct (IH p cs B) as [(v & cs1 & E & HT & B1)|[(? & E) ?]];
      [|right; split; [eexists; cbn [eval]; rewrite E; reflexivity|apply gw_child; assumption]];
      cbn [eval]; rewrite E; cbn [bind].
    Ltac children IHa IHb p cs B va vb cs1 cs2 Ea Eb Ha Hb B2 :=
      let B1 := fresh "B1" in
      destruct (IHa p cs B) as [(va & cs1 & Ea & Ha & B1)|[(? & Ea) ?]];
      [|right; split; [eexists; cbn [eval]; rewrite Ea; reflexivity|apply gw_left; assumption]];
      destruct (IHb p cs1 B1) as [(vb & cs2 & Eb & Hb & B2)|[(? & Eb) ?]];
      [|right; split; [eexists; cbn [eval]; rewrite Ea; cbn [bind]; rewrite Eb; reflexivity|eapply gw_right; eassumption]];
      cbn [eval]; rewrite Ea; cbn [bind]; rewrite Eb; cbn [bind].
    Ltac val v H := destruct v; cbn in H; try (exfalso; exact H).
    Ltac good := left; eexists; eexists; split; [reflexivity|split; [cbn; exact I|assumption]].
    induction WT; intros p cs Bc; unfold fine.
    - destruct (p_amount p) eqn:E; cbn [eval]; rewrite E; cbn [unwrap bind]; [good|right; split; eauto; constructor; auto].
    - cbn [eval]. good.
    - destruct (p_payee p) eqn:E; cbn [eval]; rewrite E; cbn [unwrap bind]; [good|right; split; eauto; constructor; auto].
    - cbn [eval]. good.
    - destruct (t_date t) eqn:E; cbn [eval]; rewrite E; cbn [unwrap bind]; [good|right; split; eauto; constructor; auto].
    - cbn [eval]. good.
    - cbn [eval]. destruct (lwf_get_cases w cu_name c cs (buildable_lwf _ _ _ _ Bc)) as [(x & Hi & E)|E]; rewrite E.
      + good.
      + left. eexists. eexists. split; [reflexivity|]. split; [cbn; auto|]. apply buildable_insert; auto.
    - cbn [eval]. good.
    - cbn [eval]. good.
    - child IHWT p cs Bc v cs1 E HT B1. val v HT. good.
    - child IHWT p cs Bc v cs1 E HT B1. destruct H as [[-> | ->] | ->]; val v HT; good.
    - child IHWT p cs Bc v cs1 E HT B1. destruct H as [-> | ->]; val v HT; [good|destruct m; good].
    - child IHWT p cs Bc v cs1 E HT B1. destruct (any_fine w t e IHWT (t_postings t) cs1 B1 (incl_refl _)) as [(b & cs2 & EA & B2)|[(x & EA) (q & cs2 & Hq & G)]]; rewrite EA; cbn [bind].
      + good.
      + right. split; eauto. eapply gw_any; eauto.
    - child IHWT p cs Bc v cs1 E HT B1. val v HT. good.
    - child IHWT p cs Bc v cs1 E HT B1. destruct H as [-> | ->]; val v HT; [good|]. destruct s as [s|]; [good|].
      right. cbn. split; eauto. eapply gw_no_text; eauto.
    - child IHWT p cs Bc v cs1 E HT B1. val v HT. cbn. destruct s as [s|]; cbn.
      + destruct (date_parser w s) as [[d|]|er|x] eqn:ED; cbn.
        * good.
        * right. split; eauto. eapply gw_no_date; eauto. congruence.
        * exfalso. unfold date_parser in ED. destruct (leftmost re_date_at s) as [[[y m] d]|]; [destruct (from_ymd y m d); discriminate|].
          destruct (leftmost re_month_at s) as [[y m]|]; [destruct (from_ymd y m 1); discriminate|discriminate].
        * right. split; eauto. eapply gw_no_date; eauto. congruence.
      + right. split; eauto. eapply gw_no_text; eauto.
    - children IHWT1 IHWT2 p cs Bc va vb cs1 cs2 Ea Eb Ha Hb B2.
      destruct H0 as [-> | ->]; val va Ha; val vb Hb.
      + destruct H as [-> | ->]; good.
      + destruct (money_sum_cases w p t cs cs1 cs2 o a b m m0 H Ea Eb) as [(x & Ex)|[(x & Ex) G]]; rewrite Ex; cbn [bind]; [good|right; eauto].
    - children IHWT1 IHWT2 p cs Bc va vb cs1 cs2 Ea Eb Ha Hb B2.
      destruct H as [-> | ->]; val va Ha; val vb Hb; good.
    - children IHWT1 IHWT2 p cs Bc va vb cs1 cs2 Ea Eb Ha Hb B2. val va Ha; val vb Hb; good.
    - children IHWT1 IHWT2 p cs Bc va vb cs1 cs2 Ea Eb Ha Hb B2.
      destruct (Qc_eq_dec match vb with VNumber q => q | _ => 1%Qc end 0%Qc) as [Z|Z].
      + val vb Hb. subst q. destruct H as [-> | ->]; val va Ha; right; (split; [eexists; reflexivity|eapply gw_zero; eauto]).
      + val vb Hb. destruct H as [-> | ->]; val va Ha; cbn; unfold m_div; destruct (qc_eqb_spec q 0); try contradiction; cbn; good.
    - children IHWT1 IHWT2 p cs Bc va vb cs1 cs2 Ea Eb Ha Hb B2. val va Ha; val vb Hb. destruct H as [-> | ->]; cbn; destruct b0; good.
    - children IHWT1 IHWT2 p cs Bc va vb cs1 cs2 Ea Eb Ha Hb B2. val vb Hb.
      cbn in H. destruct H as [<- | [<- | [<- | [<- | []]]]]; val va Ha; cbn; try good. destruct s; good.
    - children IHWT1 IHWT2 p cs Bc va vb cs1 cs2 Ea Eb Ha Hb B2.
      assert (X : exists b, value_eq va vb = Ok b /\ (forall r, vb <> VRegex r)).
      { destruct H as [[[[-> | ->] [-> | ->]] | [[-> ->] | [-> ->]]] | [-> ->]]; val va Ha; val vb Hb; cbn; eexists; (split; [reflexivity|discriminate]). }
      destruct X as (b' & X & NR). cbn [eval_binary]. destruct vb; try (rewrite X; cbn; good). exfalso. eapply NR; eauto.
    - children IHWT1 IHWT2 p cs Bc va vb cs1 cs2 Ea Eb Ha Hb B2.
      assert (X : (exists c, value_cmp va vb = Ok c) \/ ((exists x, value_cmp va vb = Panic x) /\ goes_wrong w t p cs (NBinary o a b))).
      { destruct H0 as [[[-> | ->] [-> | ->]] | [[-> ->] | [-> ->]]]; val va Ha; val vb Hb; cbn; eauto.
        destruct m as [|x c], m0 as [|y d]; cbn; eauto. destruct (str_eqb_spec c d); cbn; eauto. right. split; eauto. eapply gw_mix; eauto. }
      destruct X as [(c & X)|[(x & X) G]].
      + left. exists (match o with BLt => VBool (match c with Some Lt => true | _ => false end) | BGt => VBool (match c with Some Gt => true | _ => false end)
                        | BGe => VBool (match c with Some Lt => false | None => false | _ => true end) | _ => VBool (match c with Some Gt => false | None => false | _ => true end) end), cs2.
        destruct o; try destruct H; cbn [eval_binary]; rewrite X; cbn [bind]; (split; [destruct c as [[]|]; reflexivity|split; [exact I|auto]]).
      + right. split; auto. exists x. destruct o; try destruct H; cbn [eval_binary]; rewrite X; reflexivity. }
  intros p cs B. destruct (K p cs B) as [(v & cs' & E & H & _)|H]; eauto.
Qed.
Print Assumptions C43_well_typed.
(** So: a well-typed expression to which none of the reasons applies has a value of its type. *)
Theorem C43_no_abort : forall w n T t p cs, well_typed n T -> buildable w cu_name cu_aliases cs -> ~ goes_wrong w t p cs n ->
  exists v cs', eval w n p t cs = Ok (v, cs') /\ has_type v T.
Proof. intros w n T t p cs WT B N. destruct (C43_well_typed w n T WT t p cs B) as [H|[_ H]]; [auto|contradiction]. Qed.
Print Assumptions C43_no_abort.
(** The type of an expression is unique. *)
Theorem C43_type_unique : forall n T T', well_typed n T -> well_typed n T' -> T = T'.
Proof.
  intros n T T' H. revert T'. induction H; intros T' H'; inversion H'; subst; auto;
    repeat match goal with H : well_typed ?e _, IH : forall T', well_typed ?e T' -> _ = T' |- _ => apply IH in H end;
    try congruence; unfold quantity_ty in *;
    repeat match goal with H : _ \/ _ |- _ => destruct H end; subst; cbn in *; try congruence; try tauto.
Qed.
Print Assumptions C43_type_unique.
(** A typed condition with a value, and one that goes wrong. *)
Definition n43 : node := denotes e46.
Example C43_case : well_typed n43 TBool.
Proof.
  apply wt_logic; auto.
  - eapply wt_match; [apply wt_payee|cbn; auto|apply wt_regex].
  - apply wt_not. eapply wt_order; [exact I| | |left; split; right; reflexivity]; [|apply wt_money]. apply wt_abs; [apply wt_amount|right; auto].
Qed.
Definition p43 : posting :=
  {| p_account := L "Expenses:Food"; p_amount := Some (M (of_Z (-20)) (L "EUR")); p_balance := None; p_cost := None; p_kind := Real; p_comments := [];
     p_tags := []; p_payee := Some (L "The Shop"); p_origin := FromTransaction |}.
Example C43_case_value : exists cs', eval w0 n43 p43 t42 l_new = Ok (VBool false, cs').
Proof. eexists. vm_compute. reflexivity. Qed.
Example C43_case_abort : eval w0 n43 p42 t42 l_new = Panic PUnwrap /\ goes_wrong w0 t42 p42 l_new n43.
Proof. split; [vm_compute; reflexivity|]. apply gw_left, gw_left, gw_payee. reflexivity. Qed.

(** ** C41: what the translated query means *)
Definition term_cexp (c : clause) : cexp :=
  match trim (cl_term c) with
  | k :: x =>
      if (k =? c_at)%N then CBin OMatch (CVar KPayee) (CRegex (L "(?i)" ++ x))
      else if (k =? 37)%N then CParen (CFun FHasTag (CRegex (L "(?i)" ++ x)))
      else if (k =? c_slash)%N then CBin OMatch (CVar KAccount) (CRegex (removelast x))
      else CBin OMatch (CVar KAccount) (CRegex (L "(?i)" ++ k :: x))
  | [] => CVar KNote
  end.
Lemma tc_payee c x : trim (cl_term c) = L "@" ++ x -> term_cexp c = CBin OMatch (CVar KPayee) (CRegex (L "(?i)" ++ x)).
Proof. intros E. unfold term_cexp. rewrite E. reflexivity. Qed.
Lemma tc_tag c x : trim (cl_term c) = L "%" ++ x -> term_cexp c = CParen (CFun FHasTag (CRegex (L "(?i)" ++ x))).
Proof. intros E. unfold term_cexp. rewrite E. reflexivity. Qed.
Lemma tc_regex c x : trim (cl_term c) = L "/" ++ x ++ L "/" -> term_cexp c = CBin OMatch (CVar KAccount) (CRegex x).
Proof.
  intros E. unfold term_cexp. rewrite E. change (L "/" ++ x ++ L "/") with (c_slash :: x ++ [c_slash]). cbv beta iota; rewrite removelast_last. reflexivity.
Qed.
Lemma pattern_written w x : pattern_ok w x -> written w (CRegex x).
Proof. intros H. exact H. Qed.
Lemma marks t : (forall k x, In k [L "@"; L "%"; L "/"] -> t <> k ++ x) -> t <> [] ->
  exists k x, t = k :: x /\ (k =? c_at)%N = false /\ (k =? 37)%N = false /\ (k =? c_slash)%N = false.
Proof.
  intros H N. destruct t as [|k x]; [congruence|]. exists k, x. split; auto.
  repeat split; apply N.eqb_neq; intros ->; [apply (H (L "@") x)|apply (H (L "%") x)|apply (H (L "/") x)]; cbn; auto.
Qed.
Lemma term_cexp_ok w c e : clause_ok c -> ~ taken_verbatim c -> term_ok w c -> term_means c e ->
  written w (term_cexp c) /\ text_of (term_cexp c) = L "(" ++ e ++ L ")" /\ ~ is_number (term_cexp c).
Proof.
  intros [_ NC] V T M. assert (NE : trim (cl_term c) <> []) by (intros E; apply NC; left; exact E).
  destruct M as [V'|x V' E|x V' E|x V' E|V' N]; try contradiction.
  - rewrite (tc_payee _ _ E).
    split; [|split; [cbn [text_of]; rewrite <- !app_assoc; reflexivity|cbn; tauto]].
    split; [exact I|]. split; [|cbn; tauto]. inversion T as [y Ey P|y Ey P|y Ey P|Hn P]; rewrite E in *; try discriminate.
    + injection Ey as <-. exact P.
    + exfalso. eapply (Hn (L "@")); [|reflexivity]. left. auto.
  - rewrite (tc_tag _ _ E).
    split; [|split; [cbn [text_of]; rewrite <- !app_assoc; reflexivity|cbn; tauto]].
    cbn [written]. inversion T as [y Ey P|y Ey P|y Ey P|Hn P]; rewrite E in *; try discriminate.
    + injection Ey as <-. exact P.
    + exfalso. eapply (Hn (L "%")); [|reflexivity]. right; left; auto.
  - inversion T as [y Ey P|y Ey P|y Ey P|Hn P].
    + rewrite E in Ey; discriminate.
    + rewrite E in Ey; discriminate.
    + rewrite (tc_regex _ _ Ey). rewrite E in Ey. injection Ey as ->.
      split; [|split; [cbn [text_of]; rewrite <- !app_assoc; reflexivity|cbn; tauto]].
      split; [exact I|]. split; [exact P|cbn; tauto].
    + exfalso. eapply (Hn (L "/")); [|exact E]. right; right; left; auto.
  - unfold term_cexp. destruct (marks (trim (cl_term c))) as (k & x & E & K1 & K2 & K3); auto. rewrite E in *. rewrite K1, K2, K3.
    split; [|split; [cbn [text_of]; rewrite <- !app_assoc; reflexivity|cbn; tauto]].
    split; [exact I|]. split; [|cbn; tauto]. inversion T as [y Ey P|y Ey P|y Ey P|Hn P]; rewrite E in *.
    + exfalso. eapply (N y (L "@")); [|exact Ey]. left; auto.
    + exfalso. eapply (N y (L "%")); [|exact Ey]. right; left; auto.
    + exfalso. eapply (N (y ++ L "/") (L "/")); [|exact Ey]. right; right; left; auto.
    + exact P.
Qed.
(** The value of a term on a posting with a payee. *)
Lemma term_value w c t p cs : clause_ok c -> term_ok w c -> p_payee p <> None ->
  exists b, eval w (denotes (term_cexp c)) p t cs = Ok (VBool b, cs) /\ (b = true <-> term_true w p c).
Proof.
  intros [_ NC] T HP. assert (NE : trim (cl_term c) <> []) by (intros E; apply NC; left; exact E).
  destruct T as [y Ey P|y Ey P|y Ey P|Hn P].
  - rewrite (tc_payee _ _ Ey). cbn. destruct (p_payee p) as [n|] eqn:EP; [|congruence]. cbn.
    eexists. split; [reflexivity|]. split.
    + intros H. eapply tt_payee; eauto.
    + intros H. inversion H as [x m Ex Em Hm|x g Ex|x Ex|N]; rewrite Ey in *; try discriminate.
      * injection Ex as <-. rewrite EP in Em. injection Em as <-. exact Hm.
      * exfalso. eapply (N (L "@")); [|reflexivity]. left; auto.
  - rewrite (tc_tag _ _ Ey). cbn. eexists. split; [reflexivity|]. unfold has_tag. rewrite existsb_exists. split.
    + intros (g & Hg & H). eapply tt_tag; eauto.
    + intros H. inversion H as [x m Ex Em Hm|x g Ex Hg Hm|x Ex|N]; rewrite Ey in *; try discriminate.
      * injection Ex as <-. exists g. auto.
      * exfalso. eapply (N (L "%")); [|reflexivity]. right; left; auto.
  - rewrite (tc_regex _ _ Ey). cbn. eexists. split; [reflexivity|]. split.
    + intros H. eapply tt_regex; eauto.
    + intros H. inversion H as [x m Ex Em Hm|x g Ex Hg Hm|x Ex Hx|N]; rewrite Ey in *; try discriminate.
      * change (L "/" ++ ?u ++ L "/") with (c_slash :: u ++ [c_slash]) in Ex. injection Ex as Ex. apply app_inj_tail in Ex. destruct Ex as [<- _]. exact Hx.
      * exfalso. eapply (N (L "/")); [|reflexivity]. right; right; left; auto.
  - unfold term_cexp. destruct (marks (trim (cl_term c))) as (k & x & E & K1 & K2 & K3); auto. rewrite E. rewrite K1, K2, K3. cbn -[L app]. eexists. split; [reflexivity|]. split.
    + intros H. apply tt_account; auto. rewrite E. exact H.
    + intros H. inversion H as [z m Ex Em Hm|z g Ex Hg Hm|z Ex Hz|N Hx].
      * exfalso. eapply (Hn (L "@")); [|exact Ex]. left; auto.
      * exfalso. eapply (Hn (L "%")); [|exact Ex]. right; left; auto.
      * exfalso. eapply (Hn (L "/")); [|exact Ex]. right; right; left; auto.
      * rewrite E in Hx. exact Hx.
Qed.

(** One term: the query holds for a posting exactly when the term says so. *)
Theorem C41_one_term : forall w o c rest, clause_ok c -> ~ taken_verbatim c -> term_ok w c -> Forall connective rest ->
  o_query o = words_of [c] ++ rest ->
  exists n, query_node w o = Ok (Some n) /\
    forall t p cs, p_payee p <> None -> (query_holds w (Some n) t p cs <-> term_true w p c).
Proof.
  intros w o c rest C V T R E. destruct (C41_translation [c] rest) as (q & Q & _); auto; [congruence|].
  rewrite (C41_filter_is_translation w o [c] rest q) by (auto; congruence).
  assert (M : exists e, term_means c e /\ q = L "(" ++ e ++ L ")").
  { inversion Q as [c' e M| cs c' q' e Q' |cs c' q' e Q']; subst; [eauto| |]; destruct cs as [|? [|]]; try discriminate; inversion Q'; destruct cs; discriminate. }
  destruct M as (e & M & ->). destruct (term_cexp_ok w c e C V T M) as (W & X & _).
  exists (denotes (term_cexp c)). split.
  - rewrite <- X. rewrite <- (app_nil_r (L "(" ++ _ ++ L ")")), <- !app_assoc, C46_parsed_as_written_partial by auto. reflexivity.
  - intros t p cs HP. destruct (term_value w c t p cs C T HP) as (b & Ev & Hb). cbn [query_holds]. rewrite Ev. rewrite <- Hb. split.
    + intros (cs' & H). congruence.
    + intros ->. eauto.
Qed.
Print Assumptions C41_one_term.

(** Several terms all joined in the same way: the first two terms decide. *)
Definition joined (conj : bool) (c : clause) : Prop := if conj then joined_by_and c else ~ joined_by_and c.
Definition join_op (conj : bool) : cop := if conj then OAnd else OOr.
Lemma query_chain w conj c0 : clause_ok c0 -> ~ taken_verbatim c0 -> term_ok w c0 -> forall l q,
  Forall (fun c => clause_ok c /\ ~ taken_verbatim c /\ term_ok w c /\ joined conj c) l -> query_means (c0 :: l) q ->
  q = text_of (term_cexp c0) ++ tail_text (map (fun c => (join_op conj, term_cexp c)) l).
Proof.
  intros C V T. induction l as [|c l IH] using rev_ind; intros q F Q.
  - inversion Q as [c' e M| cs c' q' e Q' |cs c' q' e Q']; subst.
    + cbn. rewrite app_nil_r. symmetry. eapply term_cexp_ok; eauto.
    + destruct cs as [|? [|]]; try discriminate; inversion Q'; destruct cs; discriminate.
    + destruct cs as [|? [|]]; try discriminate; inversion Q'; destruct cs; discriminate.
  - apply Forall_app in F. destruct F as [F F1]. inversion F1 as [|? ? (C1 & V1 & T1 & J1) _]; subst.
    assert (TT : forall l a, tail_text (l ++ [a]) = tail_text l ++ L " " ++ op_text (fst a) ++ L " " ++ text_of (snd a)).
    { induction l0 as [|[o x] l0 IHl]; intros [o' a]; cbn [tail_text app fst snd]; [rewrite app_nil_r; auto|]. rewrite IHl, <- !app_assoc. auto. }
    rewrite map_app. cbn [map]. rewrite TT. cbn [fst snd].
    inversion Q as [c' e M E|cs c' q' e Q' J M E|cs c' q' e Q' J M E]; subst.
    + destruct l; discriminate.
    + change (c0 :: l ++ [c]) with ((c0 :: l) ++ [c]) in E. apply app_inj_tail in E. destruct E; subst.
      rewrite (IH q') by auto. destruct conj; [|contradiction]. destruct (term_cexp_ok w c e C1 V1 T1 M) as (_ & -> & _). cbn [join_op op_text].
      rewrite <- !app_assoc. reflexivity.
    + change (c0 :: l ++ [c]) with ((c0 :: l) ++ [c]) in E. apply app_inj_tail in E. destruct E; subst.
      rewrite (IH q') by auto. destruct conj; [contradiction|]. destruct (term_cexp_ok w c e C1 V1 T1 M) as (_ & -> & _). cbn [join_op op_text].
      rewrite <- !app_assoc. reflexivity.
Qed.
Lemma term_chain w conj : forall l c0, clause_ok c0 -> ~ taken_verbatim c0 -> term_ok w c0 ->
  Forall (fun c => clause_ok c /\ ~ taken_verbatim c /\ term_ok w c /\ joined conj c) l ->
  chain_written w (term_cexp c0) (map (fun c => (join_op conj, term_cexp c)) l).
Proof.
  induction l as [|c l IH]; intros c0 C V T F; destruct (C41_translation [c0] []) as (q & Q & _); auto; try discriminate;
    (assert (M : exists e, term_means c0 e);
     [inversion Q as [c' e M| cs c' q' e Q' |cs c' q' e Q']; subst; [eauto| |]; destruct cs as [|? [|]]; try discriminate; inversion Q'; destruct cs; discriminate|]);
    destruct M as (e & M); destruct (term_cexp_ok w c0 e C V T M) as (W & _ & N); cbn [map chain_written]; split; auto.
  inversion F as [|? ? (C1 & V1 & T1 & J1) F1]; subst. split; [tauto|]. apply IH; auto.
Qed.
Theorem C41_two_terms_decide : forall w o conj c1 c2 l rest,
  Forall (fun c => clause_ok c /\ ~ taken_verbatim c /\ term_ok w c) [c1] ->
  Forall (fun c => clause_ok c /\ ~ taken_verbatim c /\ term_ok w c /\ joined conj c) (c2 :: l) ->
  Forall connective rest -> o_query o = words_of (c1 :: c2 :: l) ++ rest ->
  exists n, query_node w o = Ok (Some n) /\
    forall t p cs, p_payee p <> None ->
      (query_holds w (Some n) t p cs <-> if conj then term_true w p c1 /\ term_true w p c2 else term_true w p c1 \/ term_true w p c2).
Proof.
  intros w o conj c1 c2 l rest F1 F R E. inversion F1 as [|? ? (C1 & V1 & T1) _]; subst.
  assert (FC : Forall clause_ok (c1 :: c2 :: l)) by (constructor; auto; eapply Forall_impl; [|exact F]; cbn; tauto).
  destruct (C41_translation (c1 :: c2 :: l) rest) as (q & Q & _); auto; [congruence|].
  rewrite (C41_filter_is_translation w o (c1 :: c2 :: l) rest q) by (auto; congruence).
  rewrite (query_chain w conj c1 C1 V1 T1 (c2 :: l) q F Q).
  pose proof (term_chain w conj (c2 :: l) c1 C1 V1 T1 F) as W. cbn [map] in *.
  exists (NBinary (op_node (join_op conj)) (denotes (term_cexp c1)) (denotes (term_cexp c2))). split.
  - pose proof (C42_only_the_first_two w (precedence (join_op conj)) (term_cexp c1) (join_op conj) (term_cexp c2) (map (fun c => (join_op conj, term_cexp c)) l) []) as H.
    unfold chain_text in H. rewrite app_nil_r in H. rewrite <- app_assoc. rewrite H; auto.
    + destruct conj; cbn; lia.
    + constructor; auto. apply Forall_forall. intros x Hx. apply in_map_iff in Hx. destruct Hx as (y & <- & _). auto.
  - inversion F as [|? ? (C2 & V2 & T2 & J2) F2]; subst. intros t p cs HP.
    destruct (term_value w c1 t p cs C1 T1 HP) as (b1 & Ev1 & Hb1). destruct (term_value w c2 t p cs C2 T2 HP) as (b2 & Ev2 & Hb2).
    cbn [query_holds eval]. rewrite Ev1. cbn [bind]. rewrite Ev2. cbn [bind].
    destruct conj; cbn [join_op op_node eval_binary]; rewrite <- Hb1, <- Hb2; destruct b1, b2; cbn [bind]; split; intros H; eauto; try (destruct H as [? H]; discriminate H); try intuition discriminate.
Qed.
Print Assumptions C41_two_terms_decide.

(** Two terms are the conjunction or disjunction they should be; of three, the last is ignored. *)
Theorem C41_two_terms : forall w o conj c1 c2 rest,
  Forall (fun c => clause_ok c /\ ~ taken_verbatim c /\ term_ok w c) [c1; c2] -> joined conj c2 ->
  Forall connective rest -> o_query o = words_of [c1; c2] ++ rest ->
  exists n, query_node w o = Ok (Some n) /\
    forall t p cs, p_payee p <> None ->
      (query_holds w (Some n) t p cs <-> if conj then term_true w p c1 /\ term_true w p c2 else term_true w p c1 \/ term_true w p c2).
Proof.
  intros w o conj c1 c2 rest F J R E. inversion F as [|? ? H1 F1]; subst. inversion F1 as [|? ? H2 _]; subst.
  apply (C41_two_terms_decide w o conj c1 c2 [] rest); auto. constructor; [tauto|constructor].
Qed.
Print Assumptions C41_two_terms.
Definition o41 : opts :=
  {| o_real := false; o_begin := None; o_end := None; o_query := [L "food"; L "rent"; L "bank"]; o_depth := None; o_exchange := None; o_no_balance_check := false |}.
Definition w41 : world :=
  {| w_lower := ascii_lower; w_numeric := fun _ => false; w_rx := fun rx s => str_eqb rx (L "(?i)bank") && ends_with (L "Bank") s; w_rx_ok := fun _ => true;
     w_width := None; w_read := fun _ => None; w_glob := fun _ => None; w_two_timer := fun _ => None; w_now := 0%Z; w_ord := fun _ _ l => l |}.
Definition plain (s : str) : clause := {| cl_before := []; cl_term := s |}.
Theorem C41_third_term_refuted :
  o_query o41 = words_of [plain (L "food"); plain (L "rent"); plain (L "bank")] /\
  term_true w41 p42 (plain (L "bank")) /\
  exists n, query_node w41 o41 = Ok (Some n) /\ ~ query_holds w41 (Some n) t42 p42 l_new.
Proof.
  split; [reflexivity|]. split.
  - apply tt_account; [|reflexivity]. intros k x [<-|[<-|[<-|[]]]]; discriminate.
  - eexists. split; [vm_compute; reflexivity|]. intros (cs' & H). vm_compute in H. discriminate.
Qed.
Print Assumptions C41_third_term_refuted.
Example C41_case_terms : Forall (fun c => clause_ok c /\ ~ taken_verbatim c /\ term_ok w0 c) [plain (L "food"); plain (L "@shop")].
Proof.
  constructor; [|constructor; [|constructor]]; (split; [split; [constructor|]|split; [intros X; inversion X|]]).
  - unfold connective, blank, is_word. cbn. intuition discriminate.
  - apply to_account; [|split; [cbn; intuition discriminate|reflexivity]]. intros k x [<-|[<-|[<-|[]]]]; discriminate.
  - unfold connective, blank, is_word. cbn. intuition discriminate.
  - apply (to_payee _ _ (L "shop")); [reflexivity|split; [cbn; intuition discriminate|reflexivity]].
Qed.
