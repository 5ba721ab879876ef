(** Specification vocabulary for filters, queries and comparisons (C40, C41, C44). *)
From Verif Require Import Base Numerals Money Alist Txn Expr Filter.
Open Scope Z_scope.

(** ** C40 *)
(** The date is in the requested period: from the begin date on, before the end date. *)
Definition in_period (o : opts) (d : Z) : Prop :=
  (forall b, o_begin o = Some b -> b <= d) /\ (forall e, o_end o = Some e -> d < e).
(** The kind of posting was asked for. *)
Definition wanted_kind (o : opts) (p : posting) : Prop := o_real o = true -> p_kind p = Real.
(** The query, if there is one, holds for the posting; [cs] are the commodities known. *)
Definition query_holds (w : world) (q : option node) (t : txn posting) (p : posting) (cs : alist currency) : Prop :=
  match q with
  | None => True
  | Some n => exists cs', eval w n p t cs = Ok (VBool true, cs')
  end.
Definition reported (w : world) (o : opts) (q : option node) (cs : alist currency) (t : txn posting) (p : posting) : Prop :=
  exists d, t_date t = Some d /\ in_period o d /\ wanted_kind o p /\ query_holds w q t p cs.

(** [l] is [ps] without the elements that do not satisfy [P], in the same order. *)
Inductive selection {A} (P : A -> Prop) : list A -> list A -> Prop :=
| sel_nil : selection P [] []
| sel_in x ps l : P x -> selection P ps l -> selection P (x :: ps) (x :: l)
| sel_out x ps l : ~ P x -> selection P ps l -> selection P (x :: ps) l.

(** ** C41 *)
Definition blank (s : str) : Prop := trim s = [].
Definition is_word (k s : str) : Prop := trim s = k.
(** Words that are not terms. *)
Definition connective (s : str) : Prop :=
  blank s \/ is_word (L "and") s \/ is_word (L "or") s \/ is_word (L "expr") s.
(** A term with the words between it and the previous term. *)
Record clause := { cl_before : list str; cl_term : str }.
Definition clause_ok (c : clause) : Prop := Forall connective (cl_before c) /\ ~ connective (cl_term c).
Definition clause_words (c : clause) : list str := cl_before c ++ [cl_term c].

(** The last of the words and/or before the term is "and". *)
Definition joined_by_and (c : clause) : Prop :=
  exists a k b, cl_before c = a ++ k :: b /\ is_word (L "and") k /\ Forall (fun x => ~ is_word (L "or") x) b.
(** The term is preceded by "expr". *)
Definition taken_verbatim (c : clause) : Prop := Exists (is_word (L "expr")) (cl_before c).

(** The documented meaning of a term, as the text of an expression. *)
Inductive term_means (c : clause) : str -> Prop :=
| tm_expr : taken_verbatim c -> term_means c (trim (cl_term c))
| tm_payee x : ~ taken_verbatim c -> trim (cl_term c) = L "@" ++ x -> term_means c (L "payee =~ /(?i)" ++ x ++ L "/")
| tm_tag x : ~ taken_verbatim c -> trim (cl_term c) = L "%" ++ x -> term_means c (L "has_tag(/(?i)" ++ x ++ L "/)")
| tm_regex x : ~ taken_verbatim c -> trim (cl_term c) = L "/" ++ x -> term_means c (L "account =~ /" ++ x)
| tm_account : ~ taken_verbatim c -> (forall x k, In k [L "@"; L "%"; L "/"] -> trim (cl_term c) <> k ++ x) ->
    term_means c (L "account =~ /(?i)" ++ trim (cl_term c) ++ L "/").
(** The expression of a list of clauses. *)
Inductive query_means : list clause -> str -> Prop :=
| qm_one c e : term_means c e -> query_means [c] (L "(" ++ e ++ L ")")
| qm_and cs c q e : query_means cs q -> joined_by_and c -> term_means c e ->
    query_means (cs ++ [c]) (q ++ L " and (" ++ e ++ L ")")
| qm_or cs c q e : query_means cs q -> ~ joined_by_and c -> term_means c e ->
    query_means (cs ++ [c]) (q ++ L " or (" ++ e ++ L ")").

(** ** C44 *)
(** Numbers and amounts of money are compared by amount. *)
Inductive quantity : value -> Qc -> Prop :=
| qu_number a : quantity (VNumber a) a
| qu_money m : quantity (VMoney m) (m_amount m).
(** Not both money of different commodities. *)
Definition same_unit (l r : value) : Prop :=
  forall a c b d, l = VMoney (M a c) -> r = VMoney (M b d) -> c = d.
(** Dictionary order, a missing text first. *)
Inductive text_before : option str -> option str -> Prop :=
| tb_missing s : text_before None (Some s)
| tb_prefix s c t : text_before (Some s) (Some (s ++ c :: t))
| tb_first p x s y t : (x < y)%N -> text_before (Some (p ++ x :: s)) (Some (p ++ y :: t)).
(** [l] is less than, equal to or greater than [r]. *)
Inductive ordered : value -> value -> comparison -> Prop :=
| or_quantity l r a b c : quantity l a -> quantity r b -> same_unit l r ->
    match c with Lt => (a < b)%Qc | Eq => a = b | Gt => (b < a)%Qc end -> ordered l r c
| or_text a b c : match c with Lt => text_before a b | Eq => a = b | Gt => text_before b a end ->
    ordered (VString a) (VString b) c
| or_date a b c : match c with Lt => a < b | Eq => a = b | Gt => b < a end -> ordered (VDate a) (VDate b) c.

(** Kinds of values that have an order. *)
Inductive vkind := KQuantity | KText | KDate | KOther.
Definition kind_of (v : value) : vkind :=
  match v with
  | VNumber _ | VMoney _ => KQuantity
  | VString _ => KText
  | VDate _ => KDate
  | _ => KOther
  end.
