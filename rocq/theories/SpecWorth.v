(** The value of a written expression for a posting of a transaction (C80). *)
From Verif Require Import Base Money Alist Comment Txn Dates Expr Spec SpecQuery SpecExpr PropTagQuery.
Open Scope Qc_scope.

(** The commodities written in an expression, from left to right. *)
Fixpoint literals (e : cexp) : list str :=
  match e with
  | CMoney _ _ cur => [cur]
  | CFun _ e | CNot e | CNeg e | CParen e => literals e
  | CBin _ a b => literals a ++ literals b
  | _ => []
  end.
(** The commodity that [x], written in an expression with the commodities [ls], stands for: the one that the ledger
    knows by this name; or, if it knows none, the first of the expression with the same letters. *)
Inductive literal_commodity (w : world) (cs : alist currency) (ls : list str) (x : str) : str -> Prop :=
| lc_known c : l_get w x cs = Ok c -> literal_commodity w cs ls x (cu_name c)
| lc_new a n b : (forall c, l_get w x cs <> Ok c) -> ls = a ++ n :: b -> w_lower w n = w_lower w x ->
    (forall y, In y a -> w_lower w y <> w_lower w x) -> literal_commodity w cs ls x n.

(** [m] is one amount with, in every commodity, the amounts of [a] and [k] times those of [b]; nothing is left of an
    amount of zero. *)
Definition combined (a : money) (k : Qc) (b : money) (m : money) : Prop :=
  (forall c, money_amt m c = money_amt a c + k * money_amt b c) /\ match m with MZero => True | M q _ => q <> 0 end.
(** [m] is [k] times [a], in the commodity of [a]. *)
Definition scaled (k : Qc) (a m : money) : Prop :=
  match a, m with
  | MZero, MZero => True
  | M q c, M q' c' => c' = c /\ q' = k * q
  | _, _ => False
  end.
(** The texts a pattern is compared with. *)
Inductive shows (t : txn posting) : value -> str -> Prop :=
| sh_account s : shows t (VAccount s) s
| sh_payee s : shows t (VPayee s) s
| sh_string s : shows t (VString (Some s)) s
| sh_note s : In s (t_comments t) -> shows t VNote s.
Definition textual (v : value) : Prop := match v with VAccount _ | VPayee _ | VString _ | VNote => True | _ => False end.
(** What an order operator says of two values in this order. *)
Definition says (o : cop) (c : comparison) : option bool :=
  match o, c with
  | OEq, Eq | OMatch, Eq | OLt, Lt | OGt, Gt | OLe, Lt | OLe, Eq | OGe, Gt | OGe, Eq => Some true
  | OEq, _ | OMatch, _ | OLt, _ | OGt, _ | OLe, _ | OGe, _ => Some false
  | _, _ => None
  end.

Inductive worth (w : world) (t : txn posting) (cs : alist currency) (ls : list str) : posting -> cexp -> value -> Prop :=
| wo_account p : worth w t cs ls p (CVar KAccount) (VAccount (p_account p))
| wo_amount p m : p_amount p = Some m -> worth w t cs ls p (CVar KAmount) (VMoney m)
| wo_payee p n : p_payee p = Some n -> worth w t cs ls p (CVar KPayee) (VPayee n)
| wo_note p : worth w t cs ls p (CVar KNote) VNote
| wo_date p d : t_date t = Some d -> worth w t cs ls p (CVar KDate) (VDate d)
| wo_number p ip fp : worth w t cs ls p (CNumber ip fp) (VNumber (number_value ip fp))
| wo_money p ip fp x n : literal_commodity w cs ls x n -> worth w t cs ls p (CMoney ip fp x) (VMoney (M (number_value ip fp) n))
| wo_regex p s : worth w t cs ls p (CRegex s) (VRegex s)
| wo_string p q s : worth w t cs ls p (CString q s) (VString (Some s))
| wo_paren p e v : worth w t cs ls p e v -> worth w t cs ls p (CParen e) v
| wo_not p e b : worth w t cs ls p e (VBool b) -> worth w t cs ls p (CNot e) (VBool (negb b))
(* minus *)
| wo_minus_number p e q : worth w t cs ls p e (VNumber q) -> worth w t cs ls p (CNeg e) (VNumber (- q))
| wo_minus_money p e m m' : worth w t cs ls p e (VMoney m) -> scaled (-(1)) m m' -> worth w t cs ls p (CNeg e) (VMoney m')
| wo_minus_bool p e b : worth w t cs ls p e (VBool b) -> worth w t cs ls p (CNeg e) (VBool (negb b))
(* abs *)
| wo_abs_number p e q k : worth w t cs ls p e (VNumber q) -> (k = 1 /\ 0 <= q \/ k = -(1) /\ q < 0) -> worth w t cs ls p (CFun FAbs e) (VNumber (k * q))
| wo_abs_money p e m k m' : worth w t cs ls p e (VMoney m) -> (k = 1 /\ 0 <= m_amount m \/ k = -(1) /\ m_amount m < 0) -> scaled k m m' ->
    worth w t cs ls p (CFun FAbs e) (VMoney m')
(* any: the postings of the transaction are tried in their order, up to the first for which it is true; the expression
   must have a value for the posting itself too *)
| wo_any_true p e v a q b : worth w t cs ls p e v -> t_postings t = a ++ q :: b -> (forall x, In x a -> worth w t cs ls x e (VBool false)) ->
    worth w t cs ls q e (VBool true) -> worth w t cs ls p (CFun FAny e) (VBool true)
| wo_any_false p e v : worth w t cs ls p e v -> (forall x, In x (t_postings t) -> worth w t cs ls x e (VBool false)) -> worth w t cs ls p (CFun FAny e) (VBool false)
(* tags *)
| wo_has_tag p e rx b : worth w t cs ls p e (VRegex rx) -> (b = true <-> exists g, In g (p_tags p) /\ w_rx w rx (tag_name g) = true) ->
    worth w t cs ls p (CFun FHasTag e) (VBool b)
| wo_tag_pattern p e rx s : worth w t cs ls p e (VRegex rx) -> first_value (fun n => w_rx w rx n = true) (p_tags p) s -> worth w t cs ls p (CFun FTag e) (VString s)
| wo_tag_name p e n s : worth w t cs ls p e (VString (Some n)) -> first_value (eq n) (p_tags p) s -> worth w t cs ls p (CFun FTag e) (VString s)
(* a date in a text, see C63 *)
| wo_to_date p e s d : worth w t cs ls p e (VString (Some s)) -> date_parser w s = Ok (Some d) -> worth w t cs ls p (CFun FToDate e) (VDate d)
(* sums and differences: k is 1 or -1 *)
| wo_sum_number p o k a b x y : (o = OAdd /\ k = 1 \/ o = OSub /\ k = -(1)) -> worth w t cs ls p a (VNumber x) -> worth w t cs ls p b (VNumber y) ->
    worth w t cs ls p (CBin o a b) (VNumber (x + k * y))
| wo_sum_money p o k a b x y m : (o = OAdd /\ k = 1 \/ o = OSub /\ k = -(1)) -> worth w t cs ls p a (VMoney x) -> worth w t cs ls p b (VMoney y) ->
    combined x k y m -> worth w t cs ls p (CBin o a b) (VMoney m)
(* products and quotients *)
| wo_times p a b x y : worth w t cs ls p a (VNumber x) -> worth w t cs ls p b (VNumber y) -> worth w t cs ls p (CBin OMul a b) (VNumber (x * y))
| wo_times_money p a b x y m : worth w t cs ls p a (VNumber x) -> worth w t cs ls p b (VMoney y) -> scaled x y m -> worth w t cs ls p (CBin OMul a b) (VMoney m)
| wo_money_times p a b x y m : worth w t cs ls p a (VMoney x) -> worth w t cs ls p b (VNumber y) -> scaled y x m -> worth w t cs ls p (CBin OMul a b) (VMoney m)
| wo_divided p a b x y q : worth w t cs ls p a (VNumber x) -> worth w t cs ls p b (VNumber y) -> y <> 0 -> q * y = x -> worth w t cs ls p (CBin ODiv a b) (VNumber q)
| wo_money_divided p a b x y m : worth w t cs ls p a (VMoney x) -> worth w t cs ls p b (VNumber y) -> y <> 0 -> scaled y m x -> worth w t cs ls p (CBin ODiv a b) (VMoney m)
(* logic: the second operand must have a value even where it does not matter *)
| wo_and p o a b x y : o = OAnd \/ o = OAmp -> worth w t cs ls p a (VBool x) -> worth w t cs ls p b (VBool y) -> worth w t cs ls p (CBin o a b) (VBool (x && y))
| wo_and_false p o a b v : o = OAnd \/ o = OAmp -> worth w t cs ls p a (VBool false) -> worth w t cs ls p b v -> worth w t cs ls p (CBin o a b) (VBool false)
| wo_or p o a b x y : o = OOr \/ o = OBar -> worth w t cs ls p a (VBool x) -> worth w t cs ls p b (VBool y) -> worth w t cs ls p (CBin o a b) (VBool (x || y))
| wo_or_true p o a b v : o = OOr \/ o = OBar -> worth w t cs ls p a (VBool true) -> worth w t cs ls p b v -> worth w t cs ls p (CBin o a b) (VBool true)
(* patterns *)
| wo_match p o a b v rx x : o = OEq \/ o = OMatch -> worth w t cs ls p a v -> textual v -> worth w t cs ls p b (VRegex rx) ->
    (x = true <-> exists s, shows t v s /\ w_rx w rx s = true) -> worth w t cs ls p (CBin o a b) (VBool x)
(* comparisons *)
| wo_compare p o a b l r c x : worth w t cs ls p a l -> worth w t cs ls p b r -> ordered l r c -> says o c = Some x -> worth w t cs ls p (CBin o a b) (VBool x)
| wo_same_bool p o a b x y : o = OEq \/ o = OMatch -> worth w t cs ls p a (VBool x) -> worth w t cs ls p b (VBool y) -> worth w t cs ls p (CBin o a b) (VBool (Bool.eqb x y))
| wo_other_commodity p o a b x c y d : o = OEq \/ o = OMatch -> worth w t cs ls p a (VMoney (M x c)) -> worth w t cs ls p b (VMoney (M y d)) -> c <> d ->
    worth w t cs ls p (CBin o a b) (VBool false)
| wo_no_order p o a b l r : In o [OLt; OGt; OLe; OGe] -> worth w t cs ls p a l -> worth w t cs ls p b r -> kind_of l <> kind_of r \/ kind_of l = KOther ->
    worth w t cs ls p (CBin o a b) (VBool false).
