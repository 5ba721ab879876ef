(** Specification vocabulary for value expressions (C42, C43, C46): expressions as they are written,
    and the tree they denote. *)
From Verif Require Import Base Spec Money Alist Comment Txn Dates Expr Ledger SpecText SpecQuery.

Inductive cvar := KAccount | KAmount | KPayee | KNote | KDate.
Definition var_text (v : cvar) : str :=
  match v with KAccount => L "account" | KAmount => L "amount" | KPayee => L "payee" | KNote => L "note" | KDate => L "date" end.
Definition var_node (v : cvar) : node :=
  match v with KAccount => NAccount | KAmount => NAmount | KPayee => NPayee | KNote => NNote | KDate => NDate end.

Inductive cfun := FAbs | FAny | FHasTag | FTag | FToDate.
Definition fun_text (f : cfun) : str :=
  match f with FAbs => L "abs" | FAny => L "any" | FHasTag => L "has_tag" | FTag => L "tag" | FToDate => L "to_date" end.
Definition fun_op (f : cfun) : unary :=
  match f with FAbs => UAbs | FAny => UAny | FHasTag => UHasTag | FTag => UTag | FToDate => UToDate end.

Inductive cop := OAdd | OSub | OMul | ODiv | OAnd | OAmp | OOr | OBar | OEq | OMatch | OLt | OGt | OLe | OGe.
Definition op_text (o : cop) : str :=
  match o with
  | OAdd => L "+" | OSub => L "-" | OMul => L "*" | ODiv => L "/" | OAnd => L "and" | OAmp => L "&" | OOr => L "or" | OBar => L "|"
  | OEq => L "==" | OMatch => L "=~" | OLt => L "<" | OGt => L ">" | OLe => L "<=" | OGe => L ">="
  end.
Definition op_node (o : cop) : binary :=
  match o with
  | OAdd => BAdd | OSub => BSub | OMul => BMult | ODiv => BDiv | OAnd | OAmp => BAnd | OOr | OBar => BOr
  | OEq | OMatch => BEq | OLt => BLt | OGt => BGt | OLe => BLe | OGe => BGe
  end.

(** Written expressions. [CNumber ip fp]: the digits before and after the point. *)
Inductive cexp :=
| CVar (v : cvar)
| CNumber (ip : str) (fp : option str)
| CMoney (ip : str) (fp : option str) (cur : str)
| CRegex (s : str)
| CString (quote : N) (s : str)
| CFun (f : cfun) (e : cexp)
| CNot (e : cexp)
| CNeg (e : cexp)
| CParen (e : cexp)
| CBin (o : cop) (a b : cexp).

Definition number_text (ip : str) (fp : option str) : str := ip ++ match fp with Some f => L "." ++ f | None => [] end.
Definition number_value (ip : str) (fp : option str) : Qc :=
  let f := match fp with Some f => f | None => [] end in
  (of_Z (Z.of_N (dec_value (ip ++ f))) / of_Z (10 ^ Z.of_nat (length f)))%Qc.

(** The text: every operation in its own parentheses. *)
Fixpoint text_of (e : cexp) : str :=
  match e with
  | CVar v => var_text v
  | CNumber ip fp => number_text ip fp
  | CMoney ip fp cur => number_text ip fp ++ L " " ++ cur
  | CRegex s => L "/" ++ s ++ L "/"
  | CString q s => [q] ++ s ++ [q]
  | CFun f e => fun_text f ++ L "(" ++ text_of e ++ L ")"
  | CNot e => L "(not " ++ text_of e ++ L ")"
  | CNeg e => L "(- " ++ text_of e ++ L ")"
  | CParen e => L "(" ++ text_of e ++ L ")"
  | CBin o a b => L "(" ++ text_of a ++ L " " ++ op_text o ++ L " " ++ text_of b ++ L ")"
  end.
(** The tree. *)
Fixpoint denotes (e : cexp) : node :=
  match e with
  | CVar v => var_node v
  | CNumber ip fp => NNumber (number_value ip fp)
  | CMoney ip fp cur => NMoney cur (number_value ip fp)
  | CRegex s => NRegex s
  | CString _ s => NString s
  | CFun f e => NUnary (fun_op f) (denotes e)
  | CNot e => NUnary UNot (denotes e)
  | CNeg e => NUnary UNeg (denotes e)
  | CParen e => denotes e
  | CBin o a b => NBinary (op_node o) (denotes a) (denotes b)
  end.

(** What can be written: digits, a commodity without blanks, quotes or reserved characters, regexes
    without slash that compile, strings between quotes of one of the two kinds. *)
Definition number_ok (ip : str) (fp : option str) : Prop :=
  only_digits ip /\ ip <> [] /\ match fp with Some f => only_digits f /\ f <> [] | None => True end.
Definition currency_char (c : N) : bool :=
  negb (is_sep c) && negb (existsb (N.eqb c) (L "+*/\|%<>:?();" ++ [c_dq; c_sq])).
Definition currency_ok (s : str) : Prop :=
  forallb currency_char s = true /\ match s with c :: _ => c <> c_eq /\ c <> c_minus /\ c <> 38%N | [] => False end.
(** Between two quotes [q]: the quote itself only after a backslash, which stays in the text; no other backslash
    at the end. *)
Inductive in_quotes (q : N) : str -> Prop :=
| iq_end : in_quotes q []
| iq_char c s : c <> q -> c <> 92%N -> in_quotes q s -> in_quotes q (c :: s)
| iq_backslash c s : c <> q -> in_quotes q (c :: s) -> in_quotes q (92%N :: c :: s)
| iq_quote s : in_quotes q s -> in_quotes q (92%N :: q :: s).
(** A bare number before "and" or "or" would read as money ("5 and"). *)
Definition is_number (e : cexp) : Prop := match e with CNumber _ _ => True | _ => False end.
Definition is_word_op (o : cop) : Prop := match o with OAnd | OOr => True | _ => False end.
Fixpoint written (w : world) (e : cexp) : Prop :=
  match e with
  | CVar _ => True
  | CNumber ip fp => number_ok ip fp
  | CMoney ip fp cur => number_ok ip fp /\ currency_ok cur
  | CRegex s => ~ In c_slash s /\ w_rx_ok w s = true
  | CString q s => (q = c_dq \/ q = c_sq) /\ in_quotes q s
  | CFun _ e | CNot e | CNeg e | CParen e => written w e
  | CBin o a b => written w a /\ written w b /\ ~ (is_number a /\ is_word_op o)
  end.

(** ** C42: chains without inner parentheses *)
(** Binding strength, strongest first. *)
Definition precedence (o : cop) : nat :=
  match o with
  | OMul | ODiv => 0 | OAdd | OSub => 1 | OAnd | OAmp => 3 | OOr | OBar => 4
  | OEq | OMatch | OLt | OGt | OLe | OGe => 2
  end%nat.
(** a0 o1 a1 o2 a2 ... *)
Fixpoint tail_text (l : list (cop * cexp)) : str :=
  match l with [] => [] | (o, a) :: l' => L " " ++ op_text o ++ L " " ++ text_of a ++ tail_text l' end.
Definition chain_text (a0 : cexp) (l : list (cop * cexp)) : str := L "(" ++ text_of a0 ++ tail_text l ++ L ")".
Fixpoint chain_written (w : world) (a0 : cexp) (l : list (cop * cexp)) : Prop :=
  written w a0 /\
  match l with [] => True | (o, a) :: l' => ~ (is_number a0 /\ is_word_op o) /\ chain_written w a l' end.

(** ** C43: types *)
Inductive ty := TNumber | TMoney | TBool | TAccount | TPayee | TNote | TRegex | TString | TDate.
Definition has_type (v : value) (T : ty) : Prop :=
  match v, T with
  | VNumber _, TNumber | VMoney _, TMoney | VBool _, TBool | VAccount _, TAccount | VPayee _, TPayee | VNote, TNote
  | VRegex _, TRegex | VString _, TString | VDate _, TDate => True
  | _, _ => False
  end.
Definition quantity_ty (T : ty) : Prop := T = TNumber \/ T = TMoney.
(** Types that can be compared: quantities with quantities, texts, dates. *)
Definition comparable (A B : ty) : Prop :=
  (quantity_ty A /\ quantity_ty B) \/ (A = TString /\ B = TString) \/ (A = TDate /\ B = TDate).
Definition order_op (o : binary) : Prop := match o with BLt | BGt | BLe | BGe => True | _ => False end.
Inductive well_typed : node -> ty -> Prop :=
| wt_amount : well_typed NAmount TMoney
| wt_account : well_typed NAccount TAccount
| wt_payee : well_typed NPayee TPayee
| wt_note : well_typed NNote TNote
| wt_date : well_typed NDate TDate
| wt_number q : well_typed (NNumber q) TNumber
| wt_money c q : well_typed (NMoney c q) TMoney
| wt_regex r : well_typed (NRegex r) TRegex
| wt_string s : well_typed (NString s) TString
| wt_not e : well_typed e TBool -> well_typed (NUnary UNot e) TBool
| wt_neg e T : well_typed e T -> quantity_ty T \/ T = TBool -> well_typed (NUnary UNeg e) T
| wt_abs e T : well_typed e T -> quantity_ty T -> well_typed (NUnary UAbs e) T
| wt_any e : well_typed e TBool -> well_typed (NUnary UAny e) TBool
| wt_has_tag e : well_typed e TRegex -> well_typed (NUnary UHasTag e) TBool
| wt_tag e T : well_typed e T -> T = TRegex \/ T = TString -> well_typed (NUnary UTag e) TString
| wt_to_date e : well_typed e TString -> well_typed (NUnary UToDate e) TDate
| wt_sum o a b T : o = BAdd \/ o = BSub -> well_typed a T -> well_typed b T -> quantity_ty T -> well_typed (NBinary o a b) T
| wt_mul_number a b T : well_typed a TNumber -> well_typed b T -> quantity_ty T -> well_typed (NBinary BMult a b) T
| wt_mul_money a b : well_typed a TMoney -> well_typed b TNumber -> well_typed (NBinary BMult a b) TMoney
| wt_div a b T : well_typed a T -> quantity_ty T -> well_typed b TNumber -> well_typed (NBinary BDiv a b) T
| wt_logic o a b : o = BAnd \/ o = BOr -> well_typed a TBool -> well_typed b TBool -> well_typed (NBinary o a b) TBool
| wt_match a b A : well_typed a A -> In A [TAccount; TPayee; TNote; TString] -> well_typed b TRegex -> well_typed (NBinary BEq a b) TBool
| wt_eq a b A B : well_typed a A -> well_typed b B -> comparable A B \/ (A = TBool /\ B = TBool) -> well_typed (NBinary BEq a b) TBool
| wt_order o a b A B : order_op o -> well_typed a A -> well_typed b B -> comparable A B -> well_typed (NBinary o a b) TBool.

(** The reasons for which evaluating an expression may abort, on the posting [p] with commodities [cs]. *)
Inductive goes_wrong (w : world) (t : txn posting) : posting -> alist currency -> node -> Prop :=
| gw_amount p cs : p_amount p = None -> goes_wrong w t p cs NAmount
| gw_payee p cs : p_payee p = None -> goes_wrong w t p cs NPayee
| gw_date p cs : t_date t = None -> goes_wrong w t p cs NDate
| gw_child p cs o e : goes_wrong w t p cs e -> goes_wrong w t p cs (NUnary o e)
| gw_any p cs e p' cs' : In p' (t_postings t) -> goes_wrong w t p' cs' e -> goes_wrong w t p cs (NUnary UAny e)
| gw_no_text p cs o e cs1 : o = UTag \/ o = UToDate -> eval w e p t cs = Ok (VString None, cs1) -> goes_wrong w t p cs (NUnary o e)
| gw_no_date p cs e cs1 s : eval w e p t cs = Ok (VString (Some s), cs1) -> (forall d, date_parser w s <> Ok (Some d)) ->
    goes_wrong w t p cs (NUnary UToDate e)
| gw_left p cs o a b : goes_wrong w t p cs a -> goes_wrong w t p cs (NBinary o a b)
| gw_right p cs o a b v cs1 : eval w a p t cs = Ok (v, cs1) -> goes_wrong w t p cs1 b -> goes_wrong w t p cs (NBinary o a b)
| gw_zero p cs a b v cs1 cs2 : eval w a p t cs = Ok (v, cs1) -> eval w b p t cs1 = Ok (VNumber 0, cs2) -> goes_wrong w t p cs (NBinary BDiv a b)
| gw_mix p cs o a b x c y d cs1 cs2 : o = BAdd \/ o = BSub \/ order_op o -> eval w a p t cs = Ok (VMoney (M x c), cs1) ->
    eval w b p t cs1 = Ok (VMoney (M y d), cs2) -> c <> d -> goes_wrong w t p cs (NBinary o a b).

(** ** C41: what a query term says about a posting *)
(** The term without its mark, as a pattern. *)
Inductive term_true (w : world) (p : posting) (c : clause) : Prop :=
| tt_payee x n : trim (cl_term c) = L "@" ++ x -> p_payee p = Some n -> w_rx w (L "(?i)" ++ x) n = true -> term_true w p c
| tt_tag x g : trim (cl_term c) = L "%" ++ x -> In g (p_tags p) -> w_rx w (L "(?i)" ++ x) (tag_name g) = true -> term_true w p c
| tt_regex x : trim (cl_term c) = L "/" ++ x ++ L "/" -> w_rx w x (p_account p) = true -> term_true w p c
| tt_account : (forall k x, In k [L "@"; L "%"; L "/"] -> trim (cl_term c) <> k ++ x) ->
    w_rx w (L "(?i)" ++ trim (cl_term c)) (p_account p) = true -> term_true w p c.
(** The pattern of the term contains no slash and is a regular expression. *)
Definition pattern_ok (w : world) (x : str) : Prop := ~ In c_slash x /\ w_rx_ok w x = true.
Inductive term_ok (w : world) (c : clause) : Prop :=
| to_payee x : trim (cl_term c) = L "@" ++ x -> pattern_ok w (L "(?i)" ++ x) -> term_ok w c
| to_tag x : trim (cl_term c) = L "%" ++ x -> pattern_ok w (L "(?i)" ++ x) -> term_ok w c
| to_regex x : trim (cl_term c) = L "/" ++ x ++ L "/" -> pattern_ok w x -> term_ok w c
| to_account : (forall k x, In k [L "@"; L "%"; L "/"] -> trim (cl_term c) <> k ++ x) ->
    pattern_ok w (L "(?i)" ++ trim (cl_term c)) -> term_ok w c.
