(** Model of src/parser/value_expr.rs and src/parser/utils.rs. *)
From Verif Require Import Base Numerals Money Alist Comment Txn Peg Grammar Dates.

(** utils.rs:10-21 *)
Definition parse_date (p : pair rule) : res Z :=
  '(y, r1) <- pnext (p_kids p) ;;
  '(s1, r2) <- pnext r1 ;;
  '(m, r3) <- pnext r2 ;;
  '(s2, r4) <- pnext r3 ;;
  '(d, _) <- pnext r4 ;;
  y' <- unwrap (parse_bigint (p_text y)) ;;   (* i32::from_str; years out of range panic below *)
  m' <- unwrap (parse_bigint (p_text m)) ;;
  d' <- unwrap (parse_bigint (p_text d)) ;;
  if str_eqb (p_text s1) (p_text s2) then
    match from_ymd y' m' d' with Some n => Ok n | None => Panic PExplicit end
  else Panic PExplicit.

(** utils.rs:23-41; also the accumulation of [parse_amount] in tokenizers/transaction.rs:389-429.
    [rat_scan] returns the digits (and minus signs) read and the number of them after the point. *)
Fixpoint rat_scan (s : str) (decimal : bool) : str * nat :=
  match s with
  | [] => ([], O)
  | c :: r =>
      if (c =? c_dot)%N then rat_scan r true
      else let (num, k) := rat_scan r decimal in (c :: num, if decimal then S k else k)
  end.
(** utils.rs:37-40 and tokenizers/transaction.rs:415-428: BigRational::new(num, 10^k) *)
Definition mk_rational (n : Z) (k : nat) : Qc := Q2Qc (n # Z.to_pos (10 ^ Z.of_nat k)).
(** utils.rs:23-41 *)
Definition parse_rational (p : pair rule) : res Qc :=
  let (num, k) := rat_scan (p_text p) false in
  n <- unwrap (parse_bigint num) ;; Ok (mk_rational n k).

(** utils.rs:48, value_expr.rs:475-477: The text without its first and last character:
    [&quoted[1..len-1]]; the grammar guarantees
    ASCII quotes or slashes there. *)
Definition unquote (s : str) : str := removelast (tl s).

(** utils.rs:43-54 *)
Fixpoint parse_string (p : pair rule) : res str :=
  match p with
  | Pair Rstring t _ => Ok (unquote t)
  | Pair Rcurrency _ (k :: _) => parse_string k
  | Pair Rcurrency _ [] => Panic PUnwrap
  | Pair _ t _ => Ok t
  end.

(** value_expr.rs:72-94, 372-396 *)
Inductive unary := UNot | UNeg | UAbs | UAny | UHasTag | UTag | UToDate.
(** value_expr.rs:383-396 *)
Inductive binary := BAdd | BSub | BMult | BDiv | BOr | BAnd | BEq | BGe | BGt | BLe | BLt.
(** value_expr.rs:72-94 *)
Inductive node :=
| NAmount | NAccount | NPayee | NNote | NDate
| NNumber (q : Qc)
| NMoney (cur : str) (q : Qc)
| NUnary (op : unary) (child : node)
| NBinary (op : binary) (lhs rhs : node)
| NRegex (rx : str)
| NString (s : str).

(** value_expr.rs:96-107 *)
Inductive value :=
| VNumber (q : Qc) | VMoney (m : money) | VBool (b : bool) | VAccount (n : str) | VPayee (n : str)
| VRegex (rx : str) | VString (s : option str) | VDate (d : Z) | VNote.

(** value_expr.rs:419-434: operator of a binary rule from its text. *)
Definition binary_of (r : rule) (txt : str) : res binary :=
  match r with
  | Ror_expr => Ok BOr
  | Rand_expr => Ok BAnd
  | _ =>
      if str_eqb txt (L "+") then Ok BAdd
      else if str_eqb txt (L "-") then Ok BSub
      else if str_eqb txt (L "*") then Ok BMult
      else if str_eqb txt (L "/") then Ok BDiv
      else if str_eqb txt (L "=~") || str_eqb txt (L "==") then Ok BEq
      else if str_eqb txt (L "<") then Ok BLt
      else if str_eqb txt (L ">") then Ok BGt
      else if str_eqb txt (L "<=") then Ok BLe
      else if str_eqb txt (L ">=") then Ok BGe
      else Panic PExplicit
  end.
(** value_expr.rs:446-455 *)
Definition unary_of (txt : str) : res unary :=
  if str_eqb txt (L "abs") then Ok UAbs
  else if str_eqb txt (L "-") then Ok UNeg
  else if str_eqb txt (L "has_tag") then Ok UHasTag
  else if str_eqb txt (L "tag") then Ok UTag
  else if str_eqb txt (L "to_date") then Ok UToDate
  else if str_eqb txt (L "not") then Ok UNot
  else if str_eqb txt (L "any") then Ok UAny
  else Panic PExplicit.
(** value_expr.rs:491-498 *)
Definition variable_of (txt : str) : res node :=
  if str_eqb txt (L "account") then Ok NAccount
  else if str_eqb txt (L "amount") then Ok NAmount
  else if str_eqb txt (L "payee") then Ok NPayee
  else if str_eqb txt (L "note") then Ok NNote
  else if str_eqb txt (L "date") then Ok NDate
  else Panic PExplicit.
(** value_expr.rs:458-472; the currency text is taken as written, quotes included. *)
Definition money_of (kids : list (pair rule)) : res node :=
  '(child, r) <- pnext kids ;;
  match p_rule child with
  | Rnumber => '(cur, _) <- pnext r ;; q <- parse_rational child ;; Ok (NMoney (p_text cur) q)
  | Rcurrency => '(num, _) <- pnext r ;; q <- parse_rational num ;; Ok (NMoney (p_text child) q)
  | _ => Panic PExplicit
  end.

(** value_expr.rs:401-506.  The memo of compiled regexes is not represented.  Note that only the
    first operator and the second operand of a chain are looked at. *)
Fixpoint build_ast (w : world) (p : pair rule) : res node :=
  match p with
  | Pair Rexpr _ kids => match kids with k :: _ => build_ast w k | [] => Panic PUnwrap end
  | Pair (Rcomparison_expr | Ror_expr | Rand_expr | Radditive_expr | Rmultiplicative_expr) _ kids =>
      match kids with
      | [] => Panic PUnwrap
      | lp :: rest =>
          lhs <- build_ast w lp ;;
          match rest with
          | [] => Ok lhs
          | x :: rest' =>
              op <- binary_of (p_rule p) (p_text x) ;;
              match rest' with
              | [] => Panic PUnwrap
              | rp :: _ => rhs <- build_ast w rp ;; Ok (NBinary op lhs rhs)
              end
          end
      end
  | Pair Rprimary _ kids =>
      match kids with
      | [] => Panic PUnwrap
      | first :: rest =>
          match first with
          | Pair (Rfunction | Runary) txt _ =>
              op <- unary_of txt ;;
              match rest with
              | [] => Panic PUnwrap
              | c :: _ => child <- build_ast w c ;; Ok (NUnary op child)
              end
          | Pair Rmoney _ mk => money_of mk
          | Pair Rnumber _ _ => q <- parse_rational first ;; Ok (NNumber q)
          | Pair Rregex txt _ =>
              let rx := unquote txt in
              if w_rx_ok w rx then Ok (NRegex rx) else Panic PUnwrap
          | Pair Rstring txt _ => Ok (NString (unquote txt))
          | Pair Rvariable txt _ => variable_of txt
          | Pair Rexpr _ _ => build_ast w first
          | _ => Panic PExplicit
          end
      end
  | _ => Panic PExplicit
  end.

(** value_expr.rs:19-33 *)
Definition build_root (w : world) (e : str) : res node :=
  ps <- gparse Rvalue_expr e ;;
  '(top, _) <- pnext ps ;;
  '(inner, _) <- pnext (p_kids top) ;;
  build_ast w inner.

(** value_expr.rs:110-135: [partial_cmp]; [Option<String>] orders [None] first. *)
Definition opt_str_cmp (a b : option str) : comparison :=
  match a, b with
  | None, None => Eq | None, Some _ => Lt | Some _, None => Gt
  | Some x, Some y => str_cmp x y
  end.
(** value_expr.rs:110-135 *)
Definition value_cmp (l r : value) : res (option comparison) :=
  match l, r with
  | VNumber a, VNumber b => Ok (Some (qc_cmp a b))
  | VNumber a, VMoney b => Ok (Some (qc_cmp a (m_amount b)))
  | VMoney a, VNumber b => Ok (Some (qc_cmp (m_amount a) b))
  | VMoney a, VMoney b => c <- money_cmp a b ;; Ok (Some c)
  | VString a, VString b => Ok (Some (opt_str_cmp a b))
  | VDate a, VDate b => Ok (Some (a ?= b)%Z)
  | _, _ => Ok None
  end.
(** value_expr.rs:137-166 *)
Definition value_eq (l r : value) : res bool :=
  match l, r with
  | VNumber a, VNumber b => Ok (qc_eqb a b)
  | VNumber a, VMoney b => Ok (qc_eqb a (m_amount b))
  | VMoney a, VNumber b => Ok (qc_eqb (m_amount a) b)
  | VMoney a, VMoney b => Ok (money_eqb a b)
  | VBool a, VBool b => Ok (Bool.eqb a b)
  | VString a, VString b => Ok (opt_eqb str_eqb a b)
  | VDate a, VDate b => Ok (a =? b)%Z
  | _, _ => Panic PExplicit
  end.

(** value_expr.rs:264-285 *)
Definition eval_match (w : world) (t : txn posting) (l : value) (rx : str) : res bool :=
  match l with
  | VAccount n => Ok (w_rx w rx n)
  | VPayee n => Ok (w_rx w rx n)
  | VString (Some s) => Ok (w_rx w rx s)
  | VString None => Ok false
  | VNote => Ok (existsb (w_rx w rx) (t_comments t))
  | _ => Panic PExplicit
  end.

(** [abs] on BigRational (num): value_expr.rs:237-243. *)
Definition qc_abs (q : Qc) : Qc := if qc_neg q then (- q)%Qc else q.

(** value_expr.rs:259-369, on already evaluated operands. *)
Definition eval_binary (w : world) (t : txn posting) (op : binary) (l r : value) : res value :=
  let cmp_with (f : comparison -> bool) :=
    c <- value_cmp l r ;; Ok (VBool (match c with Some c => f c | None => false end)) in
  match op with
  | BEq =>
      match r with
      | VRegex rx => b <- eval_match w t l rx ;; Ok (VBool b)
      | _ => b <- value_eq l r ;; Ok (VBool b)
      end
  | BLt => cmp_with (fun c => match c with Lt => true | _ => false end)
  | BGt => cmp_with (fun c => match c with Gt => true | _ => false end)
  | BGe => cmp_with (fun c => match c with Lt => false | _ => true end)
  | BLe => cmp_with (fun c => match c with Gt => false | _ => true end)
  | BAdd | BSub =>
      match l, r with
      | VNumber a, VNumber b => Ok (VNumber (match op with BAdd => a + b | _ => a - b end)%Qc)
      | VMoney a, VMoney b =>
          match to_money (match op with BAdd => money_add a b | _ => money_sub a b end) with
          | Ok m => Ok (VMoney m)
          | _ => Panic PUnwrap
          end
      | _, _ => Panic PExplicit
      end
  | BMult =>
      match l, r with
      | VNumber a, VNumber b => Ok (VNumber (a * b)%Qc)
      | VNumber a, VMoney b => Ok (VMoney (m_mul b a))
      | VMoney a, VNumber b => Ok (VMoney (m_mul a b))
      | _, _ => Panic PExplicit
      end
  | BDiv =>
      match l, r with
      | VNumber a, VNumber b => if qc_eqb b 0 then Panic PDivZero else Ok (VNumber (a / b)%Qc)
      | VMoney a, VNumber b =>
          (* Money::Zero / 0 still computes rhs.inv() and panics *)
          m <- m_div a b ;; Ok (VMoney m)
      | _, _ => Panic PExplicit
      end
  | BOr =>
      match l with
      | VBool true => Ok (VBool true)
      | VBool false => match r with VBool b => Ok (VBool b) | _ => Panic PExplicit end
      | _ => Panic PExplicit
      end
  | BAnd =>
      match l with
      | VBool false => Ok (VBool false)
      | VBool true => match r with VBool b => Ok (VBool b) | _ => Panic PExplicit end
      | _ => Panic PExplicit
      end
  end.

(** value_expr.rs:204-256 except [any], on the already evaluated operand. *)
Definition eval_unary (w : world) (p : posting) (op : unary) (v : value) : res value :=
  match op, v with
  | UNot, VBool b => Ok (VBool (negb b))
  | UNeg, VNumber n => Ok (VNumber (- n)%Qc)
  | UNeg, VMoney m => Ok (VMoney (m_neg m))
  | UNeg, VBool b => Ok (VBool (negb b))
  | UAbs, VNumber n => Ok (VNumber (qc_abs n))
  | UAbs, VMoney MZero => Ok (VMoney MZero)
  | UAbs, VMoney (M a c) => Ok (VMoney (M (qc_abs a) c))
  | UHasTag, VRegex rx => Ok (VBool (has_tag w rx p))
  | UTag, VRegex rx => Ok (VString (get_tag w rx p))
  | UTag, VString s => n <- unwrap s ;; Ok (VString (get_exact_tag n p))
  | UToDate, VString s =>
      n <- unwrap s ;; d <- date_parser w n ;; d' <- unwrap d ;; Ok (VDate d')
  | _, _ => Panic PExplicit
  end.

(** value_expr.rs:211-229: the loop of [any], with the evaluation function of the child. *)
Fixpoint any_loop (ev : posting -> alist currency -> res (value * alist currency))
         (ps : list posting) (cs : alist currency) : res (bool * alist currency) :=
  match ps with
  | [] => Ok (false, cs)
  | p :: r =>
      '(v, cs') <- ev p cs ;;
      match v with
      | VBool true => Ok (true, cs')
      | VBool false => any_loop ev r cs'
      | _ => Panic PExplicit
      end
  end.

(** value_expr.rs:168-370.  The list of commodities is threaded: a money literal in an unknown
    commodity registers it (185-196). *)
Fixpoint eval (w : world) (n : node) (p : posting) (t : txn posting) (cs : alist currency)
  : res (value * alist currency) :=
  match n with
  | NAmount => m <- unwrap (p_amount p) ;; Ok (VMoney m, cs)
  | NAccount => Ok (VAccount (p_account p), cs)
  | NPayee => n <- unwrap (p_payee p) ;; Ok (VPayee n, cs)
  | NNote => Ok (VNote, cs)
  | NDate => d <- unwrap (t_date t) ;; Ok (VDate d, cs)
  | NRegex rx => Ok (VRegex rx, cs)
  | NString s => Ok (VString (Some s), cs)
  | NNumber q => Ok (VNumber q, cs)
  | NMoney cur q =>
      match l_get w cur cs with
      | Ok c => Ok (VMoney (M q (cu_name c)), cs)
      | Err _ => Ok (VMoney (M q cur), cur_insert w (currency_from cur) cs)
      | Panic e => Panic e
      end
  | NUnary op child =>
      '(v, cs1) <- eval w child p t cs ;;
      match op with
      | UAny =>
          '(b, cs2) <- any_loop (fun p' cs' => eval w child p' t cs') (t_postings t) cs1 ;;
          Ok (VBool b, cs2)
      | _ => r <- eval_unary w p op v ;; Ok (r, cs1)
      end
  | NBinary op lhs rhs =>
      '(l, cs1) <- eval w lhs p t cs ;;
      '(r, cs2) <- eval w rhs p t cs1 ;;
      v <- eval_binary w t op l r ;; Ok (v, cs2)
  end.

(** value_expr.rs:35-70 *)
Definition eval_value_expression (w : world) (e : str) (p : posting) (t : txn posting)
           (cs : alist currency) : res (money * alist currency) :=
  n <- build_root w e ;;
  '(v, cs') <- eval w n p t cs ;;
  match v with
  | VNumber q => m <- unwrap (p_amount p) ;; Ok (m_mul m q, cs')
  | VMoney m => Ok (m, cs')
  | _ => Panic PExplicit
  end.
