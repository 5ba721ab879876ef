(** src/grammar/grammar.pest transcribed as data. *)
From Verif Require Import Base Peg.

(** The rules of grammar.pest:7-114. *)
Inductive rule :=
| Rprice | Rcommodity | Rtransaction | Rcode | Rstatus | Rpayee | Rdescription | Rcomment
| Rdate | Rtime | Rdate_sep | Ryear | Rmonth | Rday | Rhour | Rminute | Rsecond
| Rvalue_expr | Rexpr | Ror_expr | Rand_expr | Rcomparison_expr | Radditive_expr
| Rmultiplicative_expr | Rprimary | Rterm | Rmoney | Rcurrency | Rregex | Rstring | Rreserved
| Runquoted | Rvariable | Rnumber | Rbigint | Rws | Rend | REOI | Radd | Rmult | Rand | Ror
| Runary | Rfunction | Rcomparison | Req | Rne | Rgt | Rge | Rle | Rlt.

(** [==] on the generated Rule type, value_expr.rs:401-520. *)
Definition rule_eq_dec (a b : rule) : {a = b} + {a <> b}.
Proof. decide equality. Defined.
(** [==] on the generated Rule type, value_expr.rs:401-520. *)
Definition rule_eqb (a b : rule) : bool := if rule_eq_dec a b then true else false.

Notation "a ~~ b" := (ESeq a b) (at level 45, right associativity).
Notation "a /// b" := (EAlt a b) (at level 47, right associativity).
(** A literal of grammar.pest. *)
Definition T (s : str) : pexp rule := EStr s.
(** ANY, grammar.pest:23-25. *)
Definition any : pexp rule := EClass (fun _ => true).
(** ASCII_DIGIT, grammar.pest:33-37. *)
Definition digit : pexp rule := EClass is_digit.
(** ASCII_NONZERO_DIGIT, grammar.pest:31, 34. *)
Definition nzdigit : pexp rule := EClass (fun c => is_digit c && negb (c =? 48)%N).
(** SEPARATOR, grammar.pest:70. *)
Definition separator : pexp rule := EClass is_sep.
(** A reference to a rule in grammar.pest. *)
Definition R (r : rule) : pexp rule := ERule r.
(** grammar.pest:98 *)
Definition ws := R Rws.
(** ws*, as in grammar.pest:8. *)
Definition wss := EStar ws.
(** grammar.pest:65 *)
Definition dq : pexp rule := EStr [c_dq].
(** grammar.pest:65 *)
Definition bs_dq : pexp rule := EStr [92%N; c_dq].
(** grammar.pest:66 *)
Definition sq : pexp rule := EStr [c_sq].
(** grammar.pest:66 *)
Definition bs_sq : pexp rule := EStr [92%N; c_sq].
(** NEWLINE, grammar.pest:99. *)
Definition newline : pexp rule := EStr [c_nl] /// EStr [c_cr; c_nl] /// EStr [c_cr].

(** A choice of literals, as in grammar.pest:68, 71-92. *)
Fixpoint alts (l : list str) : pexp rule :=
  match l with
  | [] => ENot EEmpty
  | [x] => T x
  | x :: r => T x /// alts r
  end.

(** [true] = silent rule.  Line numbers refer to grammar.pest. *)
(** grammar.pest:7-114. *)
Definition grammar (r : rule) : bool * pexp rule :=
  match r with
  | Rprice => (false,     (* 8 *)
      T (L "P") ~~ wss ~~ R Rdate ~~ EOpt (ws ~~ R Rtime) ~~ EPlus ws ~~ R Rcurrency ~~ wss ~~
      R Rnumber ~~ wss ~~ R Rcurrency ~~ wss ~~ EOpt (R Rcomment) ~~ R Rend)
  | Rcommodity => (false, (* 9 *)
      T (L "commodity") ~~ EPlus ws ~~ R Rcurrency ~~ wss ~~ EOpt (R Rcomment) ~~ R Rend)
  | Rtransaction => (false, (* 10-18 *)
      R Rdate ~~ EOpt (ws ~~ R Rtime) ~~
      EOpt (T (L "=") ~~ R Rdate ~~ EOpt (ws ~~ R Rtime)) ~~
      EPlus ws ~~ EOpt (R Rstatus) ~~
      wss ~~ EOpt (R Rcode) ~~
      wss ~~ R Rdescription ~~
      wss ~~ EOpt (T (L "|") ~~ wss ~~ R Rpayee) ~~
      wss ~~ EOpt (R Rcomment) ~~ R Rend)
  | Rcode => (false, T (L "(") ~~ R Rstring ~~ T (L ")"))   (* 20 *)
  | Rstatus => (false, T (L "*") /// T (L "!"))              (* 21 *)
  | Rpayee | Rdescription => (false,                         (* 23-24 *)
      R Rstring /// EStar (ENot (T (L "|")) ~~ ENot (T (L ";")) ~~ ENot (R Rend) ~~ any))
  | Rcomment => (false, T (L ";") ~~ EStar any)              (* 25 *)
  | Rdate => (false, R Ryear ~~ R Rdate_sep ~~ R Rmonth ~~ R Rdate_sep ~~ R Rday) (* 27 *)
  | Rtime => (false, R Rhour ~~ T (L ":") ~~ R Rminute ~~ (T (L ":") ~~ R Rsecond)) (* 28 *)
  | Rdate_sep => (false, T (L ".") /// T (L "/") /// T (L "-"))  (* 29 *)
  | Ryear => (false, EOpt (T (L "-")) ~~ R Rbigint)          (* 30 *)
  | Rmonth => (false, (T (L "1") ~~ (T (L "0") /// T (L "1") /// T (L "2"))) ///
                      (EOpt (T (L "0")) ~~ nzdigit))         (* 31 *)
  | Rday => (false, (T (L "3") ~~ (T (L "0") /// T (L "1"))) ///
                    ((T (L "1") /// T (L "2")) ~~ digit) ///
                    (EOpt (T (L "0")) ~~ nzdigit))           (* 32-34 *)
  | Rhour => (false, ((T (L "0") /// T (L "1")) ~~ digit) ///
                     (T (L "2") ~~ (T (L "0") ~~ T (L "1") ~~ T (L "2") ~~ T (L "3")))) (* 35 *)
  | Rminute => (false, alts [L "0"; L "1"; L "2"; L "3"; L "4"; L "5"] ~~ digit)  (* 36 *)
  | Rsecond => (false, alts [L "0"; L "1"; L "2"; L "3"; L "4"; L "5"] ~~ digit ~~
                       EOpt (T (L ".") ~~ R Rbigint))        (* 37 *)
  | Rvalue_expr => (false, T (L "(") ~~ wss ~~ R Rexpr ~~ wss ~~ T (L ")"))  (* 43 *)
  | Rexpr => (false, R Ror_expr)                              (* 46 *)
  | Ror_expr => (false, R Rand_expr ~~ wss ~~ EStar (R Ror ~~ wss ~~ R Rand_expr))   (* 47 *)
  | Rand_expr => (false, R Rcomparison_expr ~~ wss ~~
                         EStar (R Rand ~~ wss ~~ R Rcomparison_expr))                (* 48 *)
  | Rcomparison_expr => (false, R Radditive_expr ~~ wss ~~
                         EStar (R Rcomparison ~~ wss ~~ R Radditive_expr))           (* 49 *)
  | Radditive_expr => (false, R Rmultiplicative_expr ~~ wss ~~
                         EStar (R Radd ~~ wss ~~ R Rmultiplicative_expr))            (* 50 *)
  | Rmultiplicative_expr => (false, R Rprimary ~~ wss ~~
                         EStar (R Rmult ~~ wss ~~ R Rprimary))                       (* 51 *)
  | Rprimary => (false,                                                              (* 52-57 *)
      (T (L "(") ~~ wss ~~ R Rexpr ~~ wss ~~ T (L ")")) ///
      (R Runary ~~ wss ~~ R Rexpr) ///
      R Rterm ///
      (R Rfunction ~~ wss ~~ T (L "(") ~~ wss ~~ R Rexpr ~~ wss ~~
       EStar (T (L ",") ~~ wss ~~ R Rexpr ~~ wss) ~~ T (L ")")))
  | Rterm => (true, R Rvariable /// R Rmoney /// R Rnumber /// R Rregex /// R Rstring) (* 60 *)
  | Rmoney => (false, (R Rnumber ~~ wss ~~ R Rcurrency) /// (R Rcurrency ~~ wss ~~ R Rnumber)) (* 61 *)
  | Rcurrency => (false, R Rstring /// R Runquoted)           (* 62 *)
  | Rregex => (false, T (L "/") ~~ EStar (ENot (T (L "/")) ~~ any) ~~ T (L "/"))      (* 63 *)
  | Rstring => (false,                                        (* 64-67 *)
      (dq ~~ EStar (bs_dq /// (ENot dq ~~ any)) ~~ dq) ///
      (sq ~~ EStar (bs_sq /// (ENot sq ~~ any)) ~~ sq))
  | Rreserved => (true,                                       (* 68 *)
      alts [L "+"; L "*"; L "/"; L "\"; L "|"; L "%"; L "<"; L ">"; L ":"; L "?"; L "("; L ")"; L ";"])
  | Runquoted => (false,                                      (* 69-70 *)
      ENot (R Rreserved) ~~ ENot (T (L "=")) ~~ ENot (T (L "-")) ~~ ENot (T (L "&")) ~~
      EPlus (ENot (R Rreserved) ~~ ENot separator ~~ any))
  | Rvariable => (false,                                      (* 71-92 *)
      alts [L "account"; L "payee"; L "date"; L "note"; L "amount"; L "total_amount"; L "cost";
            L "value"; L "gain"; L "depth"; L "posting_number"; L "posting_count"; L "cleared";
            L "real"; L "not_automated"; L "running_total"; L "note";
            L "T"; L "N"; L "O"; L "Z"; L "R"; L "X"; L "n"; L "l"; L "g"; L "v"; L "b"])
  | Rnumber => (false, EOpt (T (L "-")) ~~ R Rbigint ~~ EOpt (T (L ".") ~~ R Rbigint))  (* 96 *)
  | Rbigint => (true, EPlus digit)                            (* 97 *)
  | Rws => (true, T (L " "))                                  (* 98 *)
  | Rend => (false, R REOI /// newline)                       (* 99 *)
  | REOI => (false, EEoi)
  | Radd => (false, T (L "+") /// T (L "-"))                  (* 102 *)
  | Rmult => (false, T (L "*") /// T (L "/"))                 (* 103 *)
  | Rand => (false, T (L "&") /// T (L "and"))                (* 104 *)
  | Ror => (false, T (L "|") /// T (L "or"))                  (* 105 *)
  | Runary => (false, T (L "-") /// T (L "!") /// T (L "not")) (* 106 *)
  | Rfunction => (false, alts [L "abs"; L "has_tag"; L "to_date"; L "any"; L "tag"])   (* 107 *)
  | Rcomparison => (false, R Req /// R Rne /// R Rge /// R Rgt /// R Rle /// R Rlt)    (* 108 *)
  | Req => (false, T (L "=~") /// T (L "=="))                 (* 109 *)
  | Rne => (false, T (L "!="))
  | Rgt => (false, T (L ">"))
  | Rge => (false, T (L ">="))
  | Rle => (false, T (L "<="))
  | Rlt => (false, T (L "<"))                                 (* 110-114 *)
  end.

(** [GrammarParser::parse(rule, text)]: the pairs of the whole match; the match need not reach the
    end of the text unless the rule says so.  The fuel bounds the call depth: see PegFacts.v for the
    proof that it is always enough. *)
(** Bound on the call depth of the generated parser (grammar.pest); not in the code. *)
Definition peg_fuel (s : str) : nat := 60 * S (length s).
(** [GrammarParser::parse(..).expect(..)]: value_expr.rs:23-29, tokenizers/transaction.rs:22-26,
    price.rs:10-14, commodity.rs:14-18. *)
Definition gparse (r : rule) (s : str) : res (list (pair rule)) :=
  match peg grammar (peg_fuel s) (R r) s with
  | POk ps _ => Ok ps
  | PFail => Panic PUnwrap     (* every caller does .expect(..) on the result *)
  | PFuel => Panic OutOfFuel
  end.

(** [Pair::as_rule] (pest): value_expr.rs:401-520. *)
Definition p_rule (p : pair rule) : rule := match p with Pair r _ _ => r end.
(** [Pair::as_str] (pest): value_expr.rs:401-520. *)
Definition p_text (p : pair rule) : str := match p with Pair _ t _ => t end.
(** [Pair::into_inner] (pest): value_expr.rs:401-520. *)
Definition p_kids (p : pair rule) : list (pair rule) := match p with Pair _ _ k => k end.

(** [.next().unwrap()] on an iterator of pairs. *)
(** [Pairs::next] and [unwrap]: utils.rs:10-21. *)
Definition pnext (ps : list (pair rule)) : res (pair rule * list (pair rule)) :=
  match ps with p :: r => Ok (p, r) | [] => Panic PUnwrap end.
