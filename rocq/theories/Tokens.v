(** Model of src/parser/mod.rs, chars.rs, include.rs and tokenizers/*.rs: from text to the parsed
    ledger. *)
From Verif Require Import Base Numerals Money Alist Comment Txn Peg Grammar Dates Expr.

(** ** The tokenizer (parser/mod.rs:76-87): position as (reversed consumed text, remaining text).
    [line_index] is only used in messages; it is an unbounded integer here (no overflow). *)
Record tok := { tk_pre : str; tk_rest : str; tk_line : Z; tk_col : nat }.
(** parser/mod.rs:89-126 *)
Definition tok_of (content : str) : tok :=   (* parser/mod.rs:89-126 *)
  {| tk_pre := []; tk_rest := content; tk_line := 0; tk_col := 0 |}.
(** parser/mod.rs:199-254: the place an error is reported at.  The name of the file is added by [in_file]
    below (in the code the tokenizer knows it all along). *)
Definition tok_place (t : tok) : place :=
  {| at_file := None; at_line := tk_line t; at_col := tk_col t; at_text := rev (tk_pre t) ++ tk_rest t |}.
(** [return Err(tokenizer.error(e))], e.g. parser/mod.rs:183-187 *)
Definition fail_at {A} (t : tok) (e : parser_error) : res A := Err (EParser e (Some (tok_place t))).
(** parser/mod.rs:204-219 *)
Definition in_file {A} (file : option str) (r : res A) : res A :=
  match r with
  | Err (EParser e (Some p)) =>
      match at_file p with
      | None => Err (EParser e (Some {| at_file := file; at_line := at_line p; at_col := at_col p; at_text := at_text p |}))
      | Some _ => r
      end
  | _ => r
  end.
(** chars.rs:5-8 *)
Inductive linetype := Blank | Indented.

(** parser/mod.rs:193-198 *)
Definition get_char (t : tok) : option N :=  (* parser/mod.rs:193-198 *)
  match tk_rest t with c :: _ => Some c | [] => None end.
(** e.g. chars.rs:29-40: position += 1; line_position += 1 *)
Definition adv (t : tok) : tok :=
  match tk_rest t with
  | c :: r => {| tk_pre := c :: tk_pre t; tk_rest := r; tk_line := tk_line t; tk_col := S (tk_col t) |}
  | [] => t
  end.
(** position -= 1; line_index -= 1 (tokenizers/transaction.rs:208-209, 335-336) *)
Definition back (t : tok) : tok :=
  match tk_pre t with
  | c :: r => {| tk_pre := r; tk_rest := c :: tk_rest t; tk_line := tk_line t - 1; tk_col := tk_col t |}
  | [] => t
  end.

(** ** chars.rs *)

(** chars.rs:10-27 *)
Fixpoint cwl (rest pre : str) (line : Z) (col : nat) : linetype * tok :=
  let here := {| tk_pre := pre; tk_rest := rest; tk_line := line; tk_col := col |} in
  match rest with
  | [] => (Blank, here)
  | c :: r =>
      if (c =? c_nl)%N then cwl r (c :: pre) (line + 1) 0
      else if is_ws c then cwl r (c :: pre) line (S col)
      else (match col with O => Blank | S _ => Indented end, here)
  end.
(** chars.rs:10-27 *)
Definition consume_whitespaces_and_lines (t : tok) : linetype * tok :=
  cwl (tk_rest t) (tk_pre t) (tk_line t) (tk_col t).

(** chars.rs:29-40 *)
Fixpoint cws (rest pre : str) (line : Z) (col : nat) : tok :=
  let here := {| tk_pre := pre; tk_rest := rest; tk_line := line; tk_col := col |} in
  match rest with
  | [] => here
  | c :: r => if is_ws c && negb (c =? c_nl)%N then cws r (c :: pre) line (S col) else here
  end.
(** chars.rs:29-40 *)
Definition consume_whitespaces (t : tok) : tok := cws (tk_rest t) (tk_pre t) (tk_line t) (tk_col t).

(** chars.rs:42-63, for strings without newline (the only use is the literal "include "); include.rs:10
    converts the error without the place. *)
Fixpoint consume_str (s : str) (t : tok) : res tok :=
  match s with
  | [] => Ok t
  | x :: s' =>
      match tk_rest t with
      | c :: _ => if (c =? x)%N then consume_str s' (adv t) else Err (EParser (UnexpectedInput None) None)
      | [] => Err (EParser (UnexpectedInput None) None)
      end
  end.

(** chars.rs:65-88; line_position is not advanced except by newlines. *)
Fixpoint gve (rest pre : str) (line : Z) (col : nat) (opn cls : nat) (acc : str) : str * tok :=
  let stop := (acc, {| tk_pre := pre; tk_rest := rest; tk_line := line; tk_col := col |}) in
  match rest with
  | [] => stop
  | c :: r =>
      if (c =? c_lp)%N then gve r (c :: pre) line col (S opn) cls (acc ++ [c])
      else if (c =? c_rp)%N then gve r (c :: pre) line col opn (S cls) (acc ++ [c])
      else if (c =? c_nl)%N then
        if Nat.eqb opn cls then stop else gve r (c :: pre) (line + 1) 0 opn cls (acc ++ [c])
      else if (c =? c_semi)%N then stop
      else gve r (c :: pre) line col opn cls (acc ++ [c])
  end.
(** chars.rs:65-88 *)
Definition get_value_expression (t : tok) : str * tok :=
  gve (tk_rest t) (tk_pre t) (tk_line t) (tk_col t) 0 0 [].

(** chars.rs:90-102; the newline is consumed and not returned; line_position advances only by it. *)
Fixpoint gline (rest pre : str) (line : Z) (col : nat) : str * tok :=
  match rest with
  | [] => ([], {| tk_pre := pre; tk_rest := []; tk_line := line; tk_col := col |})
  | c :: r =>
      if (c =? c_nl)%N then
        ([], {| tk_pre := c :: pre; tk_rest := r; tk_line := line + 1; tk_col := 0 |})
      else let (s, t) := gline r (c :: pre) line col in (c :: s, t)
  end.
(** chars.rs:90-102 *)
Definition get_line (t : tok) : str * tok := gline (tk_rest t) (tk_pre t) (tk_line t) (tk_col t).

(** chars.rs:105-132 *)
Fixpoint gstr (w : world) (rest pre : str) (line : Z) (col : nat) (quote : bool) (acc : str)
  : str * tok :=
  let stop := (acc, {| tk_pre := pre; tk_rest := rest; tk_line := line; tk_col := col |}) in
  match rest with
  | [] => stop
  | c :: r =>
      if (c =? c_nl)%N then stop
      else if (c =? c_dq)%N then
        match acc with
        | [] => gstr w r (c :: pre) line (S col) true acc
        | _ => if quote then (acc, {| tk_pre := c :: pre; tk_rest := r; tk_line := line; tk_col := S col |})
               else gstr w r (c :: pre) line (S col) quote acc
        end
      else if (is_ws c || is_numeric w c || (c =? c_dot)%N || (c =? c_minus)%N || (c =? c_semi)%N)
              && negb quote
      then stop
      else gstr w r (c :: pre) line (S col) quote (acc ++ [c])
  end.
(** chars.rs:105-132 *)
Definition get_string (w : world) (t : tok) : str * tok :=
  let t := consume_whitespaces t in
  let (s, t) := gstr w (tk_rest t) (tk_pre t) (tk_line t) (tk_col t) false [] in
  (s, consume_whitespaces t).

(** ** tokenizers/comment.rs:28-34 *)
Definition parse_comment (t : tok) : str * tok := get_line (consume_whitespaces (adv t)).

(** ** tokenizers/transaction.rs *)

(** tokenizers/transaction.rs:389-429: characters of the amount, number of them after the point. *)
Inductive amount_scan := AmountText (num : str) (decimals : nat) | TwoPoints.
(** tokenizers/transaction.rs:389-429 *)
Fixpoint gamount (w : world) (rest pre : str) (line : Z) (col : nat) (num : str) (den : nat)
         (decimal : bool) : amount_scan * tok :=
  let here := {| tk_pre := pre; tk_rest := rest; tk_line := line; tk_col := col |} in
  match rest with
  | [] => (AmountText num den, here)
  | c :: r =>
      if (c =? c_dot)%N then
        if decimal then (TwoPoints, here) else gamount w r (c :: pre) line (S col) num den true
      else if (c =? c_minus)%N || is_numeric w c then
        gamount w r (c :: pre) line (S col) (num ++ [c]) (if decimal then S den else den) decimal
      else (AmountText num den, here)
  end.
(** tokenizers/transaction.rs:389-429 *)
Definition parse_amount (w : world) (t : tok) : (Qc + parser_error) * tok :=
  let (a, t') := gamount w (tk_rest t) (tk_pre t) (tk_line t) (tk_col t) [] 0 false in
  (match a with
   | TwoPoints => inr (UnexpectedInput (Some (L "Too many decimal separators")))
   | AmountText num den =>
       match parse_bigint num with
       | Some n => inl (mk_rational n den)
       | None => inr (UnexpectedInput (Some (L "Wrong number format")))
       end
   end, t').

(** tokenizers/transaction.rs:347-387.  The tests for a leading quote never succeed: get_string
    never returns
    a quote. *)
Definition parse_money (w : world) (t : tok) : ((Qc * str) + parser_error) * tok :=
  match get_char t with
  | None => (inr (UnexpectedInput (Some (L "Expected ammount missing"))), t)
  | Some c =>
      if is_numeric w c || (c =? c_dot)%N || (c =? c_minus)%N then
        let (a, t1) := parse_amount w t in
        match a with
        | inr e => (inr e, t1)
        | inl q => let (cur, t2) := get_string w t1 in (inl (q, cur), t2)
        end
      else
        let (cur, t1) := get_string w t in
        let (a, t2) := parse_amount w t1 in
        match a with
        | inr e => (inr e, t2)
        | inl q => (inl (q, cur), t2)
        end
  end.

(** tokenizers/transaction.rs:174-188; the pairs (amount, currency) of optional fields are always set
    together. *)
Inductive price_type := PTotal | PPerUnit.
(** tokenizers/transaction.rs:174-188 *)
Record rposting := {
  rp_account : str;
  rp_money : option (Qc * str);
  rp_cost_type : option price_type;
  rp_cost : option (Qc * str);
  rp_balance : option (Qc * str);
  rp_comments : list str;
  rp_expr : option str;
  rp_kind : kind;
  rp_payee : option str;
}.
(** tokenizers/transaction.rs:253-266 *)
Definition rp_new (acc : str) (k : kind) (pay : option str) : rposting :=
  {| rp_account := acc; rp_money := None; rp_cost_type := None; rp_cost := None; rp_balance := None;
     rp_comments := []; rp_expr := None; rp_kind := k; rp_payee := pay |}.
(** tokenizers/transaction.rs:325-329, field update. *)
Definition set_money m p := {| rp_account := rp_account p; rp_money := Some m;
  rp_cost_type := rp_cost_type p; rp_cost := rp_cost p; rp_balance := rp_balance p;
  rp_comments := rp_comments p; rp_expr := rp_expr p; rp_kind := rp_kind p; rp_payee := rp_payee p |}.
(** tokenizers/transaction.rs:305-313, field update. *)
Definition set_cost_type c p := {| rp_account := rp_account p; rp_money := rp_money p;
  rp_cost_type := Some c; rp_cost := rp_cost p; rp_balance := rp_balance p;
  rp_comments := rp_comments p; rp_expr := rp_expr p; rp_kind := rp_kind p; rp_payee := rp_payee p |}.
(** tokenizers/transaction.rs:314-323, field update. *)
Definition set_cost m p := {| rp_account := rp_account p; rp_money := rp_money p;
  rp_cost_type := rp_cost_type p; rp_cost := Some m; rp_balance := rp_balance p;
  rp_comments := rp_comments p; rp_expr := rp_expr p; rp_kind := rp_kind p; rp_payee := rp_payee p |}.
(** tokenizers/transaction.rs:284-297, field update. *)
Definition set_balance m p := {| rp_account := rp_account p; rp_money := rp_money p;
  rp_cost_type := rp_cost_type p; rp_cost := rp_cost p; rp_balance := Some m;
  rp_comments := rp_comments p; rp_expr := rp_expr p; rp_kind := rp_kind p; rp_payee := rp_payee p |}.
(** tokenizers/transaction.rs:274-277, 330-337, field update. *)
Definition set_expr e p := {| rp_account := rp_account p; rp_money := rp_money p;
  rp_cost_type := rp_cost_type p; rp_cost := rp_cost p; rp_balance := rp_balance p;
  rp_comments := rp_comments p; rp_expr := Some e; rp_kind := rp_kind p; rp_payee := rp_payee p |}.
(** tokenizers/transaction.rs:76-82 and 280-283, field update. *)
Definition add_comment c p := {| rp_account := rp_account p; rp_money := rp_money p;
  rp_cost_type := rp_cost_type p; rp_cost := rp_cost p; rp_balance := rp_balance p;
  rp_comments := rp_comments p ++ [c]; rp_expr := rp_expr p; rp_kind := rp_kind p;
  rp_payee := rp_payee p |}.

(** parser/mod.rs:256-276, [Tokenizer::next], on a character known to be there. *)
Definition next_tok (c : N) (rest pre : str) (line : Z) (col : nat) : tok :=
  if (c =? c_nl)%N then {| tk_pre := c :: pre; tk_rest := rest; tk_line := line + 1; tk_col := 0 |}
  else {| tk_pre := c :: pre; tk_rest := rest; tk_line := line; tk_col := S col |}.

(** tokenizers/transaction.rs:200-222: the account name; the boolean is [finished].  Reading past
    the end of
    the text panics (parser/mod.rs:257-265). *)
Fixpoint gaccount (rest pre : str) (line : Z) (col : nat) (acc : str) : res (str * bool * tok) :=
  match rest with
  | [] => Panic PExplicit
  | c :: r =>
      let t1 := next_tok c r pre line col in
      if negb (is_ws c) then gaccount r (tk_pre t1) (tk_line t1) (tk_col t1) (acc ++ [c])
      else if (c =? c_tab)%N then Ok (acc, false, t1)
      else if (c =? c_nl)%N then Ok (acc, true, back t1)
      else
        match r with
        | [] => Panic PExplicit
        | d :: r' =>
            let t2 := next_tok d r' (tk_pre t1) (tk_line t1) (tk_col t1) in
            if is_ws d then Ok (acc, false, t2)
            else gaccount r' (tk_pre t2) (tk_line t2) (tk_col t2) (acc ++ [c; d])
        end
  end.

(** tokenizers/transaction.rs:223-251: virtual accounts.  [&account[0..1]] panics unless the first
    character
    is ASCII. *)
Definition account_kind (acc : str) (t : tok) : res (kind * str) :=
  match acc with
  | [] => Panic PIndex
  | c :: r =>
      if (128 <=? c)%N then Panic PIndex
      else if (c =? c_lp)%N then
        if (last acc 0 =? c_rp)%N then Ok (Virtual, trim (removelast r))
        else fail_at t (UnexpectedInput (Some (L "Expected ')'")))
      else if (c =? c_lb)%N then
        if (last acc 0 =? c_rb)%N then Ok (VirtualMustBalance, trim (removelast r))
        else fail_at t (UnexpectedInput (Some (L "Expected ']'")))
      else Ok (Real, acc)
  end.

(** tokenizers/transaction.rs:271-343: the loop reading amount, cost, balance and comment. *)
Fixpoint posting_loop (fuel : nat) (w : world) (ty : ttype) (p : rposting) (t : tok)
  : res (rposting * tok) :=
  match fuel with
  | O => Panic OutOfFuel
  | S f =>
      let continue p t := posting_loop f w ty p (consume_whitespaces t) in
      match get_char t with
      | None => Ok (p, t)
      | Some c =>
          if (c =? c_lp)%N then let (e, t1) := get_value_expression t in continue (set_expr e p) t1
          else if (c =? c_nl)%N then Ok (p, t)
          else if (c =? c_semi)%N then let (s, t1) := parse_comment t in Ok (add_comment s p, t1)
          else if (c =? c_eq)%N then
            let (m, t1) := parse_money w (consume_whitespaces (adv t)) in
            match m with
            | inr e => fail_at t1 e
            | inl m => continue (set_balance m p) t1
            end
          else if (c =? c_at)%N then
            match rp_money p with
            | None => fail_at t (UnexpectedInput (Some (L "Amount not found")))
            | Some _ =>
                let t1 := adv t in
                match get_char t1 with
                | None => Panic PUnwrap
                | Some d =>
                    let '(p1, t2) := if (d =? c_at)%N then (set_cost_type PTotal p, adv t1)
                                     else (set_cost_type PPerUnit p, t1) in
                    let (m, t3) := parse_money w (consume_whitespaces t2) in
                    match m with
                    | inr e => fail_at t3 e
                    | inl m => continue (set_cost m p1) t3
                    end
                end
            end
          else
            let (m, t1) := parse_money w t in
            match m with
            | inl m => continue (set_money m p) t1
            | inr e =>
                match ty with
                | TReal | TPeriodic => fail_at t1 e
                | TAutomated => let (l, t2) := get_line t1 in continue (set_expr l p) (back t2)
                end
            end
      end
  end.

(** tokenizers/transaction.rs:192-344 *)
Definition parse_posting (w : world) (ty : ttype) (pay : option str) (t : tok)
  : res (rposting * tok) :=
  '(acc, finished, t1) <- gaccount (tk_rest t) (tk_pre t) (tk_line t) (tk_col t) [] ;;
  '(k, acc) <- account_kind acc t1 ;;
  let p := rp_new acc k pay in
  if (finished : bool) then Ok (p, t1)
  else let t2 := consume_whitespaces t1 in
       posting_loop (S (S (length (tk_rest t2)))) w ty p t2.

(** tokenizers/transaction.rs:76-82 *)
Definition add_comment_last (c : str) (ps : list rposting) : res (list rposting) :=
  match rev ps with
  | [] => Panic PArith      (* [len - 1] on an empty vector *)
  | p :: r => Ok (rev r ++ [add_comment c p])
  end.

(** tokenizers/transaction.rs:68-106 and 131-169: comments and postings of a transaction. *)
Fixpoint entries (fuel : nat) (w : world) (ty : ttype) (pay : option str) (parsed : bool)
         (cms : list str) (ps : list rposting) (t : tok) : res (list str * list rposting * tok) :=
  match fuel with
  | O => Panic OutOfFuel
  | S f =>
      match consume_whitespaces_and_lines t with
      | (Blank, t1) => Ok (cms, ps, t1)
      | (Indented, t1) =>
          match get_char t1 with
          | None => Panic PUnwrap
          | Some c =>
              if (c =? c_semi)%N then
                let (s, t2) := parse_comment t1 in
                if parsed then ps' <- add_comment_last s ps ;; entries f w ty pay parsed cms ps' t2
                else entries f w ty pay parsed (cms ++ [s]) ps t2
              else if is_numeric w c then
                fail_at t1 (UnexpectedInput (Some (L "Expecting account name")))
              else
                '(p, t2) <- parse_posting w ty pay t1 ;;
                entries f w ty pay true cms (ps ++ [p]) t2
          end
      end
  end.

(** tokenizers/transaction.rs:30-60: One optional item of the header: if the current pair has rule
    [r], take it and move on. *)
Definition opt_item (r : rule) (st : pair rule * list (pair rule))
  : res (option (pair rule) * (pair rule * list (pair rule))) :=
  let (cur, rest) := st in
  if rule_eqb (p_rule cur) r then nx <- pnext rest ;; Ok (Some cur, nx) else Ok (None, st).

(** tokenizers/transaction.rs:20-67: the first line of a transaction. *)
Record header := { h_date : Z; h_edate : option Z; h_desc : str; h_payee : str; h_comment : option str }.
(** tokenizers/transaction.rs:20-67 *)
Definition parse_header (line : str) : res header :=
  ps <- gparse Rtransaction line ;;
  '(top, _) <- pnext ps ;;
  '(d, r) <- pnext (p_kids top) ;;
  date <- parse_date d ;;
  st <- pnext r ;;
  '(_, st) <- opt_item Rtime st ;;
  '(ed, st) <- opt_item Rdate st ;;
  edate <- match ed with Some p => e <- parse_date p ;; Ok (Some e) | None => Ok None end ;;
  '(_, st) <- opt_item Rtime st ;;
  '(_, st) <- opt_item Rstatus st ;;
  '(_, st) <- opt_item Rcode st ;;
  '(de, st) <- opt_item Rdescription st ;;
  desc <- match de with Some p => s <- parse_string p ;; Ok (trim s) | None => Ok [] end ;;
  '(pa, st) <- opt_item Rpayee st ;;
  pay <- match pa with Some p => s <- parse_string p ;; Ok (Some (trim s)) | None => Ok None end ;;
  cm <- (if rule_eqb (p_rule (fst st)) Rcomment then s <- parse_string (fst st) ;; Ok (Some s)
         else Ok None) ;;
  Ok {| h_date := date; h_edate := edate; h_desc := desc;
        h_payee := match pay with
                   | Some p => p
                   | None => match desc with [] => L "[Unspecified payee]" | _ => desc end
                   end;
        h_comment := cm |}.

(** Bound on the iterations of tokenizers/transaction.rs:71-106; not in the code. *)
Definition entries_fuel (t : tok) : nat := S (length (tk_rest t)).

(** tokenizers/transaction.rs:20-109 *)
Definition parse_transaction (w : world) (t : tok) : res (txn rposting * tok) :=
  let (line, t1) := get_line t in
  h <- parse_header line ;;
  '(cms, ps, t2) <- entries (entries_fuel t1) w TReal (Some (h_payee h)) false
                            (match h_comment h with Some c => [c] | None => [] end) [] t1 ;;
  Ok ({| t_date := Some (h_date h); t_edate := h_edate h; t_cleared := CUnknown; t_code := None;
         t_desc := h_desc h; t_payee := Some (h_payee h); t_postings := ps; t_comments := cms;
         t_type := TReal; t_tags := [] |}, t2).

(** tokenizers/transaction.rs:111-172 *)
Fixpoint after_char (c : N) (s : str) : option str :=
  match s with
  | [] => None
  | x :: r => if (x =? c)%N then Some r else after_char c r
  end.
(** tokenizers/transaction.rs:111-172 *)
Definition parse_automated (w : world) (t : tok) : res (txn rposting * tok) :=
  let (line, t1) := get_line t in
  desc <- unwrap (after_char c_eq line) ;;
  '(cms, ps, t2) <- entries (entries_fuel t1) w TAutomated None false [] [] t1 ;;
  Ok ({| t_date := None; t_edate := None; t_cleared := CUnknown; t_code := None; t_desc := desc;
         t_payee := None; t_postings := ps; t_comments := cms; t_type := TAutomated; t_tags := [] |},
      t2).

(** ** Directives *)

(** tokenizers/account.rs:10-17: Regexes of the form (keyword) then spaces then anything: leftmost
    match, second group. *)
Fixpoint re_directive (kw s : str) : option str :=
  match (if starts_with kw s then
           match skipn (length kw) s with
           | c :: r => if (c =? c_sp)%N then Some (drop_spaces r) else None
           | [] => None
           end
         else None) with
  | Some x => Some x
  | None => match s with [] => None | _ :: r => re_directive kw r end
  end.

(** tokenizers/account.rs:9-96 *)
Fixpoint account_loop (fuel : nat) (w : world) (a : account) (t : tok) : res (account * tok) :=
  match fuel with
  | O => Panic OutOfFuel
  | S f =>
      match consume_whitespaces_and_lines t with
      | (Blank, t1) => Ok (a, t1)
      | (Indented, t1) =>
          match get_char t1 with
          | None => Panic PUnwrap
          | Some c =>
              if (c =? c_semi)%N then let (_, t2) := get_line t1 in account_loop f w a t2
              else
                let (k, t2) := get_string w t1 in
                let (l, t3) := get_line t2 in
                let v := trim l in
                if str_eqb k (L "note") then
                  account_loop f w {| ac_name := ac_name a; ac_aliases := ac_aliases a; ac_note := Some v;
                    ac_isin := ac_isin a; ac_check := ac_check a; ac_assert := ac_assert a;
                    ac_payees := ac_payees a; ac_default := ac_default a; ac_directive := true |} t3
                else if str_eqb k (L "isin") then
                  account_loop f w {| ac_name := ac_name a; ac_aliases := ac_aliases a; ac_note := ac_note a;
                    ac_isin := Some v; ac_check := ac_check a; ac_assert := ac_assert a;
                    ac_payees := ac_payees a; ac_default := ac_default a; ac_directive := true |} t3
                else if str_eqb k (L "alias") then
                  account_loop f w {| ac_name := ac_name a; ac_aliases := sadd str_eqb v (ac_aliases a);
                    ac_note := ac_note a;
                    ac_isin := ac_isin a; ac_check := ac_check a; ac_assert := ac_assert a;
                    ac_payees := ac_payees a; ac_default := ac_default a; ac_directive := true |} t3
                else if str_eqb k (L "check") then
                  account_loop f w {| ac_name := ac_name a; ac_aliases := ac_aliases a; ac_note := ac_note a;
                    ac_isin := ac_isin a; ac_check := ac_check a ++ [v]; ac_assert := ac_assert a;
                    ac_payees := ac_payees a; ac_default := ac_default a; ac_directive := true |} t3
                else if str_eqb k (L "assert") then
                  account_loop f w {| ac_name := ac_name a; ac_aliases := ac_aliases a; ac_note := ac_note a;
                    ac_isin := ac_isin a; ac_check := ac_check a; ac_assert := ac_assert a ++ [v];
                    ac_payees := ac_payees a; ac_default := ac_default a; ac_directive := true |} t3
                else if str_eqb k (L "payee") then
                  if w_rx_ok w v then
                    account_loop f w {| ac_name := ac_name a; ac_aliases := ac_aliases a; ac_note := ac_note a;
                      ac_isin := ac_isin a; ac_check := ac_check a; ac_assert := ac_assert a;
                      ac_payees := ac_payees a ++ [v]; ac_default := ac_default a; ac_directive := true |} t3
                  else Panic PUnwrap
                else if str_eqb k (L "default") then
                  account_loop f w {| ac_name := ac_name a; ac_aliases := ac_aliases a; ac_note := ac_note a;
                    ac_isin := ac_isin a; ac_check := ac_check a; ac_assert := ac_assert a;
                    ac_payees := ac_payees a; ac_default := true; ac_directive := true |} t2
                else fail_at t2 (UnexpectedInput (Some (L "Found " ++ k ++
                       L ". Expected one of alias, note, isin, check, assert, payee.")))
          end
      end
  end.
(** tokenizers/account.rs:9-96 *)
Definition parse_account (w : world) (t : tok) : res (account * tok) :=
  let (line, t1) := get_line t in
  n <- unwrap (re_directive (L "account") line) ;;
  account_loop (entries_fuel t1) w
    {| ac_name := trim n; ac_aliases := []; ac_note := None; ac_isin := None; ac_check := [];
       ac_assert := []; ac_payees := []; ac_default := false; ac_directive := true |} t1.

(** tokenizers/commodity.rs:12-58 *)
Fixpoint commodity_loop (fuel : nat) (w : world) (a : currency) (t : tok) : res (currency * tok) :=
  match fuel with
  | O => Panic OutOfFuel
  | S f =>
      match consume_whitespaces_and_lines t with
      | (Blank, t1) => Ok (a, t1)
      | (Indented, t1) =>
          match get_char t1 with
          | None => Panic PUnwrap
          | Some c =>
              if (c =? c_semi)%N then let (_, t2) := parse_comment t1 in commodity_loop f w a t2
              else
                let (k, t2) := get_string w t1 in
                let (l, t3) := get_line t2 in
                let v := trim l in
                if str_eqb k (L "note") then
                  commodity_loop f w {| cu_name := cu_name a; cu_aliases := cu_aliases a; cu_note := Some v;
                    cu_format := cu_format a; cu_default := cu_default a; cu_directive := true;
                    cu_precision := None |} t3
                else if str_eqb k (L "alias") then
                  commodity_loop f w {| cu_name := cu_name a; cu_aliases := sadd str_eqb v (cu_aliases a);
                    cu_note := cu_note a;
                    cu_format := cu_format a; cu_default := cu_default a; cu_directive := true;
                    cu_precision := None |} t3
                else if str_eqb k (L "format") then
                  commodity_loop f w {| cu_name := cu_name a; cu_aliases := cu_aliases a; cu_note := cu_note a;
                    cu_format := Some v; cu_default := cu_default a; cu_directive := true;
                    cu_precision := None |} t3
                else if str_eqb k (L "default") then
                  commodity_loop f w {| cu_name := cu_name a; cu_aliases := cu_aliases a; cu_note := cu_note a;
                    cu_format := cu_format a; cu_default := true; cu_directive := true;
                    cu_precision := None |} t2
                else fail_at t2 (UnexpectedInput (Some (L "Found " ++ k ++
                       L ". Should be one of 'note', 'alias', 'format', 'default'")))
          end
      end
  end.
(** tokenizers/commodity.rs:12-58 *)
Definition parse_commodity (w : world) (t : tok) : res (currency * tok) :=
  let (line, t1) := get_line t in
  ps <- gparse Rcommodity line ;;
  '(top, _) <- pnext ps ;;
  '(c, _) <- pnext (p_kids top) ;;
  n <- parse_string c ;;
  commodity_loop (entries_fuel t1) w
    {| cu_name := trim n; cu_aliases := []; cu_note := None; cu_format := None; cu_default := false;
       cu_directive := true; cu_precision := None |} t1.

(** tokenizers/payee.rs:12-84.  The third group of the regex never matches: the greedy second one
    takes the whole rest of the line, so the note stays empty and the name is not trimmed. *)
(** tokenizers/payee.rs:12-84 *)
Fixpoint payee_loop (fuel : nat) (w : world) (aliases : list str) (t : tok) : res (list str * tok) :=
  match fuel with
  | O => Panic OutOfFuel
  | S f =>
      match consume_whitespaces_and_lines t with
      | (Blank, t1) => Ok (aliases, t1)
      | (Indented, t1) =>
          match get_char t1 with
          | None => Panic PUnwrap
          | Some c =>
              if (c =? c_semi)%N then let (_, t2) := parse_comment t1 in payee_loop f w aliases t2
              else
                let (k, t2) := get_string w t1 in
                if str_eqb k (L "alias") then
                  let (l, t3) := get_line t2 in payee_loop f w (sadd str_eqb (trim l) aliases) t3
                else fail_at t2 (UnexpectedInput None)
          end
      end
  end.
(** tokenizers/payee.rs:12-84 *)
Definition parse_payee (w : world) (t : tok) : res (payee * tok) :=
  let (line, t1) := get_line t in
  n <- unwrap (re_directive (L "payee") line) ;;
  '(al, t2) <- payee_loop (entries_fuel t1) w [] t1 ;;
  if forallb (w_rx_ok w) al then
    Ok ({| py_name := n; py_aliases := al; py_regexes := al; py_note := None; py_directive := true |}, t2)
  else Panic PUnwrap.

(** tokenizers/tag.rs:9-72; the tag itself is never used.  Note the branch for comments (line 50),
    which consumes nothing. *)
(** models/models.rs:13-19 *)
Record tagdir := { td_name : str; td_check : list str; td_assert : list str }.
(** tokenizers/tag.rs:9-72 *)
Fixpoint tag_loop (fuel : nat) (w : world) (a : tagdir) (t : tok) : res (tagdir * tok) :=
  match fuel with
  | O => Panic OutOfFuel
  | S f =>
      match consume_whitespaces_and_lines t with
      | (Blank, t1) => Ok (a, t1)
      | (Indented, t1) =>
          match get_char t1 with
          | None => Panic PUnwrap
          | Some c =>
              if (c =? c_semi)%N then tag_loop f w a t1
              else
                let (k, t2) := get_string w t1 in
                let (l, t3) := get_line t2 in
                if str_eqb k (L "check") then
                  tag_loop f w {| td_name := td_name a; td_check := td_check a ++ [trim l];
                                  td_assert := td_assert a |} t3
                else if str_eqb k (L "assert") then
                  tag_loop f w {| td_name := td_name a; td_check := td_check a;
                                  td_assert := td_assert a ++ [trim l] |} t3
                else fail_at t2 (UnexpectedInput None)
          end
      end
  end.
(** tokenizers/tag.rs:9-72 *)
Definition parse_tag (w : world) (t : tok) : res (tagdir * tok) :=
  let (line, t1) := get_line t in
  n <- unwrap (re_directive (L "tag") line) ;;
  tag_loop (entries_fuel t1) w {| td_name := trim n; td_check := []; td_assert := [] |} t1.

(** tokenizers/price.rs:8-32 *)
Record parsed_price := { pp_date : Z; pp_commodity : str; pp_other : str; pp_quantity : Qc }.
(** tokenizers/price.rs:8-32 *)
Definition parse_price_line (line : str) : res parsed_price :=
  ps <- gparse Rprice line ;;
  '(top, _) <- pnext ps ;;
  '(d, r) <- pnext (p_kids top) ;;
  date <- parse_date d ;;
  '(x, r) <- pnext r ;;
  '(com, r) <- match p_rule x with
               | Rtime => '(y, r') <- pnext r ;; c <- parse_string y ;; Ok (c, r')
               | _ => c <- parse_string x ;; Ok (c, r)
               end ;;
  '(n, r) <- pnext r ;;
  q <- parse_rational n ;;
  '(o, _) <- pnext r ;;
  other <- parse_string o ;;
  Ok {| pp_date := date; pp_commodity := com; pp_other := other; pp_quantity := q |}.
(** tokenizers/price.rs:8-32 *)
Definition parse_price (t : tok) : res (parsed_price * tok) :=
  let (line, t1) := get_line t in
  p <- parse_price_line line ;; Ok (p, t1).

(** ** The parsed ledger, parser/mod.rs:33-41 *)
Record pledger := {
  pl_accounts : alist account;
  pl_payees : alist payee;
  pl_commodities : alist currency;
  pl_txns : list (txn rposting);
  pl_prices : list parsed_price;
  pl_comments : list str;
  pl_tags : list tagdir;
}.
(** parser/mod.rs:44-54 *)
Definition pl_new : pledger :=
  {| pl_accounts := l_new; pl_payees := l_new; pl_commodities := l_new; pl_txns := []; pl_prices := [];
     pl_comments := []; pl_tags := [] |}.
(** parser/mod.rs:55-63; tags are not appended.  (The transactions are appended twice, but the first
    append empties the other vector.) *)
(** parser/mod.rs:55-63 *)
Definition pl_append (a b : pledger) : pledger :=
  {| pl_accounts := l_append (pl_accounts a) (pl_accounts b);
     pl_payees := l_append (pl_payees a) (pl_payees b);
     pl_commodities := l_append (pl_commodities a) (pl_commodities b);
     pl_txns := pl_txns a ++ pl_txns b;
     pl_prices := pl_prices a ++ pl_prices b;
     pl_comments := pl_comments a ++ pl_comments b;
     pl_tags := pl_tags a |}.
(** parser/mod.rs:131-192, push. *)
Definition add_txn t l := {| pl_accounts := pl_accounts l; pl_payees := pl_payees l;
  pl_commodities := pl_commodities l; pl_txns := pl_txns l ++ [t]; pl_prices := pl_prices l;
  pl_comments := pl_comments l; pl_tags := pl_tags l |}.
(** parser/mod.rs:131-192, push. *)
Definition add_lcomment c l := {| pl_accounts := pl_accounts l; pl_payees := pl_payees l;
  pl_commodities := pl_commodities l; pl_txns := pl_txns l; pl_prices := pl_prices l;
  pl_comments := pl_comments l ++ [c]; pl_tags := pl_tags l |}.
(** parser/mod.rs:131-192, push. *)
Definition add_tag c l := {| pl_accounts := pl_accounts l; pl_payees := pl_payees l;
  pl_commodities := pl_commodities l; pl_txns := pl_txns l; pl_prices := pl_prices l;
  pl_comments := pl_comments l; pl_tags := pl_tags l ++ [c] |}.
(** parser/mod.rs:131-192, push. *)
Definition add_price c l := {| pl_accounts := pl_accounts l; pl_payees := pl_payees l;
  pl_commodities := pl_commodities l; pl_txns := pl_txns l; pl_prices := pl_prices l ++ [c];
  pl_comments := pl_comments l; pl_tags := pl_tags l |}.
(** parser/mod.rs:131-192, insert. *)
Definition add_acc w c l := {| pl_accounts := acc_insert w c (pl_accounts l); pl_payees := pl_payees l;
  pl_commodities := pl_commodities l; pl_txns := pl_txns l; pl_prices := pl_prices l;
  pl_comments := pl_comments l; pl_tags := pl_tags l |}.
(** parser/mod.rs:131-192, insert. *)
Definition add_pay w c l := {| pl_accounts := pl_accounts l; pl_payees := pay_insert w c (pl_payees l);
  pl_commodities := pl_commodities l; pl_txns := pl_txns l; pl_prices := pl_prices l;
  pl_comments := pl_comments l; pl_tags := pl_tags l |}.
(** parser/mod.rs:131-192, insert. *)
Definition add_cur w c l := {| pl_accounts := pl_accounts l; pl_payees := pl_payees l;
  pl_commodities := cur_insert w c (pl_commodities l); pl_txns := pl_txns l; pl_prices := pl_prices l;
  pl_comments := pl_comments l; pl_tags := pl_tags l |}.

(** ** parser/mod.rs:131-192: one item at the start of a line; [inc] handles the include directive. *)
Definition is_comment_char (c : N) : bool :=
  ((c =? c_semi) || (c =? 33) || (c =? 42) || (c =? 37) || (c =? 35))%N.  (* ; ! * % # *)
(** parser/mod.rs:131-192 *)
Definition item (inc : tok -> res (pledger * tok)) (w : world) (c : N) (l : pledger) (t : tok)
  : res (pledger * tok) :=
  if is_comment_char c then let (s, t1) := parse_comment t in Ok (add_lcomment s l, t1)
  else if is_numeric w c then '(x, t1) <- parse_transaction w t ;; Ok (add_txn x l, t1)
  else if (c =? c_eq)%N then '(x, t1) <- parse_automated w t ;; Ok (add_txn x l, t1)
  else if (c =? 105)%N (* i *) then '(x, t1) <- inc t ;; Ok (pl_append l x, t1)
  else if (c =? 99)%N (* c *) then '(x, t1) <- parse_commodity w t ;; Ok (add_cur w x l, t1)
  else if (c =? 112)%N (* p *) then '(x, t1) <- parse_payee w t ;; Ok (add_pay w x l, t1)
  else if (c =? 116)%N (* t *) then '(x, t1) <- parse_tag w t ;; Ok (add_tag x l, t1)
  else if (c =? 97)%N (* a *) then '(x, t1) <- parse_account w t ;; Ok (add_acc w x l, t1)
  else if (c =? 80)%N (* P *) then '(x, t1) <- parse_price t ;; Ok (add_price x l, t1)
  else fail_at t (UnexpectedInput None).

(** parser/mod.rs:131-192 *)
Fixpoint main_loop (fuel : nat) (inc : tok -> res (pledger * tok)) (w : world) (l : pledger) (t : tok)
  : res pledger :=
  match fuel with
  | O => Panic OutOfFuel
  | S f =>
      match tk_rest t with
      | [] => Ok l
      | _ :: _ =>
          match consume_whitespaces_and_lines t with
          | (Blank, t1) =>
              match get_char t1 with
              | None => main_loop f inc w l t1
              | Some c => '(l', t2) <- item inc w c l t1 ;; main_loop f inc w l' t2
              end
          | (Indented, t1) => fail_at t1 (UnexpectedInput (Some (L "Unexpected indentation")))
          end
      end
  end.

(** [Path::parent] as text, for paths without trailing or doubled slashes: what precedes the last
    slash.  The root itself has no parent, which panics. *)
(** [Path::parent] (std): include.rs:14. *)
Fixpoint drop_to_slash (s : str) : option str :=
  match s with
  | [] => None
  | c :: r => if (c =? c_slash)%N then Some r else drop_to_slash r
  end.
(** [Path::parent] (std): include.rs:14. *)
Definition path_parent (p : str) : str :=
  match drop_to_slash (rev p) with
  | Some r => match rev r with [] => [c_slash] | d => d end
  | None => []
  end.

(** include.rs:8-49.  [file] is the file being read, if any; [seen] the files on the way to it
    (including itself); [tokenize] the recursive call on (file, seen files, content). *)
(** include.rs:10-21 *)
Definition include_pattern (file : option str) (line : str) : str :=
  match file with
  | Some f => (match path_parent f with [] => [c_dot] | d => d end) ++ [c_slash] ++ line
  | None => line
  end.
(** include.rs:22-48 *)
Definition include_files (tokenize : str -> list str -> str -> res pledger) (w : world) (seen : list str)
           (files : list str) : res pledger :=
  foldM (fun items f =>
           match w_read w f with
           | None => Panic PExplicit
           | Some content =>
               new <- tokenize f (sadd str_eqb f seen) content ;; Ok (pl_append items new)
           end) pl_new files.
(** include.rs:8-49 *)
Definition include_parse (tokenize : str -> list str -> str -> res pledger) (w : world)
           (file : option str) (seen : list str) (t : tok) : res (pledger * tok) :=
  t1 <- consume_str (L "include ") t ;;
  let (line, t2) := get_line t1 in
  files <- unwrap (w_glob w (include_pattern file line)) ;;
  match find (fun f => existsb (str_eqb f) seen) files with
  | Some f => fail_at t2 (IncludeLoop f)
  | None => l <- include_files tokenize w seen files ;; Ok (l, t2)
  end.

(** parser/mod.rs:131-192; [depth] bounds the nesting of includes. *)
Fixpoint tokenize (depth : nat) (w : world) (file : option str) (seen : list str) (content : str)
  : res pledger :=
  match depth with
  | O => Panic OutOfFuel
  | S d =>
      in_file file (main_loop (S (length content))
        (include_parse (fun f seen' c => tokenize d w (Some f) seen' c) w file seen)
        w pl_new (tok_of content))
  end.

(** The two ways a tokenizer is created: parser/mod.rs:89-126. *)
Definition tokenize_file (depth : nat) (w : world) (path : str) : res pledger :=
  match w_read w path with
  | None => Panic PExplicit
  | Some content => tokenize depth w (Some path) [path] content
  end.
(** parser/mod.rs:113-126 *)
Definition tokenize_string (depth : nat) (w : world) (content : str) : res pledger :=
  tokenize depth w None [] content.
