(** Model of src/filter.rs. *)
From Verif Require Import Base Numerals Money Alist Txn Expr.

(** The fields of CommonOpts (app.rs:61-120) that influence reports. *)
Record opts := {
  o_real : bool;
  o_begin : option Z;
  o_end : option Z;
  o_query : list str;
  o_depth : option nat;
  o_exchange : option str;
  o_no_balance_check : bool;
}.

(** filter.rs:45-62 *)
Definition filter_expression (w : world) (n : node) (p : posting) (t : txn posting)
           (cs : alist currency) : res (bool * alist currency) :=
  '(v, cs') <- eval w n p t cs ;;
  match v with VBool b => Ok (b, cs') | _ => Err ENotBoolean end.

(** filter.rs:9-43 *)
Definition filter_posting (w : world) (o : opts) (n : option node) (t : txn posting) (p : posting)
           (cs : alist currency) : res (bool * alist currency) :=
  if o_real o && negb (kind_eqb (p_kind p) Real) then Ok (false, cs) else
  after_end <- match o_end o with
               | Some d => td <- unwrap (t_date t) ;; Ok (d <=? td)%Z
               | None => Ok false
               end ;;
  if (after_end : bool) then Ok (false, cs) else
  before_begin <- match o_begin o with
                  | Some d => td <- unwrap (t_date t) ;; Ok (td <? d)%Z
                  | None => Ok false
                  end ;;
  if (before_begin : bool) then Ok (false, cs) else
  match n with
  | Some n => filter_expression w n p t cs
  | None => Ok (true, cs)
  end.

(** filter.rs:106-130: the text of one term. *)
Definition term_text (expr : bool) (term : str) : str :=
  if expr then term else
  match term with
  | [] => []
  | c :: r =>
      if (c =? c_at)%N then L "payee =~ /(?i)" ++ r ++ L "/"
      else if (c =? 37)%N then L "has_tag(/(?i)" ++ r ++ L "/)"
      else if (c =? c_slash)%N then L "account =~ " ++ term
      else L "account =~ /(?i)" ++ term ++ L "/"
  end.

(** filter.rs:77-135: the loop, [acc] being [expression]. *)
Fixpoint query_loop (terms : list str) (acc : str) (and first expr : bool) : str :=
  match terms with
  | [] => acc
  | raw :: r =>
      let term := trim raw in
      if str_eqb term [] then query_loop r acc and first expr
      else if str_eqb term (L "and") then query_loop r acc true first expr
      else if str_eqb term (L "or") then query_loop r acc false first expr
      else if str_eqb term (L "expr") then query_loop r acc and first true
      else
        let j := if negb first then (if and then L " and (" else L " or (") else L "(" in
        query_loop r (acc ++ j ++ term_text expr term ++ L ")") false false false
  end.

(** filter.rs:76-137 *)
Definition preprocess_query (q : list str) : str :=
  L "(" ++ query_loop q [] false true false ++ L ")".

(** transaction.rs:58-87 *)
Definition get_filter_query {P} (t : txn P) : str :=
  preprocess_query (query_parts (t_desc t) [] false false).

(** commands/balance.rs:30-38, register.rs:42-50: the query node, if the query is not empty.
    [query.len() > 2] is a byte length. *)
Definition query_node (w : world) (o : opts) : res (option node) :=
  let q := preprocess_query (o_query o) in
  if Nat.ltb 2 (utf8_len q) then n <- build_root w q ;; Ok (Some n) else Ok None.
