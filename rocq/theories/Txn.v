(** Model of src/models/transaction.rs. *)
From Verif Require Import Base Money Comment.
Open Scope Qc_scope.

(** transaction.rs:50-55, 133-138, 119-131, 112-117, 189-193 *)
Inductive origin := FromTransaction | OAutomated | OPeriodic.
(** transaction.rs:133-138 *)
Inductive kind := Real | Virtual | VirtualMustBalance.
(** [==] on PostingType, transaction.rs:133. *)
Definition kind_eqb (a b : kind) : bool :=
  match a, b with Real, Real | Virtual, Virtual | VirtualMustBalance, VirtualMustBalance => true
                | _, _ => false end.
(** The test on the origin in models/mod.rs:216; transaction.rs:50-55. *)
Definition is_from_txn (o : origin) : bool := match o with FromTransaction => true | _ => false end.
(** transaction.rs:119-124 *)
Inductive ttype := TReal | TAutomated | TPeriodic.
(** transaction.rs:126-131 *)
Inductive cleared := CUnknown | CNotCleared | CCleared.
(** transaction.rs:189-193 *)
Inductive cost := CTotal (m : money) | CPerUnit (m : money).

(** transaction.rs:36-48.  Accounts and payees by name; the weak link back to the transaction is
    not represented. *)
Record posting := {
  p_account : str;
  p_amount : option money;
  p_balance : option money;
  p_cost : option cost;
  p_kind : kind;
  p_comments : list str;
  p_tags : list tag;
  p_payee : option str;
  p_origin : origin;
}.

(** transaction.rs:20-34.  [status] and the memo field [filter_query] are not represented: the
    first is never read for reports, the second caches a function of the description, which does
    not change. *)
Record txn (P : Type) := {
  t_date : option Z;
  t_edate : option Z;
  t_cleared : cleared;
  t_code : option str;
  t_desc : str;
  t_payee : option str;
  t_postings : list P;
  t_comments : list str;
  t_type : ttype;
  t_tags : list tag;
}.
Arguments t_date {P}. Arguments t_edate {P}. Arguments t_cleared {P}. Arguments t_code {P}.
Arguments t_desc {P}. Arguments t_payee {P}. Arguments t_postings {P}. Arguments t_comments {P}.
Arguments t_type {P}. Arguments t_tags {P}. Arguments Build_txn {P}.

(** [postings.replace(..)], transaction.rs:424, 461 and models/mod.rs:298, 444. *)
Definition set_postings {P Q} (t : txn P) (ps : list Q) : txn Q :=
  {| t_date := t_date t; t_edate := t_edate t; t_cleared := t_cleared t; t_code := t_code t;
     t_desc := t_desc t; t_payee := t_payee t; t_postings := ps; t_comments := t_comments t;
     t_type := t_type t; t_tags := t_tags t |}.

(** transaction.rs:196-211 *)
Definition txn_new {P} (ty : ttype) : txn P :=
  {| t_date := None; t_edate := None; t_cleared := CUnknown; t_code := None; t_desc := [];
     t_payee := None; t_postings := []; t_comments := []; t_type := ty; t_tags := [] |}.

(** transaction.rs:163-186, on the list of tags. *)
Definition has_tag (w : world) (rx : str) (p : posting) : bool :=
  existsb (fun t => w_rx w rx (tag_name t)) (p_tags p).
(** transaction.rs:171-178 *)
Definition get_tag (w : world) (rx : str) (p : posting) : option str :=
  match find (fun t => w_rx w rx (tag_name t)) (p_tags p) with
  | Some t => tag_value t | None => None end.
(** transaction.rs:179-186 *)
Definition get_exact_tag (n : str) (p : posting) : option str :=
  match find (fun t => str_eqb n (tag_name t)) (p_tags p) with
  | Some t => tag_value t | None => None end.

(** transaction.rs:219-253: value of a posting in [total_balance].  Note the factor -1 for negative
    amounts with a per-unit cost (lines 241-249), which [post_value] below does not have. *)
Definition total_value (m : money) (c : option cost) : res balance :=
  match c with
  | None => Ok (bal_of m)
  | Some (CTotal a) => Ok (if m_is_negative m then bal_of (m_neg a) else bal_of a)
  | Some (CPerUnit MZero) => Panic PExplicit
  | Some (CPerUnit (M a cur)) =>
      let units := a * m_amount m in
      Ok (bal_of (M (units * (if m_is_negative m then -(1) else 1)) cur))
  end.
(** transaction.rs:214-255 *)
Definition total_balance (ps : list posting) (k : kind) : res balance :=
  foldM (fun acc p =>
           match p_amount p with
           | Some m => if kind_eqb (p_kind p) k then
                         v <- total_value m (p_cost p) ;; Ok (bal_add acc v)
                       else Ok acc
           | None => Ok acc
           end) bal_new ps.

(** transaction.rs:258-260 *)
Definition is_balanced (t : txn posting) : res bool :=
  b <- total_balance (t_postings t) Real ;; Ok (can_be_zero b).

(** transaction.rs:327-357: value of a real posting with an amount. *)
Definition post_value (m : money) (c : option cost) : res balance :=
  match c with
  | None => Ok (bal_of m)
  | Some (CTotal a) => Ok (if m_is_negative m then bal_of (m_neg a) else bal_of a)
  | Some (CPerUnit MZero) => Panic PExplicit
  | Some (CPerUnit (M a cur)) => Ok (bal_of (M (a * m_amount m) cur))
  end.

(** transaction.rs:283: HashMap<Rc<Account>, Balance> *)
Definition balances := list (str * balance).

(** The variables of the loop of transaction.rs:300-400. *)
Record bstate := {
  bs_bals : balances;            (* balances *)
  bs_tb : balance;               (* transaction_balance *)
  bs_out : list posting;         (* postings *)
  bs_fill : str * option str;    (* fill_account, fill_payee *)
}.

(** transaction.rs:360-371, 383-394: Posting pushed at 360-371 and 383-394: everything as given,
    amount possibly computed. *)
Definition pushed (p : posting) (m : money) : posting :=
  {| p_account := p_account p; p_amount := Some m; p_balance := p_balance p; p_cost := p_cost p;
     p_kind := Real; p_comments := p_comments p; p_tags := p_tags p; p_payee := p_payee p;
     p_origin := FromTransaction |}.

(** One iteration of the loop, transaction.rs:300-400. *)
Definition bal_step (skip : bool) (s : bstate) (p : posting) : res bstate :=
  if negb (kind_eqb (p_kind p) Real) then Ok s else
  match p_amount p with
  | Some m =>
      old <- unwrap (hget str_eqb (p_account p) (bs_bals s)) ;;
      let expected := bal_add old (bal_of m) in
      if negb skip && match p_balance p with
                      | Some b => negb (bal_eqb (bal_of b) expected)
                      | None => false
                      end
      then Err (ELedger TransactionIsNotBalanced)
      else
        v <- post_value m (p_cost p) ;;
        Ok {| bs_bals := hset str_eqb (p_account p) expected (bs_bals s);
              bs_tb := bal_add (bs_tb s) v;
              bs_out := bs_out s ++ [pushed p m];
              bs_fill := bs_fill s |}
  | None =>
      match p_balance p with
      | Some b =>
          if skip then
            Ok {| bs_bals := bs_bals s; bs_tb := bs_tb s; bs_out := bs_out s;
                  bs_fill := (p_account p, p_payee p) |}
          else
            old <- unwrap (hget str_eqb (p_account p) (bs_bals s)) ;;
            m <- to_money (bal_sub (bal_of b) old) ;;
            Ok {| bs_bals := hset str_eqb (p_account p) (bal_of b) (bs_bals s);
                  bs_tb := bal_add (bs_tb s) (bal_of m);
                  bs_out := bs_out s ++ [pushed p m];
                  bs_fill := bs_fill s |}
      | None =>
          Ok {| bs_bals := bs_bals s; bs_tb := bs_tb s; bs_out := bs_out s;
                bs_fill := (p_account p, p_payee p) |}
      end
  end.

(** transaction.rs:438-449 *)
Definition fill_posting (t : txn posting) (acc : str) (pay : option str) (m : money) : posting :=
  {| p_account := acc; p_amount := Some m; p_balance := None; p_cost := None; p_kind := Real;
     p_comments := t_comments t; p_tags := t_tags t; p_payee := pay; p_origin := FromTransaction |}.

(** transaction.rs:432-450: one posting per entry of the (negated) balance. *)
Definition fill_loop (t : txn posting) (acc : str) (pay : option str) (entries : balance)
           (st : balances * list posting) : res (balances * list posting) :=
  foldM (fun '(bals, out) e =>
           old <- unwrap (hget str_eqb acc bals) ;;
           Ok (hset str_eqb acc (bal_add old (bal_of (snd e))) bals,
               out ++ [fill_posting t acc pay (snd e)])) st entries.

(** The postings kept at the end, transaction.rs:415-423, 452-460. *)
Definition non_real (ps : list posting) : list posting :=
  filter (fun p => negb (kind_eqb (p_kind p) Real)) ps.
(** The postings counted at transaction.rs:402-408. *)
Definition real (ps : list posting) : list posting :=
  filter (fun p => kind_eqb (p_kind p) Real) ps.

(** transaction.rs:281-465.  [ord] is the iteration order of the hash map at line 432. *)
Definition txn_balance (ord : balance -> balance) (skip : bool) (t : txn posting) (bals : balances)
  : res (balance * txn posting * balances) :=
  vb <- total_balance (t_postings t) VirtualMustBalance ;;
  if negb (can_be_zero vb) then Err (ELedger TransactionIsNotBalanced) else
  s <- foldM (bal_step skip)
             {| bs_bals := bals; bs_tb := bal_new; bs_out := [];
                bs_fill := (L "this will never be used", None) |} (t_postings t) ;;
  let empties := (length (real (t_postings t)) - length (bs_out s))%nat in
  match empties with
  | O =>
      if can_be_zero (bs_tb s) then
        Ok (bs_tb s, set_postings t (bs_out s ++ non_real (t_postings t)), bs_bals s)
      else Err (ELedger TransactionIsNotBalanced)
  | S O =>
      '(bals', out) <- fill_loop t (fst (bs_fill s)) (snd (bs_fill s)) (ord (bal_neg (bs_tb s)))
                                 (bs_bals s, bs_out s) ;;
      Ok (bal_new, set_postings t (out ++ non_real (t_postings t)), bals')
  | _ => Err (ELedger (TooManyEmptyPostings empties))
  end.

(** transaction.rs:58-79: the query of an automated transaction, split on spaces outside strings
    and regexes, quotes dropped (the space that ends a part starts the next one). *)
Fixpoint query_parts (s cur : str) (in_rx in_str : bool) : list str :=
  match s with
  | [] => [cur]
  | c :: r =>
      let brk := (c =? c_sp)%N && negb in_str && negb in_rx in
      let cur0 := if brk then [] else cur in
      let rest :=
        if (c =? c_dq)%N then query_parts r cur0 in_rx (negb in_str)
        else if (c =? c_slash)%N then query_parts r (cur0 ++ [c]) (negb in_rx) in_str
        else query_parts r (cur0 ++ [c]) in_rx in_str in
      if brk then cur :: rest else rest
  end.
