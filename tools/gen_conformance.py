#!/usr/bin/env python3
"""Generates rocq/theories/Conformance.v: the model run on the example files of the repository,
with the expectations of the integration tests of the repository."""
import os
R = "/repo/tests/example_files/"
OUT = "/verif/rocq/theories/Conformance.v"
def lit(s): return '"' + s.replace('"', '""') + '"'
def rd(n): return open(R + n, encoding="utf-8").read()
files = ["demo.ledger", "demo_bad.ledger", "automated.ledger", "automated_fail.ledger",
         "virtual_postings.ledger", "tags.ledger", "include.ledger"]
o = []
o.append('''(** The model run on the example files of the repository: the expectations are those of the
    repository's own integration tests (tests/*.rs).  These are tests of the model, not proofs.
    Generated by tools/gen_conformance.py. *)
From Verif Require Import Base Numerals Money Alist Comment Txn Peg Grammar Dates Expr Filter Tokens Price Ledger Reports App.
From Coq Require Import String Ascii.
Open Scope N_scope.

(** UTF-8 decoding of the literals below. *)
Fixpoint utf8 (l : list N) : str :=
  match l with
  | [] => []
  | a :: r =>
      if a <? 128 then a :: utf8 r
      else match r with
           | b :: r2 =>
               if a <? 224 then ((a - 192) * 64 + (b - 128)) :: utf8 r2
               else match r2 with
                    | c :: r3 => ((a - 224) * 4096 + (b - 128) * 64 + (c - 128)) :: utf8 r3
                    | [] => []
                    end
           | [] => []
           end
  end.
Definition U (s : string) : str := utf8 (L s).
Arguments U s%string_scope.

(** A small regex oracle: case-insensitive (optional) substring search. *)
Definition strip (p s : str) : option str :=
  if starts_with p s then Some (skipn (List.length p) s) else None.
Fixpoint contains (p s : str) {struct s} : bool :=
  starts_with p s || match s with [] => false | _ :: r => contains p r end.
Definition core (rx : str) : str :=
  match strip (L "(.*") rx with Some r => firstn (List.length r - 3) r | None => rx end.
Definition toy_rx (rx s : str) : bool :=
  match strip (L "(?i)") rx with
  | Some r => contains (ascii_lower (core r)) (ascii_lower s)
  | None => contains (core rx) s
  end.
Definition toy_world (read : str -> option str) (ord : nat -> forall A, list A -> list A) : world :=
  {| w_lower := ascii_lower; w_numeric := fun _ => false; w_rx := toy_rx; w_rx_ok := fun _ => true;
     w_width := None; w_read := read; w_glob := fun p => Some [p]; w_two_timer := fun _ => None;
     w_now := day_number 2021 6 1; w_ord := ord |}.
Definition id_ord (n : nat) (A : Type) (l : list A) : list A := l.
Definition rev_ord (n : nat) (A : Type) (l : list A) : list A := List.rev l.
Open Scope nat_scope.
''')
for f in files:
    if not os.path.exists(R+f): continue
    o.append(f'Definition f_{f.split(".")[0]} : str := U {lit(rd(f))}.')
o.append('''
Definition files (p : str) : option str :=
  if str_eqb p (L "demo.ledger") || str_eqb p (L "./demo.ledger") then Some f_demo
  else if str_eqb p (L "demo_bad.ledger") then Some f_demo_bad
  else if str_eqb p (L "automated.ledger") then Some f_automated
  else if str_eqb p (L "automated_fail.ledger") then Some f_automated_fail
  else if str_eqb p (L "virtual_postings.ledger") then Some f_virtual_postings
  else if str_eqb p (L "tags.ledger") then Some f_tags
  else None.
Definition w1 := toy_world files id_ord.
Definition w2 := toy_world files rev_ord.
Definition no_opts : opts :=
  {| o_real := false; o_begin := None; o_end := None; o_query := []; o_depth := None;
     o_exchange := None; o_no_balance_check := false |}.
Definition q (l : list str) : opts :=
  {| o_real := false; o_begin := None; o_end := None; o_query := l; o_depth := None;
     o_exchange := None; o_no_balance_check := false |}.
Definition count (w : world) (c : command) (o : opts) (f : str) : res nat :=
  ls <- run_cmd 5 w c o f ;; Ok (List.length ls).
Definition cerr (w : world) (c : command) (o : opts) (f : str) : Z := exit_status (run_cmd 5 w c o f).
''')
n = 0
def ex(txt, expect):
    global n
    for w in ("w1", "w2"):
        n += 1
        o.append(f'Example conf_{n:02d} : {txt.replace("@W", w)} = {expect}.\nProof. vm_compute. reflexivity. Qed.')
B = "CBalance false false"; F = "CBalance true false"
def cnt(c, opts, f, k, comment):
    o.append(f"\n(** {comment} *)")
    ex(f'count @W ({c}) ({opts}) (L "{f}")', f"Ok {k}")
def Q(*a): return "q [" + "; ".join(f"L {lit(x)}" for x in a) + "]"
cnt(B, "no_opts", "demo.ledger", 17, "test_commands.rs date_filters")
cnt(B, '{| o_real := false; o_begin := from_ymd 2021 1 15; o_end := from_ymd 2021 1 17; o_query := []; o_depth := None; o_exchange := None; o_no_balance_check := false |}', "demo.ledger", 12, "date_filters, second")
cnt("CRegister", "no_opts", "virtual_postings.ledger", 7, "virtual_postings")
cnt("CRegister", '{| o_real := true; o_begin := None; o_end := None; o_query := []; o_depth := None; o_exchange := None; o_no_balance_check := false |}', "virtual_postings.ledger", 4, "real_filter")
cnt(F, Q("%fruit"), "demo.ledger", 4, "tag_filter")
d1 = '{| o_real := false; o_begin := None; o_end := None; o_query := []; o_depth := Some 1; o_exchange := None; o_no_balance_check := false |}'
cnt(B, d1, "demo.ledger", 11, "depth_tree"); cnt(F, d1, "demo.ledger", 11, "depth_tree, flat")
cnt(F, Q("travel"), "demo.ledger", 1, "account_filter")
cnt("CAccounts", "no_opts", "demo.ledger", 7, "accounts_command")
cnt("CCheck", "no_opts", "demo.ledger", 1, "check_command")
cnt("CPrices", "no_opts", "demo.ledger", 7, "prices_command")
cnt("CPayees", "no_opts", "demo.ledger", 5, "payees_command")
cnt("CCommodities", "no_opts", "demo.ledger", 7, "commodities_command")
o.append("\n(** check_command_bad_file, automated_fail *)")
ex('cerr @W CCheck no_opts (L "demo_bad.ledger")', "1%Z")
ex('cerr @W CRegister no_opts (L "automated_fail.ledger")', "1%Z")
cnt("CRegister", "no_opts", "automated.ledger", 11, "automated_value_expression")
cnt("CRegister", Q("%yummy"), "automated.ledger", 2, "automated_add_tag")
for e,k in [("date > to_date('2021/01/16')",2),("date >= to_date('2021/01/16')",15),("date < to_date('2021/01/16')",7),("date <= to_date('2021/01/01')",2),("date == to_date('2021/01/01')",2),("any(abs(amount) > 1000)",3),("any((500 + 500) < abs(amount))",3),("any(abs(amount) == (2 * 1))",9),("any(abs(amount) == 100 $)",4)]:
    cnt("CRegister", Q("expr", e), "demo.ledger", k, "test_expressions.rs")
o.append("\n(** bad_comparison *)")
ex('run_cmd 5 @W CRegister (%s) (L "demo.ledger")' % Q("expr", "(2 * (5 eur)) < ((3 usd) / 5))"), "Panic PExplicit")
cnt("CRegister", Q("%healthy"), "tags.ledger", 1, "test_tags.rs"); cnt("CRegister", Q("%shopping"), "tags.ledger", 2, "test_tags.rs")
tb = '''2021-01-15 * Flights
    Expenses:Travel            200 EUR
    Assets:Checking account   -200 EUR
2021-01-16 * More flights 1
    Expenses:Travel            300 EUR
    Assets:Checking account           = -500 EUR
2021-01-16 * More flights 2
    Expenses:Travel            300 EUR
    Assets:Checking account   -300 EUR = -800 EUR 
2021-01-16 * More flights 3
    Expenses:Travel            300 EUR
    Assets:Checking account           = -1100 EUR
'''
o.append("\n(** test_balances.rs *)")
ex(f'exit_status (l <- tokenize_string 1 @W (U {lit(tb)}) ;; to_ledger @W false l)', "0%Z")
o.append("\n(** test_account_names.rs *)")
for tail in ["Assets:Checking account \n","Assets:Checking account  =-500 EUR\n","Assets:Checking account   -300 EUR\n","Assets:Checking account   -300 EUR = -500 EUR\n"]:
    t = '''2021-01-15 * Flights
    Expenses:Travel            200 EUR
    Assets:Checking account   -200 EUR
2021-01-16 * More flights
    Expenses:Travel            300 EUR
    ''' + tail
    ex(f'(l <- tokenize_string 1 @W (U {lit(t)}) ;; g <- to_ledger @W true l ;; Ok (l_len (pl_accounts l), l_len (lg_accounts g)))', "Ok (0, 2)")
o.append("\n(** test_failures.rs not_money *)")
nm = '''
= travel
    (failure)     (account)
2021-01-15 * Flights
    Expenses:Travel      200 EUR
    Assets:Checking account   -200 EUR
'''
ex(f'(l <- tokenize_string 1 @W (U {lit(nm)}) ;; g <- to_ledger @W false l ;; Ok tt)', "Panic PExplicit")
o.append("\n(** test_exchange.rs *)")
te = '''2020-01-01 * ACME, Inc.
    Assets:Shares        1 ACME @ 1000.00 USD
    Assets:Bank:Checking account
2021-01-01 * ACME, Inc.
    Assets:Shares        1 ACME @ 1000.00 EUR
    Assets:Bank:Checking account

P 2020-07-01 EUR 1.5 USD

; I have 2 ACME Shares
'''
ex(f'(l <- tokenize_string 1 @W (U {lit(te)}) ;; g <- to_ledger @W false l ;; m <- conversion @W 100 (L "ACME") (w_now @W) (lg_prices g) ;; Ok (option_map (fun x : Qc => Qred (this x)) (hget str_eqb (L "EUR") m), option_map (fun x : Qc => Qred (this x)) (hget str_eqb (L "USD") m)))', "Ok (Some (1 # 1000)%Q, Some (1 # 1500)%Q)")
open(OUT, "w").write("\n".join(o) + "\n")
