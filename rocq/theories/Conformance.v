(** The model run on the example files of the repository: the expectations are those of the
    repository's own integration tests (tests/*.rs).  These are tests of the model, not proofs.
    Generated by tools/gen_conformance.py. *)
From Verif Require Import Base Numerals Money Alist Comment Txn Peg Grammar Dates Expr Filter Tokens Price Ledger Reports App.
From Coq Require Import String Ascii.
Open Scope N_scope.

(** UTF-8 decoding of the literals below. *)
Fixpoint utf8 (l : list N) : str :=
  match l with
  | [] => []
  | a :: r =>
      if a <? 128 then a :: utf8 r
      else match r with
           | b :: r2 =>
               if a <? 224 then ((a - 192) * 64 + (b - 128)) :: utf8 r2
               else match r2 with
                    | c :: r3 => ((a - 224) * 4096 + (b - 128) * 64 + (c - 128)) :: utf8 r3
                    | [] => []
                    end
           | [] => []
           end
  end.
Definition U (s : string) : str := utf8 (L s).
Arguments U s%string_scope.

(** A small regex oracle: case-insensitive (optional) substring search. *)
Definition strip (p s : str) : option str :=
  if starts_with p s then Some (skipn (List.length p) s) else None.
Fixpoint contains (p s : str) {struct s} : bool :=
  starts_with p s || match s with [] => false | _ :: r => contains p r end.
Definition core (rx : str) : str :=
  match strip (L "(.*") rx with Some r => firstn (List.length r - 3) r | None => rx end.
Definition toy_rx (rx s : str) : bool :=
  match strip (L "(?i)") rx with
  | Some r => contains (ascii_lower (core r)) (ascii_lower s)
  | None => contains (core rx) s
  end.
Definition toy_world (read : str -> option str) (ord : nat -> forall A, list A -> list A) : world :=
  {| w_lower := ascii_lower; w_numeric := fun _ => false; w_rx := toy_rx; w_rx_ok := fun _ => true;
     w_width := None; w_read := read; w_glob := fun p => Some [p]; w_two_timer := fun _ => None;
     w_now := day_number 2021 6 1; w_ord := ord |}.
Definition id_ord (n : nat) (A : Type) (l : list A) : list A := l.
Definition rev_ord (n : nat) (A : Type) (l : list A) : list A := List.rev l.
Open Scope nat_scope.

Definition f_demo : str := U "; A simple demo file with comments
! Comments can also be like this
# or like this

2021-01-01 * Groceries
    ; :fruit:
    Expenses:Groceries   $100
    Assets:Bank:Checking account

2021-01-03 * Clothing
    ; :skirt:
    Expenses:Clothes   $69.37
    Assets:Bank:Checking account   $-69.37

2021-01-15 * Flights
    ; destination: spain
    Expenses:Unknown      200 EUR    ; this will get translated to Expenses:Flights
    Assets:Bank:Checking account   $-210.12

2021-01-16 * Alphabet Inc.
    Assets:Shares        2 GOOGL @ $957.37
    Assets:Bank:Checking account

2021-01-16 * ACME.
    Assets:Shares        2 ACME @@ $957.37
    Assets:Bank:Checking account

2021-01-27 * ACME, inc.
    Income:Salary     $-100
    Assets:Bank:Checking account

commodity €
    alias EUR
    alias EURUSD=X
commodity USD
    alias $
P 2021-01-23 AAPL 139.07 USD
; Difficult things to parse that were in my ledger
P 2018/01/14 17:37:11 BTC 13420.7 USD
P 2013/12/11 EURUSD=X 1.376444 USD
P 2015/08/07 ETH-USD 2.772120 USD

payee ACME, inc.
    alias (?i)(.*acme.*)
account Expenses:Travel
    payee Flights
".
Definition f_demo_bad : str := U "; A simple demo file with comments
! Comments can also be like this
# or like this

2021-01-01 * Groceries
    ; :fruit:
    Expenses:Groceries   $100
    Assets:Checking account

; This does not balance... on purpose
2021-01-03 * Clothing
    ; :skirt:
    Expenses:Clothes   $69.37
    Assets:Checking account   $-100

2021-01-15 * Flights
    ; destination: spain
    Expenses:Travel      200 EUR
    Assets:Checking account   $-210.12

2021-01-16 * Alphabet Inc.
    Assets:Shares        2 GOOGL @ $957.37
    Assets:Checking account

2021-01-16 * ACME.
    Assets:Shares        2 ACME @@ $957.37
    Assets:Checking account

2021-01-27 * ACME, inc.
    Income:Salary     $-100
    Assets:Checking account

commodity €
    alias EUR
commodity USD
    alias $
P 2021-01-23 AAPL 139.07 USD
".
Definition f_automated : str := U "= Income:Salary
    (Savings)            600 EUR
    (Free spending)      (abs(amount) - EUR 600)
= Savings
    (Savings:Risky investments)    (amount * 0.10)
    (Savings:Deposits)             0.40
    (Savings:Shares)               (amount / 2)
= Expenses:Rent
    Expenses:Rent        EUR 553.12
    Expenses:Utilities   (amount - 553.12 EUR)
    Expenses:Rent        (-amount)
= @""My favorite restaurant""
    ; :yummy:

2021-01-01 * Flights
    Income:Salary      -1000 EUR
    Assets:Checking account
2021-01-05 * Rent
    Expenses:Rent               705.43 EUR
    Assets:Checking account
2021-01-06 * Meal | My favorite restaurant
    ; :one_tag:
    Expenses:Restaurants        58.33 EUR
    Assets:Cash
".
Definition f_automated_fail : str := U "; This should fail because the added posting makes the transaction unbalanced

= flights
    [Bugdet:Holiday]   -1

2021-01-01 * Flights
    ; :holiday:
    Expenses:Flights      200 USD
    Assets:Checking account


".
Definition f_virtual_postings : str := U "2021-01-01 * Groceries 1
    Expenses:Groceries   $100
    (Budget:Food)        $-100
    Assets:Checking account

2021-01-02 * Groceries 2
    Budget:Food    $50
    Assets:Checking account

2021-01-03 * Groceries virtual balanced
    [Budget:Food]      $200
    [Bugget:Savings]  $-200
".
Definition f_tags : str := U "; File to test tags and tag related options
2021-01-01 * Fruit
    ; :shopping:
    Expenses:Groceries     15.03 EUR
    ; :healthy:
    Assets:Cash
".
Definition f_include : str := U "; this file just includes the other file
; and has more comments

2021-01-01 * Groceries
    Expenses:Groceries   $100
    Assets:Checking account

2021-01-03 * Clothing
    Expenses:Groceries   $69.37
    Assets:Checking account   $-69.37

2021-01-15 * Flights
    Expenses:Travel      200 EUR
    Assets:Checking account   $-210.12

include demo.ledger


2021-01-27 * ACME, inc.
    Income:Salary     $-100
    Assets:Checking account

include quotes/*.dat
".

Definition files (p : str) : option str :=
  if str_eqb p (L "demo.ledger") || str_eqb p (L "./demo.ledger") then Some f_demo
  else if str_eqb p (L "demo_bad.ledger") then Some f_demo_bad
  else if str_eqb p (L "automated.ledger") then Some f_automated
  else if str_eqb p (L "automated_fail.ledger") then Some f_automated_fail
  else if str_eqb p (L "virtual_postings.ledger") then Some f_virtual_postings
  else if str_eqb p (L "tags.ledger") then Some f_tags
  else None.
Definition w1 := toy_world files id_ord.
Definition w2 := toy_world files rev_ord.
Definition no_opts : opts :=
  {| o_real := false; o_begin := None; o_end := None; o_query := []; o_depth := None;
     o_exchange := None; o_no_balance_check := false |}.
Definition q (l : list str) : opts :=
  {| o_real := false; o_begin := None; o_end := None; o_query := l; o_depth := None;
     o_exchange := None; o_no_balance_check := false |}.
Definition count (w : world) (c : command) (o : opts) (f : str) : res nat :=
  ls <- run_cmd 5 w c o f ;; Ok (List.length ls).
Definition cerr (w : world) (c : command) (o : opts) (f : str) : Z := exit_status (run_cmd 5 w c o f).


(** test_commands.rs date_filters *)
Example conf_01 : count w1 (CBalance false false) (no_opts) (L "demo.ledger") = Ok 17.
Proof. vm_compute. reflexivity. Qed.
Example conf_02 : count w2 (CBalance false false) (no_opts) (L "demo.ledger") = Ok 17.
Proof. vm_compute. reflexivity. Qed.

(** date_filters, second *)
Example conf_03 : count w1 (CBalance false false) ({| o_real := false; o_begin := from_ymd 2021 1 15; o_end := from_ymd 2021 1 17; o_query := []; o_depth := None; o_exchange := None; o_no_balance_check := false |}) (L "demo.ledger") = Ok 12.
Proof. vm_compute. reflexivity. Qed.
Example conf_04 : count w2 (CBalance false false) ({| o_real := false; o_begin := from_ymd 2021 1 15; o_end := from_ymd 2021 1 17; o_query := []; o_depth := None; o_exchange := None; o_no_balance_check := false |}) (L "demo.ledger") = Ok 12.
Proof. vm_compute. reflexivity. Qed.

(** virtual_postings *)
Example conf_05 : count w1 (CRegister) (no_opts) (L "virtual_postings.ledger") = Ok 7.
Proof. vm_compute. reflexivity. Qed.
Example conf_06 : count w2 (CRegister) (no_opts) (L "virtual_postings.ledger") = Ok 7.
Proof. vm_compute. reflexivity. Qed.

(** real_filter *)
Example conf_07 : count w1 (CRegister) ({| o_real := true; o_begin := None; o_end := None; o_query := []; o_depth := None; o_exchange := None; o_no_balance_check := false |}) (L "virtual_postings.ledger") = Ok 4.
Proof. vm_compute. reflexivity. Qed.
Example conf_08 : count w2 (CRegister) ({| o_real := true; o_begin := None; o_end := None; o_query := []; o_depth := None; o_exchange := None; o_no_balance_check := false |}) (L "virtual_postings.ledger") = Ok 4.
Proof. vm_compute. reflexivity. Qed.

(** tag_filter *)
Example conf_09 : count w1 (CBalance true false) (q [L "%fruit"]) (L "demo.ledger") = Ok 4.
Proof. vm_compute. reflexivity. Qed.
Example conf_10 : count w2 (CBalance true false) (q [L "%fruit"]) (L "demo.ledger") = Ok 4.
Proof. vm_compute. reflexivity. Qed.

(** depth_tree *)
Example conf_11 : count w1 (CBalance false false) ({| o_real := false; o_begin := None; o_end := None; o_query := []; o_depth := Some 1; o_exchange := None; o_no_balance_check := false |}) (L "demo.ledger") = Ok 11.
Proof. vm_compute. reflexivity. Qed.
Example conf_12 : count w2 (CBalance false false) ({| o_real := false; o_begin := None; o_end := None; o_query := []; o_depth := Some 1; o_exchange := None; o_no_balance_check := false |}) (L "demo.ledger") = Ok 11.
Proof. vm_compute. reflexivity. Qed.

(** depth_tree, flat *)
Example conf_13 : count w1 (CBalance true false) ({| o_real := false; o_begin := None; o_end := None; o_query := []; o_depth := Some 1; o_exchange := None; o_no_balance_check := false |}) (L "demo.ledger") = Ok 11.
Proof. vm_compute. reflexivity. Qed.
Example conf_14 : count w2 (CBalance true false) ({| o_real := false; o_begin := None; o_end := None; o_query := []; o_depth := Some 1; o_exchange := None; o_no_balance_check := false |}) (L "demo.ledger") = Ok 11.
Proof. vm_compute. reflexivity. Qed.

(** account_filter *)
Example conf_15 : count w1 (CBalance true false) (q [L "travel"]) (L "demo.ledger") = Ok 1.
Proof. vm_compute. reflexivity. Qed.
Example conf_16 : count w2 (CBalance true false) (q [L "travel"]) (L "demo.ledger") = Ok 1.
Proof. vm_compute. reflexivity. Qed.

(** accounts_command *)
Example conf_17 : count w1 (CAccounts) (no_opts) (L "demo.ledger") = Ok 7.
Proof. vm_compute. reflexivity. Qed.
Example conf_18 : count w2 (CAccounts) (no_opts) (L "demo.ledger") = Ok 7.
Proof. vm_compute. reflexivity. Qed.

(** check_command *)
Example conf_19 : count w1 (CCheck) (no_opts) (L "demo.ledger") = Ok 1.
Proof. vm_compute. reflexivity. Qed.
Example conf_20 : count w2 (CCheck) (no_opts) (L "demo.ledger") = Ok 1.
Proof. vm_compute. reflexivity. Qed.

(** prices_command *)
Example conf_21 : count w1 (CPrices) (no_opts) (L "demo.ledger") = Ok 7.
Proof. vm_compute. reflexivity. Qed.
Example conf_22 : count w2 (CPrices) (no_opts) (L "demo.ledger") = Ok 7.
Proof. vm_compute. reflexivity. Qed.

(** payees_command *)
Example conf_23 : count w1 (CPayees) (no_opts) (L "demo.ledger") = Ok 5.
Proof. vm_compute. reflexivity. Qed.
Example conf_24 : count w2 (CPayees) (no_opts) (L "demo.ledger") = Ok 5.
Proof. vm_compute. reflexivity. Qed.

(** commodities_command *)
Example conf_25 : count w1 (CCommodities) (no_opts) (L "demo.ledger") = Ok 7.
Proof. vm_compute. reflexivity. Qed.
Example conf_26 : count w2 (CCommodities) (no_opts) (L "demo.ledger") = Ok 7.
Proof. vm_compute. reflexivity. Qed.

(** check_command_bad_file, automated_fail *)
Example conf_27 : cerr w1 CCheck no_opts (L "demo_bad.ledger") = 1%Z.
Proof. vm_compute. reflexivity. Qed.
Example conf_28 : cerr w2 CCheck no_opts (L "demo_bad.ledger") = 1%Z.
Proof. vm_compute. reflexivity. Qed.
Example conf_29 : cerr w1 CRegister no_opts (L "automated_fail.ledger") = 1%Z.
Proof. vm_compute. reflexivity. Qed.
Example conf_30 : cerr w2 CRegister no_opts (L "automated_fail.ledger") = 1%Z.
Proof. vm_compute. reflexivity. Qed.

(** automated_value_expression *)
Example conf_31 : count w1 (CRegister) (no_opts) (L "automated.ledger") = Ok 11.
Proof. vm_compute. reflexivity. Qed.
Example conf_32 : count w2 (CRegister) (no_opts) (L "automated.ledger") = Ok 11.
Proof. vm_compute. reflexivity. Qed.

(** automated_add_tag *)
Example conf_33 : count w1 (CRegister) (q [L "%yummy"]) (L "automated.ledger") = Ok 2.
Proof. vm_compute. reflexivity. Qed.
Example conf_34 : count w2 (CRegister) (q [L "%yummy"]) (L "automated.ledger") = Ok 2.
Proof. vm_compute. reflexivity. Qed.

(** test_expressions.rs *)
Example conf_35 : count w1 (CRegister) (q [L "expr"; L "date > to_date('2021/01/16')"]) (L "demo.ledger") = Ok 2.
Proof. vm_compute. reflexivity. Qed.
Example conf_36 : count w2 (CRegister) (q [L "expr"; L "date > to_date('2021/01/16')"]) (L "demo.ledger") = Ok 2.
Proof. vm_compute. reflexivity. Qed.

(** test_expressions.rs *)
Example conf_37 : count w1 (CRegister) (q [L "expr"; L "date >= to_date('2021/01/16')"]) (L "demo.ledger") = Ok 15.
Proof. vm_compute. reflexivity. Qed.
Example conf_38 : count w2 (CRegister) (q [L "expr"; L "date >= to_date('2021/01/16')"]) (L "demo.ledger") = Ok 15.
Proof. vm_compute. reflexivity. Qed.

(** test_expressions.rs *)
Example conf_39 : count w1 (CRegister) (q [L "expr"; L "date < to_date('2021/01/16')"]) (L "demo.ledger") = Ok 7.
Proof. vm_compute. reflexivity. Qed.
Example conf_40 : count w2 (CRegister) (q [L "expr"; L "date < to_date('2021/01/16')"]) (L "demo.ledger") = Ok 7.
Proof. vm_compute. reflexivity. Qed.

(** test_expressions.rs *)
Example conf_41 : count w1 (CRegister) (q [L "expr"; L "date <= to_date('2021/01/01')"]) (L "demo.ledger") = Ok 2.
Proof. vm_compute. reflexivity. Qed.
Example conf_42 : count w2 (CRegister) (q [L "expr"; L "date <= to_date('2021/01/01')"]) (L "demo.ledger") = Ok 2.
Proof. vm_compute. reflexivity. Qed.

(** test_expressions.rs *)
Example conf_43 : count w1 (CRegister) (q [L "expr"; L "date == to_date('2021/01/01')"]) (L "demo.ledger") = Ok 2.
Proof. vm_compute. reflexivity. Qed.
Example conf_44 : count w2 (CRegister) (q [L "expr"; L "date == to_date('2021/01/01')"]) (L "demo.ledger") = Ok 2.
Proof. vm_compute. reflexivity. Qed.

(** test_expressions.rs *)
Example conf_45 : count w1 (CRegister) (q [L "expr"; L "any(abs(amount) > 1000)"]) (L "demo.ledger") = Ok 3.
Proof. vm_compute. reflexivity. Qed.
Example conf_46 : count w2 (CRegister) (q [L "expr"; L "any(abs(amount) > 1000)"]) (L "demo.ledger") = Ok 3.
Proof. vm_compute. reflexivity. Qed.

(** test_expressions.rs *)
Example conf_47 : count w1 (CRegister) (q [L "expr"; L "any((500 + 500) < abs(amount))"]) (L "demo.ledger") = Ok 3.
Proof. vm_compute. reflexivity. Qed.
Example conf_48 : count w2 (CRegister) (q [L "expr"; L "any((500 + 500) < abs(amount))"]) (L "demo.ledger") = Ok 3.
Proof. vm_compute. reflexivity. Qed.

(** test_expressions.rs *)
Example conf_49 : count w1 (CRegister) (q [L "expr"; L "any(abs(amount) == (2 * 1))"]) (L "demo.ledger") = Ok 9.
Proof. vm_compute. reflexivity. Qed.
Example conf_50 : count w2 (CRegister) (q [L "expr"; L "any(abs(amount) == (2 * 1))"]) (L "demo.ledger") = Ok 9.
Proof. vm_compute. reflexivity. Qed.

(** test_expressions.rs *)
Example conf_51 : count w1 (CRegister) (q [L "expr"; L "any(abs(amount) == 100 $)"]) (L "demo.ledger") = Ok 4.
Proof. vm_compute. reflexivity. Qed.
Example conf_52 : count w2 (CRegister) (q [L "expr"; L "any(abs(amount) == 100 $)"]) (L "demo.ledger") = Ok 4.
Proof. vm_compute. reflexivity. Qed.

(** bad_comparison *)
Example conf_53 : run_cmd 5 w1 CRegister (q [L "expr"; L "(2 * (5 eur)) < ((3 usd) / 5))"]) (L "demo.ledger") = Panic PExplicit.
Proof. vm_compute. reflexivity. Qed.
Example conf_54 : run_cmd 5 w2 CRegister (q [L "expr"; L "(2 * (5 eur)) < ((3 usd) / 5))"]) (L "demo.ledger") = Panic PExplicit.
Proof. vm_compute. reflexivity. Qed.

(** test_tags.rs *)
Example conf_55 : count w1 (CRegister) (q [L "%healthy"]) (L "tags.ledger") = Ok 1.
Proof. vm_compute. reflexivity. Qed.
Example conf_56 : count w2 (CRegister) (q [L "%healthy"]) (L "tags.ledger") = Ok 1.
Proof. vm_compute. reflexivity. Qed.

(** test_tags.rs *)
Example conf_57 : count w1 (CRegister) (q [L "%shopping"]) (L "tags.ledger") = Ok 2.
Proof. vm_compute. reflexivity. Qed.
Example conf_58 : count w2 (CRegister) (q [L "%shopping"]) (L "tags.ledger") = Ok 2.
Proof. vm_compute. reflexivity. Qed.

(** test_balances.rs *)
Example conf_59 : exit_status (l <- tokenize_string 1 w1 (U "2021-01-15 * Flights
    Expenses:Travel            200 EUR
    Assets:Checking account   -200 EUR
2021-01-16 * More flights 1
    Expenses:Travel            300 EUR
    Assets:Checking account           = -500 EUR
2021-01-16 * More flights 2
    Expenses:Travel            300 EUR
    Assets:Checking account   -300 EUR = -800 EUR 
2021-01-16 * More flights 3
    Expenses:Travel            300 EUR
    Assets:Checking account           = -1100 EUR
") ;; to_ledger w1 false l) = 0%Z.
Proof. vm_compute. reflexivity. Qed.
Example conf_60 : exit_status (l <- tokenize_string 1 w2 (U "2021-01-15 * Flights
    Expenses:Travel            200 EUR
    Assets:Checking account   -200 EUR
2021-01-16 * More flights 1
    Expenses:Travel            300 EUR
    Assets:Checking account           = -500 EUR
2021-01-16 * More flights 2
    Expenses:Travel            300 EUR
    Assets:Checking account   -300 EUR = -800 EUR 
2021-01-16 * More flights 3
    Expenses:Travel            300 EUR
    Assets:Checking account           = -1100 EUR
") ;; to_ledger w2 false l) = 0%Z.
Proof. vm_compute. reflexivity. Qed.

(** test_account_names.rs *)
Example conf_61 : (l <- tokenize_string 1 w1 (U "2021-01-15 * Flights
    Expenses:Travel            200 EUR
    Assets:Checking account   -200 EUR
2021-01-16 * More flights
    Expenses:Travel            300 EUR
    Assets:Checking account 
") ;; g <- to_ledger w1 true l ;; Ok (l_len (pl_accounts l), l_len (lg_accounts g))) = Ok (0, 2).
Proof. vm_compute. reflexivity. Qed.
Example conf_62 : (l <- tokenize_string 1 w2 (U "2021-01-15 * Flights
    Expenses:Travel            200 EUR
    Assets:Checking account   -200 EUR
2021-01-16 * More flights
    Expenses:Travel            300 EUR
    Assets:Checking account 
") ;; g <- to_ledger w2 true l ;; Ok (l_len (pl_accounts l), l_len (lg_accounts g))) = Ok (0, 2).
Proof. vm_compute. reflexivity. Qed.
Example conf_63 : (l <- tokenize_string 1 w1 (U "2021-01-15 * Flights
    Expenses:Travel            200 EUR
    Assets:Checking account   -200 EUR
2021-01-16 * More flights
    Expenses:Travel            300 EUR
    Assets:Checking account  =-500 EUR
") ;; g <- to_ledger w1 true l ;; Ok (l_len (pl_accounts l), l_len (lg_accounts g))) = Ok (0, 2).
Proof. vm_compute. reflexivity. Qed.
Example conf_64 : (l <- tokenize_string 1 w2 (U "2021-01-15 * Flights
    Expenses:Travel            200 EUR
    Assets:Checking account   -200 EUR
2021-01-16 * More flights
    Expenses:Travel            300 EUR
    Assets:Checking account  =-500 EUR
") ;; g <- to_ledger w2 true l ;; Ok (l_len (pl_accounts l), l_len (lg_accounts g))) = Ok (0, 2).
Proof. vm_compute. reflexivity. Qed.
Example conf_65 : (l <- tokenize_string 1 w1 (U "2021-01-15 * Flights
    Expenses:Travel            200 EUR
    Assets:Checking account   -200 EUR
2021-01-16 * More flights
    Expenses:Travel            300 EUR
    Assets:Checking account   -300 EUR
") ;; g <- to_ledger w1 true l ;; Ok (l_len (pl_accounts l), l_len (lg_accounts g))) = Ok (0, 2).
Proof. vm_compute. reflexivity. Qed.
Example conf_66 : (l <- tokenize_string 1 w2 (U "2021-01-15 * Flights
    Expenses:Travel            200 EUR
    Assets:Checking account   -200 EUR
2021-01-16 * More flights
    Expenses:Travel            300 EUR
    Assets:Checking account   -300 EUR
") ;; g <- to_ledger w2 true l ;; Ok (l_len (pl_accounts l), l_len (lg_accounts g))) = Ok (0, 2).
Proof. vm_compute. reflexivity. Qed.
Example conf_67 : (l <- tokenize_string 1 w1 (U "2021-01-15 * Flights
    Expenses:Travel            200 EUR
    Assets:Checking account   -200 EUR
2021-01-16 * More flights
    Expenses:Travel            300 EUR
    Assets:Checking account   -300 EUR = -500 EUR
") ;; g <- to_ledger w1 true l ;; Ok (l_len (pl_accounts l), l_len (lg_accounts g))) = Ok (0, 2).
Proof. vm_compute. reflexivity. Qed.
Example conf_68 : (l <- tokenize_string 1 w2 (U "2021-01-15 * Flights
    Expenses:Travel            200 EUR
    Assets:Checking account   -200 EUR
2021-01-16 * More flights
    Expenses:Travel            300 EUR
    Assets:Checking account   -300 EUR = -500 EUR
") ;; g <- to_ledger w2 true l ;; Ok (l_len (pl_accounts l), l_len (lg_accounts g))) = Ok (0, 2).
Proof. vm_compute. reflexivity. Qed.

(** test_failures.rs not_money *)
Example conf_69 : (l <- tokenize_string 1 w1 (U "
= travel
    (failure)     (account)
2021-01-15 * Flights
    Expenses:Travel      200 EUR
    Assets:Checking account   -200 EUR
") ;; g <- to_ledger w1 false l ;; Ok tt) = Panic PExplicit.
Proof. vm_compute. reflexivity. Qed.
Example conf_70 : (l <- tokenize_string 1 w2 (U "
= travel
    (failure)     (account)
2021-01-15 * Flights
    Expenses:Travel      200 EUR
    Assets:Checking account   -200 EUR
") ;; g <- to_ledger w2 false l ;; Ok tt) = Panic PExplicit.
Proof. vm_compute. reflexivity. Qed.

(** test_exchange.rs *)
Example conf_71 : (l <- tokenize_string 1 w1 (U "2020-01-01 * ACME, Inc.
    Assets:Shares        1 ACME @ 1000.00 USD
    Assets:Bank:Checking account
2021-01-01 * ACME, Inc.
    Assets:Shares        1 ACME @ 1000.00 EUR
    Assets:Bank:Checking account

P 2020-07-01 EUR 1.5 USD

; I have 2 ACME Shares
") ;; g <- to_ledger w1 false l ;; m <- conversion w1 100 (L "ACME") (w_now w1) (lg_prices g) ;; Ok (option_map (fun x : Qc => Qred (this x)) (hget str_eqb (L "EUR") m), option_map (fun x : Qc => Qred (this x)) (hget str_eqb (L "USD") m))) = Ok (Some (1 # 1000)%Q, Some (1 # 1500)%Q).
Proof. vm_compute. reflexivity. Qed.
Example conf_72 : (l <- tokenize_string 1 w2 (U "2020-01-01 * ACME, Inc.
    Assets:Shares        1 ACME @ 1000.00 USD
    Assets:Bank:Checking account
2021-01-01 * ACME, Inc.
    Assets:Shares        1 ACME @ 1000.00 EUR
    Assets:Bank:Checking account

P 2020-07-01 EUR 1.5 USD

; I have 2 ACME Shares
") ;; g <- to_ledger w2 false l ;; m <- conversion w2 100 (L "ACME") (w_now w2) (lg_prices g) ;; Ok (option_map (fun x : Qc => Qred (this x)) (hget str_eqb (L "EUR") m), option_map (fun x : Qc => Qred (this x)) (hget str_eqb (L "USD") m))) = Ok (Some (1 # 1000)%Q, Some (1 # 1500)%Q).
Proof. vm_compute. reflexivity. Qed.
