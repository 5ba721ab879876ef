(** Model of what is printed when a journal is refused: models/mod.rs:180-186 and 314-320, transaction.rs:306-318
    and 468-488, balance.rs:70-76, error.rs:12-18 and 51-57, commands/check.rs.  Colours are left out. *)
From Verif Require Import Base Numerals Money Alist Comment Txn Peg Grammar Dates Expr Filter Tokens Price Ledger Reports App.

(** transaction.rs:472-485: one posting. *)
Definition posting_text (p : posting) : res str :=
  let name := [c_nl; c_tab] ++ pad_right 50 (p_account p) in
  match p_amount p with
  | Some m => x <- show m ;; Ok (name ++ x)
  | None => Ok name
  end.
(** transaction.rs:468-488 *)
Definition txn_text (t : txn posting) : res str :=
  d <- unwrap (t_date t) ;;
  ls <- mapM posting_text (t_postings t) ;;
  Ok (date_text d ++ [c_sp] ++ t_desc t ++ concat ls).
(** balance.rs:70-76; [b] in iteration order. *)
Definition balance_text (b : balance) : res str :=
  xs <- mapM (fun e => show (snd e)) b ;; Ok (concat xs).
(** error.rs:12-18, the derived [Debug]; [quoted] is the [Debug] of strings (std). *)
Definition ledger_error_debug (quoted : str -> str) (e : ledger_error) : str :=
  match e with
  | TransactionIsNotBalanced => L "TransactionIsNotBalanced"
  | EmptyPostingShouldBeLast => L "EmptyPostingShouldBeLast"
  | AliasNotInList s => L "AliasNotInList(" ++ quoted s ++ L ")"
  | TooManyEmptyPostings n => L "TooManyEmptyPostings(" ++ N_digits (N.of_nat n) ++ L ")"
  end.

(** transaction.rs:306-318: the lines for the posting [p] whose assertion fails in the state [s]; nothing for an
    assignment that fails (transaction.rs:378).  [ord1] and [ord2] are the iteration orders of the two balances. *)
Definition assertion_text (ord1 ord2 : balance -> balance) (s : bstate) (p : posting) : res (list str) :=
  match p_amount p, p_balance p with
  | Some m, Some b =>
      old <- unwrap (hget str_eqb (p_account p) (bs_bals s)) ;;
      let expected := bal_add old (bal_of m) in
      x <- show b ;; y <- balance_text (ord1 expected) ;; z <- balance_text (ord2 (bal_sub expected (bal_of b))) ;;
      Ok [L "Found:       " ++ x; L "Expected:    " ++ y; L "Difference:  " ++ z]
  | _, _ => Ok []
  end.
(** transaction.rs:300-400: what the loop over the postings prints. *)
Fixpoint assertion_lines (ord1 ord2 : balance -> balance) (skip : bool) (s : bstate) (ps : list posting) : res (list str) :=
  match ps with
  | [] => Ok []
  | p :: r =>
      match bal_step skip s p with
      | Ok s' => assertion_lines ord1 ord2 skip s' r
      | Err _ => assertion_text ord1 ord2 s p
      | Panic e => Panic e
      end
  end.
(** transaction.rs:281-400: what [balance] prints. *)
Definition balance_stderr (ord1 ord2 : balance -> balance) (skip : bool) (t : txn posting) (bals : balances) : res (list str) :=
  vb <- total_balance (t_postings t) VirtualMustBalance ;;
  if negb (can_be_zero vb) then Ok [] else
  assertion_lines ord1 ord2 skip
    {| bs_bals := bals; bs_tb := bal_new; bs_out := []; bs_fill := (L "this will never be used", None) |} (t_postings t).

(** models/mod.rs:177-198 and 311-332: what is printed for the first transaction that is refused; the hash
    traversals are numbered as in [balance_all]. *)
Fixpoint refusal_lines (quoted : str -> str) (w : world) (site : nat) (skip : bool) (ts : list (txn posting)) (bals : balances)
  : res (list str) :=
  match ts with
  | [] => Ok []
  | t :: r =>
      match txn_balance (w_ord w site _) skip t bals with
      | Ok (_, _, bals') => refusal_lines quoted w (S (S site)) skip r bals'
      | Err (ELedger e) =>
          a <- balance_stderr (w_ord w site _) (w_ord w (S site) _) skip t bals ;;
          x <- txn_text t ;;
          Ok (a ++ [x; ledger_error_debug quoted e])
      | Err e => Err e
      | Panic e => Panic e
      end
  end.

(** models/mod.rs:57-341: what [to_ledger] prints on the standard error when it balances the transactions; the
    steps before are those of [to_ledger]. *)
Definition ledger_stderr (quoted : str -> str) (w : world) (skip : bool) (l : pledger) : res (list str) :=
  cs <- foldM (ensure_cur w) (pl_commodities l) (w_ord w 0 _ (commodity_names l)) ;;
  al <- foldM (ensure_acc w) (pl_accounts l) (w_ord w 1 _ (account_names l)) ;;
  pays <- foldM (payee_step w (w_ord w 3 _ (l_values (pl_payees l)))) (pl_payees l)
                (w_ord w 2 _ (payee_names l)) ;;
  prices1 <- mapM (price_of w cs) (pl_prices l) ;;
  raw <- mapM (txn_of_raw w (w_ord w 4 _ (l_values al)) al pays cs) (pl_txns l) ;;
  let ts := sort_txns (flat_map (fun x => fst (fst x)) raw) in
  let autos := flat_map (fun x => snd (fst x)) raw in
  let prices2 := prices1 ++ flat_map snd raw in
  match balance_all w 8 skip ts (fresh_balances al) prices2 with
  | Err _ => refusal_lines quoted w 8 skip ts (fresh_balances al)
  | Panic e => Panic e
  | Ok (ts1, _, prices3) =>
      match autos with
      | [] => Ok []
      | _ :: _ =>
          nodes <- mapM (fun a => build_root w (get_filter_query a)) autos ;;
          '(ts2, s) <- auto_all w (combine nodes autos) ts1
                                {| as_accs := al; as_curs := cs; as_pays := pays |} ;;
          match balance_all w (8 + 2 * length ts) skip ts2 (fresh_balances (as_accs s)) prices3 with
          | Err _ => refusal_lines quoted w (8 + 2 * length ts) skip ts2 (fresh_balances (as_accs s))
          | Panic e => Panic e
          | Ok _ => Ok []
          end
      end
  end.

(** commands/check.rs:8-27: what check prints on the standard output. *)
Definition check_stdout (depth : nat) (w : world) (file : str) : list str :=
  match tokenize_file depth w file with
  | Ok items =>
      match to_ledger w false items with
      | Ok _ => [L "Input file " ++ file ++ L " is OK"]
      | Err _ => [L "Input file " ++ file ++ L " is KO"]
      | Panic _ => []
      end
  | _ => []
  end.
