(** Model of src/commands/*.rs. *)
From Verif Require Import Base Numerals Money Alist Comment Txn Dates Expr Filter Tokens Price Ledger.

(** Reports are modelled as rows of data and then as lines of text without colour codes. *)

(** currency.rs:59-64: Precision: nothing in the program calls [set_precision], so every commodity
    prints with the
    default of currency.rs:59-64. *)
Definition default_prec (c : str) : nat := cu_get_precision (currency_from c).
(** money.rs:98-139 with the precision of currency.rs:59-64. *)
Definition show (m : money) : res str := m_display default_prec m.

(** [{:>n}] and [{:n}] *)
(** commands/balance.rs:176-228 and register.rs:58-122, format strings. *)
Definition pad_left (n : nat) (s : str) : str := repeat c_sp (n - length s) ++ s.
(** register.rs:58-122, format strings. *)
Definition pad_right (n : nat) (s : str) : str := s ++ repeat c_sp (n - length s).

(** commands/balance.rs:64, 163: [str::split(":").count()] and [.last()] *)
Definition parts (s : str) : list str := split_char c_colon s.
(** commands/balance.rs:163, 192 *)
Definition nparts (s : str) : nat := length (parts s).
(** commands/balance.rs:197, 220 *)
Definition leaf (s : str) : str := last (parts s) [].

(** ** commands/balance.rs *)

(** commands/balance.rs:40-52: postings that pass the filter, added up by account. *)
Definition add_posting (bals : balances) (p : posting) : res balances :=
  m <- unwrap (p_amount p) ;;
  let old := match hget str_eqb (p_account p) bals with Some b => b | None => bal_new end in
  Ok (hset str_eqb (p_account p) (bal_add old (bal_of m)) bals).
(** The loop over transactions and postings shared by both reports: the postings selected, in
    order, with their transactions; evaluating the query may register commodities.  In the code the
    filtering and the use of each posting are interleaved; a panic in the use of a posting is
    therefore reported here after one in a later filter. *)
(** filter.rs:9-43 called from commands/balance.rs:40-52 and register.rs:54-57. *)
Fixpoint select_postings (w : world) (o : opts) (n : option node) (t : txn posting) (ps : list posting)
         (cs : alist currency) : res (list posting * alist currency) :=
  match ps with
  | [] => Ok ([], cs)
  | p :: r =>
      '(b, cs1) <- filter_posting w o n t p cs ;;
      '(l, cs2) <- select_postings w o n t r cs1 ;;
      Ok (if (b : bool) then p :: l else l, cs2)
  end.
(** commands/balance.rs:40-44, register.rs:52-57 *)
Fixpoint select_txns (w : world) (o : opts) (n : option node) (ts : list (txn posting))
         (cs : alist currency) : res (list (txn posting * list posting) * alist currency) :=
  match ts with
  | [] => Ok ([], cs)
  | t :: r =>
      '(ps, cs1) <- select_postings w o n t (t_postings t) cs ;;
      '(l, cs2) <- select_txns w o n r cs1 ;;
      Ok ((t, ps) :: l, cs2)
  end.
(** commands/balance.rs:40-52 *)
Definition account_balances (sel : list (txn posting * list posting)) : res balances :=
  foldM add_posting [] (flat_map snd sel).

(** commands/balance.rs:63-71: all the prefixes of a name, shortest first. *)
Fixpoint prefixes_from (pre : str) (l : list str) : list str :=
  match l with
  | [] => []
  | x :: r =>
      let p := match pre with [] => x | _ => pre ++ [c_colon] ++ x end in
      p :: prefixes_from p r
  end.
(** commands/balance.rs:62-70 *)
Definition prefixes (name : str) : list str := prefixes_from [] (parts name).

(** commands/balance.rs:84, 235-237 *)
Definition sum_balances (l : list balance) : balance := fold_left bal_add l bal_new.

(** commands/balance.rs:78-86 *)
Definition under (acc name : str) : bool := str_eqb name acc || starts_with (acc ++ [c_colon]) name.
(** commands/balance.rs:78-86 *)
Fixpoint roll_up (w : world) (site : nat) (accs : list str) (nb : balances) : balances :=
  match accs with
  | [] => nb
  | a :: r =>
      let b := sum_balances (map snd (filter (fun x => under a (fst x)) (w_ord w site _ nb))) in
      roll_up w (S site) r (hset str_eqb a b nb)
  end.
(** commands/balance.rs:89, 97, 129 *)
Definition nonzero (l : balances) : balances := filter (fun x => negb (bal_is_zero (snd x))) l.

(** Hash traversals of a report start here, away from those of [to_ledger]. *)
(** commands/balance.rs:76 *)
Definition count_colons (s : str) : nat := length (filter (N.eqb c_colon) s).
(** commands/balance.rs:61-91 *)
Definition tree_balances (w : world) (site : nat) (bals : balances) : balances :=
  let b0 := w_ord w site _ bals in
  let accs := fold_left (fun s x => fold_left (fun s p => sadd str_eqb p s) (prefixes (fst x)) s) b0 [] in
  let sorted := stable_sort (fun a b => Nat.leb (count_colons a) (count_colons b)) (w_ord w (S site) _ accs) in
  let nb := fold_left (fun m x => hset str_eqb (fst x) (snd x) m) b0 [] in
  nonzero (w_ord w (S (S site)) _ (roll_up w (3 + site) sorted nb)).

(** commands/balance.rs:92-134 *)
Definition name_le (a b : str * balance) : bool := str_leb (fst a) (fst b).
(** commands/balance.rs:113-124 *)
Fixpoint merge_runs (l : balances) (account : str) (acc : balances) : res balances :=
  match l with
  | [] => Ok acc
  | (a, v) :: r =>
      if str_eqb a account then
        match rev acc with
        | [] => Panic PIndex
        | (_, b) :: acc' => merge_runs r a (rev acc' ++ [(a, bal_add b v)])
        end
      else merge_runs r a (acc ++ [(a, v)])
  end.
(** commands/balance.rs:100-107 *)
Definition truncate_name (depth : nat) (name : str) : str := join [c_colon] (firstn depth (parts name)).
(** commands/balance.rs:92-134 *)
Definition flat_balances (w : world) (site : nat) (depth : option nat) (bals : balances) : res balances :=
  let b0 := nonzero (w_ord w site _ bals) in
  match depth with
  | None => Ok b0
  | Some d => merge_runs (stable_sort name_le (map (fun x => (truncate_name d (fst x), snd x)) b0)) [] []
  end.

(** commands/balance.rs:266-285; [b] in iteration order.  The key is unwrapped. *)
Definition convert_balance (b : balance) (mults : list (str * Qc)) (cur : str) : res balance :=
  foldM (fun acc e =>
           c <- unwrap (fst e) ;;
           match hget str_eqb c mults with
           | Some m => Ok (bal_add acc (bal_of (M (m_amount (snd e) * m)%Qc cur)))
           | None => Ok (bal_add acc (bal_of (snd e)))
           end) bal_new b.

(** One printed line group: the amounts, the indentation (number of name parts; 0 if flat) and the
    label. *)
(** commands/balance.rs:160-230 *)
Record brow := { br_moneys : list money; br_indent : nat; br_label : str }.

(** commands/balance.rs:198-226: collapse chains of only children.  [rest] are the entries after the
    current
    one; returns the label and the entries left. *)
(** commands/balance.rs:207-217 *)
Fixpoint sibling_ahead (account : str) (n : nat) (l : balances) : bool :=
  match l with
  | [] => false
  | (name, _) :: r =>
      if negb (starts_with account name) then false
      else if Nat.eqb (nparts name) (n + 1) then true else sibling_ahead account n r
  end.
(** commands/balance.rs:198-226 *)
Fixpoint collapse (account : str) (n : nat) (text : str) (rest : balances) : str * balances :=
  match rest with
  | [] => (text, rest)
  | (name, _) :: r =>
      if negb (Nat.eqb (nparts name) (n + 1)) then (text, rest)
      else if sibling_ahead account n r then (text, rest)
      else collapse account (n + 1) (text ++ [c_colon] ++ leaf name) r
  end.

(** commands/balance.rs:160-230; [fuel] is the number of entries.  [site] orders the amounts of a
    row. *)
Fixpoint print_rows (fuel : nat) (w : world) (site : nat) (flat : bool) (depth : option nat) (l : balances)
  : list brow :=
  match fuel, l with
  | O, _ | _, [] => []
  | S f, (account, bal) :: rest =>
      if match depth with Some d => Nat.ltb d (nparts account) | None => false end
      then print_rows f w (S site) flat depth rest
      else if bal_is_zero bal then print_rows f w (S site) flat depth rest
      else
        let ms := map snd (w_ord w site _ bal) in
        if flat then {| br_moneys := ms; br_indent := 0; br_label := account |}
                     :: print_rows f w (S site) flat depth rest
        else
          let (text, rest') := collapse account (nparts account) (leaf account) rest in
          {| br_moneys := ms; br_indent := nparts account; br_label := text |}
          :: print_rows f w (S site) flat depth rest'
  end.

(** commands/balance.rs:160-260 *)
Record breport := { bp_rows : list brow; bp_total : option (list money) }.

(** commands/balance.rs:17-264.  [site0] is where the hash traversals of the report start. *)
Definition balance_report (w : world) (site0 : nat) (o : opts) (flat show_total : bool) (l : ledger)
  : res breport :=
  n <- query_node w o ;;
  '(sel, cs) <- select_txns w o n (lg_txns l) (lg_commodities l) ;;
  bals <- account_balances sel ;;
  vb <- (if flat then flat_balances w site0 (o_depth o) bals else Ok (tree_balances w site0 bals)) ;;
  '(mults, vb1) <-
     match o_exchange o with
     | None => Ok ([], vb)
     | Some x =>
         match l_get w x cs with
         | Ok c =>
             mults <- conversion w (100 + site0) (cu_name c) (w_now w) (lg_prices l) ;;
             vb1 <- mapM (fun e => b <- convert_balance (w_ord w (103 + site0) _ (snd e)) mults (cu_name c) ;;
                                   Ok (fst e, b)) vb ;;
             Ok (mults, vb1)
         | Err _ => Ok ([], vb)
         | Panic e => Panic e
         end
     end ;;
  let sorted := stable_sort name_le vb1 in
  let rows := print_rows (length sorted) w (1000 + site0) flat (o_depth o) sorted in
  if show_total && Nat.ltb 1 (length rows) then
    let total := sum_balances (map snd (w_ord w (104 + site0) _ bals)) in
    total' <- match mults with
              | [] => Ok total
              | _ => x <- unwrap (o_exchange o) ;; c <- get_unwrap w x cs ;;
                     convert_balance (w_ord w (105 + site0) _ total) mults (cu_name c)
              end ;;
    Ok {| bp_rows := rows;
          bp_total := Some (if bal_is_zero total' then [MZero] else map snd (w_ord w (106 + site0) _ total')) |}
  else Ok {| bp_rows := rows; bp_total := None |}.

(** The printed text of a row: commands/balance.rs:174-228. *)
Definition row_lines (r : brow) : res (list str) :=
  ms <- mapM show (br_moneys r) ;;
  let tail := match br_indent r with
              | O => [c_sp; c_sp] ++ br_label r
              | n => flat_map (fun _ => [c_sp; c_sp]) (seq 0 n) ++ br_label r
              end in
  match rev (map (pad_left 20) (match ms with [] => [L "0"] | _ => ms end)) with
  | [] => Ok []
  | x :: r' => Ok (rev r' ++ [x ++ tail])
  end.
(** commands/balance.rs:160-260 *)
Definition report_lines (r : breport) : res (list str) :=
  ls <- mapM row_lines (bp_rows r) ;;
  t <- match bp_total r with
       | None => Ok []
       | Some ms => x <- mapM show ms ;; Ok (L "--------------------" :: map (pad_left 20) x)
       end ;;
  Ok (concat ls ++ t).

(** ** commands/register.rs *)

(** commands/register.rs:130-144; [string.len()] counts bytes. *)
Definition clip (s : str) (width : nat) : str :=
  if Nat.ltb (utf8_len s) (width - 3) then s else firstn (width - 3) s ++ L "..".

(** transaction.rs:88-103 *)
Definition get_payee (w : world) (desc : str) (pays : alist payee) : res (str * alist payee) :=
  match l_get w desc pays with
  | Ok p => Ok (py_name p, pays)
  | Panic e => Panic e
  | Err _ =>
      let pays' := pay_insert w {| py_name := desc; py_aliases := []; py_regexes := []; py_note := None;
                                   py_directive := false |} pays in
      match l_get w desc pays' with
      | Ok p => Ok (py_name p, pays')
      | Panic e => Panic e
      | Err _ => Panic OutOfFuel     (* the function calls itself again, for ever *)
      end
  end.

(** One row: heading (date and payee) on the first selected posting of a transaction; account;
    amount; running total. *)
(** register.rs:53-123 *)
Record rrow := { rr_head : option (Z * str); rr_account : str; rr_amount : money; rr_total : list money }.

(** register.rs:78-94 *)
Definition account_label (p : posting) : str :=
  match p_kind p with
  | Real => p_account p
  | Virtual => [c_lp] ++ p_account p ++ [c_rp]
  | VirtualMustBalance => [c_lb] ++ p_account p ++ [c_rb]
  end.

(** commands/register.rs:74-77 *)
Definition running_add (b : balance) (m : money) : balance :=
  let b' := bal_add b (bal_of m) in
  if bal_is_zero b' then bal_of MZero else b'.

(** commands/register.rs:53-123, the postings of one transaction. *)
Fixpoint register_postings (w : world) (site : nat) (t : txn posting) (first : bool) (ps : list posting)
         (b : balance) (pays : alist payee) : res (list rrow * balance * alist payee) :=
  match ps with
  | [] => Ok ([], b, pays)
  | p :: r =>
      '(head, pays1) <-
        (if first then d <- unwrap (t_date t) ;; '(n, pays1) <- get_payee w (t_desc t) pays ;;
                       Ok (Some (d, n), pays1)
         else Ok (None, pays)) ;;
      m <- unwrap (p_amount p) ;;
      let b1 := running_add b m in
      '(rows, b2, pays2) <- register_postings w (S site) t false r b1 pays1 ;;
      Ok ({| rr_head := head; rr_account := account_label p; rr_amount := m;
             rr_total := map snd (w_ord w site _ b1) |} :: rows, b2, pays2)
  end.
(** register.rs:52-124 *)
Fixpoint register_txns (w : world) (site : nat) (sel : list (txn posting * list posting)) (b : balance)
         (pays : alist payee) : res (list rrow) :=
  match sel with
  | [] => Ok []
  | (t, ps) :: r =>
      '(rows, b1, pays1) <- register_postings w site t true ps b pays ;;
      rows' <- register_txns w (site + length ps) r b1 pays1 ;;
      Ok (rows ++ rows')
  end.
(** commands/register.rs:12-128 *)
Definition register_report (w : world) (site0 : nat) (o : opts) (l : ledger) : res (list rrow) :=
  n <- query_node w o ;;
  '(sel, _) <- select_txns w o n (lg_txns l) (lg_commodities l) ;;
  register_txns w site0 sel bal_new (lg_payees l).

(** Widths of the columns of the account and of the amounts, commands/register.rs:25-40: 80 columns
    when the terminal is unknown. *)
Definition register_widths (w : world) : nat * nat :=
  let width := match w_width w with Some n => n | None => 80%nat end in
  if Nat.leb width (11 + 42 + 21 + 21) then (34, 17)%nat else ((width - 11 - 42 - 21 - 21)%nat, 21%nat).

(** The printed text: commands/register.rs:58-122. *)
Definition rrow_lines (w : world) (r : rrow) : res (list str) :=
  let (w_account, w_amount) := register_widths w in
  let head := match rr_head r with
              | Some (d, p) => pad_right 11 (date_text d) ++ pad_right 42 (clip (p ++ [c_sp]) 42)
              | None => pad_right 53 []
              end in
  a <- show (rr_amount r) ;;
  ts <- mapM show (rr_total r) ;;
  let left := head ++ pad_right w_account (rr_account r) ++ pad_left w_amount a in
  match ts with
  | [] => Ok [left]
  | x :: xs => Ok ((left ++ pad_left w_amount x)
                   :: map (fun y => repeat c_sp (11 + 42 + w_account + w_amount) ++ pad_left w_amount y) xs)
  end.
(** register.rs:58-122 *)
Definition register_lines (w : world) (rs : list rrow) : res (list str) := ls <- mapM (rrow_lines w) rs ;; Ok (concat ls).

(** ** The lists: commands/accounts.rs, payees.rs, commodities.rs (sorted by name), prices.rs *)
(** commands/accounts.rs:17, payees.rs:7-21, commodities.rs:7-21 *)
Definition sorted_names (l : list str) : list str := stable_sort str_leb l.
(** commands/accounts.rs:8-22 *)
Definition accounts_report (w : world) (site : nat) (l : ledger) : list str :=
  sorted_names (w_ord w site _ (map ac_name (l_values (lg_accounts l)))).
(** commands/payees.rs:7-21 *)
Definition payees_report (w : world) (site : nat) (l : ledger) : list str :=
  sorted_names (w_ord w site _ (map py_name (l_values (lg_payees l)))).
(** commands/commodities.rs:7-21 *)
Definition commodities_report (w : world) (site : nat) (l : ledger) : list str :=
  sorted_names (w_ord w site _ (map cu_name (l_values (lg_commodities l)))).
(** price.rs:32-36, prices.rs:7-16 *)
Definition price_line (p : price) : res str :=
  m <- show (M (pr_amount p) (pr_cur p)) ;;
  Ok (date_text (pr_date p) ++ [c_sp] ++ pr_com p ++ [c_sp] ++ m).
(** commands/prices.rs:7-16 *)
Definition prices_report (l : ledger) : res (list str) := mapM price_line (lg_prices l).
