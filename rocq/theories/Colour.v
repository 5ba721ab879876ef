(** Model of the colours of what the commands print (the [Colorize] methods in commands/).  A line is a list
    of pieces, each with its style.  The escape sequences that stand for a style, and when the library
    leaves them out (not a terminal, NO_COLOR), are not modelled; the width of a field applies to the
    coloured piece, blanks included. *)
From Verif Require Import Base Numerals Money Alist Comment Txn Dates Expr Filter Price Tokens Ledger Reports App.

(** [colored::Colorize]: commands/balance.rs:180, 189, 227, 253; register.rs:80-121; check.rs:14-22. *)
Inductive style := SPlain | SRed | SBlue | SBold | SGreenBold | SRedBold.
(** commands/balance.rs:174-260, register.rs:58-122: one piece of a line. *)
Definition piece : Type := style * str.
(** commands/balance.rs:174-260, register.rs:58-122: a line. *)
Definition cline := list piece.
(** The characters without the colours. *)
Definition uncoloured (l : cline) : str := flat_map snd l.

(** commands/balance.rs:179-182 and 252-255: a field of 20 columns. *)
Definition money_piece (m : money) : res piece :=
  t <- show m ;; Ok (if m_is_negative m then SRed else SPlain, pad_left 20 t).
(** commands/balance.rs:188-196, 227: indentation and account. *)
Definition row_tail (r : brow) : cline :=
  [(SPlain, match br_indent r with
            | O => [c_sp; c_sp]
            | n => flat_map (fun _ => [c_sp; c_sp]) (seq 0 n)
            end); (SBlue, br_label r)].
(** commands/balance.rs:172-190, 227: the lines of a row. *)
Definition row_clines (r : brow) : res (list cline) :=
  ms <- mapM money_piece (br_moneys r) ;;
  match rev (map (fun x : piece => [x]) (match ms with [] => [(SPlain, pad_left 20 (L "0")) : piece] | _ => ms end)) with
  | [] => Ok []
  | x :: r' => Ok (rev r' ++ [x ++ row_tail r])
  end.
(** commands/balance.rs:232-259.  A total of zero is one uncoloured "0": [MZero] in the model's report. *)
Definition total_piece (m : money) : res piece :=
  match m with MZero => Ok (SPlain, pad_left 20 (L "0")) | _ => money_piece m end.
(** commands/balance.rs:160-260 *)
Definition report_clines (r : breport) : res (list cline) :=
  ls <- mapM row_clines (bp_rows r) ;;
  t <- match bp_total r with
       | None => Ok []
       | Some ms => x <- mapM total_piece ms ;; Ok ([(SPlain, L "--------------------")] :: map (fun p : piece => [p]) x)
       end ;;
  Ok (concat ls ++ t).

(** commands/register.rs:118-121 *)
Definition running_piece (n : nat) (m : money) : res piece :=
  t <- show m ;; Ok (if m_is_positive m then SPlain else SRed, pad_left n t).
(** commands/register.rs:58-122 *)
Definition rrow_clines (w : world) (r : rrow) : res (list cline) :=
  let (w_account, w_amount) := register_widths w in
  let head := match rr_head r with
              | Some (d, p) => pad_right 11 (date_text d) ++ pad_right 42 (clip (p ++ [c_sp]) 42)
              | None => pad_right 53 []
              end in
  a <- show (rr_amount r) ;;
  ts <- mapM (running_piece w_amount) (rr_total r) ;;
  let left := [(SPlain, head); (SBlue, pad_right w_account (rr_account r));
               (if m_is_negative (rr_amount r) then SRed else SPlain, pad_left w_amount a)] in
  match ts with
  | [] => Ok [left]
  | x :: xs => Ok ((left ++ [x]) :: map (fun y : piece => [(SPlain, repeat c_sp (11 + 42 + w_account + w_amount)); y]) xs)
  end.
(** commands/register.rs:52-124 *)
Definition register_clines (w : world) (rs : list rrow) : res (list cline) := ls <- mapM (rrow_clines w) rs ;; Ok (concat ls).

(** commands/check.rs:13-24 *)
Definition check_cline (file : str) (ok : bool) : cline :=
  [(SPlain, L "Input file "); (SBold, file); (SPlain, L " is "); if ok then (SGreenBold, L "OK") else (SRedBold, L "KO")].
(** commands/check.rs:8-27: what check prints on the standard output, accepted or refused. *)
Definition check_clines (depth : nat) (w : world) (file : str) : list cline :=
  match tokenize_file depth w file with
  | Ok items => match to_ledger w false items with
                | Ok _ => [check_cline file true]
                | Err _ => [check_cline file false]
                | Panic _ => []
                end
  | _ => []
  end.
(** commands/accounts.rs, payees.rs, commodities.rs, prices.rs: no colours. *)
Definition plain_lines (ls : list str) : list cline := map (fun s => [(SPlain, s)]) ls.

(** app.rs:183-231 *)
Definition run_coloured (depth : nat) (w : world) (c : command) (o : opts) (file : str) : res (list cline) :=
  items <- tokenize_file depth w file ;;
  match c with
  | CCheck => _ <- to_ledger w false items ;; Ok [check_cline file true]
  | _ =>
      l <- to_ledger w (o_no_balance_check o) items ;;
      let site := report_site l in
      match c with
      | CBalance flat no_total => r <- balance_report w site o flat (negb no_total) l ;; report_clines r
      | CRegister => r <- register_report w site o l ;; register_clines w r
      | CAccounts => Ok (plain_lines (accounts_report w site l))
      | CPayees => Ok (plain_lines (payees_report w site l))
      | CCommodities => Ok (plain_lines (commodities_report w site l))
      | _ => ls <- prices_report l ;; Ok (plain_lines ls)
      end
  end.
