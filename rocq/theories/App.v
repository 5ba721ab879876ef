(** Model of src/app.rs and src/main.rs: configuration file, commands and exit status. *)
From Verif Require Import Base Numerals Money Alist Comment Txn Dates Expr Filter Tokens Price Ledger Reports.

(** ** The configuration file, app.rs:123-178 *)

(** app.rs:126-133: [--init-file] followed by the path; [home] is the expansion of ~/.ledgerrc. *)
Fixpoint init_file_arg (args : list str) : res (list str) :=
  match args with
  | [] => Ok []
  | a :: r => if str_eqb a (L "--init-file") then
                match r with x :: _ => Ok [x] | [] => Panic PIndex end
              else init_file_arg r
  end.
(** app.rs:126-141 *)
Definition config_path (w : world) (home : str) (args : list str) : res (option str) :=
  p <- init_file_arg args ;;
  Ok (find (fun f => match w_read w f with Some _ => true | None => false end)
           (p ++ [home; L ".ledgerrc"])).

(** [str::lines] *)
(** [str::lines] (std), app.rs:146. *)
Fixpoint lines_of (s cur : str) : list str :=
  match s with
  | [] => match cur with [] => [] | _ => [cur] end
  | c :: r => if (c =? c_nl)%N then
                (match rev cur with x :: y => if (x =? c_cr)%N then rev y else cur | [] => cur end)
                :: lines_of r []
              else lines_of r (cur ++ [c])
  end.
(** [str::split_whitespace] *)
(** [str::split_whitespace] (std), app.rs:155-169. *)
Fixpoint words_from (s cur : str) : list str :=
  match s with
  | [] => match cur with [] => [] | _ => [cur] end
  | c :: r => if is_ws c then match cur with [] => words_from r [] | _ => cur :: words_from r [] end
              else words_from r (cur ++ [c])
  end.
(** [str::split_whitespace] (std), app.rs:155-169. *)
Definition words (s : str) : list str := words_from s [].

(** app.rs:157-159: the option is given by [x], directly or as the short form -f of --file. *)
Definition gives (option x : str) : bool :=
  str_eqb x option || (str_eqb x (L "-f") && str_eqb (L "--file") option).

(** app.rs:146-177: one line of the configuration file. *)
Definition config_line (args : list str) (line : str) : res (list str) :=
  match trim_start line with
  | [] => Ok args
  | c :: _ =>
      if (c =? c_minus)%N then
        if negb (starts_with (L "--") line) then Panic PExplicit
        else match words line with
             | [] => Panic PUnwrap
             | option :: rest =>
                 if existsb (gives option) args then Ok args
                 else Ok (args ++ [option] ++ match rest with [] => [] | _ => [join [c_sp] rest] end)
             end
      else if ((c =? c_semi) || (c =? 35) || (c =? 33) || (c =? 37))%N then Ok args
      else Panic PExplicit
  end.
(** app.rs:123-178 *)
Definition with_config (w : world) (home : str) (args : list str) : res (list str) :=
  p <- config_path w home args ;;
  match p with
  | None => Ok args
  | Some f => content <- unwrap (w_read w f) ;; foldM config_line args (lines_of content [])
  end.

(** ** The commands.  The parsing of the arguments (structopt/clap) is not modelled: a command is
    given with its options. *)
(** app.rs:17-53 *)
Inductive command :=
| CBalance (flat no_total : bool)
| CRegister
| CAccounts
| CPayees
| CPrices
| CCommodities
| CCheck.

(** Everything printed on the standard output, as lines. *)
(** Numbering of the hash traversals; not in the code (the reports of app.rs:183-231). *)
Definition report_site (l : ledger) : nat := 8 + 4 * length (lg_txns l).
(** app.rs:183-231 *)
Definition run_on (w : world) (c : command) (o : opts) (file : str) (items : pledger) : res (list str) :=
  match c with
  | CCheck =>
      _ <- to_ledger w false items ;; Ok [L "Input file " ++ file ++ L " is OK"]
  | _ =>
      l <- to_ledger w (o_no_balance_check o) items ;;
      let site := report_site l in
      match c with
      | CBalance flat no_total =>
          r <- balance_report w site o flat (negb no_total) l ;; report_lines r
      | CRegister => r <- register_report w site o l ;; register_lines w r
      | CAccounts => Ok (accounts_report w site l)
      | CPayees => Ok (payees_report w site l)
      | CCommodities => Ok (commodities_report w site l)
      | _ => prices_report l
      end
  end.
(** app.rs:183-231 *)
Definition run_cmd (depth : nat) (w : world) (c : command) (o : opts) (file : str) : res (list str) :=
  items <- tokenize_file depth w file ;; run_on w c o file items.

(** app.rs:224-231, main.rs: app.rs:183-231 and main.rs: an [Err] prints a message and exits with
    status 1, a panic aborts
    with 101. *)
Definition exit_status {A} (r : res A) : Z :=
  match r with Ok _ => 0 | Err _ => 1 | Panic _ => 101 end.
