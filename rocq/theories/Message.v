(** Model of the texts of error messages: src/error.rs and parser/mod.rs:199-254.  Colours are left out. *)
From Verif Require Import Base Numerals Money Alist Comment Txn Peg Grammar Dates Expr Tokens.
Open Scope Z_scope.

(** [str::lines] (std), parser/mod.rs:222: the parts between newlines, without a carriage return at their
    ends; the last one only if it is not empty (a carriage return at the very end of the text stays, as in std
    from 1.72 on).  [acc] is the current line, reversed. *)
Definition strip_cr (rl : str) : str := match rl with c :: r => if (c =? 13)%N then rev r else rev rl | [] => [] end.
(** [str::lines] (std), parser/mod.rs:222 *)
Fixpoint lines_acc (acc s : str) : list str :=
  match s with
  | [] => match acc with [] => [] | _ => [rev acc] end
  | c :: r => if (c =? c_nl)%N then strip_cr acc :: lines_acc [] r else lines_acc (c :: acc) r
  end.
(** [str::lines] (std), parser/mod.rs:222 *)
Definition lines (s : str) : list str := lines_acc [] s.

(** error.rs:5-10, the derived [Debug]; [quoted] is the [Debug] of strings and paths (std). *)
Definition error_debug (quoted : str -> str) (e : parser_error) : str :=
  match e with
  | CannotReadFile s => L "CannotReadFile(" ++ quoted s ++ L ")"
  | UnexpectedInput None => L "UnexpectedInput(None)"
  | UnexpectedInput (Some s) => L "UnexpectedInput(Some(" ++ quoted s ++ L "))"
  | IncludeLoop f => L "IncludeLoop(" ++ quoted (L "Cycle detected. " ++ quoted f) ++ L ")"
  end.

(** parser/mod.rs:200: the width of the line numbers. *)
Definition number_length (line : Z) : nat := length (Z_text (line + 1)).
(** parser/mod.rs:229: [{:>width$}] *)
Definition pad_left (n : nat) (s : str) : str := repeat c_sp (n - length s) ++ s.
(** parser/mod.rs:229-231: one line of the text, numbered. *)
Definition numbered (n : nat) (i : Z) (l : str) : list str :=
  [pad_left n (Z_text (i + 1)) ++ L " |" ++ repeat c_sp 6; l ++ [c_nl]].
(** parser/mod.rs:222-232; [i] is the index of the first line of [ls]; [lo] is [self.line_index - 1]. *)
Fixpoint shown_lines (n : nat) (lo hi i : Z) (ls : list str) : list str :=
  match ls with
  | [] => []
  | l :: r => if i <? lo then shown_lines n lo hi (i + 1) r
              else if hi <? i then []
              else numbered n i l ++ shown_lines n lo hi (i + 1) r
  end.
(** parser/mod.rs:246-252 *)
Fixpoint marks (col i n : nat) : str :=
  match n with
  | O => []
  | S k => (if Nat.eqb i col then 94%N else c_minus) :: marks col (S i) k
  end.
(** 2^64 - 1: what [0 - 1] is in [usize] when the build does not check for overflow. *)
Definition usize_max : Z := 2 ^ 64 - 1.

(** parser/mod.rs:199-254.  [checked]: whether the build checks arithmetic for overflow (it does unless
    built with --release). *)
Definition error_pieces (checked : bool) (quoted : str -> str) (e : parser_error) (p : place) : res (list str) :=
  let n := number_length (at_line p) in
  let head := [L "Error: "; error_debug quoted e] ++
    match at_file p with
    | Some f => [c_nl :: repeat c_sp n ++ L "--> " ++ quoted f;
                 L ":" ++ Z_text (at_line p + 1) ++ L ":" ++ Z_text (Z.of_nat (at_col p) + 1) ++ [c_nl]]
    | None => []
    end in
  let ls := lines (at_text p) in
  match ls, at_line p with
  | _ :: _, 0 => if checked then Panic PArith
                 else Ok (head ++ shown_lines n usize_max 0 0 ls)
  | _, line => Ok (head ++ shown_lines n (line - 1) line 0 ls)
  end.
(** parser/mod.rs:233-253: the marks under the last piece. *)
Definition error_located (checked : bool) (quoted : str -> str) (e : parser_error) (p : place) : res str :=
  ps <- error_pieces checked quoted e p ;;
  Ok (concat ps ++ L " " ++ repeat c_sp (number_length (at_line p)) ++ L "|" ++ repeat c_sp 6 ++
      marks (at_col p) 0 (utf8_len (last ps []))).
(** error.rs:33-50 and 53-61: the text of a parse error, printed by app.rs:225-228 when it is not empty. *)
Definition parser_error_text (checked : bool) (quoted : str -> str) (e : parser_error) (pos : option place) : res str :=
  match pos with
  | Some p => error_located checked quoted e p
  | None => match e with
            | CannotReadFile s => Ok s
            | UnexpectedInput None => Ok []
            | UnexpectedInput (Some s) => Ok s
            | IncludeLoop f => Ok (L "Cycle detected. " ++ quoted f)
            end
  end.
