(** Vocabulary for the properties of reading journals: lines, blocks of indented lines, the include
    graph.  Nothing here refers to how the tokenizer is built, except for the positions it passes. *)
From Verif Require Import Base Numerals Money Alist Comment Txn Peg Grammar Dates Expr Tokens.

(** [p] is a text after which a new line begins. *)
Definition at_line_start (p : str) : Prop := p = [] \/ exists p', p = p' ++ [c_nl].
(** Texts that end with a newline (or are empty). *)
Definition newline_terminated (s : str) : Prop := s = [] \/ exists s', s = s' ++ [c_nl].
(** Some line of [s] begins with the character [c]. *)
Definition line_begins (c : N) (s : str) : Prop := exists p r, s = p ++ c :: r /\ at_line_start p.
(** Lines, each with its newline, that are empty or begin with a blank. *)
Inductive indented_lines : str -> Prop :=
| il_nil : indented_lines []
| il_line l r : ~ In c_nl l -> match l with c :: _ => is_ws c = true | [] => True end ->
                indented_lines r -> indented_lines (l ++ c_nl :: r).
Definition contains (x s : str) : Prop := exists p r, s = p ++ x ++ r.
(** A [tag] directive with an indented comment among the lines that belong to it. *)
Definition tag_with_comment (s : str) : Prop :=
  exists p line blk b r,
    s = p ++ line ++ c_nl :: blk ++ b ++ c_semi :: r /\
    at_line_start p /\ contains (L "tag ") line /\ ~ In c_nl line /\
    indented_lines blk /\ b <> [] /\ forallb is_ws b = true /\ ~ In c_nl b.
(** The texts on which reading is shown to end. *)
Definition ends_ok (s : str) : Prop :=
  (newline_terminated s \/ ~ line_begins c_eq s) /\ ~ tag_with_comment s.

Definition count (c : N) (s : str) : nat := length (filter (N.eqb c) s).

(** ** Positions *)
(** The positions at which the main loop looks for an item, when reading [content] with [inc] for
    the include directive. *)
Inductive position (inc : tok -> res (pledger * tok)) (w : world) (content : str) : tok -> Prop :=
| pos_start : position inc w content (tok_of content)
| pos_item t t1 c l l' t2 :
    position inc w content t ->
    consume_whitespaces_and_lines t = (Blank, t1) -> get_char t1 = Some c ->
    item inc w c l t1 = Ok (l', t2) ->
    position inc w content t2.

(** ** The include graph *)
(** Passing over an include directive without following it. *)
Definition pass_include (t : tok) : res (pledger * tok) :=
  t1 <- consume_str (L "include ") t ;; let (_, t2) := get_line t1 in Ok (pl_new, t2).
(** [line] is what follows "include " on a line the main loop comes to when reading [content]. *)
Definition include_line (w : world) (content line : str) : Prop :=
  exists t t1 r,
    position pass_include w content t /\ consume_whitespaces_and_lines t = (Blank, t1) /\
    tk_rest t1 = L "include " ++ line ++ r /\ ~ In c_nl line /\ (r = [] \/ exists r', r = c_nl :: r').
(** Reading [content], the text of [file], comes to an include directive that names file [g]. *)
Definition names (w : world) (file : option str) (content : str) (g : str) : Prop :=
  exists line files, include_line w content line /\
    w_glob w (include_pattern file line) = Some files /\ In g files.
(** File [f] has an include directive that names file [g]. *)
Definition includes (w : world) (f g : str) : Prop :=
  exists content, w_read w f = Some content /\ names w (Some f) content g.
Inductive reachable (w : world) : str -> str -> Prop :=
| reach_refl f : reachable w f f
| reach_step f g h : includes w f g -> reachable w g h -> reachable w f h.
(** A cycle: from [f] one comes back to [f]. *)
Definition on_cycle (w : world) (f : str) : Prop := exists g, includes w f g /\ reachable w g f.
(** Nothing is wrong with file [f] taken by itself: it can be read, its text parses, and the files
    its include directives ask for can be looked up. *)
Definition sound_alone (w : world) (f : str) : Prop :=
  exists content l,
    w_read w f = Some content /\
    main_loop (S (length content)) pass_include w pl_new (tok_of content) = Ok l /\
    forall line, include_line w content line -> w_glob w (include_pattern (Some f) line) <> None.

(** ** Account names *)
(** Words separated by single blanks: no tab or newline, no two adjacent blanks, no blank at either
    end. *)
Definition plain_name (s : str) : Prop :=
  s <> [] /\ ~ In c_tab s /\ ~ In c_nl s /\
  (forall p c d r, s = p ++ c :: d :: r -> is_ws c = true -> is_ws d = true -> False) /\
  (forall c r, s = c :: r -> is_ws c = false) /\ (forall p c, s = p ++ [c] -> is_ws c = false).

(** A line that is nothing but an account name with one blank (not a tab) behind it. *)
Definition adjacent_blanks (s : str) : Prop := exists p c d r, s = p ++ c :: d :: r /\ is_ws c = true /\ is_ws d = true.
Definition name_and_blank (s : str) : Prop :=
  exists n b, s = n ++ [b] /\ is_ws b = true /\ ~ In c_tab s /\ ~ adjacent_blanks s.
(** What separates the account of a posting from the rest of the line: a tab, or two blanks. *)
Definition account_separator (s : str) : Prop :=
  s = [c_tab] \/ exists b c, s = [b; c] /\ is_ws b = true /\ is_ws c = true /\ b <> c_nl /\ b <> c_tab.

(** Parentheses. *)
Definition closed (e : str) : Prop := count c_lp e = count c_rp e.
Definition expression_closed (p : rposting) : Prop := forall e, rp_expr p = Some e -> closed e.

(** ** Inlining *)
Definition closed_expressions (l : pledger) : Prop :=
  Forall (fun x => Forall expression_closed (t_postings x)) (pl_txns l).
(** A self-contained piece of journal without include directives: it begins at the left margin, ends
    with a newline (with no blank just before it), can be read by itself, and leaves no parenthesis
    of an amount expression open. *)
Definition piece (w : world) (a : str) : Prop :=
  (exists c r, a = c :: r /\ is_ws c = false) /\
  newline_terminated a /\ (forall x c, a = x ++ [c; c_nl] -> is_ws c = true -> c = c_nl) /\
  ~ line_begins 105 a /\
  exists l, tokenize_string 1 w a = Ok l /\ closed_expressions l.
(** [inlined w file s s']: [s'] is the text [s] of [file] with every include directive replaced by the
    contents of the files it names, themselves inlined. *)
Inductive inlined (w : world) : option str -> str -> str -> Prop :=
| in_nil file : inlined w file [] []
| in_piece file a s s' : piece w a -> inlined w file s s' -> inlined w file (a ++ s) (a ++ s')
| in_include file line files texts s s' :
    ~ In c_nl line -> w_glob w (include_pattern file line) = Some files ->
    inlined_all w files texts -> inlined w file s s' ->
    inlined w file (L "include " ++ line ++ c_nl :: s) (texts ++ s')
with inlined_all (w : world) : list str -> str -> Prop :=
| ia_nil : inlined_all w [] []
| ia_cons g c gs text texts :
    w_read w g = Some c -> inlined w (Some g) c text -> inlined_all w gs texts ->
    inlined_all w (g :: gs) (text ++ texts).

(** How the account of a posting is written: plainly, or in parentheses or brackets for the virtual kinds.
    A plain name must begin with an ASCII character. *)
Inductive account_form (n : str) : str -> kind -> Prop :=
| af_real c r : n = c :: r -> (c < 128)%N -> c <> c_lp -> c <> c_lb -> account_form n n Real
| af_virtual : account_form n (L "(" ++ n ++ L ")") Virtual
| af_balanced : account_form n (L "[" ++ n ++ L "]") VirtualMustBalance.

(** The pattern looked up for an include line: beside the including file, or as it stands if there is none. *)
Inductive beside : option str -> str -> str -> Prop :=
| bs_text (line : str) : beside None line line
| bs_here (name line : str) : ~ In c_slash name -> beside (Some name) line (L "./" ++ line)
| bs_dir (dir name line : str) : dir <> [] -> ~ In c_slash name -> beside (Some (dir ++ L "/" ++ name)) line (dir ++ L "/" ++ line)
| bs_root (name line : str) : ~ In c_slash name -> beside (Some (L "/" ++ name)) line (L "//" ++ line).
