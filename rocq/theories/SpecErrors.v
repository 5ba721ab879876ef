(** Vocabulary for the properties of error messages: where in a text an error is. *)
From Verif Require Import Base Numerals Money Alist Comment Txn Peg Grammar Dates Expr Tokens SpecTokens.
Open Scope Z_scope.

(** The place [p] lies in the text [content]: its line is the line in which the part [b] begins. *)
Definition lies_in (content : str) (p : place) : Prop :=
  at_text p = content /\ exists a b, content = a ++ b /\ at_line p = Z.of_nat (count c_nl a).
(** The place [p] is where an indented line has its first character that is not a blank. *)
Definition indented_at (content : str) (p : place) : Prop :=
  exists a blanks c r, content = a ++ blanks ++ c :: r /\ at_line_start a /\
    blanks <> [] /\ forallb is_ws blanks = true /\ ~ In c_nl blanks /\ is_ws c = false /\
    at_line p = Z.of_nat (count c_nl a) /\ at_col p = length blanks.
(** The place [p] is the end of a line with an include directive that names [g] (hence the line after
    it, if there is one). *)
Definition after_include (w : world) (file : option str) (content g : str) (p : place) : Prop :=
  exists a line r files, content = a ++ L "include " ++ line ++ r /\ at_line_start a /\ ~ In c_nl line /\
    w_glob w (include_pattern file line) = Some files /\ In g files /\
    (r = [] /\ at_line p = Z.of_nat (count c_nl a) \/
     (exists r', r = c_nl :: r') /\ at_line p = Z.of_nat (count c_nl a) + 1).
(** Some line begins with an [i] and not with "include ". *)
Definition misspelt_include (content : str) : Prop :=
  exists a b, content = a ++ 105%N :: b /\ at_line_start a /\ forall r, 105%N :: b <> L "include " ++ r.

(** ** Messages *)
(** The line of [content] with number [k] (from zero) reads [v]: a carriage return before the newline is not
    part of the line. *)
Definition line_is (content : str) (k : nat) (v : str) : Prop :=
  exists a l r, content = a ++ l ++ r /\ at_line_start a /\ count c_nl a = k /\ ~ In c_nl l /\
    (r = [] /\ l <> [] /\ l = v \/
     (exists r', r = c_nl :: r') /\ (l = v ++ [13%N] \/ l = v /\ forall x, l <> x ++ [13%N])).
(** A row of [n] dashes with a [^] in column [col], if the row is that long. *)
Definition underline (col n : nat) (u : str) : Prop :=
  length u = n /\ forall i, (i < n)%nat -> nth_error u i = Some (if Nat.eqb i col then 94%N else c_minus).
Definition spaces (n : nat) : str := repeat c_sp n.
(** The characters a line at the left margin can begin with: blanks, digits and other numeric characters, the
    comment characters, the equals sign, and the first letters of the directives. *)
Definition known_start (w : world) (c : N) : Prop :=
  is_ws c = true \/ is_numeric w c = true \/ In c (L ";!*%#=icptaP").
