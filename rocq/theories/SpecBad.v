(** Vocabulary for "a malformed line is refused and named": lines of a transaction or a directive that are
    wrong, what is said about them and up to where the line is all right.  Nothing here refers to how the
    text is read. *)
From Verif Require Import Base Money Alist Comment Txn Tokens Spec SpecText SpecDates SpecTokens SpecJournal.

(** An account at the beginning of a posting, with what separates it from the rest. *)
Definition account_lead (w : world) (s : str) : Prop :=
  exists n k acc sep b, plain_name n /\ account_form n acc k /\ first_is (fun x => x <> c_semi /\ is_numeric w x = false) acc /\
    account_separator sep /\ one_line sep /\ blanks b /\ s = acc ++ sep ++ b.
(** An account in an opening parenthesis or bracket that is not closed. *)
Definition unclosed (open close : N) (n : str) : Prop :=
  plain_name n /\ first_is (fun x => x = open) n /\ forall m, n <> m ++ [close].
(** [bad_posting w real msg seen s]: the text [s], which follows the indentation of a line of a transaction
    ([real]) or of an automated transaction, is refused with the message [msg] after [seen]. *)
Inductive bad_posting (w : world) (real : bool) : str -> str -> str -> Prop :=
| bp_number x r : is_numeric w x = true -> bad_posting w real (L "Expecting account name") [] (x :: r)
| bp_parenthesis n sep r : unclosed c_lp c_rp n -> account_separator sep -> one_line sep ->
    bad_posting w real (L "Expected ')'") (n ++ sep) ((n ++ sep) ++ r)
| bp_bracket n sep r : unclosed c_lb c_rb n -> account_separator sep -> one_line sep ->
    bad_posting w real (L "Expected ']'") (n ++ sep) ((n ++ sep) ++ r)
| bp_cost s r : account_lead w s -> bad_posting w real (L "Amount not found") s (s ++ L "@" ++ r)
| bp_points s neg ip fp r : real = true -> account_lead w s -> only_digits ip -> only_digits fp ->
    bad_posting w real (L "Too many decimal separators")
      (s ++ (if neg : bool then L "-" else []) ++ ip ++ L "." ++ fp)
      ((s ++ (if neg then L "-" else []) ++ ip ++ L "." ++ fp) ++ L "." ++ r)
| bp_word s c b r : real = true -> account_lead w s ->
    first_is (fun x => ~ In x (L "(=@")) c ->
    (forall x, In x c -> is_ws x = false /\ is_numeric w x = false /\ ~ In x (L ".-;""")) ->
    blanks b -> first_is (fun x => x = c_nl \/ is_ws x = false) r -> (b = [] -> first_is (fun x => x = c_nl \/ x = c_semi) r) -> no_more w r ->
    bad_posting w real (L "Wrong number format") (s ++ c ++ b) ((s ++ c ++ b) ++ r).
(** [bad_setting w known k seen s]: the text [s], which follows the indentation of a line of a directive, begins
    with the word [k], which is none of the words a line of this directive can begin with. *)
Inductive bad_setting (w : world) (known : list str) (k : str) : str -> str -> Prop :=
| bs b r : k <> [] -> (forall x, In x k -> is_ws x = false /\ is_numeric w x = false /\ ~ In x (L ".-;""")) -> ~ In k known ->
    blanks b -> first_is (fun x => x = c_nl \/ is_ws x = false) r -> (b = [] -> first_is (fun x => x = c_nl) r) ->
    bad_setting w known k (k ++ b) ((k ++ b) ++ r).
