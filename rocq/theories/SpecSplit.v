(** Vocabulary for a journal in several files (C54): the parts of it, what they declare. *)
From Coq Require Import Sorting.Sorted.
From Verif Require Import Base Alist Txn Tokens SpecTokens.

(** [assembled w file s s' parts]: as [inlined], and [parts] are the journals that the pieces between the include
    lines are by themselves, in the order of the text. *)
Inductive assembled (w : world) : option str -> str -> str -> list pledger -> Prop :=
| as_nil file : assembled w file [] [] []
| as_piece file a part s s' parts : piece w a -> tokenize_string 1 w a = Ok part -> assembled w file s s' parts ->
    assembled w file (a ++ s) (a ++ s') (part :: parts)
| as_include file line files texts s s' parts1 parts2 :
    ~ In c_nl line -> w_glob w (include_pattern file line) = Some files ->
    assembled_all w files texts parts1 -> assembled w file s s' parts2 ->
    assembled w file (L "include " ++ line ++ c_nl :: s) (texts ++ s') (parts1 ++ parts2)
with assembled_all (w : world) : list str -> str -> list pledger -> Prop :=
| aa_nil : assembled_all w [] [] []
| aa_cons g c gs text texts parts1 parts2 :
    w_read w g = Some c -> assembled w (Some g) c text parts1 -> assembled_all w gs texts parts2 ->
    assembled_all w (g :: gs) (text ++ texts) (parts1 ++ parts2).

(** Nothing is declared in both: no name of one is a name of the other and no alias of one an alias of the other,
    in any letter case. *)
Definition declare_apart {T} (w : world) (name : T -> str) (aliases : T -> list str) (a b : alist T) : Prop :=
  forall x y, In x (l_values a) -> In y (l_values b) ->
    w_lower w (name x) <> w_lower w (name y) /\
    forall u v, In u (aliases x) -> In v (aliases y) -> w_lower w u <> w_lower w v.
Definition no_clash (w : world) (a b : pledger) : Prop :=
  declare_apart w ac_name ac_aliases (pl_accounts a) (pl_accounts b) /\
  declare_apart w py_name py_aliases (pl_payees a) (pl_payees b) /\
  declare_apart w cu_name cu_aliases (pl_commodities a) (pl_commodities b).
(** The same journal, apart from the tag directives, which no report looks at. *)
Definition same_journal (l l' : pledger) : Prop :=
  pl_accounts l = pl_accounts l' /\ pl_payees l = pl_payees l' /\ pl_commodities l = pl_commodities l' /\
  pl_txns l = pl_txns l' /\ pl_prices l = pl_prices l' /\ pl_comments l = pl_comments l'.
