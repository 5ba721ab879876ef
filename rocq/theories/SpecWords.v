(** How the words of a query are written on one line, as in the query of an automated transaction. *)
From Verif Require Import Base.

(** Text between quotes: no quotes in it, and slashes in pairs. *)
Inductive quotable : str -> Prop :=
| qt_nil : quotable []
| qt_char c s : c <> c_dq -> c <> c_slash -> quotable s -> quotable (c :: s)
| qt_regex b s : ~ In c_dq b -> ~ In c_slash b -> quotable s -> quotable (c_slash :: b ++ c_slash :: s).
(** A word: characters other than blanks, regexes with anything between the slashes, and quoted
    texts, which lose their quotes. *)
Inductive word_written : str -> str -> Prop :=
| ww_nil : word_written [] []
| ww_char c w s : c <> c_sp -> c <> c_dq -> c <> c_slash -> word_written w s -> word_written (c :: w) (c :: s)
| ww_regex b w s : ~ In c_dq b -> ~ In c_slash b -> word_written w s ->
    word_written (c_slash :: b ++ c_slash :: w) (c_slash :: b ++ c_slash :: s)
| ww_quoted q w s : quotable q -> word_written w s -> word_written (q ++ w) (c_dq :: q ++ c_dq :: s).
(** Words with spaces between them. *)
Definition only_spaces (s : str) : Prop := forall c, In c s -> c = c_sp.
Inductive query_written : list str -> str -> Prop :=
| qw_end b : only_spaces b -> query_written [] b
| qw_word b w t ws s : only_spaces b -> word_written w t -> query_written ws s -> (ws <> [] -> exists r, s = c_sp :: r) ->
    query_written (w :: ws) (b ++ t ++ s).
