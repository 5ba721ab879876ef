(** Vocabulary for C61: which rows a tree report has, read off the list of its accounts. *)
From Verif Require Import Base Reports Spec SpecReports.

(** Of the accounts [rest] that follow, one is at level [n], and it and all before it begin with the name [a]. *)
Definition one_ahead (a : str) (n : nat) (rest : list str) : Prop :=
  exists before x after, rest = before ++ x :: after /\ levels x = n /\ Forall (fun y => exists r, y = a ++ r) (before ++ [x]).
(** The accounts written into the row of [a], of the accounts [rest] that follow, and those that are left: the next
    account is taken as long as it is one level below the one before, whatever its name, and no other account at its level is
    ahead among those that begin with [a]. *)
Inductive taken (a : str) : nat -> list str -> list str -> list str -> Prop :=
| tk_end n : taken a n [] [] []
| tk_other_level n x rest : levels x <> S n -> taken a n (x :: rest) [] (x :: rest)
| tk_brother n x rest : levels x = S n -> one_ahead a (S n) rest -> taken a n (x :: rest) [] (x :: rest)
| tk_next n x rest xs left : levels x = S n -> ~ one_ahead a (S n) rest -> taken a (S n) rest xs left -> taken a n (x :: rest) (x :: xs) left.
(** The rows: each has an account and those taken into its row; accounts below the depth asked for begin no row. *)
Inductive laid_out (d : option nat) : list str -> list (str * list str) -> Prop :=
| lo_end : laid_out d [] []
| lo_deep k a rest rows : d = Some k -> (k < levels a)%nat -> laid_out d rest rows -> laid_out d (a :: rest) rows
| lo_row a rest xs left rows : (forall k, d = Some k -> (levels a <= k)%nat) -> taken a (levels a) rest xs left -> laid_out d left rows ->
    laid_out d (a :: rest) ((a, xs) :: rows).
(** The label of a row: the last parts of the names, with colons between them. *)
Fixpoint with_colons (ps : list str) : str :=
  match ps with [] => [] | [p] => p | p :: r => p ++ L ":" ++ with_colons r end.
Definition label_of (names : list str) (label : str) : Prop := exists ps, Forall2 own_part names ps /\ label = with_colons ps.
