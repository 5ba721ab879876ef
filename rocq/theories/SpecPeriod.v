(** Vocabulary for C93: a journal with only the transactions of a period. *)
From Verif Require Import Base Money Txn Filter Tokens Reports Spec SpecReports SpecBook SpecAgree SpecJoin.

(** [l'] has the directives of [l] and, in any order, those of its transactions that are in the period [o] asks for:
    from the day --begin names up to, and without, the day --end names. *)
Definition part_of_period (o : opts) (l' l : pledger) : Prop :=
  same_directives l' l /\ Permutation (pl_txns l') (filter (in_window o) (pl_txns l)).
(** The same options without a period. *)
Definition without_period (o o' : opts) : Prop := same_but_period o o' /\ o_begin o' = None /\ o_end o' = None.
