(** Vocabulary for C100: journals with the same rules, whose transactions are divided differently. *)
From Verif Require Import Base Money Txn Filter Tokens Ledger Reports Spec SpecLedger SpecReports SpecBook SpecAgree SpecJoin.
Open Scope Qc_scope.

(** The same directives, and the same rules in any order; no transaction that [l] does not have. *)
Definition same_rules (l' l : pledger) : Prop := same_directives l' l /\ Permutation (rules l') (rules l) /\ incl (pl_txns l') (pl_txns l).
(** Both have the rules of [l], and the transactions of [l] are those of [l1] and those of [l2], in any order. *)
Definition joined_with_rules (l1 l2 l : pledger) : Prop :=
  same_rules l1 l /\ same_rules l2 l /\ Permutation (journal_txns l1 ++ journal_txns l2) (journal_txns l).
(** No posting states a balance. *)
Definition states_nothing (l : pledger) : Prop := forall t p, In t (journal_txns l) -> In p (t_postings t) -> rp_balance p = None.
