(** Vocabulary for C107: a report in the commodity that everything is in. *)
From Verif Require Import Base Money Alist Txn Price Filter Tokens Ledger Reports Spec SpecReports SpecLedger SpecBook.

(** The options ask for the same but perhaps for another commodity to show the amounts in. *)
Definition same_but_exchange (o o' : opts) : Prop :=
  o_query o' = o_query o /\ o_real o' = o_real o /\ o_begin o' = o_begin o /\ o_end o' = o_end o /\
  o_depth o' = o_depth o /\ o_no_balance_check o' = o_no_balance_check o.
(** One of the prices of the journal is zero. *)
Definition zero_price (w : world) (skip : bool) (l : pledger) : Prop :=
  exists lg p, to_ledger w skip l = Ok lg /\ In p (lg_prices lg) /\ pr_amount p = 0%Qc.
