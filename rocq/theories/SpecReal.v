(** Vocabulary for C104: a journal and its real part. *)
From Verif Require SpecTxn.
From Verif Require Import Base Money Txn Filter Tokens Reports Spec SpecReports SpecLedger SpecBook SpecAssert.

(** The transactions without their postings in parentheses and brackets; those that have no others may be left out. *)
Inductive real_parts : list (txn rposting) -> list (txn rposting) -> Prop :=
| real_none : real_parts [] []
| real_kept t t' ts ts' : t_date t' = t_date t -> t_postings t' = filter (fun p => kind_eqb (rp_kind p) Real) (t_postings t) ->
    real_parts ts ts' -> real_parts (t :: ts) (t' :: ts')
| real_left t ts ts' : (forall p, In p (t_postings t) -> rp_kind p <> Real) -> real_parts ts ts' -> real_parts (t :: ts) ts'.
(** Two journals with the same directives for accounts and commodities; the transactions by date of the second are the real
    parts of those of the first. *)
Definition real_part (l l' : pledger) : Prop :=
  pl_accounts l' = pl_accounts l /\ pl_commodities l' = pl_commodities l /\
  exists us us', date_sorted (pl_txns l) us /\ date_sorted (pl_txns l') us' /\ real_parts us us'.
(** The bracketed postings of every transaction cancel, or exchange one commodity for another. *)
Definition brackets_fine (w : world) (l : pledger) : Prop :=
  Forall (fun t => SpecTxn.fine (kind_value w l VirtualMustBalance t)) (pl_txns l).
