(** Vocabulary for C91: queries combine like the sets of postings they ask for. *)
From Verif Require Import Base Money Txn Filter Reports SpecFind.

(** The options ask for the same, but perhaps with another query; the options with the query [q]. *)
Definition same_but_query (o o' : opts) : Prop :=
  o_real o = o_real o' /\ o_begin o = o_begin o' /\ o_end o = o_end o' /\ o_depth o = o_depth o' /\
  o_exchange o = o_exchange o' /\ o_no_balance_check o = o_no_balance_check o'.
Definition asking (o : opts) (q : list str) : opts :=
  {| o_real := o_real o; o_begin := o_begin o; o_end := o_end o; o_query := q; o_depth := o_depth o;
     o_exchange := o_exchange o; o_no_balance_check := o_no_balance_check o |}.
(** Two wishes are for the same; one is for no more than the other; what both, and what either of two wishes ask for. *)
Definition same_wish (F G : wish) : Prop := forall a n ts, F a n ts = G a n ts.
Definition narrower (F G : wish) : Prop := forall a n ts, F a n ts = true -> G a n ts = true.
Definition either_wish (F G : wish) : wish := fun a n ts => F a n ts || G a n ts.
Definition both_wish (F G : wish) : wish := fun a n ts => F a n ts && G a n ts.

(** What a line of the register says about its posting. *)
Definition posted (row : rrow) : str * money := (rr_account row, rr_amount row).
(** [l] is what is left of [l'] after leaving out some elements. *)
Inductive subsequence {A} : list A -> list A -> Prop :=
| ss_nil : subsequence [] []
| ss_keep x l l' : subsequence l l' -> subsequence (x :: l) (x :: l')
| ss_drop x l l' : subsequence l l' -> subsequence l (x :: l').
