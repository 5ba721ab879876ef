(** Vocabulary for C101: bookings and their reversals. *)
From Verif Require Import Base Money Txn Filter Tokens Reports Spec SpecReports SpecBook SpecAgree SpecJoin.
Open Scope Qc_scope.

(** The same posting with the opposite amount; the price or the total cost is written the same. *)
Record posting_reversed (p p' : rposting) : Prop := {
  rv_account : rp_account p' = rp_account p;
  rv_kind : rp_kind p' = rp_kind p;
  rv_money : rp_money p' = option_map (fun m => (- fst m, snd m)) (rp_money p);
  rv_cost : rp_cost p' = rp_cost p;
  rv_type : rp_cost_type p' = rp_cost_type p;
}.
(** [t'] takes back what [t] books, on whatever day. *)
Definition reversal (t t' : txn rposting) : Prop := Forall2 posting_reversed (t_postings t) (t_postings t').
(** The transactions of [l] are those of [l0] and [ts], in any order. *)
Definition also_has (ts : list (txn rposting)) (l0 l : pledger) : Prop :=
  same_directives l0 l /\ Permutation (pl_txns l0 ++ ts) (pl_txns l).
(** No posting in brackets has a price for each unit. *)
Definition no_bracketed_price (t : txn rposting) : Prop :=
  forall p, In p (t_postings t) -> rp_kind p = VirtualMustBalance -> rp_cost p <> None -> rp_cost_type p = Some PTotal.
(** Both are in the period asked for, or none is. *)
Definition same_period (o : opts) (t t' : txn rposting) : Prop := in_window o t' = in_window o t.
(** A line of the register with the opposite amount. *)
Definition opposite (x : str * money) : str * money :=
  (fst x, match snd x with M q c => M (- q) c | MZero => MZero end).
