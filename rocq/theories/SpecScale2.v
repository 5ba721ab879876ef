(** Vocabulary for C95, reports in another commodity: price lines in other units. *)
From Verif Require Import Base Money Txn Filter Tokens Reports Spec SpecReports SpecBook SpecAsk SpecExchange SpecScale.
Open Scope Qc_scope.

(** A price line says what one unit of a commodity costs. *)
Record line_in_new_units (k : str -> Qc) (w : world) (l : pledger) (p p' : parsed_price) : Prop := {
  lu_date : pp_date p' = pp_date p;
  lu_commodity : pp_commodity p' = pp_commodity p;
  lu_other : pp_other p' = pp_other p;
  lu_quantity : pp_quantity p' = pp_quantity p * k (commodity_meant w l (pp_other p)) / k (commodity_meant w l (pp_commodity p));
}.
Definition prices_in_units (k : str -> Qc) (w : world) (l l' : pledger) : Prop := Forall2 (line_in_new_units k w l) (pl_prices l) (pl_prices l').
