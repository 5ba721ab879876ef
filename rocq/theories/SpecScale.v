(** Vocabulary for C95: the same journal in other units. *)
From Verif Require Import Base Money Txn Filter Tokens Reports Spec SpecReports SpecBook SpecAgree SpecJoin.
Open Scope Qc_scope.

Section Units.
  (** One unit of the commodity [c] becomes [k c] units. *)
  Context (k : str -> Qc) (w : world) (l : pledger).
  Definition in_units (m : Qc * str) : Qc * str := (k (commodity_meant w l (snd m)) * fst m, snd m).
  (** A total cost is an amount like any other; a price is an amount for each unit of what is bought. *)
  Definition cost_in_units (p : rposting) : option (Qc * str) :=
    match rp_cost p, rp_cost_type p, rp_money p with
    | Some x, Some PTotal, _ => Some (in_units x)
    | Some x, _, Some m => Some (fst (in_units x) / k (commodity_meant w l (snd m)), snd x)
    | x, _, _ => x
    end.
  Record posting_in_units (p p' : rposting) : Prop := {
    pu_account : rp_account p' = rp_account p;
    pu_kind : rp_kind p' = rp_kind p;
    pu_money : rp_money p' = option_map in_units (rp_money p);
    pu_type : rp_cost_type p' = rp_cost_type p;
    pu_cost : rp_cost p' = cost_in_units p;
    pu_balance : rp_balance p' = option_map in_units (rp_balance p);
    pu_expr : rp_expr p' = rp_expr p;
  }.
  Definition txn_in_units (t t' : txn rposting) : Prop :=
    t_date t' = t_date t /\ t_type t' = t_type t /\ Forall2 posting_in_units (t_postings t) (t_postings t').
End Units.
(** [l'] is [l] in other units: the same directives, and transaction by transaction the same postings with the amounts
    in the new units.  Its price lines are about the same commodities. *)
Record in_other_units (k : str -> Qc) (w : world) (l l' : pledger) : Prop := {
  ou_positive : forall c, 0 < k c;
  ou_accounts : pl_accounts l' = pl_accounts l;
  ou_commodities : pl_commodities l' = pl_commodities l;
  ou_prices : forall p', In p' (pl_prices l') -> exists p, In p (pl_prices l) /\ pp_commodity p' = pp_commodity p /\ pp_other p' = pp_other p;
  ou_txns : Forall2 (txn_in_units k w l) (pl_txns l) (pl_txns l');
}.
(** The rows are the same, with the amount of each commodity in the new units; so is the total. *)
Definition report_in_units (k : str -> Qc) (r r' : breport) : Prop :=
  Forall2 (fun row row' => br_label row' = br_label row /\ forall c, moneys_amt (br_moneys row') c = k c * moneys_amt (br_moneys row) c)
    (bp_rows r) (bp_rows r') /\
  (bp_total r' = None <-> bp_total r = None) /\
  forall ms ms' c, bp_total r = Some ms -> bp_total r' = Some ms' -> moneys_amt ms' c = k c * moneys_amt ms c.
Definition money_in_units (k : str -> Qc) (m : money) : money :=
  match m with M q c => M (k c * q) c | MZero => MZero end.
Definition line_in_units (k : str -> Qc) (x : str * money) : str * money := (fst x, money_in_units k (snd x)).
