(** Vocabulary for C88: journals with the same directives, whose transactions are arranged or divided differently. *)
From Verif Require Import Base Money Txn Filter Tokens Reports Spec SpecReports SpecAgree.
Open Scope Qc_scope.

(** The same directives for accounts and commodities; no price that [l] does not have. *)
Definition same_directives (l' l : pledger) : Prop :=
  pl_accounts l' = pl_accounts l /\ pl_commodities l' = pl_commodities l /\ incl (pl_prices l') (pl_prices l).
(** The same transactions in another order. *)
Definition rearranged (l' l : pledger) : Prop := same_directives l' l /\ Permutation (pl_txns l') (pl_txns l).
(** The transactions of [l] are those of [l1] and those of [l2], in any order. *)
Definition joined (l1 l2 l : pledger) : Prop :=
  same_directives l1 l /\ same_directives l2 l /\ Permutation (pl_txns l1 ++ pl_txns l2) (pl_txns l).

(** Two balance reports say the same: the same rows, with the same amount of each commodity, and the same total. *)
Definition same_report (r' r : breport) : Prop :=
  Forall2 (fun row' row => br_label row' = br_label row /\ forall c, moneys_amt (br_moneys row') c = moneys_amt (br_moneys row) c)
    (bp_rows r') (bp_rows r) /\
  (bp_total r' = None <-> bp_total r = None) /\
  forall ms' ms c, bp_total r' = Some ms' -> bp_total r = Some ms -> moneys_amt ms' c = moneys_amt ms c.
(** [r] is the sum of [r1] and [r2]: it has a row for each account for which the sum is not nothing, with the sum. *)
Definition sum_of_reports (r1 r2 r : breport) : Prop :=
  ascending (map br_label (bp_rows r)) /\
  (forall a, In a (map br_label (bp_rows r)) <-> exists c, shown_for r1 (str_eqb a) c + shown_for r2 (str_eqb a) c <> 0) /\
  (forall P c, shown_for r P c = shown_for r1 P c + shown_for r2 P c) /\
  forall ms c, bp_total r = Some ms -> moneys_amt ms c = shown_for r1 (fun _ => true) c + shown_for r2 (fun _ => true) c.
(** Account and amount of a line of the register. *)
Definition line_amount (row : rrow) : str * money := (rr_account row, rr_amount row).
