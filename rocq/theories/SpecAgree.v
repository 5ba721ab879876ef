(** Vocabulary for C86: the reports made from one file agree with each other. *)
From Verif Require Import Base Money Txn Filter Reports Spec SpecReports SpecLayout.
Open Scope Qc_scope.

(** How much of commodity [c] a balance report shows in the rows whose label satisfies [P], in the rows of the first
    level, and in all rows. *)
Definition shown_amount (rows : list brow) (c : str) : Qc := qsum (map (fun row => moneys_amt (br_moneys row) c) rows).
Definition shown_for (r : breport) (P : str -> bool) (c : str) : Qc := shown_amount (filter (fun row => P (br_label row)) (bp_rows r)) c.
Definition shown_at_top (r : breport) (c : str) : Qc := shown_amount (filter (fun row => Nat.eqb (br_indent row) 1) (bp_rows r)) c.

(** The last running total of a register; nothing if it has no line. *)
Definition final_total (rows : list rrow) (c : str) : Qc :=
  match rev rows with [] => 0 | row :: _ => moneys_amt (rr_total row) c end.
(** The accounts of the lines of a register, without the brackets of virtual postings; what the lines of the accounts
    that satisfy [P] add up to. *)
Definition account_of_line (row : rrow) (a : str) : Prop :=
  rr_account row = a \/ rr_account row = L "(" ++ a ++ L ")" \/ rr_account row = L "[" ++ a ++ L "]".
Definition lines_amount (rows : list rrow) (accs : list str) (P : str -> bool) (c : str) : Qc :=
  qsum (map (fun x => if P (snd x) then money_amt (rr_amount (fst x)) c else 0) (combine rows accs)).
Definition register_printed (w : world) (rows : list rrow) (lines : list str) : Prop :=
  exists groups, lines = concat groups /\ Forall2 (entry_printed (w_width w)) rows groups.
(** What a line says, apart from the payee and the running total. *)
Definition line_says (row : rrow) : option Z * str * money := (option_map fst (rr_head row), rr_account row, rr_amount row).

(** The options ask for the same, but perhaps for another depth; for another period. *)
Definition same_but_depth (o o' : opts) : Prop :=
  o_real o = o_real o' /\ o_begin o = o_begin o' /\ o_end o = o_end o' /\ o_query o = o_query o' /\
  o_exchange o = o_exchange o' /\ o_no_balance_check o = o_no_balance_check o'.
Definition same_but_period (o o' : opts) : Prop :=
  o_real o = o_real o' /\ o_depth o = o_depth o' /\ o_query o = o_query o' /\
  o_exchange o = o_exchange o' /\ o_no_balance_check o = o_no_balance_check o'.
(** The period of [whole] is that of [first], up to the day before [day], and that of [second], from [day] on. *)
Definition divided (whole first second : opts) (day : Z) : Prop :=
  same_but_period whole first /\ same_but_period whole second /\
  o_begin first = o_begin whole /\ o_end first = Some day /\ o_begin second = Some day /\ o_end second = o_end whole /\
  (forall b, o_begin whole = Some b -> (b <= day)%Z) /\ (forall e, o_end whole = Some e -> (day <= e)%Z).
