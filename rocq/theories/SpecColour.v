(** Specification vocabulary for the colours of the reports (C82). *)
From Verif Require Import Base Money Dates Reports Spec SpecText SpecDates SpecLayout Colour.

(** The characters of a line, each with its style. *)
Definition cells (l : cline) : list (style * N) := flat_map (fun p => map (pair (fst p)) (snd p)) l.
(** Only the characters. *)
Definition characters (l : cline) : str := map snd (cells l).
(** A text in one style. *)
Definition in_style (s : style) (text : str) : list (style * N) := map (pair s) text.

Definition below_zero (m : money) : Prop := match m with MZero => False | M a _ => (a < 0)%Qc end.
(** Red for amounts below zero, the terminal's own colour for the others. *)
Definition colour_of (m : money) (s : style) : Prop := (below_zero m /\ s = SRed) \/ (~ below_zero m /\ s = SPlain).

(** ** The balance report *)
Definition amount_cells (m : money) (l : list (style * N)) : Prop :=
  exists text field s, amount_text m text /\ at_right 20 text field /\ colour_of m s /\ l = in_style s field.
(** One line per amount, the last one with the account in blue. *)
Inductive amounts_coloured (indent : nat) (label : str) : list money -> list cline -> Prop :=
| ac_last m l a : amount_cells m a -> cells l = a ++ in_style SPlain (repeat c_sp indent) ++ in_style SBlue label ->
    amounts_coloured indent label [m] [l]
| ac_more m l ms ls : amount_cells m (cells l) -> amounts_coloured indent label ms ls -> amounts_coloured indent label (m :: ms) (l :: ls).
Definition row_coloured (r : brow) (ls : list cline) : Prop :=
  amounts_coloured (2 * Nat.max 1 (br_indent r)) (br_label r) (br_moneys r) ls.
Definition total_coloured (t : option (list money)) (ls : list cline) : Prop :=
  match t with
  | None => ls = []
  | Some ms => exists rule fields, ls = rule :: fields /\ cells rule = in_style SPlain (L "--------------------") /\
      Forall2 (fun m l => amount_cells m (cells l)) ms fields
  end.
Definition balance_coloured (r : breport) (lines : list cline) : Prop :=
  exists groups total, lines = concat groups ++ total /\ Forall2 row_coloured (bp_rows r) groups /\ total_coloured (bp_total r) total.

(** ** The register *)
(** As [colour_of], but for the zero without a commodity, which is red in the column of the amounts. *)
Definition colour_of_entry (m : money) (s : style) : Prop := (m = MZero /\ s = SRed) \/ (m <> MZero /\ colour_of m s).
Inductive entry_coloured (terminal : option nat) (colour : money -> style -> Prop) (r : rrow) : list cline -> Prop :=
| ec ca cm h acc a ta sa m tm t st ms l more : columns terminal ca cm ->
    heading_printed (rr_head r) h -> at_left ca (rr_account r) acc ->
    amount_text (rr_amount r) ta -> at_right cm ta a -> colour (rr_amount r) sa ->
    rr_total r = m :: ms -> amount_text m tm -> at_right cm tm t -> colour_of m st ->
    cells l = in_style SPlain h ++ in_style SBlue acc ++ in_style sa a ++ in_style st t ->
    Forall2 (fun m' line => exists text f s, amount_text m' text /\ at_right cm text f /\ colour_of m' s /\
      cells line = in_style SPlain (repeat c_sp (53 + ca + cm)) ++ in_style s f) ms more ->
    entry_coloured terminal colour r (l :: more).
