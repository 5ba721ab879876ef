(** Specification vocabulary for C84: what a journal with automated transactions (rules) says, read off the journal
    as written. *)
From Verif Require Import Base Money Alist Txn Filter Tokens Ledger Reports Spec SpecTxn SpecLedger SpecQuery SpecReports SpecBook SpecAsk SpecWords SpecAssert.
Open Scope Qc_scope.

(** A line: what the register shows for a posting, and the posting of the journal it is written in.  The lines of an
    amount that is left open and those of the rules are written in none. *)
Definition line : Type := entry * option rposting.
Definition line_kind (x : line) : kind := entry_kind (fst x).
Definition line_account (x : line) : str := snd (fst (fst x)).
Definition line_money (x : line) : money := snd (fst x).
Definition real_line (x : line) : bool := kind_eqb (line_kind x) Real.

(** A rule: the accounts it is for, and its postings. *)
Definition ruling : Type := (str -> bool) * list rposting.
(** The rule as written: its first line has the words of a query for accounts. *)
Definition rule_says (w : world) (r : txn rposting) (x : ruling) : Prop :=
  t_postings r = snd x /\ exists words, words <> [] /\ query_written words (t_desc r) /\ asked_accounts w words (fst x).

Section Rules.
Context (w : world) (l : pledger) (skip : bool).

(** ** The lines of a transaction, without the rules *)
Definition written_line (p : rposting) : list line := map (fun e => (e, Some p)) (written_entry w l p).
(** Those of the real postings with amounts; for the one left open, a line for each commodity the others leave;
    those of the virtual postings. *)
Inductive txn_lines (t : txn rposting) : list line -> Prop :=
| tl fills :
    (forall x, In x fills -> snd x = None /\ exists p, filter open_posting (t_postings t) = [p] /\ fst (fst x) = (Real, account_meant w l (rp_account p))) ->
    NoDup fills ->
    (forall p, filter open_posting (t_postings t) = [p] -> forall m,
       In m (map line_money fills) <-> exists c, kind_value w l Real t c <> 0 /\ m = M (- kind_value w l Real t c) c) ->
    txn_lines t (flat_map written_line (filter real_posting (t_postings t)) ++ fills ++
                 flat_map written_line (filter (fun p => negb (real_posting p)) (t_postings t))).

(** ** The lines the rules add *)
(** A number without a commodity multiplies the amount of the line the rule is applied to; an amount is taken as it is.
    (No line here is the zero without a commodity: that is what a stated balance can leave, and such postings are not considered.) *)
Definition rule_money (m : money) (ap : rposting) : money :=
  match rp_money ap, m with
  | Some (q, []), M a c => M (a * q) c
  | Some (q, k), _ => M q (commodity_meant w l k)
  | None, _ => MZero
  end.
Definition rule_line (x : line) (ap : rposting) : line :=
  ((rp_kind ap, account_meant w l (rp_account ap), rule_money (line_money x) ap), None).
(** For each line of the transaction whose account the rule is for, all the postings of the rule. *)
Definition rule_adds (r : ruling) (xs : list line) : list line :=
  flat_map (fun x => if fst r (line_account x) then map (rule_line x) (snd r) else []) xs.
(** The rules, one after the other; none is applied to what another, or itself, has added. *)
Definition with_rules (rs : list ruling) (xs : list line) : list line := xs ++ flat_map (fun r => rule_adds r xs) rs.

(** ** The transaction with the lines of the rules *)
(** What a line counts: its amount, or what that cost. *)
Definition line_value (x : line) (c : str) : Qc :=
  match snd x with
  | Some p => written_value w l p c
  | None => money_amt (line_money x) c
  end.
Definition kind_sum (k : kind) (xs : list line) (c : str) : Qc :=
  qsum (map (fun x => if kind_eqb (line_kind x) k then line_value x c else 0) xs).
Definition after_line (now : holdings) (x : line) : holdings := fun a c =>
  now a c + if real_line x && str_eqb a (line_account x) then money_amt (line_money x) c else 0.
(** The balance stated with it is true. *)
Definition says_true (now : holdings) (x : line) : Prop :=
  real_line x = true -> skip = false -> forall p q k, snd x = Some p -> rp_balance p = Some (q, k) ->
  after_line now x (line_account x) (commodity_meant w l k) = q.
Fixpoint after_lines (now : holdings) (xs : list line) : holdings :=
  match xs with [] => now | x :: r => after_lines (after_line now x) r end.
Fixpoint lines_true (now : holdings) (xs : list line) : Prop :=
  match xs with [] => True | x :: r => says_true now x /\ lines_true (after_line now x) r end.
(** It is in order: the bracketed lines cancel (or exchange one commodity for another), the balances stated are true,
    and the real lines cancel too. *)
Definition lines_in_order (now : holdings) (xs : list line) : Prop :=
  fine (kind_sum VirtualMustBalance xs) /\ lines_true now xs /\ fine (kind_sum Real xs).
Fixpoint all_lines_in_order (now : holdings) (xss : list (list line)) : Prop :=
  match xss with [] => True | xs :: r => lines_in_order now xs /\ all_lines_in_order (after_lines now xs) r end.
End Rules.

(** ** The reports *)
(** The lines as they are shown: the real ones first. *)
Definition shown_lines (xs : list line) : list entry := map fst (filter real_line xs ++ filter (fun x => negb (real_line x)) xs).
(** How much of [c] the lines put into the accounts that satisfy [P], in the period asked for. *)
Definition entries_total (o : opts) (us : list (txn rposting)) (ess : list (list entry)) (P : str -> bool) (c : str) : Qc :=
  qsum (map (fun te => if in_window o (fst te)
                       then qsum (map (fun e => if asked_for o (entry_kind e) && P (snd (fst e)) then money_amt (snd e) c else 0) (snd te))
                       else 0) (combine us ess)).
(** What the balance reports of some accounts show, if [total P c] is how much of [c] goes to the accounts asked for
    that satisfy [P]. *)
Definition flat_cut_shows (o : opts) (total : (str -> bool) -> str -> Qc) (r : breport) : Prop :=
  ascending (map br_label (bp_rows r)) /\ forall cut, cut_to_depth o cut ->
  (forall row, In row (bp_rows r) -> shown_amounts (br_moneys row) /\ br_moneys row <> [] /\
     forall c, moneys_amt (br_moneys row) c = total (fun n => str_eqb (cut n) (br_label row)) c) /\
  (forall a c, total (fun n => str_eqb (cut n) a) c <> 0 -> In a (map br_label (bp_rows r))).
Definition tree_cut_shows (o : opts) (total : (str -> bool) -> str -> Qc) (r : breport) : Prop :=
  exists accs, ascending accs /\
    Forall2 (fun a row => br_indent row = levels a /\ (exists part more, own_part a part /\ br_label row = part ++ more) /\
      (forall d, o_depth o = Some d -> (levels a <= d)%nat) /\ shown_amounts (br_moneys row) /\ br_moneys row <> [] /\
      (~ begins_with_colon a -> forall c, moneys_amt (br_moneys row) c = total (inside a) c)) accs (bp_rows r).
(** The rows of the register of the accounts [A]. *)
Definition register_asked_shows (w : world) (o : opts) (l : pledger) (A : str -> bool) (us : list (txn rposting)) (ess : list (list entry)) (rows : list rrow) : Prop :=
  let lines := flat_map (asked_entries o A) (combine us ess) in
  length rows = length lines /\
  forall i row h e, nth_error rows i = Some row -> nth_error lines i = Some (h, e) ->
    rr_account row = entry_shown e /\ rr_amount row = snd e /\ head_written w l h (rr_head row) /\
    (rr_total row = [MZero] \/ shown_amounts (rr_total row) /\ rr_total row <> []) /\
    forall c, moneys_amt (rr_total row) c = qsum (map (fun x => money_amt (snd (snd x)) c) (firstn (S i) lines)).

(** The journals considered: those of C83 without balances instead of amounts, with rules whose postings have amounts. *)
Record ruled_journal (w : world) (l : pledger) : Prop := {
  ru_some : rules l <> [];
  ru_postings : forall t p, In t (journal_txns l) -> In p (t_postings t) -> stated_posting p /\ (rp_money p = None -> rp_balance p = None);
  ru_rules : forall r p, In r (rules l) -> In p (t_postings r) -> rp_money p <> None;
  ru_costs : forall t p, In t (pl_txns l) -> In p (t_postings t) -> ~ zero_total_cost p;
  ru_names : clear_names w l;
}.
