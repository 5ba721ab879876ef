(** Specification vocabulary for C83: what a journal with balance assertions and assignments says about its accounts,
    read off the journal as written, one posting after the other. *)
From Verif Require Import Base Money Alist Txn Filter Tokens Ledger Reports Spec SpecTxn SpecLedger SpecQuery SpecReports SpecBook.
Open Scope Qc_scope.

(** What the accounts hold: account, commodity, amount. *)
Definition holdings : Type := str -> str -> Qc.
Definition nothing : holdings := fun _ _ => 0.

Section Reading.
Context (w : world) (l : pledger) (skip : bool).

Definition its_account (p : rposting) : str := account_meant w l (rp_account p).
(** Real postings whose amount is left open: without an amount, and without a balance that is looked at. *)
Definition blank (p : rposting) : bool :=
  real_posting p && match rp_money p, rp_balance p with
                    | None, None => true
                    | None, Some _ => skip
                    | Some _, _ => false
                    end.
(** What a posting moves into its account: its amount; if it states a balance only, what is missing to it. *)
Definition moved (now : holdings) (p : rposting) (c : str) : Qc :=
  match rp_money p, rp_balance p with
  | Some m, _ => written_in w l m c
  | None, Some b => if skip then 0 else written_in w l b c - now (its_account p) c
  | None, None => 0
  end.
(** What it counts in its transaction: what it moves, or what that cost. *)
Definition counts (now : holdings) (p : rposting) (c : str) : Qc :=
  match rp_money p with
  | Some _ => written_value w l p c
  | None => moved now p c
  end.
(** What the accounts hold after it.  Virtual postings are not looked at. *)
Definition after_posting (now : holdings) (p : rposting) : holdings := fun a c =>
  now a c + if real_posting p && str_eqb a (its_account p) then moved now p c else 0.
(** The balance it states is true: with the amount, the account holds that much of the commodity; without an
    amount, one commodity only is missing. *)
Definition true_of (now : holdings) (p : rposting) : Prop :=
  real_posting p = true -> skip = false -> forall q k, rp_balance p = Some (q, k) ->
  match rp_money p with
  | Some _ => after_posting now p (its_account p) (commodity_meant w l k) = q
  | None => forall c d, moved now p c <> 0 -> moved now p d <> 0 -> c = d
  end.

(** One posting after the other. *)
Fixpoint after_postings (now : holdings) (ps : list rposting) : holdings :=
  match ps with [] => now | p :: r => after_postings (after_posting now p) r end.
Fixpoint all_true (now : holdings) (ps : list rposting) : Prop :=
  match ps with [] => True | p :: r => true_of now p /\ all_true (after_posting now p) r end.
Fixpoint value_sum (now : holdings) (ps : list rposting) (c : str) : Qc :=
  match ps with
  | [] => 0
  | p :: r => (if real_posting p then counts now p c else 0) + value_sum (after_posting now p) r c
  end.
(** What a transaction adds to the accounts that satisfy [A], counting the kinds of postings [K]; a posting
    with an open amount takes what the others leave, which is [rest]. *)
Fixpoint adds_to (rest : str -> Qc) (K : kind -> bool) (A : str -> bool) (now : holdings) (ps : list rposting) (c : str) : Qc :=
  match ps with
  | [] => 0
  | p :: r => (if K (rp_kind p) && A (its_account p) then if blank p then rest c else moved now p c else 0) +
              adds_to rest K A (after_posting now p) r c
  end.
Definition rest_of (now : holdings) (t : txn rposting) (c : str) : Qc := - value_sum now (t_postings t) c.
Definition txn_adds_to (K : kind -> bool) (A : str -> bool) (now : holdings) (t : txn rposting) (c : str) : Qc :=
  adds_to (rest_of now t) K A now (t_postings t) c.
(** What the accounts hold after a transaction; the posting with the open amount comes last. *)
Definition after_txn (now : holdings) (t : txn rposting) : holdings := fun a c =>
  now a c + txn_adds_to (fun k => kind_eqb k Real) (str_eqb a) now t c.
(** A transaction is in order: the bracketed postings cancel (or exchange one commodity for another), the
    balances stated are true, and the real postings cancel too, unless the amount of exactly one is left open. *)
Definition in_order_now (now : holdings) (t : txn rposting) : Prop :=
  fine (kind_value w l VirtualMustBalance t) /\ all_true now (t_postings t) /\
  match filter blank (t_postings t) with
  | [] => fine (value_sum now (t_postings t))
  | [_] => True
  | _ => False
  end.

(** One transaction after the other. *)
Fixpoint all_in_order (now : holdings) (ts : list (txn rposting)) : Prop :=
  match ts with [] => True | t :: r => in_order_now now t /\ all_in_order (after_txn now t) r end.
Fixpoint after_txns (now : holdings) (ts : list (txn rposting)) : holdings :=
  match ts with [] => now | t :: r => after_txns (after_txn now t) r end.
(** How much of [c] the transactions of the period asked for put into the accounts that satisfy [A]. *)
Fixpoint total_added (o : opts) (A : str -> bool) (now : holdings) (ts : list (txn rposting)) (c : str) : Qc :=
  match ts with
  | [] => 0
  | t :: r => (if in_window o t then txn_adds_to (asked_for o) A now t c else 0) + total_added o A (after_txn now t) r c
  end.

(** ** The register *)
(** The amount shown for a posting that is not left open: as written, or what is missing to the balance. *)
Definition amount_of (now : holdings) (p : rposting) (m : money) : Prop :=
  (forall c, money_amt m c = moved now p c) /\ forall q k, rp_money p = Some (q, k) -> m = M q (commodity_meant w l k).
(** The lines of the real postings that are not left open. *)
Inductive real_entries : holdings -> list rposting -> list entry -> Prop :=
| re_nil now : real_entries now [] []
| re_skip now p ps es : real_posting p && negb (blank p) = false -> real_entries (after_posting now p) ps es -> real_entries now (p :: ps) es
| re_line now p ps m es : real_posting p && negb (blank p) = true -> amount_of now p m -> real_entries (after_posting now p) ps es ->
    real_entries now (p :: ps) ((Real, its_account p, m) :: es).
(** The lines of a transaction: those of the real postings; for the one left open, a line for each commodity the
    others leave; those of the virtual postings. *)
Inductive entries_now (now : holdings) (t : txn rposting) : list entry -> Prop :=
| en reals fills :
    real_entries now (t_postings t) reals ->
    (forall e, In e fills -> exists p, filter blank (t_postings t) = [p] /\ fst e = (Real, its_account p)) ->
    NoDup fills ->
    (forall p, filter blank (t_postings t) = [p] -> forall m,
       In m (map snd fills) <-> exists c, rest_of now t c <> 0 /\ m = M (rest_of now t c) c) ->
    entries_now now t (reals ++ fills ++ flat_map (written_entry w l) (filter (fun p => negb (real_posting p)) (t_postings t))).
(** One transaction after the other. *)
Inductive all_entries : holdings -> list (txn rposting) -> list (list entry) -> Prop :=
| ae_nil now : all_entries now [] []
| ae_cons now t ts es ess : entries_now now t es -> all_entries (after_txn now t) ts ess -> all_entries now (t :: ts) (es :: ess).
End Reading.

(** The journals considered: those of C73, with balances. *)
Definition stated_posting (p : rposting) : Prop :=
  rp_expr p = None /\ (rp_kind p <> Real -> rp_money p <> None) /\ ~ zero_total_cost p.
(** Names that are the same up to letter case stand for the same account or commodity, and no account has patterns
    of payees. *)
Record clear_names (w : world) (l : pledger) : Prop := {
  cn_accounts : forall n m, mentions_account l n -> mentions_account l m -> w_lower w n = w_lower w m ->
    account_meant w l n = account_meant w l m;
  cn_commodities : forall n m, mentions_commodity l n -> mentions_commodity l m -> w_lower w n = w_lower w m ->
    commodity_meant w l n = commodity_meant w l m;
  cn_payees : forall a, In a (l_values (pl_accounts l)) -> ac_payees a = [];
}.
Record stated_journal (w : world) (l : pledger) : Prop := {
  sj_txns : forall t, In t (pl_txns l) -> t_type t = TReal;
  sj_postings : forall t p, In t (pl_txns l) -> In p (t_postings t) -> stated_posting p;
  sj_names : clear_names w l;
}.

(** ** The reports *)
(** What a balance report shows, if [total P c] is how much of [c] goes to the accounts that satisfy [P]. *)
Definition flat_shows (total : (str -> bool) -> str -> Qc) (r : breport) : Prop :=
  ascending (map br_label (bp_rows r)) /\
  (forall row, In row (bp_rows r) -> shown_amounts (br_moneys row) /\ br_moneys row <> [] /\
     forall c, moneys_amt (br_moneys row) c = total (str_eqb (br_label row)) c) /\
  (forall a c, total (str_eqb a) c <> 0 -> In a (map br_label (bp_rows r))).
Definition tree_shows (total : (str -> bool) -> str -> Qc) (r : breport) : Prop :=
  exists accs, ascending accs /\
    Forall2 (fun a row => br_indent row = levels a /\ (exists part more, own_part a part /\ br_label row = part ++ more) /\
      shown_amounts (br_moneys row) /\ br_moneys row <> [] /\
      (~ begins_with_colon a -> forall c, moneys_amt (br_moneys row) c = total (inside a) c)) accs (bp_rows r).
Definition total_shows (total : (str -> bool) -> str -> Qc) (tot : bool) (r : breport) : Prop :=
  (bp_total r <> None <-> tot = true /\ (2 <= length (bp_rows r))%nat) /\
  forall ms, bp_total r = Some ms -> (ms = [MZero] \/ shown_amounts ms /\ ms <> []) /\
    forall c, moneys_amt ms c = total (fun _ => true) c.
(** The rows of the register: the transactions by date, for each its lines, each with what has been added up so far. *)
Definition register_shows (w : world) (o : opts) (l : pledger) (us : list (txn rposting)) (ess : list (list entry)) (rows : list rrow) : Prop :=
  let lines := flat_map (entries_shown o) (combine us ess) in
  length rows = length lines /\
  forall i row h e, nth_error rows i = Some row -> nth_error lines i = Some (h, e) ->
    rr_account row = entry_shown e /\ rr_amount row = snd e /\ head_written w l h (rr_head row) /\
    (rr_total row = [MZero] \/ shown_amounts (rr_total row) /\ rr_total row <> []) /\
    forall c, moneys_amt (rr_total row) c = qsum (map (fun x => money_amt (snd (snd x)) c) (firstn (S i) lines)).

(** ** The last word about an account *)
(** A real posting to the account [a]. *)
Definition touches (w : world) (l : pledger) (a : str) (p : rposting) : Prop := real_posting p = true /\ its_account w l p = a.
(** The posting [p] of [t] states a balance of its account, nothing is posted to the account after it, and nothing
    is left open there. *)
Record last_word (w : world) (l : pledger) (us : list (txn rposting)) (p : rposting) (q : Qc) (k : str) : Prop := {
  lw_txns : exists us1 t us2 ps1 ps2, us = us1 ++ t :: us2 /\ t_postings t = ps1 ++ p :: ps2 /\
    (forall x, In x ps2 -> ~ touches w l (its_account w l p) x) /\
    (forall u x, In u us2 -> In x (t_postings u) -> ~ touches w l (its_account w l p) x) /\
    (forall x, In x (t_postings t) -> blank false x = true -> its_account w l x <> its_account w l p);
  lw_real : rp_kind p = Real;
  lw_balance : rp_balance p = Some (q, k);
}.
