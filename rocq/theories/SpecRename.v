(** Vocabulary for C97: the same bookings to other accounts. *)
From Verif Require Import Base Money Alist Txn Filter Tokens Ledger Reports Spec SpecTxn SpecLedger SpecReports SpecBook SpecAssert.
Open Scope Qc_scope.

(** What is booked to the account [a] is booked to [f a] instead; nothing else changes. *)
Record posting_moved (f : str -> str) (w : world) (l l' : pledger) (p p' : rposting) : Prop := {
  pm_account : account_meant w l' (rp_account p') = f (account_meant w l (rp_account p));
  pm_kind : rp_kind p' = rp_kind p;
  pm_money : rp_money p' = rp_money p;
  pm_type : rp_cost_type p' = rp_cost_type p;
  pm_cost : rp_cost p' = rp_cost p;
  pm_balance : rp_balance p' = rp_balance p;
}.
Definition txn_moved (f : str -> str) (w : world) (l l' : pledger) (t t' : txn rposting) : Prop :=
  t_date t' = t_date t /\ Forall2 (posting_moved f w l l') (t_postings t) (t_postings t').
Record accounts_moved (f : str -> str) (w : world) (l l' : pledger) : Prop := {
  am_commodities : pl_commodities l' = pl_commodities l;
  am_txns : Forall2 (txn_moved f w l l') (pl_txns l) (pl_txns l');
}.
(** Two accounts of the journal do not become one. *)
Definition kept_apart (f : str -> str) (w : world) (l : pledger) : Prop :=
  forall n m, mentions_account l n -> mentions_account l m -> f (account_meant w l n) = f (account_meant w l m) -> account_meant w l n = account_meant w l m.
(** No posting states the balance of its account. *)
Definition states_no_balance (l : pledger) : Prop := forall t p, In t (pl_txns l) -> In p (t_postings t) -> rp_balance p = None.
(** The options of the two reports: they differ in the words of the query only, and these ask for the same accounts. *)
Record same_question (f : str -> str) (w : world) (l : pledger) (A A' : str -> bool) (o o' : opts) : Prop := {
  sq_real : o_real o' = o_real o;
  sq_begin : o_begin o' = o_begin o;
  sq_end : o_end o' = o_end o;
  sq_check : o_no_balance_check o' = o_no_balance_check o;
  sq_accounts : forall n, mentions_account l n -> A' (f (account_meant w l n)) = A (account_meant w l n);
}.
Definition entry_moved (f : str -> str) (e : entry) : entry := (fst (fst e), f (snd (fst e)), snd e).
