(** Vocabulary for C105: what --no-balance-check changes. *)
From Verif Require Import Base Money Txn Filter Tokens Reports Spec SpecTxn SpecReports SpecLedger SpecBook SpecAssert.
Open Scope Qc_scope.

(** The same options with --no-balance-check, and without. *)
Definition check_set (skip : bool) (o : opts) : opts :=
  {| o_query := o_query o; o_real := o_real o; o_begin := o_begin o; o_end := o_end o; o_exchange := o_exchange o; o_depth := o_depth o; o_no_balance_check := skip |}.
(** A real posting that states a balance and no amount. *)
Definition only_balance (p : rposting) : bool :=
  kind_eqb (rp_kind p) Real && match rp_money p, rp_balance p with None, Some _ => true | _, _ => false end.
(** A real posting without amount and balance. *)
Definition open_posting (p : rposting) : bool :=
  kind_eqb (rp_kind p) Real && match rp_money p, rp_balance p with None, None => true | _, _ => false end.
(** No real posting of a transaction states a balance; only those with an amount do. *)
Definition no_balances (l : pledger) : Prop :=
  forall t p, In t (pl_txns l) -> t_type t = TReal -> In p (t_postings t) -> rp_kind p = Real -> rp_balance p = None.
Definition balances_beside_amounts (l : pledger) : Prop :=
  forall t p, In t (pl_txns l) -> t_type t = TReal -> In p (t_postings t) -> only_balance p = false.
(** The transactions, one after the other: no posting states a balance only; or one does, no amount is left open, and the
    real postings cancel (and do not exchange one commodity for another). *)
Fixpoint settled (w : world) (l : pledger) (now : holdings) (ts : list (txn rposting)) : Prop :=
  match ts with
  | [] => True
  | t :: r =>
      ((forall p, In p (t_postings t) -> only_balance p = false) \/
       (exists p, filter only_balance (t_postings t) = [p]) /\ filter open_posting (t_postings t) = [] /\
       forall c, value_sum w l false now (t_postings t) c = 0) /\
      settled w l (after_txn w l false now t) r
  end.
