(** Vocabulary for C103: a journal with and without some of the balances it states. *)
From Verif Require Import Base Money Txn Filter Tokens Reports Spec SpecReports SpecLedger SpecBook SpecAssert.
Open Scope Qc_scope.

(** The same posting, as far as account, kind, amount and cost go. *)
Record same_posting (p p' : rposting) : Prop := {
  sp_account : rp_account p' = rp_account p;
  sp_kind : rp_kind p' = rp_kind p;
  sp_money : rp_money p' = rp_money p;
  sp_cost : rp_cost p' = rp_cost p;
  sp_cost_type : rp_cost_type p' = rp_cost_type p;
}.
Section Told.
  (** [skip]: the balances are not looked at (--no-balance-check).  [honest]: only true balances are left out. *)
  Context (w : world) (l : pledger) (skip honest : bool).
  (** One posting in the two journals, if the accounts hold [now]: the same posting; with a balance, beside its amount, in
      the first only; or one that only states a balance there, and in the other has the amount that is missing to it. *)
  Inductive told (now : holdings) (p p' : rposting) : Prop :=
  | told_same : same_posting p p' -> rp_balance p' = rp_balance p -> told now p p'
  | told_left_out : same_posting p p' -> rp_money p <> None -> rp_balance p' = None ->
      (honest = true -> true_of w l skip now p) -> told now p p'
  | told_written_out q k b : skip = false -> rp_kind p = Real -> rp_kind p' = Real -> rp_account p' = rp_account p ->
      rp_money p = None -> rp_balance p = Some b -> rp_money p' = Some (q, k) -> rp_cost p' = None ->
      (forall c, written_in w l (q, k) c = written_in w l b c - now (its_account w l p) c) ->
      rp_balance p' = None \/ rp_balance p' = rp_balance p -> told now p p'.
  Inductive all_told : holdings -> list rposting -> list rposting -> Prop :=
  | all_told_none now : all_told now [] []
  | all_told_more now p p' ps ps' : told now p p' -> all_told (after_posting w l skip now p) ps ps' -> all_told now (p :: ps) (p' :: ps').
  Inductive txns_told : holdings -> list (txn rposting) -> list (txn rposting) -> Prop :=
  | txns_told_none now : txns_told now [] []
  | txns_told_more now t t' ts ts' : t_date t' = t_date t -> all_told now (t_postings t) (t_postings t') ->
      txns_told (after_txn w l skip now t) ts ts' -> txns_told now (t :: ts) (t' :: ts').
End Told.
(** Two journals with the same directives for accounts and commodities, whose transactions by date say the same. *)
Definition journal_told (w : world) (skip honest : bool) (l l' : pledger) : Prop :=
  pl_accounts l' = pl_accounts l /\ pl_commodities l' = pl_commodities l /\
  exists us us', date_sorted (pl_txns l) us /\ date_sorted (pl_txns l') us' /\ txns_told w l skip honest nothing us us'.
