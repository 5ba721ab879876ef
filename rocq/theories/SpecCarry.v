(** Vocabulary for C98: a journal cut at a day, balances carried forward into a new journal, and a balance stated in it. *)
From Verif Require Import Base Money Alist Txn Filter Tokens Ledger Reports Spec SpecTxn SpecLedger SpecReports SpecBook SpecAssert SpecAgree SpecJoin.
Open Scope Qc_scope.

Definition same_names (l' l : pledger) : Prop := pl_accounts l' = pl_accounts l /\ pl_commodities l' = pl_commodities l.
Definition dated_before (day : Z) (t : txn rposting) : bool := match t_date t with Some d => (d <? day)%Z | None => false end.
(** [l'] has the declarations of [l] and those of its transactions that are dated before [day]. *)
Definition cut_at (day : Z) (l' l : pledger) : Prop := same_directives l' l /\ pl_txns l' = filter (dated_before day) (pl_txns l).
(** The same options without an end of the period. *)
Definition without_end (o o' : opts) : Prop := same_but_period o o' /\ o_begin o' = o_begin o /\ o_end o' = None.

(** The journal [l] is made of the transactions [first], dated before [day], and [later], dated from then on; the journal [l']
    has [opening] instead of [first]; after either the accounts hold the same. *)
Record carried_forward (w : world) (skip : bool) (day : Z) (l l' : pledger) (first opening later : list (txn rposting)) : Prop := {
  cf_names : same_names l' l;
  cf_old : date_sorted (pl_txns l) (first ++ later);
  cf_new : date_sorted (pl_txns l') (opening ++ later);
  cf_before : forall t, In t (first ++ opening) -> dated_before day t = true;
  cf_later : forall t, In t later -> dated_before day t = false;
  cf_in_order : all_in_order w l skip nothing first /\ all_in_order w l' skip nothing opening;
  cf_holds : forall a c, after_txns w l' skip nothing opening a c = after_txns w l skip nothing first a c;
}.

(** A transaction with one real posting that moves nothing and states that the account holds [q] of [k]. *)
Definition states_only (t : txn rposting) (n : str) (q : Qc) (k : str) : Prop :=
  t_type t = TReal /\ exists p, t_postings t = [p] /\ rp_kind p = Real /\ rp_account p = n /\ rp_money p = Some (0, k) /\ rp_cost p = None /\ rp_balance p = Some (q, k).
