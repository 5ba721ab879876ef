(** Vocabulary for journals with the same transactions in which the names that are used mean the same. *)
From Verif Require Import Base Money Alist Txn Expr Filter Tokens Ledger Reports Spec SpecTxn SpecLedger SpecBook SpecSame.

(** ** The names used *)
(** A commodity named in a condition or in an amount that is computed. *)
Fixpoint names_commodity (n : node) (c : str) : Prop :=
  match n with
  | NMoney x _ => c = x
  | NUnary _ a => names_commodity a c
  | NBinary _ a b => names_commodity a c \/ names_commodity b c
  | _ => False
  end.
(** Named in the condition of a rule, or in an expression for an amount in it. *)
Definition rule_names (w : world) (l : pledger) (c : str) : Prop :=
  exists t n, In t (rules l) /\ names_commodity n c /\
    (build_root w (get_filter_query t) = Ok n \/ exists p e, In p (t_postings t) /\ rp_expr p = Some e /\ build_root w e = Ok n).
(** Named in the query. *)
Definition query_names (w : world) (o : opts) (c : str) : Prop := exists n, query_node w o = Ok (Some n) /\ names_commodity n c.
(** Named in an amount, a cost or an asserted balance. *)
Definition amount_names (l : pledger) (c : str) : Prop :=
  exists t p q, In t (pl_txns l) /\ In p (t_postings t) /\
    (rp_money p = Some (q, c) \/ rp_cost p = Some (q, c) \/ rp_balance p = Some (q, c)).
Definition uses_commodity (w : world) (o : opts) (l : pledger) (c : str) : Prop :=
  amount_names l c \/ rule_names w l c \/ query_names w o c.
Definition describes (l : pledger) (d : str) : Prop := exists t, In t (journal_txns l) /\ t_desc t = d.

(** ** What they mean *)
(** The payee a posting gets for the name [n]: the one the name is declared for, else one with a pattern that matches,
    else a payee of that name. *)
Definition payee_stands (w : world) (l : pledger) (n m : str) : Prop :=
  (exists y, l_get w n (pl_payees l) = Ok y /\ m = py_name y) \/
  ((forall y, l_get w n (pl_payees l) <> Ok y) /\
   ((exists y, In y (l_values (pl_payees l)) /\ claims_name w n y /\ m = py_name y) \/
    ((forall y, In y (l_values (pl_payees l)) -> ~ claims_name w n y) /\ m = n))).
(** The payee the name is declared for, else a payee of that name. *)
Definition payee_declared (w : world) (l : pledger) (n : str) : str :=
  match l_get w n (pl_payees l) with Ok y => py_name y | _ => n end.
(** The postings of the payee to an unknown account go to the account [a]. *)
Definition claimed_by (w : world) (l : pledger) (payee a : str) : Prop :=
  exists x, In x (l_values (pl_accounts l)) /\ claims_payee w payee x /\ ac_name x = a.
(** The same transactions and rules, and every name used in them or in the query means the same. *)
Record means_same (w : world) (o : opts) (l l' : pledger) : Prop := {
  sm_txns : pl_txns l' = pl_txns l;
  sm_accounts : forall n, mentions_account l n -> account_meant w l' n = account_meant w l n;
  sm_commodities : forall c, uses_commodity w o l c -> commodity_meant w l' c = commodity_meant w l c;
  sm_payees : forall n m, mentions_payee l n -> (payee_stands w l' n m <-> payee_stands w l n m);
  sm_descriptions : forall d, describes l d -> payee_declared w l' d = payee_declared w l d;
  sm_claims : forall n m a, mentions_payee l n -> payee_stands w l n m -> (claimed_by w l' m a <-> claimed_by w l m a);
}.
(** The names are clear, those of conditions and descriptions too. *)
Record clear_uses (w : world) (o : opts) (l : pledger) : Prop := {
  cu_names : clear_names w l;
  cu_named : forall c n, rule_names w l c \/ query_names w o c -> uses_commodity w o l n \/ mentions_commodity l n ->
    w_lower w c = w_lower w n -> commodity_meant w l c = commodity_meant w l n;
  cu_described : forall d n, describes l d -> describes l n \/ mentions_payee l n -> w_lower w d = w_lower w n ->
    d = n \/ exists y, l_get w d (pl_payees l) = Ok y;
}.
(** The same price lines, of commodities that mean the same. *)
Record same_rates (w : world) (l l' : pledger) : Prop := {
  sr_lines : pl_prices l' = pl_prices l;
  sr_named : forall p c, In p (pl_prices l) -> c = pp_commodity p \/ c = pp_other p -> commodity_meant w l' c = commodity_meant w l c;
}.
