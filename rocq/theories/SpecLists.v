(** Vocabulary for the lists of names and prices (C87), read off the journal. *)
From Verif Require Import Base Money Alist Txn Dates Price Tokens Ledger Spec SpecDates SpecLedger SpecReports SpecLayout.

(** No directive knows the name, neither as a name nor as an alias, in any letter case. *)
Definition undeclared {T} (w : world) (dirs : alist T) (n : str) : Prop := forall e, l_get w n dirs <> Ok e.

(** The lines of a list of names, in strictly ascending order: what the directives declare, and, of the names in
    use that no directive knows, one spelling each. *)
Record names_listed {T} (w : world) (name : T -> str) (dirs : alist T) (used : str -> Prop) (lines : list str) : Prop := {
  nl_order : ascending lines;
  nl_declared : forall e, In e (l_values dirs) -> In (name e) lines;
  nl_used : forall n, used n -> undeclared w dirs n -> exists m, In m lines /\ used m /\ w_lower w m = w_lower w n;
  nl_only : forall n, In n lines -> (exists e, In e (l_values dirs) /\ name e = n) \/ (used n /\ undeclared w dirs n);
  nl_once : forall n m, In n lines -> In m lines -> w_lower w n = w_lower w m -> n = m;
}.
(** For payees, names that a pattern of a directive matches need no line of their own. *)
Definition claimed (w : world) (dirs : alist payee) (n : str) : Prop :=
  exists y, In y (l_values dirs) /\ claims_name w n y.
Record payees_listed (w : world) (dirs : alist payee) (used : str -> Prop) (lines : list str) : Prop := {
  yl_order : ascending lines;
  yl_declared : forall y, In y (l_values dirs) -> In (py_name y) lines;
  yl_used : forall n, used n -> undeclared w dirs n -> exists m, used m /\ w_lower w m = w_lower w n /\ (In m lines \/ claimed w dirs m);
  yl_only : forall n, In n lines -> (exists y, In y (l_values dirs) /\ py_name y = n) \/ (used n /\ undeclared w dirs n /\ ~ claimed w dirs n);
  yl_once : forall n m, In n lines -> In m lines -> w_lower w n = w_lower w m -> n = m;
}.

(** The line of a price: the day, the commodity and what one of it costs, to the second decimal. *)
Definition price_shown (p : price) (line : str) : Prop :=
  exists day amount, line = day ++ L " " ++ pr_com p ++ L " " ++ amount /\
    (exists y m d, day_count y m d (pr_date p) /\ ((0 <= y <= 9999)%Z -> date_written (L "-") y m d day)) /\
    amount_text (M (pr_amount p) (pr_cur p)) amount.
