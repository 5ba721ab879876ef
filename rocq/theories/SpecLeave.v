(** Vocabulary for C99: a journal with automated transactions and the same journal without them. *)
From Verif Require Import Base Money Alist Txn Filter Tokens Ledger Reports Spec SpecTxn SpecLedger SpecReports SpecBook SpecAssert SpecAgree SpecJoin SpecRules.
Open Scope Qc_scope.

(** [l'] is [l] without the automated transactions. *)
Definition without_rules (l' l : pledger) : Prop := same_directives l' l /\ pl_txns l' = journal_txns l.
(** The rules book nothing that is asked for: their postings are to accounts not in [A], or are virtual and only real
    ones are asked for. *)
Definition rules_elsewhere (w : world) (o : opts) (l : pledger) (A : str -> bool) : Prop :=
  forall r ap, In r (rules l) -> In ap (t_postings r) -> asked_for o (rp_kind ap) = false \/ A (account_meant w l (rp_account ap)) = false.
(** The same question about all accounts. *)
Definition of_all_accounts (o o' : opts) : Prop :=
  o_real o' = o_real o /\ o_begin o' = o_begin o /\ o_end o' = o_end o /\ o_query o' = [] /\ o_depth o' = o_depth o /\ o_exchange o' = o_exchange o /\
  o_no_balance_check o' = o_no_balance_check o.
(** The rules multiply: each of their postings has a number without commodity. *)
Definition factor (ap : rposting) : Qc := match rp_money ap with Some (q, []) => q | _ => 0 end.
Definition rules_multiply (l : pledger) : Prop :=
  forall r ap, In r (rules l) -> In ap (t_postings r) -> exists q, rp_money ap = Some (q, []).
(** What a rule puts into the accounts that satisfy [P] for each unit it is applied to. *)
Definition rule_share (w : world) (l : pledger) (P : str -> bool) (r : ruling) : Qc :=
  qsum (map (fun ap => if P (account_meant w l (rp_account ap)) then factor ap else 0) (snd r)).
