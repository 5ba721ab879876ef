(** Vocabulary for C106: options that change nothing. *)
From Verif Require Import Base Money Alist Txn Filter Tokens Reports Spec SpecReports SpecLedger SpecBook.

(** The options ask for the same but perhaps for another period and for --real. *)
Definition same_but_window (o o' : opts) : Prop :=
  o_query o' = o_query o /\ o_exchange o' = o_exchange o /\ o_depth o' = o_depth o /\ o_no_balance_check o' = o_no_balance_check o.
(** Every transaction of the journal is in the period asked for. *)
Definition period_of_all (o : opts) (l : pledger) : Prop :=
  forall t d, In t (pl_txns l) -> t_type t = TReal -> t_date t = Some d ->
    (forall b, o_begin o = Some b -> (b <= d)%Z) /\ (forall e, o_end o = Some e -> (d < e)%Z).
(** No posting, of a transaction or of an automated transaction, is virtual. *)
Definition only_real_postings (l : pledger) : Prop :=
  forall t p, In t (pl_txns l) -> In p (t_postings t) -> rp_kind p = Real.
(** The accounts the journal declares or mentions have a name, of at most [d] levels. *)
Definition accounts_within (d : nat) (l : pledger) : Prop :=
  (forall a, In a (l_values (pl_accounts l)) -> ac_name a <> [] /\ (levels (ac_name a) <= d)%nat) /\
  forall n, mentions_account l n -> n <> [] /\ (levels n <= d)%nat.
