(** Vocabulary for C96: numbers of things. *)
From Verif Require Import Base Money Alist Txn.

(** Exactly [n] things satisfy [P]. *)
Definition how_many {A} (P : A -> Prop) (n : nat) : Prop :=
  exists xs, NoDup xs /\ (forall x, In x xs <-> P x) /\ length xs = n.
(** The parts of a name, put together with colons. *)
Fixpoint with_colons (parts : list str) : str :=
  match parts with
  | [] => []
  | [p] => p
  | p :: r => p ++ L ":" ++ with_colons r
  end.
(** A posting of which the user gave neither the amount nor what the account should hold. *)
Definition left_out (p : posting) : Prop := p_amount p = None /\ p_balance p = None.
(** The positions of postings that satisfy [P]. *)
Definition position_of (ps : list posting) (P : posting -> Prop) (i : nat) : Prop := exists p, nth_error ps i = Some p /\ P p.
