(** Vocabulary for C102: the ways to write a transaction. *)
From Verif Require Import Base Money Txn Filter Tokens Reports Spec SpecReports SpecBook SpecAgree SpecJoin.
Open Scope Qc_scope.

Section Ways.
  Context (w : world) (l : pledger).
  (** The same account, by any of its names, and the same kind of posting. *)
  Definition same_place (p p' : rposting) : Prop :=
    account_meant w l (rp_account p') = account_meant w l (rp_account p) /\ rp_kind p' = rp_kind p.
  (** What the real postings are worth. *)
  Definition real_value (ps : list rposting) (c : str) : Qc :=
    qsum (map (fun p => if kind_eqb (rp_kind p) Real then written_value w l p c else 0) ps).
  Definition same_amount (m m' : option (Qc * str)) : Prop :=
    match m, m' with
    | None, None => True
    | Some x, Some x' => forall c, written_in w l x' c = written_in w l x c
    | _, _ => False
    end.
  (** The postings of a transaction written in another way: in another order; one posting divided into two to the same
      account (at the same price for each unit, or without a cost); an amount that was left open written out; an account or
      a commodity by another of its names, a total cost for a price for each unit, other comments. *)
  Inductive another_way : list rposting -> list rposting -> Prop :=
  | aw_order ps ps' : Permutation ps ps' -> another_way ps ps'
  | aw_divided before p p1 p2 after x y k :
      same_place p p1 -> same_place p p2 ->
      rp_money p = Some (x + y, k) -> rp_money p1 = Some (x, k) -> rp_money p2 = Some (y, k) ->
      (rp_cost p = None /\ rp_cost p1 = None /\ rp_cost p2 = None \/
       rp_kind p <> VirtualMustBalance /\ rp_cost_type p = Some PPerUnit /\
       rp_cost p1 = rp_cost p /\ rp_cost_type p1 = Some PPerUnit /\ rp_cost p2 = rp_cost p /\ rp_cost_type p2 = Some PPerUnit) ->
      another_way (before ++ p :: after) (before ++ p1 :: p2 :: after)
  | aw_written_out before p p' after q k :
      rp_kind p = Real -> same_place p p' -> rp_money p = None -> rp_money p' = Some (q, k) -> rp_cost p' = None ->
      (forall x, In x (before ++ after) -> rp_money x <> None) ->
      (forall c, real_value (before ++ after) c + written_in w l (q, k) c = 0) ->
      another_way (before ++ p :: after) (before ++ p' :: after)
  | aw_named before p p' after :
      same_place p p' -> same_amount (rp_money p) (rp_money p') -> (forall c, written_value w l p' c = written_value w l p c) ->
      another_way (before ++ p :: after) (before ++ p' :: after)
  | aw_back ps ps' : another_way ps' ps -> another_way ps ps'
  | aw_steps ps ps' ps'' : another_way ps ps' -> another_way ps' ps'' -> another_way ps ps''.
  Definition written_otherwise (t t' : txn rposting) : Prop :=
    t_date t' = t_date t /\ another_way (t_postings t) (t_postings t').
End Ways.
(** Two journals with the same directives, each transaction of one being written in some way in the other. *)
Definition journal_otherwise (w : world) (l l' : pledger) : Prop :=
  pl_accounts l' = pl_accounts l /\ pl_commodities l' = pl_commodities l /\ exists ts, Permutation (pl_txns l) ts /\ Forall2 (written_otherwise w l) ts (pl_txns l').
