(** Specification vocabulary for transactions. *)
From Verif Require Import Base Money Txn Spec.
Open Scope Qc_scope.

(** The value of an amount in commodity [c]: the amount itself, or what it cost; a total cost has the
    sign of the amount. *)
Definition value_at_cost (m : money) (k : option cost) (c : str) : Qc :=
  match k with
  | None => money_amt m c
  | Some (CTotal a) => if qc_neg (m_amount m) then - money_amt a c else money_amt a c
  | Some (CPerUnit a) => m_amount m * money_amt a c
  end.

(** Sum over the postings of one kind that have an amount, valued at cost. *)
Definition posting_value (k : kind) (c : str) (p : posting) : Qc :=
  match p_amount p with
  | Some m => if kind_eqb (p_kind p) k then value_at_cost m (p_cost p) c else 0
  | None => 0
  end.
Definition group_value (k : kind) (ps : list posting) (c : str) : Qc := qsum (map (posting_value k c) ps).

(** Sum of the amounts (not the costs) of the real postings made to account [acc]. *)
Definition posting_to (acc c : str) (p : posting) : Qc :=
  match p_amount p with
  | Some m => if kind_eqb (p_kind p) Real && str_eqb (p_account p) acc then money_amt m c else 0
  | None => 0
  end.
Definition account_sum (ps : list posting) (acc c : str) : Qc := qsum (map (posting_to acc c) ps).

(** Everything cancels, or one commodity was exchanged for another. *)
Definition balanced (v : str -> Qc) : Prop := forall c, v c = 0.
Definition exchange (v : str -> Qc) : Prop := (exists c, 0 < v c) /\ (exists c, v c < 0).

(** Running balances as amounts per account and commodity. *)
Definition run_amt (bals : balances) (acc c : str) : Qc :=
  match hget str_eqb acc bals with Some b => bal_amt b c | None => 0 end.
(** Running balances made with the API of balances; accounts known to them. *)
Definition good_bals (bals : balances) : Prop := forall acc b, hget str_eqb acc bals = Some b -> built b.
Definition known (bals : balances) (acc : str) : Prop := hget str_eqb acc bals <> None.

(** Postings as the ledger builder makes them: a cost comes with an amount, and both have a
    commodity. *)
Definition cost_money (k : cost) : money := match k with CTotal m | CPerUnit m => m end.
Definition has_commodity (m : money) : Prop := match m with MZero => False | M _ _ => True end.
Definition good_posting (p : posting) : Prop :=
  match p_cost p with
  | None => True
  | Some k => has_commodity (cost_money k) /\
              match p_amount p with Some m => has_commodity m | None => False end
  end.
Definition good_txn (t : txn posting) : Prop := forall p, In p (t_postings t) -> good_posting p.

(** A real posting is elided if its amount is to be inferred from the rest of the transaction: it has
    no amount, and no assertion that is looked at. *)
Definition elided (skip : bool) (p : posting) : bool :=
  match p_kind p, p_amount p, p_balance p with
  | Real, None, None => true
  | Real, None, Some _ => skip
  | _, _, _ => false
  end.
Definition given (skip : bool) (p : posting) : bool :=
  kind_eqb (p_kind p) Real && negb (elided skip p).

(** [p'] is [p] as the user wrote it, with an amount. *)
Definition keeps (p p' : posting) : Prop :=
  p_account p' = p_account p /\ p_balance p' = p_balance p /\ p_cost p' = p_cost p /\
  p_kind p' = p_kind p /\ p_comments p' = p_comments p /\ p_tags p' = p_tags p /\
  p_payee p' = p_payee p /\ p_amount p' <> None /\
  (p_amount p <> None -> p_amount p' = p_amount p).

(** The other fields of a transaction. *)
Definition same_header (t t' : txn posting) : Prop :=
  t_date t' = t_date t /\ t_edate t' = t_edate t /\ t_cleared t' = t_cleared t /\
  t_code t' = t_code t /\ t_desc t' = t_desc t /\ t_payee t' = t_payee t /\
  t_comments t' = t_comments t /\ t_type t' = t_type t /\ t_tags t' = t_tags t.

(** ** The verdict on a transaction, on mathematical running balances *)

(** How bracketed virtual postings are valued: as real ones, except that a per-unit cost is
    multiplied by the magnitude of the amount. *)
Definition virtual_value (m : money) (k : option cost) (c : str) : Qc :=
  match k with
  | Some (CPerUnit a) => (if qc_neg (m_amount m) then - m_amount m else m_amount m) * money_amt a c
  | _ => value_at_cost m k c
  end.
Definition virtual_group (ps : list posting) (c : str) : Qc :=
  qsum (map (fun p => match p_amount p with
                      | Some m => if kind_eqb (p_kind p) VirtualMustBalance
                                  then virtual_value m (p_cost p) c else 0
                      | None => 0 end) ps).

(** Running balances per account and commodity, value of the transaction so far, elided postings. *)
Record srun := { s_run : str -> str -> Qc; s_sum : str -> Qc; s_elided : nat }.

(** What one posting does; [None] when its assertion or its assignment fails. *)
Inductive spec_step (skip : bool) (s : srun) (p : posting) : option srun -> Prop :=
| ss_virtual : p_kind p <> Real -> spec_step skip s p (Some s)
| ss_amount m s' : p_kind p = Real -> p_amount p = Some m ->
    (skip = false -> forall a c, p_balance p = Some (M a c) -> s_run s (p_account p) c + money_amt m c = a) ->
    (forall acc c, s_run s' acc c = s_run s acc c + if str_eqb acc (p_account p) then money_amt m c else 0) ->
    (forall c, s_sum s' c = s_sum s c + value_at_cost m (p_cost p) c) ->
    s_elided s' = s_elided s ->
    spec_step skip s p (Some s')
| ss_violated m a c : p_kind p = Real -> p_amount p = Some m -> skip = false ->
    p_balance p = Some (M a c) -> s_run s (p_account p) c + money_amt m c <> a ->
    spec_step skip s p None
| ss_assign m b s' : p_kind p = Real -> p_amount p = None -> p_balance p = Some b -> skip = false ->
    (forall c, money_amt m c = money_amt b c - s_run s (p_account p) c) ->
    (forall acc c, s_run s' acc c = s_run s acc c + if str_eqb acc (p_account p) then money_amt m c else 0) ->
    (forall c, s_sum s' c = s_sum s c + money_amt m c) ->
    s_elided s' = s_elided s ->
    spec_step skip s p (Some s')
| ss_unassignable b c c' : p_kind p = Real -> p_amount p = None -> p_balance p = Some b -> skip = false ->
    c <> c' -> money_amt b c <> s_run s (p_account p) c -> money_amt b c' <> s_run s (p_account p) c' ->
    spec_step skip s p None
| ss_elided_posting s' : p_kind p = Real -> p_amount p = None -> (p_balance p = None \/ skip = true) ->
    (forall acc c, s_run s' acc c = s_run s acc c) -> (forall c, s_sum s' c = s_sum s c) ->
    s_elided s' = S (s_elided s) ->
    spec_step skip s p (Some s').

Inductive spec_steps (skip : bool) : srun -> list posting -> option srun -> Prop :=
| sr_nil s : spec_steps skip s [] (Some s)
| sr_stop s p ps : spec_step skip s p None -> spec_steps skip s (p :: ps) None
| sr_cons s p s1 ps r : spec_step skip s p (Some s1) -> spec_steps skip s1 ps r ->
    spec_steps skip s (p :: ps) r.

Inductive verdict := Accepted | NotBalanced | TooManyElided (n : nat).
Definition start (run : str -> str -> Qc) : srun := {| s_run := run; s_sum := fun _ => 0; s_elided := 0 |}.
Definition fine (v : str -> Qc) : Prop := balanced v \/ exchange v.
(** The verdict on [t], the running balances before it being [run]. *)
Inductive spec_verdict (skip : bool) (t : txn posting) (run : str -> str -> Qc) : verdict -> Prop :=
| sv_virtual : ~ fine (virtual_group (t_postings t)) -> spec_verdict skip t run NotBalanced
| sv_assertion : fine (virtual_group (t_postings t)) ->
    spec_steps skip (start run) (t_postings t) None -> spec_verdict skip t run NotBalanced
| sv_balanced s : fine (virtual_group (t_postings t)) ->
    spec_steps skip (start run) (t_postings t) (Some s) -> s_elided s = 0%nat -> fine (s_sum s) ->
    spec_verdict skip t run Accepted
| sv_unbalanced s : fine (virtual_group (t_postings t)) ->
    spec_steps skip (start run) (t_postings t) (Some s) -> s_elided s = 0%nat -> ~ fine (s_sum s) ->
    spec_verdict skip t run NotBalanced
| sv_filled s : fine (virtual_group (t_postings t)) ->
    spec_steps skip (start run) (t_postings t) (Some s) -> s_elided s = 1%nat ->
    spec_verdict skip t run Accepted
| sv_many s n : fine (virtual_group (t_postings t)) ->
    spec_steps skip (start run) (t_postings t) (Some s) -> s_elided s = S (S n) ->
    spec_verdict skip t run (TooManyElided (S (S n))).

(** The outcome of the code, as a verdict. *)
Definition outcome {A} (r : res A) (v : verdict) : Prop :=
  match v with
  | Accepted => exists a, r = Ok a
  | NotBalanced => r = Err (ELedger TransactionIsNotBalanced)
  | TooManyElided n => r = Err (ELedger (TooManyEmptyPostings n))
  end.
