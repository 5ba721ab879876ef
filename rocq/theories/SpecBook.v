(** Specification vocabulary for C73: what a journal without rules and assertions says about its accounts,
    read off the journal as written. *)
From Verif Require Import Base Money Alist Txn Filter Tokens Ledger Spec SpecTxn SpecLedger SpecQuery.
Open Scope Qc_scope.

(** What a name of the journal stands for: what a directive says, else itself. *)
Definition account_meant (w : world) (l : pledger) (n : str) : str :=
  match l_get w n (pl_accounts l) with Ok a => ac_name a | _ => n end.
Definition commodity_meant (w : world) (l : pledger) (n : str) : str :=
  match l_get w n (pl_commodities l) with Ok c => cu_name c | _ => n end.

(** The amount of commodity [c] in a written amount. *)
Definition written_in (w : world) (l : pledger) (m : Qc * str) (c : str) : Qc :=
  if str_eqb (commodity_meant w l (snd m)) c then fst m else 0.
(** The value of a posting: its amount, or what it cost; a total cost has the sign of the amount.  The value of
    a bracketed posting with a unit price is computed with the magnitude of the amount. *)
Definition written_value (w : world) (l : pledger) (p : rposting) (c : str) : Qc :=
  match rp_money p with
  | None => 0
  | Some (q, k) =>
      match rp_cost p, rp_cost_type p with
      | None, _ => written_in w l (q, k) c
      | Some x, Some PTotal => if qc_neg q then - written_in w l x c else written_in w l x c
      | Some x, _ => (if kind_eqb (rp_kind p) VirtualMustBalance && qc_neg q then - q else q) * written_in w l x c
      end
  end.
(** The value of the postings of one kind. *)
Definition kind_value (w : world) (l : pledger) (k : kind) (t : txn rposting) (c : str) : Qc :=
  qsum (map (fun p => if kind_eqb (rp_kind p) k then written_value w l p c else 0) (t_postings t)).
(** Real postings without an amount. *)
Definition open_posting (p : rposting) : bool :=
  kind_eqb (rp_kind p) Real && match rp_money p with None => true | Some _ => false end.
(** A transaction is in order: the bracketed postings cancel (or exchange one commodity for another), and so do
    the real ones, unless exactly one of them has no amount. *)
Definition in_order (w : world) (l : pledger) (t : txn rposting) : Prop :=
  fine (kind_value w l VirtualMustBalance t) /\
  match filter open_posting (t_postings t) with
  | [] => fine (kind_value w l Real t)
  | [_] => True
  | _ => False
  end.

(** What a posting adds to its account: its amount; a posting without one takes what the others leave. *)
Definition adds (w : world) (l : pledger) (t : txn rposting) (p : rposting) (c : str) : Qc :=
  match rp_money p with
  | Some m => written_in w l m c
  | None => - kind_value w l Real t c
  end.
(** Transactions of the period asked for; kinds of postings asked for. *)
Definition in_window (o : opts) (t : txn rposting) : bool :=
  match t_date t with
  | Some d => match o_begin o with Some b => (b <=? d)%Z | None => true end &&
              match o_end o with Some e => (d <? e)%Z | None => true end
  | None => false
  end.
Definition asked_for (o : opts) (k : kind) : bool := negb (o_real o) || kind_eqb k Real.
(** How much of [c] the journal puts into the accounts that satisfy [P]. *)
Definition book_total (w : world) (o : opts) (l : pledger) (P : str -> bool) (c : str) : Qc :=
  qsum (map (fun t => qsum (map (fun p => if asked_for o (rp_kind p) && P (account_meant w l (rp_account p)) then adds w l t p c else 0)
                               (t_postings t)))
            (filter (in_window o) (pl_txns l))).

(** The journals considered: no rules, no assertions, assignments and expressions; virtual postings have amounts;
    no total cost for nothing; names that stand for different things differ by more than letter case; no account
    takes over the postings of payees. *)
Definition plain_posting (p : rposting) : Prop :=
  rp_balance p = None /\ rp_expr p = None /\ (rp_kind p <> Real -> rp_money p <> None) /\ ~ zero_total_cost p.
Record plain_journal (w : world) (l : pledger) : Prop := {
  pj_txns : forall t, In t (pl_txns l) -> t_type t = TReal;
  pj_postings : forall t p, In t (pl_txns l) -> In p (t_postings t) -> plain_posting p;
  pj_accounts : forall n m, mentions_account l n -> mentions_account l m -> w_lower w n = w_lower w m ->
    account_meant w l n = account_meant w l m;
  pj_commodities : forall n m, mentions_commodity l n -> mentions_commodity l m -> w_lower w n = w_lower w m ->
    commodity_meant w l n = commodity_meant w l m;
  pj_payees : forall a, In a (l_values (pl_accounts l)) -> ac_payees a = [];
}.
(** A report of everything, or of a period, or of the real postings only. *)
Definition whole_report (o : opts) : Prop := o_query o = [] /\ o_depth o = None /\ o_exchange o = None.

(** ** The register *)
(** A line of the register: kind of posting, account, amount. *)
Definition entry : Type := kind * str * money.
Definition entry_kind (e : entry) : kind := fst (fst e).
Definition entry_shown (e : entry) : str :=
  match entry_kind e with
  | Real => snd (fst e)
  | Virtual => L "(" ++ snd (fst e) ++ L ")"
  | VirtualMustBalance => L "[" ++ snd (fst e) ++ L "]"
  end.
(** The line of a posting with an amount. *)
Definition written_entry (w : world) (l : pledger) (p : rposting) : list entry :=
  match rp_money p with
  | Some (q, k) => [(rp_kind p, account_meant w l (rp_account p), M q (commodity_meant w l k))]
  | None => []
  end.
Definition real_posting (p : rposting) : bool := kind_eqb (rp_kind p) Real.
(** The lines of a transaction: those of the real postings with amounts; for the posting without one, a line for
    each commodity the others leave; those of the virtual postings. *)
Inductive txn_entries (w : world) (l : pledger) (t : txn rposting) : list entry -> Prop :=
| te fills :
    (forall e, In e fills -> exists p, filter open_posting (t_postings t) = [p] /\ fst e = (Real, account_meant w l (rp_account p))) ->
    NoDup fills ->
    (forall p, filter open_posting (t_postings t) = [p] -> forall m,
       In m (map snd fills) <-> exists c, kind_value w l Real t c <> 0 /\ m = M (- kind_value w l Real t c) c) ->
    txn_entries w l t (flat_map (written_entry w l) (filter real_posting (t_postings t)) ++ fills ++
                       flat_map (written_entry w l) (filter (fun p => negb (real_posting p)) (t_postings t))).
(** Those the report shows, the first with the transaction. *)
Definition entries_shown (o : opts) (te : txn rposting * list entry) : list (option (txn rposting) * entry) :=
  if in_window o (fst te)
  then match filter (fun e => asked_for o (entry_kind e)) (snd te) with
       | [] => []
       | e :: r => (Some (fst te), e) :: map (fun x => (None, x)) r
       end
  else [].
(** The payee a description stands for: what a directive says, by its name or by a pattern; else itself, up to
    letter case. *)
Definition payee_meant (w : world) (l : pledger) (desc n : str) : Prop :=
  match l_get w desc (pl_payees l) with
  | Ok y => n = py_name y
  | _ => w_lower w n = w_lower w desc \/
         exists y m, In y (l_values (pl_payees l)) /\ claims_name w m y /\ w_lower w m = w_lower w desc /\ n = py_name y
  end.
Definition head_written (w : world) (l : pledger) (h : option (txn rposting)) (shown : option (Z * str)) : Prop :=
  match h, shown with
  | None, None => True
  | Some t, Some (d, n) => t_date t = Some d /\ payee_meant w l (t_desc t) n
  | _, _ => False
  end.
