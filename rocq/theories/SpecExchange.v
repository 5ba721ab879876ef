(** Vocabulary for reports in another commodity: the prices a journal states, the rates they give, amounts at
    these rates. *)
From Verif Require Import Base Money Alist Txn Filter Tokens Price Ledger Spec SpecTxn SpecLedger SpecPrice SpecBook.
Open Scope Qc_scope.

(** ** The prices of a journal *)
(** The price of a directive. *)
Definition stated_price (w : world) (l : pledger) (p : parsed_price) : price :=
  {| pr_date := pp_date p; pr_com := commodity_meant w l (pp_commodity p); pr_amount := pp_quantity p; pr_cur := commodity_meant w l (pp_other p) |}.
(** The unit price of a posting with a cost. *)
Definition paid_price (w : world) (l : pledger) (t : txn rposting) (p : rposting) : list price :=
  match t_date t, rp_money p, rp_cost p with
  | Some d, Some (q, c), Some (k, x) =>
      [{| pr_date := d; pr_com := commodity_meant w l c;
          pr_amount := match rp_cost_type p with Some PTotal => k / q | _ => k end; pr_cur := commodity_meant w l x |}]
  | _, _, _ => []
  end.
(** What the real postings of a transaction leave: nothing, if one of them has no amount. *)
Definition left_over (w : world) (l : pledger) (t : txn rposting) (c : str) : Qc :=
  match filter open_posting (t_postings t) with [] => kind_value w l Real t c | _ => 0 end.
(** The prices of the journal: those of the directives; those paid, in the order of the file; those of the
    transactions that exchange one commodity for another, by date. *)
Definition journal_prices (w : world) (l : pledger) (ps : list price) : Prop :=
  exists us prss, date_sorted (pl_txns l) us /\
    Forall2 (fun t prs => exchange_price (t_date t) (left_over w l t) prs) us prss /\
    ps = map (stated_price w l) (pl_prices l) ++ flat_map (fun t => flat_map (paid_price w l t) (t_postings t)) (pl_txns l) ++ concat prss.

(** ** Rates *)
(** The rates into [cur] on the day [today]: one for each commodity that is linked to [cur] by prices, along a
    chain of prices that is the shortest in time. *)
Record rates_into (ps : list price) (today : Z) (cur : str) (rates : list (str * Qc)) : Prop := {
  ri_once : NoDup (map fst rates);
  ri_linked : forall k, In k (map fst rates) <-> k <> cur /\ connected (usable today ps) cur k;
  ri_chain : forall k r, In (k, r) rates -> chain (usable today ps) cur k r;
  ri_shortest : forall k r, In (k, r) rates ->
    exists d n, (exists p, usable today ps p /\ pr_date p = d /\ (pr_com p = k \/ pr_cur p = k)) /\
      timed (usable today ps) cur today k d n r /\ forall n' r', timed (usable today ps) cur today k d n' r' -> (n <= n')%Z;
}.
(** The commodity that [x] names in the journal. *)
Definition names_commodity (w : world) (l : pledger) (x cur : str) : Prop :=
  (exists c, l_get w x (pl_commodities l) = Ok c /\ cur = cu_name c) \/
  (forall c, l_get w x (pl_commodities l) <> Ok c) /\ mentions_commodity l cur /\ w_lower w cur = w_lower w x.
(** The rates of a report: none if no commodity is asked for, or one the journal does not have. *)
Definition rates_asked (w : world) (o : opts) (l : pledger) (cur : str) (rates : list (str * Qc)) : Prop :=
  match o_exchange o with
  | None => rates = []
  | Some x =>
      (rates = [] /\ forall c, ~ names_commodity w l x c) \/
      (names_commodity w l x cur /\ exists ps, journal_prices w l ps /\ rates_into ps (w_now w) cur rates)
  end.

(** ** Amounts at rates *)
(** [v] says how much there is of each commodity; what there is of [c] when everything with a rate has been
    changed into [cur]. *)
Definition changed (rates : list (str * Qc)) (cur : str) (v : str -> Qc) (c : str) : Qc :=
  if str_eqb c cur then v cur + qsum (map (fun kr => snd kr * v (fst kr)) rates)
  else if existsb (str_eqb c) (map fst rates) then 0 else v c.
(** No price is zero. *)
Definition no_zero_price (l : pledger) : Prop :=
  (forall p, In p (pl_prices l) -> pp_quantity p <> 0) /\
  (forall t p k x, In t (pl_txns l) -> In p (t_postings t) -> rp_cost p = Some (k, x) -> k <> 0).
