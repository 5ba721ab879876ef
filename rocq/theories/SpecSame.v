(** Vocabulary for two runs of the program on the same input. *)
From Verif Require Import Base Money Alist Txn Expr Filter Tokens Price Ledger Reports Spec SpecTxn SpecLedger SpecPrice SpecBook.
Open Scope Qc_scope.

(** The same files, settings, clock and terminal; the hash tables may be gone through in another order. *)
Definition with_order (w : world) (o : nat -> forall A, list A -> list A) : world :=
  {| w_lower := w_lower w; w_numeric := w_numeric w; w_rx := w_rx w; w_rx_ok := w_rx_ok w; w_read := w_read w;
     w_glob := w_glob w; w_two_timer := w_two_timer w; w_now := w_now w; w_ord := o; w_width := w_width w |}.
Definition other_run (w w' : world) : Prop := world_ok w /\ world_ok w' /\ exists o, w' = with_order w o.
(** Both runs succeed with results related by [R], or fail in the same way. *)
Definition agree {A} (R : A -> A -> Prop) (r r' : res A) : Prop :=
  match r, r' with
  | Ok a, Ok b => R a b
  | Err e, Err e' => e = e'
  | Panic x, Panic y => x = y
  | _, _ => False
  end.
(** Both runs succeed with results related by [R], or both fail. *)
Definition both {A} (R : A -> A -> Prop) (r r' : res A) : Prop :=
  match r, r' with
  | Ok a, Ok b => R a b
  | Ok _, _ | _, Ok _ => False
  | _, _ => True
  end.

(** The names of the journal are clear: no two names that differ in letter case only, unless they stand for the
    same thing by a directive; no name matched by the patterns of two payees; no payee claimed by two accounts. *)
Record clear_names (w : world) (l : pledger) : Prop := {
  cn_accounts : forall n m, mentions_account l n -> mentions_account l m -> w_lower w n = w_lower w m ->
    account_meant w l n = account_meant w l m;
  cn_commodities : forall n m, mentions_commodity l n -> mentions_commodity l m -> w_lower w n = w_lower w m ->
    commodity_meant w l n = commodity_meant w l m;
  cn_payees : forall n m, mentions_payee l n -> mentions_payee l m -> w_lower w n = w_lower w m ->
    n = m \/ exists y, l_get w n (pl_payees l) = Ok y;
  cn_patterns : forall n y z, mentions_payee l n -> In y (l_values (pl_payees l)) -> In z (l_values (pl_payees l)) ->
    claims_name w n y -> claims_name w n z -> y = z;
  cn_claims : forall n a b, In a (l_values (pl_accounts l)) -> In b (l_values (pl_accounts l)) ->
    claims_payee w n a -> claims_payee w n b -> a = b;
}.

(** The same transaction; the lines that fill one posting without an amount, one for each commodity, may come in
    another order. *)
Definition same_txn (t t' : txn posting) : Prop :=
  set_postings t' (@nil posting) = set_postings t [] /\
  exists kept fills fills' rest acc,
    t_postings t = kept ++ fills ++ rest /\ t_postings t' = kept ++ fills' ++ rest /\ Permutation fills fills' /\
    Forall (fun p => p_kind p = Real /\ p_account p = acc /\ p_origin p = FromTransaction /\ p_cost p = None /\ p_balance p = None /\ p_amount p <> None) fills /\
    NoDup (map (fun p => match p_amount p with Some m => m_commodity m | None => None end) fills).
(** The same exchange rate, or the inverse rate the other way round. *)
Definition same_price (p p' : price) : Prop :=
  p = p' \/
  (pr_date p' = pr_date p /\ pr_com p' = pr_cur p /\ pr_cur p' = pr_com p /\ pr_amount p * pr_amount p' = 1).
(** The same names stand for the same things, and there are no others. *)
Definition same_names {T} (w : world) (l l' : alist T) : Prop :=
  (forall k, l_get w k l' = l_get w k l) /\ Permutation (l_values l) (l_values l').
Record same_ledger (w : world) (lg lg' : ledger) : Prop := {
  sl_txns : Forall2 same_txn (lg_txns lg) (lg_txns lg');
  sl_prices : Forall2 same_price (lg_prices lg) (lg_prices lg');
  sl_accounts : same_names w (lg_accounts lg) (lg_accounts lg');
  sl_commodities : same_names w (lg_commodities lg) (lg_commodities lg');
  sl_payees : same_names w (lg_payees lg) (lg_payees lg');
}.

(** ** Reports *)
(** The same line of a report; the amounts of several commodities may come in another order. *)
Definition same_row (r r' : brow) : Prop :=
  br_label r' = br_label r /\ br_indent r' = br_indent r /\ Permutation (br_moneys r) (br_moneys r').
Definition same_report (r r' : breport) : Prop :=
  Forall2 same_row (bp_rows r) (bp_rows r') /\
  match bp_total r, bp_total r' with
  | None, None => True
  | Some ms, Some ms' => Permutation ms ms'
  | _, _ => False
  end.
Definition same_entry (r r' : rrow) : Prop :=
  rr_head r' = rr_head r /\ rr_account r' = rr_account r /\ rr_amount r' = rr_amount r /\ Permutation (rr_total r) (rr_total r').
(** The same lines of one transaction, of which only the first shows date and payee; they may come in another order,
    the running total after them is the same. *)
Definition row_amount (r : rrow) : str * money := (rr_account r, rr_amount r).
Definition same_group (g g' : list rrow) : Prop :=
  option_map rr_head (hd_error g') = option_map rr_head (hd_error g) /\ Forall (fun r => rr_head r = None) (tl g ++ tl g') /\
  Permutation (map row_amount g) (map row_amount g') /\
  match rev g, rev g' with
  | r :: _, r' :: _ => Permutation (rr_total r) (rr_total r')
  | _, _ => False
  end.
(** A query without [any(...)]. *)
Fixpoint no_any (n : node) : Prop :=
  match n with
  | NUnary op c => op <> UAny /\ no_any c
  | NBinary _ a b => no_any a /\ no_any b
  | _ => True
  end.
Definition plain_query (w : world) (o : opts) : Prop := forall n, query_node w o = Ok (Some n) -> no_any n.

(** No transaction leaves open in what order its lines come: all amounts of postings without brackets are written, or
    they are all in one commodity and a posting without an amount asserts no balance either. *)
Definition settled (w : world) (l : pledger) : Prop :=
  forall t, In t (journal_txns l) ->
    (forall p, In p (t_postings t) -> rp_kind p = Real -> rp_money p <> None) \/
    (exists c, forall p, In p (t_postings t) -> rp_kind p = Real ->
       (forall q n, rp_money p = Some (q, n) \/ rp_cost p = Some (q, n) -> commodity_meant w l n = c) /\
       (rp_money p = None -> rp_balance p = None)).
(** An expression that names no commodity. *)
Fixpoint no_literal (n : node) : Prop :=
  match n with
  | NMoney _ _ => False
  | NUnary _ c => no_literal c
  | NBinary _ a b => no_literal a /\ no_literal b
  | _ => True
  end.
(** All amounts, costs and balances of the transactions are in the commodity [c]; the amounts of the rules are in [c], or
    multiples of the amounts they are applied to. *)
Definition one_commodity (w : world) (l : pledger) (c : str) : Prop :=
  (forall t p q n, In t (journal_txns l) -> In p (t_postings t) ->
    rp_money p = Some (q, n) \/ rp_cost p = Some (q, n) \/ rp_balance p = Some (q, n) -> commodity_meant w l n = c) /\
  (forall t p, In t (rules l) -> In p (t_postings t) ->
    match rp_money p with
    | Some (_, n) => n = [] \/ commodity_meant w l n = c
    | None => forall e n, rp_expr p = Some e -> build_root w e = Ok n -> no_literal n
    end).
(** The prices in use on a day agree with one value of each commodity. *)
Definition one_value (date : Z) (ps : list price) : Prop :=
  exists v, (forall c, v c <> 0) /\ forall p, usable date ps p -> v (pr_com p) = pr_amount p * v (pr_cur p).
(** The currency asked for is in use, unless no order is left open, and the prices agree with one value of each
    commodity. *)
Definition clear_exchange (w : world) (l : pledger) (o : opts) (lg : ledger) : Prop := forall x, o_exchange o = Some x ->
  one_value (w_now w) (lg_prices lg) /\ ((exists c, l_get w x (lg_commodities lg) = Ok c) \/ settled w l).
