(** Model of src/models/mod.rs: from the parsed ledger to the ledger. *)
From Verif Require Import Base Numerals Money Alist Comment Txn Peg Grammar Dates Expr Filter Tokens Price.

(** models/mod.rs:37-44 *)
Record ledger := {
  lg_accounts : alist account;
  lg_commodities : alist currency;
  lg_txns : list (txn posting);
  lg_prices : list price;
  lg_payees : alist payee;
}.

(** ** 1. The names used (models/mod.rs:58-85), as sets. *)
Definition opt_cur (m : option (Qc * str)) (s : list str) : list str :=
  match m with Some (_, c) => sadd str_eqb c s | None => s end.
(** The two nested loops of models/mod.rs:64-65. *)
Definition all_postings (ts : list (txn rposting)) : list rposting := flat_map t_postings ts.
(** models/mod.rs:70-85 *)
Definition commodity_names (l : pledger) : list str :=
  fold_left (fun s p => sadd str_eqb (pp_other p) (sadd str_eqb (pp_commodity p) s)) (pl_prices l)
    (fold_left (fun s p => opt_cur (rp_balance p) (opt_cur (rp_cost p) (opt_cur (rp_money p) s)))
               (all_postings (pl_txns l)) []).
(** models/mod.rs:64-66 *)
Definition account_names (l : pledger) : list str :=
  fold_left (fun s p => sadd str_eqb (rp_account p) s) (all_postings (pl_txns l)) [].
(** models/mod.rs:67-69 *)
Definition payee_names (l : pledger) : list str :=
  fold_left (fun s p => match rp_payee p with Some x => sadd str_eqb x s | None => s end)
            (all_postings (pl_txns l)) [].

(** ** 2. Missing commodities, accounts and payees (models/mod.rs:88-132). *)
Definition ensure {T} (w : world) (ins : T -> alist T -> alist T) (mk : str -> T) (l : alist T)
           (name : str) : res (alist T) :=
  match l_get w name l with
  | Ok _ => Ok l
  | Err _ => Ok (ins (mk name) l)
  | Panic e => Panic e
  end.
(** models/mod.rs:91-96, 267-272 *)
Definition ensure_cur w := ensure w (cur_insert w) currency_from.
(** models/mod.rs:98-103, 233-238 *)
Definition ensure_acc w := ensure w (acc_insert w) account_from.
(** models/mod.rs:240-245 *)
Definition ensure_pay w := ensure w (pay_insert w) payee_from.

(** models/mod.rs:106-132; [copy] are the payees of the directives in iteration order. *)
Definition payee_step (w : world) (copy : list payee) (l : alist payee) (name : str)
  : res (alist payee) :=
  match l_get w name l with
  | Ok _ => Ok l
  | Panic e => Panic e
  | Err _ =>
      match find (fun p => existsb (fun rx => w_rx w rx name) (py_regexes p)) copy with
      | None => Ok (pay_insert w (payee_from name) l)
      | Some p => l_add_alias w py_name name p l
      end
  end.

(** ** 3. Prices from price statements (models/mod.rs:134-152); [unwrap] of a lookup. *)
Definition get_unwrap {T} (w : world) (name : str) (l : alist T) : res T :=
  match l_get w name l with Ok x => Ok x | Err _ => Panic PUnwrap | Panic e => Panic e end.
(** models/mod.rs:136-151 *)
Definition price_of (w : world) (cs : alist currency) (p : parsed_price) : res price :=
  c <- get_unwrap w (pp_commodity p) cs ;;
  o <- get_unwrap w (pp_other p) cs ;;
  Ok {| pr_date := pp_date p; pr_com := cu_name c; pr_amount := pp_quantity p; pr_cur := cu_name o |}.

(** ** 4. Postings (models/mod.rs:343-464) *)

(** models/mod.rs:371-391; [accs] are the accounts in iteration order; the last one with a matching
    payee
    regex wins. *)
Definition posting_account (w : world) (accs : list account) (al : alist account) (name pay : str)
  : res account :=
  if ends_with (L "unknown") (w_lower w name) then
    match fold_left (fun r a => if existsb (fun rx => w_rx w rx pay) (ac_payees a) then Some a else r)
                    accs None with
    | Some a => Ok a
    | None => l_get w name al
    end
  else l_get w name al.

(** models/mod.rs:400-405, 438-443 *)
Definition money_of_raw (w : world) (cs : alist currency) (m : Qc * str) : res money :=
  c <- get_unwrap w (snd m) cs ;; Ok (M (fst m) (cu_name c)).

(** models/mod.rs:406-437: cost and the price it implies. *)
Definition cost_of_raw (w : world) (cs : alist currency) (date : Z) (p : rposting) (c : Qc * str)
  : res (cost * price) :=
  mc <- unwrap (rp_money p) ;;
  pc <- get_unwrap w (snd mc) cs ;;
  cc <- get_unwrap w (snd c) cs ;;
  ty <- unwrap (rp_cost_type p) ;;
  let amount := M (fst c) (cu_name cc) in
  match ty with
  | PTotal =>
      if qc_eqb (fst mc) 0 then Panic PDivZero
      else Ok (CTotal amount, {| pr_date := date; pr_com := cu_name pc; pr_amount := (fst c / fst mc)%Qc;
                                 pr_cur := cu_name cc |})
  | PPerUnit =>
      Ok (CPerUnit amount, {| pr_date := date; pr_com := cu_name pc; pr_amount := (fst c / 1)%Qc;
                              pr_cur := cu_name cc |})
  end.

(** models/mod.rs:370-445 *)
Definition posting_of_raw (w : world) (accs : list account) (al : alist account)
           (pays : alist payee) (cs : alist currency) (date : Z) (desc : str) (ttags : list tag)
           (p : rposting) : res (posting * list price) :=
  pay <- match rp_payee p with
         | None => match l_get w desc pays with Ok x => Ok x | Err _ => Panic PExplicit | Panic e => Panic e end
         | Some x => get_unwrap w x pays
         end ;;
  acc <- posting_account w accs al (rp_account p) (py_name pay) ;;
  amt <- match rp_money p with Some m => x <- money_of_raw w cs m ;; Ok (Some x) | None => Ok None end ;;
  '(cst, prs) <- match rp_cost p with
                 | Some c => '(k, pr) <- cost_of_raw w cs date p c ;; Ok (Some k, [pr])
                 | None => Ok (None, [])
                 end ;;
  bal <- match rp_balance p with Some m => x <- money_of_raw w cs m ;; Ok (Some x) | None => Ok None end ;;
  Ok ({| p_account := ac_name acc; p_amount := amt; p_balance := bal; p_cost := cst; p_kind := rp_kind p;
         p_comments := []; p_tags := ttags ++ flat_map get_tags (rp_comments p);
         p_payee := Some (py_name pay); p_origin := FromTransaction |}, prs).

(** models/mod.rs:343-464: (transactions, automated transactions, prices) of one parsed transaction.
    The
    test [is_balanced] only sets a status that nothing reads. *)
Definition txn_of_raw (w : world) (accs : list account) (al : alist account) (pays : alist payee)
           (cs : alist currency) (t : txn rposting)
  : res (list (txn posting) * list (txn rposting) * list price) :=
  match t_type t with
  | TReal =>
      date <- unwrap (t_date t) ;;
      let ttags := flat_map get_tags (t_comments t) in
      l <- mapM (posting_of_raw w accs al pays cs date (t_desc t) ttags) (t_postings t) ;;
      let t' := {| t_date := t_date t; t_edate := t_edate t; t_cleared := CUnknown; t_code := t_code t;
                   t_desc := t_desc t; t_payee := None; t_postings := map fst l;
                   t_comments := t_comments t; t_type := TReal; t_tags := ttags |} in
      _ <- is_balanced t' ;;
      Ok ([t'], [], flat_map snd l)
  | TAutomated => Ok ([], [t], [])
  | TPeriodic => Ok ([], [], [])
  end.

(** models/mod.rs:168: stable sort by date. *)
Definition date_of {P} (t : txn P) : Z := match t_date t with Some d => d | None => 0%Z end.
(** models/mod.rs:168 *)
Definition sort_txns (ts : list (txn posting)) : list (txn posting) :=
  stable_sort (fun a b => (date_of a <=? date_of b)%Z) ts.

(** models/mod.rs:171-174 *)
Definition fresh_balances (al : alist account) : balances :=
  map (fun a => (ac_name a, bal_new)) (l_values al).

(** models/mod.rs:187-197: the price implied by a transaction whose balance has two commodities; [b] in
    iteration order. *)
Definition implicit_price (date : Z) (b : balance) : res (list price) :=
  match b with
  | [(_, x); (_, y)] =>
      c <- unwrap (m_commodity (m_abs x)) ;;
      if qc_eqb (m_amount (m_abs x)) 0 then Panic PDivZero else
      d <- unwrap (m_commodity (m_abs y)) ;;
      Ok [{| pr_date := date; pr_com := c; pr_amount := (m_amount (m_abs y) / m_amount (m_abs x))%Qc;
             pr_cur := d |}]
  | _ => Ok []
  end.

(** models/mod.rs:177-198 and 311-332: balance the transactions in order.  [site] numbers the hash
    traversals. *)
Fixpoint balance_all (w : world) (site : nat) (skip : bool) (ts : list (txn posting)) (bals : balances)
         (prices : list price) : res (list (txn posting) * balances * list price) :=
  match ts with
  | [] => Ok ([], bals, prices)
  | t :: r =>
      date <- unwrap (t_date t) ;;
      '(b, t', bals') <- txn_balance (w_ord w site _) skip t bals ;;
      prs <- implicit_price date (w_ord w (S site) _ b) ;;
      '(r', bals'', prices') <- balance_all w (S (S site)) skip r bals' (prices ++ prs) ;;
      Ok (t' :: r', bals'', prices')
  end.

(** ** 5. Automated transactions (models/mod.rs:200-333) *)

(** models/mod.rs:211-303: The parts of the ledger that this phase may extend. *)
Record astate := { as_accs : alist account; as_curs : alist currency; as_pays : alist payee }.
(** models/mod.rs:211-303, state update. *)
Definition with_curs (s : astate) (c : alist currency) : astate :=
  {| as_accs := as_accs s; as_curs := c; as_pays := as_pays s |}.

(** models/mod.rs:227-229 *)
Definition add_tags (tags : list tag) (p : posting) : posting :=
  {| p_account := p_account p; p_amount := p_amount p; p_balance := p_balance p; p_cost := p_cost p;
     p_kind := p_kind p; p_comments := p_comments p; p_tags := p_tags p ++ tags; p_payee := p_payee p;
     p_origin := p_origin p |}.

(** models/mod.rs:231-295: the posting generated by [ap] for the matching posting [p] of [t]. *)
Definition auto_posting (w : world) (t : txn posting) (p : posting) (s : astate) (ap : rposting)
  : res (posting * astate) :=
  al <- ensure_acc w (as_accs s) (rp_account ap) ;;
  '(pay, pl) <- match rp_payee ap with
                | Some x => pl <- ensure_pay w (as_pays s) x ;;
                            y <- get_unwrap w x pl ;; Ok (Some (py_name y), pl)
                | None => Ok (p_payee p, as_pays s)
                end ;;
  acc <- get_unwrap w (rp_account ap) al ;;
  '(m, cs) <- match rp_money ap with
              | None => e <- unwrap (rp_expr ap) ;; eval_value_expression w e p t (as_curs s)
              | Some (q, c) =>
                  match c with
                  | [] => m <- unwrap (p_amount p) ;; cur <- unwrap (m_commodity m) ;;
                          Ok (M (m_amount m * q)%Qc cur, as_curs s)
                  | _ => cs <- ensure_cur w (as_curs s) c ;; cur <- get_unwrap w c cs ;;
                         Ok (M q (cu_name cur), cs)
                  end
              end ;;
  Ok ({| p_account := ac_name acc; p_amount := Some m; p_balance := None; p_cost := None;
         p_kind := rp_kind ap; p_comments := []; p_tags := []; p_payee := pay; p_origin := OAutomated |},
      {| as_accs := al; as_curs := cs; as_pays := pl |}).

(** models/mod.rs:231-295 *)
Fixpoint auto_postings (w : world) (t : txn posting) (p : posting) (s : astate) (aps : list rposting)
  : res (list posting * astate) :=
  match aps with
  | [] => Ok ([], s)
  | ap :: r =>
      '(x, s1) <- auto_posting w t p s ap ;;
      '(xs, s2) <- auto_postings w t p s1 r ;;
      Ok (x :: xs, s2)
  end.

(** models/mod.rs:212-302: one automated transaction over the postings of [t].  [done] are the postings
    already visited (their tags may have grown), [todo] the ones still to visit. *)
Fixpoint auto_scan (w : world) (t : txn posting) (node : node) (auto : txn rposting) (s : astate)
         (done todo extra : list posting) : res (list posting * list posting * astate) :=
  match todo with
  | [] => Ok (done, extra, s)
  | p :: r =>
      if negb (is_from_txn (p_origin p)) then auto_scan w t node auto s (done ++ [p]) r extra
      else
        '(b, cs) <- filter_expression w node p (set_postings t (done ++ p :: r)) (as_curs s) ;;
        let s1 := with_curs s cs in
        if (b : bool) then
          let p' := add_tags (flat_map get_tags (t_comments auto)) p in
          '(new, s2) <- auto_postings w (set_postings t (done ++ p' :: r)) p' s1 (t_postings auto) ;;
          auto_scan w t node auto s2 (done ++ [p']) r (extra ++ new)
        else auto_scan w t node auto s1 (done ++ [p]) r extra
  end.

(** models/mod.rs:212-302 *)
Definition auto_one (w : world) (st : txn posting * astate) (na : node * txn rposting)
  : res (txn posting * astate) :=
  let (t, s) := st in
  '(ps, extra, s') <- auto_scan w t (fst na) (snd na) s [] (t_postings t) [] ;;
  Ok (set_postings t (ps ++ extra), s').

(** models/mod.rs:211-303 *)
Fixpoint auto_all (w : world) (autos : list (node * txn rposting)) (ts : list (txn posting)) (s : astate)
  : res (list (txn posting) * astate) :=
  match ts with
  | [] => Ok ([], s)
  | t :: r =>
      '(t', s1) <- foldM (auto_one w) (t, s) autos ;;
      '(r', s2) <- auto_all w autos r s1 ;;
      Ok (t' :: r', s2)
  end.

(** ** models/mod.rs:57-341.  Hash traversals 0-4 are the sets of names and the copies of the lists;
    then
    two per transaction and pass. *)
Definition to_ledger (w : world) (skip : bool) (l : pledger) : res ledger :=
  cs <- foldM (ensure_cur w) (pl_commodities l) (w_ord w 0 _ (commodity_names l)) ;;
  al <- foldM (ensure_acc w) (pl_accounts l) (w_ord w 1 _ (account_names l)) ;;
  pays <- foldM (payee_step w (w_ord w 3 _ (l_values (pl_payees l)))) (pl_payees l)
                (w_ord w 2 _ (payee_names l)) ;;
  prices1 <- mapM (price_of w cs) (pl_prices l) ;;
  raw <- mapM (txn_of_raw w (w_ord w 4 _ (l_values al)) al pays cs) (pl_txns l) ;;
  let ts := sort_txns (flat_map (fun x => fst (fst x)) raw) in
  let autos := flat_map (fun x => snd (fst x)) raw in
  let prices2 := prices1 ++ flat_map snd raw in
  '(ts1, _, prices3) <- balance_all w 8 skip ts (fresh_balances al) prices2 ;;
  match autos with
  | [] => Ok {| lg_accounts := al; lg_commodities := cs; lg_txns := ts1; lg_prices := prices3;
                lg_payees := pays |}
  | _ :: _ =>
      nodes <- mapM (fun a => build_root w (get_filter_query a)) autos ;;
      '(ts2, s) <- auto_all w (combine nodes autos) ts1
                            {| as_accs := al; as_curs := cs; as_pays := pays |} ;;
      '(ts3, _, prices4) <- balance_all w (8 + 2 * length ts) skip ts2 (fresh_balances (as_accs s)) prices3 ;;
      Ok {| lg_accounts := as_accs s; lg_commodities := as_curs s; lg_txns := ts3; lg_prices := prices4;
            lg_payees := as_pays s |}
  end.
