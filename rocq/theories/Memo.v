(** The program with the tables of compiled patterns and of parsed queries that it keeps: the building of expressions
    (value_expr.rs) and the automated transactions (models/mod.rs) once more, now with these tables.  A compiled
    pattern is represented by the text it was compiled from. *)
From Verif Require Import Base Money Alist Comment Txn Peg Grammar Expr Filter Tokens Ledger.

(** value_expr.rs:21: [HashMap<String, Regex>]. *)
Definition patterns := list (str * str).

(** value_expr.rs:479-486: look the pattern up; compile it if it is not there. *)
Definition compiled (w : world) (rx : str) (m : patterns) : res (node * patterns) :=
  match hget str_eqb rx m with
  | None => if w_rx_ok w rx then Ok (NRegex rx, hset str_eqb rx rx m) else Panic PUnwrap
  | Some c => Ok (NRegex c, m)
  end.

(** value_expr.rs:401-508 *)
Fixpoint build_ast_memo (w : world) (p : pair rule) (m : patterns) : res (node * patterns) :=
  match p with
  | Pair Rexpr _ kids => match kids with k :: _ => build_ast_memo w k m | [] => Panic PUnwrap end
  | Pair (Rcomparison_expr | Ror_expr | Rand_expr | Radditive_expr | Rmultiplicative_expr) _ kids =>
      match kids with
      | [] => Panic PUnwrap
      | lp :: rest =>
          '(lhs, m1) <- build_ast_memo w lp m ;;
          match rest with
          | [] => Ok (lhs, m1)
          | x :: rest' =>
              op <- binary_of (p_rule p) (p_text x) ;;
              match rest' with
              | [] => Panic PUnwrap
              | rp :: _ => '(rhs, m2) <- build_ast_memo w rp m1 ;; Ok (NBinary op lhs rhs, m2)
              end
          end
      end
  | Pair Rprimary _ kids =>
      match kids with
      | [] => Panic PUnwrap
      | first :: rest =>
          match first with
          | Pair (Rfunction | Runary) txt _ =>
              op <- unary_of txt ;;
              match rest with
              | [] => Panic PUnwrap
              | c :: _ => '(child, m1) <- build_ast_memo w c m ;; Ok (NUnary op child, m1)
              end
          | Pair Rmoney _ mk => n <- money_of mk ;; Ok (n, m)
          | Pair Rnumber _ _ => q <- parse_rational first ;; Ok (NNumber q, m)
          | Pair Rregex txt _ => compiled w (unquote txt) m
          | Pair Rstring txt _ => Ok (NString (unquote txt), m)
          | Pair Rvariable txt _ => n <- variable_of txt ;; Ok (n, m)
          | Pair Rexpr _ _ => build_ast_memo w first m
          | _ => Panic PExplicit
          end
      end
  | _ => Panic PExplicit
  end.

(** value_expr.rs:19-33 *)
Definition build_root_memo (w : world) (e : str) (m : patterns) : res (node * patterns) :=
  ps <- gparse Rvalue_expr e ;;
  '(top, _) <- pnext ps ;;
  '(inner, _) <- pnext (p_kids top) ;;
  build_ast_memo w inner m.

(** value_expr.rs:35-70; [eval] (value_expr.rs:168-386) hands the table on and does not use it. *)
Definition eval_value_expression_memo (w : world) (e : str) (p : posting) (t : txn posting) (cs : alist currency) (m : patterns)
  : res (money * alist currency * patterns) :=
  '(n, m1) <- build_root_memo w e m ;;
  '(v, cs') <- eval w n p t cs ;;
  match v with
  | VNumber q => x <- unwrap (p_amount p) ;; Ok (m_mul x q, cs', m1)
  | VMoney x => Ok (x, cs', m1)
  | _ => Panic PExplicit
  end.

(** commands/balance.rs:28-38, register.rs:40-50: a table for this one query, made with it. *)
Definition query_node_memo (w : world) (o : opts) : res (option node) :=
  let q := preprocess_query (o_query o) in
  if Nat.ltb 2 (utf8_len q) then '(n, _) <- build_root_memo w q [] ;; Ok (Some n) else Ok None.

(** models/mod.rs:231-295 *)
Definition auto_posting_memo (w : world) (t : txn posting) (p : posting) (s : astate) (ap : rposting) (m : patterns)
  : res (posting * astate * patterns) :=
  al <- ensure_acc w (as_accs s) (rp_account ap) ;;
  '(pay, pl) <- match rp_payee ap with
                | Some x => pl <- ensure_pay w (as_pays s) x ;;
                            y <- get_unwrap w x pl ;; Ok (Some (py_name y), pl)
                | None => Ok (p_payee p, as_pays s)
                end ;;
  acc <- get_unwrap w (rp_account ap) al ;;
  '(x, cs, m1) <- match rp_money ap with
              | None => e <- unwrap (rp_expr ap) ;; eval_value_expression_memo w e p t (as_curs s) m
              | Some (q, c) =>
                  match c with
                  | [] => a <- unwrap (p_amount p) ;; cur <- unwrap (m_commodity a) ;;
                          Ok (M (m_amount a * q)%Qc cur, as_curs s, m)
                  | _ => cs <- ensure_cur w (as_curs s) c ;; cur <- get_unwrap w c cs ;;
                         Ok (M q (cu_name cur), cs, m)
                  end
              end ;;
  Ok ({| p_account := ac_name acc; p_amount := Some x; p_balance := None; p_cost := None;
         p_kind := rp_kind ap; p_comments := []; p_tags := []; p_payee := pay; p_origin := OAutomated |},
      {| as_accs := al; as_curs := cs; as_pays := pl |}, m1).

(** models/mod.rs:231-295 *)
Fixpoint auto_postings_memo (w : world) (t : txn posting) (p : posting) (s : astate) (aps : list rposting) (m : patterns)
  : res (list posting * astate * patterns) :=
  match aps with
  | [] => Ok ([], s, m)
  | ap :: r =>
      '(x, s1, m1) <- auto_posting_memo w t p s ap m ;;
      '(xs, s2, m2) <- auto_postings_memo w t p s1 r m1 ;;
      Ok (x :: xs, s2, m2)
  end.

(** models/mod.rs:212-302; the query is looked up in the table of parsed queries for each posting
    (models/mod.rs:219). *)
Fixpoint auto_scan_memo (w : world) (t : txn posting) (nodes : list (str * node)) (auto : txn rposting) (s : astate)
         (done todo extra : list posting) (m : patterns) : res (list posting * list posting * astate * patterns) :=
  match todo with
  | [] => Ok (done, extra, s, m)
  | p :: r =>
      if negb (is_from_txn (p_origin p)) then auto_scan_memo w t nodes auto s (done ++ [p]) r extra m
      else
        node <- unwrap (hget str_eqb (get_filter_query auto) nodes) ;;
        '(b, cs) <- filter_expression w node p (set_postings t (done ++ p :: r)) (as_curs s) ;;
        let s1 := with_curs s cs in
        if (b : bool) then
          let p' := add_tags (flat_map get_tags (t_comments auto)) p in
          '(new, s2, m1) <- auto_postings_memo w (set_postings t (done ++ p' :: r)) p' s1 (t_postings auto) m ;;
          auto_scan_memo w t nodes auto s2 (done ++ [p']) r (extra ++ new) m1
        else auto_scan_memo w t nodes auto s1 (done ++ [p]) r extra m
  end.

(** models/mod.rs:212-302 *)
Definition auto_one_memo (w : world) (nodes : list (str * node)) (st : txn posting * astate * patterns) (auto : txn rposting)
  : res (txn posting * astate * patterns) :=
  let '(t, s, m) := st in
  '(ps, extra, s', m') <- auto_scan_memo w t nodes auto s [] (t_postings t) [] m ;;
  Ok (set_postings t (ps ++ extra), s', m').

(** models/mod.rs:211-303 *)
Fixpoint auto_all_memo (w : world) (nodes : list (str * node)) (autos : list (txn rposting)) (ts : list (txn posting)) (s : astate) (m : patterns)
  : res (list (txn posting) * astate * patterns) :=
  match ts with
  | [] => Ok ([], s, m)
  | t :: r =>
      '(t', s1, m1) <- foldM (auto_one_memo w nodes) (t, s, m) autos ;;
      '(r', s2, m2) <- auto_all_memo w nodes autos r s1 m1 ;;
      Ok (t' :: r', s2, m2)
  end.

(** models/mod.rs:203-209: the table of parsed queries. *)
Definition node_step (w : world) (st : list (str * node) * patterns) (auto : txn rposting) : res (list (str * node) * patterns) :=
  let query := get_filter_query auto in
  '(n, m) <- build_root_memo w query (snd st) ;;
  Ok (hset str_eqb query n (fst st), m).

(** models/mod.rs:57-341, as [to_ledger], with the tables. *)
Definition to_ledger_memo (w : world) (skip : bool) (l : pledger) : res ledger :=
  cs <- foldM (ensure_cur w) (pl_commodities l) (w_ord w 0 _ (commodity_names l)) ;;
  al <- foldM (ensure_acc w) (pl_accounts l) (w_ord w 1 _ (account_names l)) ;;
  pays <- foldM (payee_step w (w_ord w 3 _ (l_values (pl_payees l)))) (pl_payees l)
                (w_ord w 2 _ (payee_names l)) ;;
  prices1 <- mapM (price_of w cs) (pl_prices l) ;;
  raw <- mapM (txn_of_raw w (w_ord w 4 _ (l_values al)) al pays cs) (pl_txns l) ;;
  let ts := sort_txns (flat_map (fun x => fst (fst x)) raw) in
  let autos := flat_map (fun x => snd (fst x)) raw in
  let prices2 := prices1 ++ flat_map snd raw in
  '(ts1, _, prices3) <- balance_all w 8 skip ts (fresh_balances al) prices2 ;;
  match autos with
  | [] => Ok {| lg_accounts := al; lg_commodities := cs; lg_txns := ts1; lg_prices := prices3;
                lg_payees := pays |}
  | _ :: _ =>
      '(nodes, m) <- foldM (node_step w) ([], []) autos ;;
      '(ts2, s, _) <- auto_all_memo w nodes autos ts1
                            {| as_accs := al; as_curs := cs; as_pays := pays |} m ;;
      '(ts3, _, prices4) <- balance_all w (8 + 2 * length ts) skip ts2 (fresh_balances (as_accs s)) prices3 ;;
      Ok {| lg_accounts := as_accs s; lg_commodities := as_curs s; lg_txns := ts3; lg_prices := prices4;
            lg_payees := as_pays s |}
  end.
