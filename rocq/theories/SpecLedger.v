(** Specification vocabulary for whole ledgers (C26-C32): how the ledger is read off the journal. *)
From Coq Require Import Sorting.Sorted.
From Verif Require Import Base Numerals Money Alist Comment Txn Expr Filter Tokens Price Ledger Spec SpecTxn SpecList.
Open Scope Qc_scope.

(** The header of a transaction: date, second date, code, description, comments. *)
Definition header {P} (t : txn P) : option Z * option Z * option str * str * list str :=
  (t_date t, t_edate t, t_code t, t_desc t, t_comments t).
Definition dated_on (d : Z) (h : option Z * option Z * option str * str * list str) : bool :=
  match h with (Some d', _, _, _, _) => (d' =? d)%Z | _ => false end.
(** The transactions of the journal that are not rules. *)
Definition is_real_txn {P} (t : txn P) : bool := match t_type t with TReal => true | _ => false end.
Definition is_rule {P} (t : txn P) : bool := match t_type t with TAutomated => true | _ => false end.
Definition journal_txns (l : pledger) : list (txn rposting) := filter is_real_txn (pl_txns l).
Definition rules (l : pledger) : list (txn rposting) := filter is_rule (pl_txns l).

(** Names the journal mentions. *)
Definition mentions_account (l : pledger) (n : str) : Prop :=
  exists t p, In t (pl_txns l) /\ In p (t_postings t) /\ rp_account p = n.
Definition mentions_payee (l : pledger) (n : str) : Prop :=
  exists t p, In t (pl_txns l) /\ In p (t_postings t) /\ rp_payee p = Some n.
Definition mentions_commodity (l : pledger) (n : str) : Prop :=
  (exists p, In p (pl_prices l) /\ (n = pp_commodity p \/ n = pp_other p)) \/
  (exists t p q, In t (pl_txns l) /\ In p (t_postings t) /\
     (rp_money p = Some (q, n) \/ rp_cost p = Some (q, n) \/ rp_balance p = Some (q, n))).

(** [n] is the name of [e], or an alias of it, in any letter case. *)
Definition called {T} (w : world) (name : T -> str) (l : alist T) (n : str) (e : T) : Prop :=
  In e (l_values l) /\ l_get w n l = Ok e /\
  (w_lower w n = w_lower w (name e) \/ alias_for w name l (w_lower w n) e).

(** An amount of the journal as read with the ledger's commodities. *)
Definition reads_money (w : world) (cs : alist currency) (m : option (Qc * str)) (m' : option money) : Prop :=
  match m, m' with
  | None, None => True
  | Some (q, c), Some (M q' c') => q' = q /\ exists x, l_get w c cs = Ok x /\ c' = cu_name x
  | _, _ => False
  end.
Definition reads_cost (w : world) (cs : alist currency) (p : rposting) (k : option cost) : Prop :=
  match rp_cost p with
  | None => k = None
  | Some c => exists m, reads_money w cs (Some c) (Some m) /\
      match rp_cost_type p with
      | Some PTotal => k = Some (CTotal m)
      | Some PPerUnit => k = Some (CPerUnit m)
      | None => False
      end
  end.
(** An account claims the postings to an unknown account that are made with a payee that matches one of its
    patterns. *)
Definition is_unknown (w : world) (name : str) : bool := ends_with (L "unknown") (w_lower w name).
Definition claims_payee (w : world) (payee : str) (a : account) : Prop := exists rx, In rx (ac_payees a) /\ w_rx w rx payee = true.
(** A posting as read: amounts, assertion, cost, kind, account and payee. *)
Definition reads_posting (w : world) (al : alist account) (pays : alist payee) (cs : alist currency)
           (p : rposting) (p' : posting) : Prop :=
  reads_money w cs (rp_money p) (p_amount p') /\
  reads_money w cs (rp_balance p) (p_balance p') /\
  reads_cost w cs p (p_cost p') /\
  p_kind p' = rp_kind p /\
  (exists y, p_payee p' = Some (py_name y) /\ In y (l_values pays) /\
     forall n, rp_payee p = Some n -> l_get w n pays = Ok y) /\
  (exists a, p_account p' = ac_name a /\ In a (l_values al) /\
     (is_unknown w (rp_account p) = false -> l_get w (rp_account p) al = Ok a) /\
     (is_unknown w (rp_account p) = true -> forall y, p_payee p' = Some y ->
        claims_payee w y a \/ ((forall b, In b (l_values al) -> ~ claims_payee w y b) /\ l_get w (rp_account p) al = Ok a))).

(** The unit price a cost implies. *)
Definition implied_price (w : world) (cs : alist currency) (date : Z) (p : rposting) (pr : price) : Prop :=
  exists q c k kc x y,
    rp_money p = Some (q, c) /\ rp_cost p = Some (k, kc) /\
    l_get w c cs = Ok x /\ l_get w kc cs = Ok y /\
    pr_date pr = date /\ pr_com pr = cu_name x /\ pr_cur pr = cu_name y /\
    match rp_cost_type p with
    | Some PTotal => q <> 0 /\ pr_amount pr * q = k
    | Some PPerUnit => pr_amount pr = k
    | None => False
    end.
Definition directive_price (w : world) (cs : alist currency) (p : parsed_price) (pr : price) : Prop :=
  exists x y, l_get w (pp_commodity p) cs = Ok x /\ l_get w (pp_other p) cs = Ok y /\
    pr_date pr = pp_date p /\ pr_com pr = cu_name x /\ pr_amount pr = pp_quantity p /\ pr_cur pr = cu_name y.
Definition has_cost (p : rposting) : bool := match rp_cost p with Some _ => true | None => false end.
(** The postings with a cost of the transactions (not the rules), with their dates, in file order. *)
Definition costed (l : pledger) : list (option Z * rposting) :=
  flat_map (fun t => map (Datatypes.pair (t_date t)) (filter has_cost (t_postings t))) (journal_txns l).
(** The tags of the posting [p] of a transaction with the comments [cs]: those of the transaction,
    then those of the posting. *)
Definition written_tags (cs : list str) (p : rposting) : list tag := flat_map get_tags (cs ++ rp_comments p).
(** A transaction as read, before balancing. *)
Definition reads_txn (w : world) (al : alist account) (pays : alist payee) (cs : alist currency)
           (t : txn rposting) (t' : txn posting) : Prop :=
  header t' = header t /\ Forall2 (reads_posting w al pays cs) (t_postings t) (t_postings t') /\
  Forall2 (fun p p' => p_tags p' = written_tags (t_comments t) p) (t_postings t) (t_postings t') /\
  t_tags t' = flat_map get_tags (t_comments t).

(** [c] and [d] are the only two commodities in which the values [v] do not cancel. *)
Definition two_left (v : str -> Qc) (c d : str) : Prop :=
  c <> d /\ v c <> 0 /\ v d <> 0 /\ forall x, x <> c -> x <> d -> v x = 0.
(** The price recorded for a transaction whose values are [v]: none, unless exactly two commodities
    are left; then a positive rate that turns the one exactly into minus the other. *)
Definition exchange_price (date : option Z) (v : str -> Qc) (prs : list price) : Prop :=
  (prs = [] /\ forall c d, ~ two_left v c d) \/
  (exists pr, prs = [pr] /\ two_left v (pr_com pr) (pr_cur pr) /\ Some (pr_date pr) = date /\
     0 < pr_amount pr /\ v (pr_com pr) * pr_amount pr = - v (pr_cur pr)).

(** The amount of a posting that states only what its account holds afterwards, as in C15. *)
Definition assigned (run : str -> str -> Qc) (t t' : txn posting) : Prop :=
  forall pre p post b, t_postings t = pre ++ p :: post -> p_kind p = Real -> p_amount p = None -> p_balance p = Some b ->
  exists before p' after m, t_postings t' = before ++ p' :: after /\ Forall2 keeps (filter (given false) pre) before /\
    keeps p p' /\ p_amount p' = Some m /\
    forall c, money_amt m c = money_amt b c - (run (p_account p) c + account_sum before (p_account p) c).

(** The result of balancing one transaction, in the terms of C10, C13, C14, C15 and C32. *)
(** [run] are the running balances per account and commodity before the transaction. *)
Definition ledger_txn (skip : bool) (run : str -> str -> Qc) (t t' : txn posting) (prs : list price) : Prop :=
  spec_verdict skip t run Accepted /\
  same_header t t' /\
  (exists kept fills,
    t_postings t' = kept ++ fills ++ filter (fun p => negb (kind_eqb (p_kind p) Real)) (t_postings t) /\
    Forall2 keeps (filter (given skip) (t_postings t)) kept /\
    (forall q, In q fills -> p_kind q = Real /\ p_cost q = None /\ p_balance q = None /\ p_amount q <> None /\
       p_origin q = FromTransaction /\ exists p, filter (elided skip) (t_postings t) = [p] /\ p_account q = p_account p /\ p_payee q = p_payee p /\
       p_comments q = t_comments t /\ p_tags q = t_tags t) /\
    (filter (elided skip) (t_postings t) <> [] -> NoDup (map p_amount fills) /\
       forall m, In (Some m) (map p_amount fills) <-> exists a c, m = M a c /\ a = - group_value Real kept c /\ a <> 0)) /\
  fine (group_value Real (t_postings t')) /\
  (skip = false -> forall k1 p k2 a c, t_postings t' = k1 ++ p :: k2 -> p_kind p = Real -> p_balance p = Some (M a c) ->
     (run (p_account p) c + account_sum (k1 ++ [p]) (p_account p) c = a)%Qc) /\
  exchange_price (t_date t) (group_value Real (t_postings t')) prs /\
  (skip = false -> assigned run t t').

(** A run over a list of transactions: the transaction as read, the running balances it starts
    from, the transaction as balanced and the prices recorded for it. *)
Inductive ledger_run (skip : bool) : (str -> str -> Qc) -> list (txn posting) -> list (txn posting) -> list price -> Prop :=
| lr_nil run : ledger_run skip run [] [] []
| lr_cons run run' t t' prs ts ts' prices :
    ledger_txn skip run t t' prs ->
    (forall acc c, run' acc c = run acc c + account_sum (t_postings t') acc c) ->
    ledger_run skip run' ts ts' prices ->
    ledger_run skip run (t :: ts) (t' :: ts') (prs ++ prices).
(** A run that stops at a transaction whose verdict is not good. *)
Inductive stopped_run (skip : bool) : (str -> str -> Qc) -> list (txn posting) -> verdict -> Prop :=
| sr_here run t ts v : spec_verdict skip t run v -> v <> Accepted -> stopped_run skip run (t :: ts) v
| sr_later run run' t t' prs ts v :
    ledger_txn skip run t t' prs ->
    (forall acc c, run' acc c = run acc c + account_sum (t_postings t') acc c) ->
    stopped_run skip run' ts v -> stopped_run skip run (t :: ts) v.
Definition verdict_error (v : verdict) (e : error) : Prop :=
  match v with
  | Accepted => False
  | NotBalanced => e = ELedger TransactionIsNotBalanced
  | TooManyElided n => e = ELedger (TooManyEmptyPostings n)
  end.

(** ** Rules (automated transactions) *)
(** The value of an expression for posting [p] of [t], with some list of commodities [cs] that the
    ledger went through: [from] is where it started and [upto] where it ended. *)
Definition extends {T} (w : world) (l l' : alist T) : Prop :=
  (forall k e, l_get w k l = Ok e -> l_get w k l' = Ok e) /\ incl (l_values l) (l_values l').
Definition worth (w : world) (from upto : alist currency) (n : node) (p : posting) (t : txn posting) (v : value) : Prop :=
  exists cs cs', extends w from cs /\ eval w n p t cs = Ok (v, cs') /\ extends w cs' upto.

(** The posting that the line [ap] of a rule adds for the posting [p] of [t]. *)
Definition rule_amount (w : world) (from upto : alist currency) (t : txn posting) (p : posting) (ap : rposting) (m : money) : Prop :=
  match rp_money ap with
  | Some (q, []) => exists a c, p_amount p = Some (M a c) /\ m = M (a * q) c
  | Some (q, c) => exists x, l_get w c upto = Ok x /\ m = M q (cu_name x)
  | None => exists e n, rp_expr ap = Some e /\ build_root w e = Ok n /\
      (worth w from upto n p t (VMoney m) \/
       exists q a, worth w from upto n p t (VNumber q) /\ p_amount p = Some a /\
         m = match a with MZero => MZero | M x c => M (x * q) c end)
  end.
Definition rule_posting (w : world) (from upto : astate) (t : txn posting) (p : posting) (ap : rposting) (q : posting) : Prop :=
  (exists a, l_get w (rp_account ap) (as_accs upto) = Ok a /\ p_account q = ac_name a) /\
  match rp_payee ap with
  | Some x => exists y, l_get w x (as_pays upto) = Ok y /\ p_payee q = Some (py_name y)
  | None => p_payee q = p_payee p
  end /\
  (exists m, p_amount q = Some m /\ rule_amount w (as_curs from) (as_curs upto) t p ap m) /\
  p_kind q = rp_kind ap /\ p_balance q = None /\ p_cost q = None /\ p_comments q = [] /\ p_tags q = [] /\
  p_origin q = OAutomated.

(** [p] with more tags. *)
Definition tagged (tags : list tag) (p : posting) : posting :=
  {| p_account := p_account p; p_amount := p_amount p; p_balance := p_balance p; p_cost := p_cost p;
     p_kind := p_kind p; p_comments := p_comments p; p_tags := p_tags p ++ tags; p_payee := p_payee p;
     p_origin := p_origin p |}.
(** One rule over the postings [todo] of [t], the postings [done] having been visited: how the
    postings are tagged and which are added. *)
Inductive rule_pass (w : world) (from upto : astate) (query : node) (rule : txn rposting) (t : txn posting)
  : list posting -> list posting -> list posting -> list posting -> Prop :=
| rp_end done : rule_pass w from upto query rule t done [] [] []
| rp_automated done p r tg ad : p_origin p <> FromTransaction ->
    rule_pass w from upto query rule t (done ++ [p]) r tg ad ->
    rule_pass w from upto query rule t done (p :: r) (p :: tg) ad
| rp_unmatched done p r tg ad : p_origin p = FromTransaction ->
    worth w (as_curs from) (as_curs upto) query p (set_postings t (done ++ p :: r)) (VBool false) ->
    rule_pass w from upto query rule t (done ++ [p]) r tg ad ->
    rule_pass w from upto query rule t done (p :: r) (p :: tg) ad
| rp_matched done p p' r new tg ad : p_origin p = FromTransaction ->
    worth w (as_curs from) (as_curs upto) query p (set_postings t (done ++ p :: r)) (VBool true) ->
    p' = tagged (flat_map get_tags (t_comments rule)) p ->
    Forall2 (rule_posting w from upto (set_postings t (done ++ p' :: r)) p') (t_postings rule) new ->
    rule_pass w from upto query rule t (done ++ [p']) r tg ad ->
    rule_pass w from upto query rule t done (p :: r) (p' :: tg) (new ++ ad).
(** All the rules, one after the other, over one transaction. *)
Inductive rules_pass (w : world) (from upto : astate) : list (node * txn rposting) -> txn posting -> txn posting -> Prop :=
| rs_nil t : rules_pass w from upto [] t t
| rs_cons query rule rs t tg ad t' :
    rule_pass w from upto query rule t [] (t_postings t) tg ad ->
    rules_pass w from upto rs (set_postings t (tg ++ ad)) t' ->
    rules_pass w from upto ((query, rule) :: rs) t t'.

(** ** Where the names come from *)
(** In a list [l'] made from the list [l] of the directives and the names [used] a name stands for what the
    directives say, else for a new element [mk m] for a name [m] that is used and is the same up to letter case;
    and there are no other elements. *)
Definition named_after {T} (w : world) (mk : str -> T) (used : str -> Prop) (l l' : alist T) : Prop :=
  (forall k e, l_get w k l' = Ok e ->
    l_get w k l = Ok e \/
    ((forall x, l_get w k l <> Ok x) /\ exists m, used m /\ w_lower w m = w_lower w k /\ e = mk m)) /\
  (forall e, In e (l_values l') -> In e (l_values l) \/ exists m, used m /\ (forall x, l_get w m l <> Ok x) /\ e = mk m).
(** For payees there is a third way: the payee of a directive with a pattern that matches the name. *)
Definition claims_name (w : world) (name : str) (y : payee) : Prop := exists rx, In rx (py_regexes y) /\ w_rx w rx name = true.
Definition payees_after (w : world) (used : str -> Prop) (l l' : alist payee) : Prop :=
  (forall k e, l_get w k l' = Ok e ->
    l_get w k l = Ok e \/
    ((forall x, l_get w k l <> Ok x) /\ exists m, used m /\ w_lower w m = w_lower w k /\
      ((In e (l_values l) /\ claims_name w m e) \/
       ((forall y, In y (l_values l) -> ~ claims_name w m y) /\ e = payee_from m)))) /\
  (forall e, In e (l_values l') -> In e (l_values l) \/
     exists m, used m /\ (forall x, l_get w m l <> Ok x) /\ (forall y, In y (l_values l) -> ~ claims_name w m y) /\ e = payee_from m).

(** ** The whole ledger *)
(** What the journal says, read with the lists of names [al], [cs] and [pays]: transactions [ts] in
    file order, prices of directives [dir], prices implied by costs [costs]. *)
Record journal_read (w : world) (l : pledger) (al : alist account) (cs : alist currency) (pays : alist payee)
       (ts : list (txn posting)) (dir costs : list price) : Prop := {
  jr_found_accounts : forall n, mentions_account l n -> exists e, l_get w n al = Ok e;
  jr_found_commodities : forall n, mentions_commodity l n -> exists e, l_get w n cs = Ok e;
  jr_found_payees : forall n, mentions_payee l n -> exists e, l_get w n pays = Ok e;
  jr_accounts : extends w (pl_accounts l) al;
  jr_commodities : extends w (pl_commodities l) cs;
  jr_payees : extends w (pl_payees l) pays;
  jr_new_accounts : named_after w account_from (mentions_account l) (pl_accounts l) al;
  jr_new_commodities : named_after w currency_from (mentions_commodity l) (pl_commodities l) cs;
  jr_new_payees : payees_after w (mentions_payee l) (pl_payees l) pays;
  jr_txns : Forall2 (reads_txn w al pays cs) (journal_txns l) ts;
  jr_origin : forall t p, In t ts -> In p (t_postings t) -> p_origin p = FromTransaction;
  jr_prices : Forall2 (directive_price w cs) (pl_prices l) dir;
  jr_costs : Forall2 (fun dp pr => exists d, fst dp = Some d /\ implied_price w cs d (snd dp) pr) (costed l) costs;
}.
(** [ts'] is [ts] sorted by date, transactions of one day in the order of [ts]. *)
Definition dated {P} (d : Z) (t : txn P) : bool := match t_date t with Some d' => (d' =? d)%Z | None => false end.
Definition not_after {P} (t u : txn P) : Prop :=
  match t_date t, t_date u with Some a, Some b => (a <= b)%Z | _, _ => False end.
Definition date_sorted {P} (ts ts' : list (txn P)) : Prop :=
  Permutation ts ts' /\ StronglySorted not_after ts' /\ forall d, filter (dated d) ts' = filter (dated d) ts.

(** The lists of the ledger are lists made with the API of lists. *)
Definition lists_built (w : world) (lg : ledger) : Prop :=
  buildable w ac_name ac_aliases (lg_accounts lg) /\ buildable w cu_name cu_aliases (lg_commodities lg) /\
  buildable w py_name py_aliases (lg_payees lg).
(** The ledger [lg] is what the journal [l] describes. *)
Inductive ledger_built (w : world) (skip : bool) (l : pledger) (lg : ledger) : Prop :=
| lb_plain ts dir costs sorted run imps :
    rules l = [] -> lists_built w lg ->
    journal_read w l (lg_accounts lg) (lg_commodities lg) (lg_payees lg) ts dir costs ->
    date_sorted ts sorted ->
    (forall acc c, run acc c = 0) -> ledger_run skip run sorted (lg_txns lg) imps ->
    lg_prices lg = dir ++ costs ++ imps ->
    ledger_built w skip l lg
| lb_rules al cs pays ts dir costs sorted run ts1 imps queries ts2 run' imps' :
    rules l <> [] -> lists_built w lg ->
    journal_read w l al cs pays ts dir costs ->
    date_sorted ts sorted ->
    (forall acc c, run acc c = 0) -> ledger_run skip run sorted ts1 imps ->
    Forall2 (fun r q => build_root w (get_filter_query r) = Ok q) (rules l) queries ->
    Forall2 (rules_pass w {| as_accs := al; as_curs := cs; as_pays := pays |}
               {| as_accs := lg_accounts lg; as_curs := lg_commodities lg; as_pays := lg_payees lg |}
               (combine queries (rules l))) ts1 ts2 ->
    (forall acc c, run' acc c = 0) -> ledger_run skip run' ts2 (lg_txns lg) imps' ->
    extends w al (lg_accounts lg) -> extends w cs (lg_commodities lg) -> extends w pays (lg_payees lg) ->
    lg_prices lg = dir ++ costs ++ imps ++ imps' ->
    ledger_built w skip l lg.
(** A journal that is refused for a transaction as written: the transaction at fault. *)
Definition ledger_refused (w : world) (skip : bool) (l : pledger) (v : verdict) : Prop :=
  exists al cs pays ts dir costs sorted run,
    journal_read w l al cs pays ts dir costs /\ date_sorted ts sorted /\
    (forall acc c, run acc c = 0) /\ stopped_run skip run sorted v.
(** A journal that is refused for a transaction as the rules have changed it. *)
Definition refused_after_rules (w : world) (skip : bool) (l : pledger) (v : verdict) : Prop :=
  exists al cs pays ts dir costs sorted run ts1 imps queries upto ts2 run',
    journal_read w l al cs pays ts dir costs /\ date_sorted ts sorted /\
    (forall acc c, run acc c = 0) /\ ledger_run skip run sorted ts1 imps /\
    Forall2 (fun r q => build_root w (get_filter_query r) = Ok q) (rules l) queries /\
    Forall2 (rules_pass w {| as_accs := al; as_curs := cs; as_pays := pays |} upto (combine queries (rules l))) ts1 ts2 /\
    extends w al (as_accs upto) /\ extends w cs (as_curs upto) /\ extends w pays (as_pays upto) /\
    (forall acc c, run' acc c = 0) /\ stopped_run skip run' ts2 v.
(** A total cost for a zero amount has no unit price. *)
Definition zero_total_cost (p : rposting) : Prop :=
  exists c k, rp_money p = Some (0, c) /\ rp_cost p = Some k /\ rp_cost_type p = Some PTotal.

(** [l] is what some text parses to. *)
Definition parsed (w : world) (l : pledger) : Prop :=
  exists depth file seen content, tokenize depth w file seen content = Ok l.

(** ** Contents of postings *)
(** [q] carries what the posting [p] of a transaction of the journal with the comments [cs] says,
    [nma], [nmc] and [nmp] being the identities of accounts, commodities and payees and [dirs] the accounts
    of the directives.  Rules may have added tags. *)
Definition carries (w : world) (dirs : list account) (nma nmc nmp : str -> str) (cs : list str) (p : rposting) (q : posting) : Prop :=
  (forall a c, rp_money p = Some (a, c) -> p_amount q = Some (M a (nmc c))) /\
  p_balance q = match rp_balance p with Some (a, c) => Some (M a (nmc c)) | None => None end /\
  p_cost q = match rp_cost p, rp_cost_type p with
             | Some (a, c), Some PTotal => Some (CTotal (M a (nmc c)))
             | Some (a, c), _ => Some (CPerUnit (M a (nmc c)))
             | None, _ => None
             end /\
  p_kind q = rp_kind p /\
  (is_unknown w (rp_account p) = false -> p_account q = nma (rp_account p)) /\
  (is_unknown w (rp_account p) = true -> forall y, p_payee q = Some y ->
     (exists a, In a dirs /\ claims_payee w y a /\ p_account q = ac_name a) \/
     ((forall a, In a dirs -> ~ claims_payee w y a) /\ p_account q = nma (rp_account p))) /\
  (forall n, rp_payee p = Some n -> p_payee q = Some (nmp n)) /\
  exists more, p_tags q = written_tags cs p ++ more.
(** A posting that says how much: virtual, with an amount, or with an assertion that is looked at. *)
Definition states (skip : bool) (p : rposting) : bool :=
  match rp_kind p, rp_money p, rp_balance p with
  | Real, None, None => false
  | Real, None, Some _ => negb skip
  | _, _, _ => true
  end.
(** [ys] has a counterpart of each element of [xs], and maybe more. *)
Definition includes {A B} (R : A -> B -> Prop) (xs : list A) (ys : list B) : Prop :=
  exists kept rest, Permutation ys (kept ++ rest) /\ Forall2 R xs kept.

(** Journals that differ in the order of transactions only. *)
Record reordered (w : world) (l l' : pledger) : Prop := {
  ro_accounts : pl_accounts l' = pl_accounts l;
  ro_payees : pl_payees l' = pl_payees l;
  ro_commodities : pl_commodities l' = pl_commodities l;
  ro_price_list : pl_prices l' = pl_prices l;
  ro_txns : Permutation (pl_txns l) (pl_txns l');
  ro_rules : rules l' = rules l;
  (* the sets of names are traversed in the same order *)
  ro_order0 : w_ord w 0 _ (commodity_names l') = w_ord w 0 _ (commodity_names l);
  ro_order1 : w_ord w 1 _ (account_names l') = w_ord w 1 _ (account_names l);
  ro_order2 : w_ord w 2 _ (payee_names l') = w_ord w 2 _ (payee_names l);
}.
Definition same_outcome (r r' : res ledger) : Prop :=
  match r, r' with
  | Ok a, Ok b => lg_txns a = lg_txns b /\ lg_accounts a = lg_accounts b /\ lg_commodities a = lg_commodities b /\
                  lg_payees a = lg_payees b /\ Permutation (lg_prices a) (lg_prices b)
  | Err e, Err e' => e = e'
  | Panic e, Panic e' => e = e'
  | _, _ => False
  end.

(** Equal in everything but the mark of where the posting comes from. *)
Definition unchanged (p q : posting) : Prop :=
  p_account q = p_account p /\ p_amount q = p_amount p /\ p_balance q = p_balance p /\ p_cost q = p_cost p /\
  p_kind q = p_kind p /\ p_comments q = p_comments p /\ p_tags q = p_tags p /\ p_payee q = p_payee p.
(** The same postings, in some order. *)
Definition same_postings (t t' : txn posting) : Prop :=
  exists ps, Permutation (t_postings t') ps /\ Forall2 unchanged (t_postings t) ps.

(** A rule whose query is not a condition for some posting. *)
Definition no_condition (w : world) (r : txn rposting) : Prop :=
  exists n p t cs v cs', build_root w (get_filter_query r) = Ok n /\ eval w n p t cs = Ok (v, cs') /\ forall b, v <> VBool b.
(** The ways in which a rule aborts: its query is not understood, its query or its amount can not be
    evaluated for some posting, or it multiplies an amount that is not there. *)
Definition rule_aborts (w : world) (r : txn rposting) (x : panic) : Prop :=
  build_root w (get_filter_query r) = Panic x \/
  (exists n p t cs, build_root w (get_filter_query r) = Ok n /\ eval w n p t cs = Panic x) \/
  (exists ap p t cs, In ap (t_postings r) /\
     match rp_money ap, rp_expr ap with
     | Some (_, []), _ => x = PUnwrap /\ (p_amount p = None \/ p_amount p = Some MZero)
     | Some _, _ => False
     | None, Some e => eval_value_expression w e p t cs = Panic x
     | None, None => x = PUnwrap
     end).
