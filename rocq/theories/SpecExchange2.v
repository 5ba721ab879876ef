(** Vocabulary for C81, journals that state balances or have rules: their prices. *)
From Verif Require Import Base Money Alist Txn Filter Tokens Price Ledger Reports Spec SpecTxn SpecLedger SpecPrice SpecBook SpecAssert SpecRules SpecExchange.
Open Scope Qc_scope.

(** The prices written in a journal: those of the directives, those paid in the transactions [ts]. *)
Definition written_prices (w : world) (l : pledger) (ts : list (txn rposting)) : list price :=
  map (stated_price w l) (pl_prices l) ++ flat_map (fun t => flat_map (paid_price w l t) (t_postings t)) ts.
(** What the real postings of a transaction leave, the accounts holding [now] before it: nothing, if the amount of one of
    them is left open. *)
Definition left_now (w : world) (l : pledger) (skip : bool) (now : holdings) (t : txn rposting) (c : str) : Qc :=
  match filter (blank skip) (t_postings t) with [] => value_sum w l skip now (t_postings t) c | _ => 0 end.
(** The prices of the transactions that exchange one commodity for another, one transaction after the other. *)
Fixpoint exchanges (w : world) (l : pledger) (skip : bool) (now : holdings) (us : list (txn rposting)) (prss : list (list price)) : Prop :=
  match us, prss with
  | [], [] => True
  | t :: us, prs :: prss => exchange_price (t_date t) (left_now w l skip now t) prs /\ exchanges w l skip (after_txn w l skip now t) us prss
  | _, _ => False
  end.
(** All the prices of a journal that states balances, [us] being its transactions by date. *)
Definition stated_prices (w : world) (l : pledger) (skip : bool) (us : list (txn rposting)) (ps : list price) : Prop :=
  exists prss, exchanges w l skip nothing us prss /\ ps = written_prices w l (pl_txns l) ++ concat prss.
(** The prices of the exchanges among the lines of transactions. *)
Definition line_exchanges (w : world) (l : pledger) (us : list (txn rposting)) (xss : list (list line)) (prss : list (list price)) : Prop :=
  Forall2 (fun tx prs => exchange_price (t_date (fst tx)) (kind_sum w l Real (snd tx)) prs) (combine us xss) prss.
(** All the prices of a journal with the rules [rs], [xss] being the lines of its transactions [us] without the rules: a
    transaction gives its price without the lines of the rules, and once more with them. *)
Definition ruled_prices (w : world) (l : pledger) (rs : list ruling) (us : list (txn rposting)) (xss : list (list line)) (ps : list price) : Prop :=
  exists before after, line_exchanges w l us xss before /\ line_exchanges w l us (map (with_rules w l rs) xss) after /\
    ps = written_prices w l (journal_txns l) ++ concat before ++ concat after.
(** The rates of a report, [prices] being the prices of the journal. *)
Definition rates_from (w : world) (o : opts) (l : pledger) (prices : list price -> Prop) (cur : str) (rates : list (str * Qc)) : Prop :=
  match o_exchange o with
  | None => rates = []
  | Some x =>
      (rates = [] /\ forall c, ~ names_commodity w l x c) \/
      (names_commodity w l x cur /\ exists ps, prices ps /\ rates_into ps (w_now w) cur rates)
  end.
