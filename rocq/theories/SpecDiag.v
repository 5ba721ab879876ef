(** Vocabulary for what is printed about a refused journal (C76). *)
From Verif Require Import Base Numerals Money Alist Comment Txn Peg Grammar Dates Expr Filter Tokens Price Ledger Spec SpecText SpecDates SpecList SpecTxn
  SpecLedger SpecLayout.
Open Scope Qc_scope.

(** A run over the transactions of a journal that stops at [t], the running balances before it being [now],
    with the verdict [v]: the transactions before it are accepted. *)
Inductive stopped_at (skip : bool) : (str -> str -> Qc) -> list (txn posting) -> txn posting -> (str -> str -> Qc) -> verdict -> Prop :=
| sa_here run t ts v : spec_verdict skip t run v -> v <> Accepted -> stopped_at skip run (t :: ts) t run v
| sa_later run run' t t' prs ts u now v :
    ledger_txn skip run t t' prs ->
    (forall acc c, run' acc c = run acc c + account_sum (t_postings t') acc c) ->
    stopped_at skip run' ts u now v -> stopped_at skip run (t :: ts) u now v.
(** [t] is the first transaction by date that is refused: as it is written, or, if they are all accepted so, as
    the rules have changed it. *)
Definition culprit_as_written (w : world) (skip : bool) (l : pledger) (t : txn posting) (now : str -> str -> Qc) (v : verdict) : Prop :=
  exists al cs pays ts dir costs sorted run,
    journal_read w l al cs pays ts dir costs /\ date_sorted ts sorted /\
    (forall acc c, run acc c = 0) /\ stopped_at skip run sorted t now v.
Definition culprit_after_rules (w : world) (skip : bool) (l : pledger) (t : txn posting) (now : str -> str -> Qc) (v : verdict) : Prop :=
  exists al cs pays ts dir costs sorted run ts1 imps queries upto ts2 run',
    journal_read w l al cs pays ts dir costs /\ date_sorted ts sorted /\
    (forall acc c, run acc c = 0) /\ ledger_run skip run sorted ts1 imps /\
    Forall2 (fun r q => build_root w (get_filter_query r) = Ok q) (rules l) queries /\
    Forall2 (rules_pass w {| as_accs := al; as_curs := cs; as_pays := pays |} upto (combine queries (rules l))) ts1 ts2 /\
    (forall acc c, run' acc c = 0) /\ stopped_at skip run' ts2 t now v.
Definition culprit (w : world) (skip : bool) (l : pledger) (t : txn posting) (now : str -> str -> Qc) (v : verdict) : Prop :=
  culprit_as_written w skip l t now v \/ culprit_after_rules w skip l t now v.

(** The first thing wrong among the postings [ps] of a transaction is the assertion of [p]: with its amount [m]
    the account has another amount of [c] than the [a] asserted.  [now] is the state before [p]. *)
Definition assertion_fails (skip : bool) (s : srun) (ps : list posting) (p : posting) (m : money) (a : Qc) (c : str) (now : srun) : Prop :=
  skip = false /\ p_kind p = Real /\ p_amount p = Some m /\ p_balance p = Some (M a c) /\
  s_run now (p_account p) c + money_amt m c <> a /\
  exists before after, ps = before ++ p :: after /\ spec_steps skip s before (Some now).

(** ** Texts *)
(** One line for the date and the description; then the accounts, on lines of their own after a tab, with the
    amounts, where there are any, from column 50 on or right after a longer name. *)
Definition posting_printed (p : posting) (line : str) : Prop :=
  exists name amount, line = [c_nl; c_tab] ++ name ++ amount /\ at_left 50 (p_account p) name /\
    match p_amount p with Some m => amount_text m amount | None => amount = [] end.
Definition txn_printed (t : txn posting) (text : str) : Prop :=
  exists day y m d date lines, t_date t = Some day /\ day_count y m d day /\
    ((0 <= y <= 9999)%Z -> date_written (L "-") y m d date) /\
    text = date ++ L " " ++ t_desc t ++ concat lines /\ Forall2 posting_printed (t_postings t) lines.
(** The amounts [v], one for each commodity in which there is any, in some order and without anything between. *)
Definition amounts_run_together (v : str -> Qc) (text : str) : Prop :=
  exists ms texts, text = concat texts /\ Forall2 amount_text ms texts /\ NoDup ms /\
    forall m, In m ms <-> exists c, m = M (v c) c /\ v c <> 0.
Definition assertion_printed (p : posting) (m : money) (a : Qc) (c : str) (now : srun) (lines : list str) : Prop :=
  exists x y z, lines = [L "Found:       " ++ x; L "Expected:    " ++ y; L "Difference:  " ++ z] /\
    amount_text (M a c) x /\
    amounts_run_together (fun d => s_run now (p_account p) d + money_amt m d) y /\
    amounts_run_together (fun d => s_run now (p_account p) d + money_amt m d - money_amt (M a c) d) z.
Definition verdict_printed (v : verdict) (text : str) : Prop :=
  match v with
  | Accepted => False
  | NotBalanced => text = L "TransactionIsNotBalanced"
  | TooManyElided n => exists ds, text = L "TooManyEmptyPostings(" ++ ds ++ L ")" /\ only_digits ds /\ ds <> [] /\
      dec_value ds = N.of_nat n /\ (hd 0%N ds = 48%N -> ds = [48%N])
  end.
(** All that is printed on the refused transaction [t]. *)
Definition refusal_printed (skip : bool) (now : str -> str -> Qc) (t : txn posting) (v : verdict) (lines : list str) : Prop :=
  exists head text reason, lines = head ++ [text; reason] /\ txn_printed t text /\ verdict_printed v reason /\
    ((exists p m a c s, fine (virtual_group (t_postings t)) /\ assertion_fails skip (start now) (t_postings t) p m a c s /\
        assertion_printed p m a c s head) \/
     (head = [] /\ forall p m a c s, fine (virtual_group (t_postings t)) -> ~ assertion_fails skip (start now) (t_postings t) p m a c s)).
