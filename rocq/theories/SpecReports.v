(** Vocabulary for the properties of the reports (C55-C61): which postings are reported, sums over them,
    sub-accounts. *)
From Verif Require Import Base Money Alist Txn Expr Filter Price Ledger Spec SpecQuery SpecLedger.
Open Scope Qc_scope.

(** The ledger is made from some text. *)
Definition made_from (w : world) (lg : ledger) : Prop := exists skip j, parsed w j /\ to_ledger w skip j = Ok lg.

(** The postings of a ledger, each with its transaction, in ledger order; those to be reported. *)
Definition ledger_postings (l : ledger) : list (txn posting * posting) :=
  flat_map (fun t => map (Datatypes.pair t) (t_postings t)) (lg_txns l).
Definition reported_postings (w : world) (o : opts) (q : option node) (l : ledger) (ps : list (txn posting * posting)) : Prop :=
  selection (fun x => reported w o q (lg_commodities l) (fst x) (snd x)) (ledger_postings l) ps.

(** The amount of commodity [c] in a posting, in several amounts, and in the postings to the accounts
    that satisfy [P]. *)
Definition amount_in (c : str) (p : posting) : Qc :=
  match p_amount p with Some m => money_amt m c | None => 0 end.
Definition moneys_amt (ms : list money) (c : str) : Qc := qsum (map (fun m => money_amt m c) ms).
Definition subtotal (ps : list posting) (P : str -> bool) (c : str) : Qc :=
  qsum (map (amount_in c) (filter (fun p => P (p_account p)) ps)).

(** [name] is the account [acc] or one of its sub-accounts. *)
Definition inside (acc name : str) : bool := str_eqb name acc || starts_with (acc ++ L ":") name.
(** Number of levels of a name. *)
Definition levels (name : str) : nat := S (length (filter (N.eqb c_colon) name)).
(** [n] is [name] cut down to at most [d] levels. *)
Definition shortened (d : nat) (name n : str) : Prop :=
  (levels name <= d)%nat /\ n = name \/
  (exists r, name = n ++ L ":" ++ r /\ levels n = d) \/
  d = O /\ n = [].

(** Amounts as they are shown: at most one for each commodity, none of them zero. *)
Definition shown_amounts (ms : list money) : Prop :=
  NoDup (map m_commodity ms) /\ Forall (fun m => m_is_zero m = false) ms.

(** Converting the amounts [ms] at the given rates into [cur]: how much of commodity [c] there is
    afterwards. *)
Definition converted (rate : str -> option Qc) (cur : str) (ms : list money) (c : str) : Qc :=
  qsum (map (fun m => match m with
                      | MZero => 0
                      | M a k => match rate k with
                                 | Some r => if str_eqb cur c then a * r else 0
                                 | None => if str_eqb k c then a else 0
                                 end
                      end) ms).

(** Ascending names without repetition. *)
Fixpoint ascending (l : list str) : Prop :=
  match l with
  | a :: (b :: _) as r => str_ltb a b = true /\ ascending r
  | _ => True
  end.

(** The amounts of the postings to the accounts that satisfy [P]. *)
Definition amounts_of (ps : list posting) (P : str -> bool) : list money :=
  flat_map (fun p => match p_amount p with Some m => [m] | None => [] end) (filter (fun p => P (p_account p)) ps).

(** The rates of a report and the commodity it converts into: none without --exchange or if the commodity
    asked for is not known; otherwise those of today's prices (C33-C38).  [cs] are the commodities known
    once the query has been evaluated. *)
Inductive report_rates (w : world) (o : opts) (lg : ledger) (cs : alist currency) : (str -> option Qc) -> str -> Prop :=
| rates_none cur : o_exchange o = None -> report_rates w o lg cs (fun _ => None) cur
| rates_unknown x cur : o_exchange o = Some x -> (forall c, l_get w x cs <> Ok c) -> report_rates w o lg cs (fun _ => None) cur
| rates_found x c site mults : o_exchange o = Some x -> l_get w x cs = Ok c ->
    conversion w site (cu_name c) (w_now w) (lg_prices lg) = Ok mults ->
    report_rates w o lg cs (fun k => hget str_eqb k mults) (cu_name c).

(** Evaluating the query makes no commodity known. *)
Definition adds_no_commodity (w : world) (q : option node) : Prop :=
  match q with None => True | Some n => forall p t cs v cs', eval w n p t cs = Ok (v, cs') -> cs' = cs end.
(** What a report is made of: the parsed query, the reported postings, the rates. *)
Record report_data (w : world) (o : opts) (lg : ledger) (q : option node) (tps : list (txn posting * posting))
       (rate : str -> option Qc) (cur : str) : Prop := {
  rd_query : query_node w o = Ok q;
  rd_postings : reported_postings w o q lg tps;
  rd_rates : exists cs, extends w (lg_commodities lg) cs /\ (adds_no_commodity w q -> cs = lg_commodities lg) /\ report_rates w o lg cs rate cur;
}.

(** A row of a balance report that shows the amounts of the accounts satisfying [P], converted. *)
Definition row_shows (rate : str -> option Qc) (cur : str) (ps : list posting) (P : str -> bool) (ms : list money) : Prop :=
  shown_amounts ms /\ forall c, moneys_amt ms c = converted rate cur (amounts_of ps P) c.

(** The name without the name of its parent. *)
Definition own_part (name part : str) : Prop :=
  filter (N.eqb c_colon) part = [] /\ (name = part \/ exists parent, name = parent ++ L ":" ++ part).
Definition begins_with_colon (name : str) : Prop := exists r, name = L ":" ++ r.

(** The lines of the register: the postings in order, the first one of a transaction with the transaction. *)
Definition with_heading (s : txn posting * list posting) : list (option (txn posting) * posting) :=
  match snd s with
  | [] => []
  | p :: r => (Some (fst s), p) :: map (fun x => (None, x)) r
  end.
(** An account as the register shows it. *)
Definition shown_account (p : posting) : str :=
  match p_kind p with
  | Real => p_account p
  | Virtual => L "(" ++ p_account p ++ L ")"
  | VirtualMustBalance => L "[" ++ p_account p ++ L "]"
  end.
(** The payee a description stands for: the one known by that name; else the description itself (as first met
    by the report, so possibly with other letter case). *)
Definition payee_known (w : world) (pays : alist payee) (desc n : str) : Prop :=
  match l_get w desc pays with Ok y => n = py_name y | _ => w_lower w n = w_lower w desc end.
(** The heading of a line: the date of the transaction and the payee its description names. *)
Definition heading (w : world) (pays : alist payee) (h : option (txn posting)) (shown : option (Z * str)) : Prop :=
  match h, shown with
  | None, None => True
  | Some t, Some (d, n) => t_date t = Some d /\ payee_known w pays (t_desc t) n
  | _, _ => False
  end.
