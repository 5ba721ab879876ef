(** Vocabulary for C89: journals that differ in their remarks only. *)
From Verif Require Import Base Money Alist Txn Expr Filter Tokens SpecLedger.

(** Comments with a colon in them; a tag has one.  Two lists of comments with the same such comments. *)
Definition has_colon (c : str) : bool := existsb (N.eqb c_colon) c.
Definition same_tags (cs cs' : list str) : Prop := filter has_colon cs = filter has_colon cs'.

(** Directives that differ in note, isin, check, assert and default lines, or in note, format and default lines. *)
Definition account_alike (a a' : account) : Prop :=
  ac_name a = ac_name a' /\ ac_aliases a = ac_aliases a' /\ ac_payees a = ac_payees a'.
Definition commodity_alike (c c' : currency) : Prop := cu_name c = cu_name c' /\ cu_aliases c = cu_aliases c'.
Definition list_alike {T} (R : T -> T -> Prop) (l l' : alist T) : Prop :=
  l_aliases l = l_aliases l' /\ Forall2 (fun x y => fst x = fst y /\ R (snd x) (snd y)) (l_list l) (l_list l').

(** Postings that differ in comments without tags. *)
Definition posting_alike (p p' : rposting) : Prop :=
  rp_account p = rp_account p' /\ rp_money p = rp_money p' /\ rp_cost_type p = rp_cost_type p' /\ rp_cost p = rp_cost p' /\
  rp_balance p = rp_balance p' /\ rp_expr p = rp_expr p' /\ rp_kind p = rp_kind p' /\ rp_payee p = rp_payee p' /\
  same_tags (rp_comments p) (rp_comments p').
(** Transactions that differ in the effective date and in comments without tags; in the latter only if [notes] is false. *)
Definition txn_alike (notes : bool) (t t' : txn rposting) : Prop :=
  t_type t = t_type t' /\ t_date t = t_date t' /\ t_desc t = t_desc t' /\ t_payee t = t_payee t' /\ t_code t = t_code t' /\
  Forall2 posting_alike (t_postings t) (t_postings t') /\ same_tags (t_comments t) (t_comments t') /\
  (notes = true -> t_comments t = t_comments t').
(** Journals; their comments outside of transactions and their tag directives may be any. *)
Definition journal_alike (notes : bool) (l l' : pledger) : Prop :=
  list_alike account_alike (pl_accounts l) (pl_accounts l') /\ list_alike commodity_alike (pl_commodities l) (pl_commodities l') /\
  pl_payees l = pl_payees l' /\ pl_prices l = pl_prices l' /\ Forall2 (txn_alike notes) (pl_txns l) (pl_txns l').

(** The order in which a hash table is gone through does not depend on what is stored under its keys. *)
Definition order_blind (w : world) : Prop :=
  forall site A B (f : A -> B) l, w_ord w site B (map f l) = map f (w_ord w site A l).

(** The query and the rules do not ask for notes. *)
Fixpoint note_free (n : node) : Prop :=
  match n with
  | NNote => False
  | NUnary _ c => note_free c
  | NBinary _ a b => note_free a /\ note_free b
  | _ => True
  end.
Definition asks_no_note (w : world) (l : pledger) (o : opts) : Prop :=
  (forall n, query_node w o = Ok (Some n) -> note_free n) /\
  forall r, In r (rules l) ->
    (forall n, build_root w (get_filter_query r) = Ok n -> note_free n) /\
    forall p e n, In p (t_postings r) -> rp_expr p = Some e -> build_root w e = Ok n -> note_free n.
