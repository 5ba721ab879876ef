(** Vocabulary for C90: journals that call declared accounts and commodities by other names. *)
From Verif Require Import Base Money Alist Txn Tokens.

(** Two names of one directive of a list: its name or an alias, in whatever case. *)
Definition one_directive {T} (w : world) (l : alist T) (n n' : str) : Prop :=
  exists x, l_get w n l = Ok x /\ l_get w n' l = Ok x.

(** How the names of accounts and of commodities may differ between two journals with the same
    directives: if [free], each is declared, and both are names of the same directive; otherwise not
    at all.  An account that ends in "unknown" stands for any account whose directive lists the payee,
    so that both names have to end like this or none.  A number with no commodity has none in both. *)
Definition account_spelled (w : world) (l : pledger) (free : bool) (n n' : str) : Prop :=
  if free then one_directive w (pl_accounts l) n n' /\
               ends_with (L "unknown") (w_lower w n) = ends_with (L "unknown") (w_lower w n')
  else n = n'.
Definition commodity_spelled (w : world) (l : pledger) (free : bool) (c c' : str) : Prop :=
  if free then (c = [] /\ c' = []) \/ (c <> [] /\ c' <> [] /\ one_directive w (pl_commodities l) c c')
  else c = c'.
Definition money_spelled (w : world) (l : pledger) (free : bool) (m m' : option (Qc * str)) : Prop :=
  match m, m' with
  | None, None => True
  | Some (q, c), Some (q', c') => q = q' /\ commodity_spelled w l free c c'
  | _, _ => False
  end.

Definition posting_spelled (w : world) (l : pledger) (fa fc : bool) (p p' : rposting) : Prop :=
  account_spelled w l fa (rp_account p) (rp_account p') /\
  money_spelled w l fc (rp_money p) (rp_money p') /\ money_spelled w l fc (rp_cost p) (rp_cost p') /\
  money_spelled w l fc (rp_balance p) (rp_balance p') /\ rp_cost_type p = rp_cost_type p' /\
  rp_comments p = rp_comments p' /\ rp_expr p = rp_expr p' /\ rp_kind p = rp_kind p' /\ rp_payee p = rp_payee p'.
Definition txn_spelled (w : world) (l : pledger) (fa fc : bool) (t t' : txn rposting) : Prop :=
  t_type t = t_type t' /\ t_date t = t_date t' /\ t_edate t = t_edate t' /\ t_cleared t = t_cleared t' /\
  t_code t = t_code t' /\ t_desc t = t_desc t' /\ t_payee t = t_payee t' /\ t_comments t = t_comments t' /\
  t_tags t = t_tags t' /\ Forall2 (posting_spelled w l fa fc) (t_postings t) (t_postings t').
Definition price_spelled (w : world) (l : pledger) (fc : bool) (p p' : parsed_price) : Prop :=
  pp_date p = pp_date p' /\ pp_quantity p = pp_quantity p' /\
  commodity_spelled w l fc (pp_commodity p) (pp_commodity p') /\ commodity_spelled w l fc (pp_other p) (pp_other p').

(** The second journal is the first with other names; [fa] for accounts and [fc] for commodities. *)
Definition respelled (w : world) (fa fc : bool) (l l' : pledger) : Prop :=
  pl_accounts l = pl_accounts l' /\ pl_commodities l = pl_commodities l' /\ pl_payees l = pl_payees l' /\
  Forall2 (price_spelled w l fc) (pl_prices l) (pl_prices l') /\
  Forall2 (txn_spelled w l fa fc) (pl_txns l) (pl_txns l').
