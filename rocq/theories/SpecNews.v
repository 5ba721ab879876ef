(** Vocabulary for C108: price lines that say nothing new. *)
From Verif Require Import Base Money Alist Txn Tokens Reports Spec SpecLedger.

(** [l'] is [l] with more price lines after those it has. *)
Record prices_added (l l' : pledger) (extra : list parsed_price) : Prop := {
  pa_accounts : pl_accounts l' = pl_accounts l;
  pa_payees : pl_payees l' = pl_payees l;
  pa_commodities : pl_commodities l' = pl_commodities l;
  pa_txns : pl_txns l' = pl_txns l;
  pa_prices : pl_prices l' = pl_prices l ++ extra;
}.
(** A price line between commodities of the journal, for a day after today or not newer than a line of the journal, of
    today or before, for the same two commodities. *)
Definition no_news (w : world) (l : pledger) (p : parsed_price) : Prop :=
  mentions_commodity l (pp_commodity p) /\ mentions_commodity l (pp_other p) /\
  ((w_now w < pp_date p)%Z \/
   exists q, In q (pl_prices l) /\ (pp_date p <= pp_date q)%Z /\ (pp_date q <= w_now w)%Z /\
     (pp_commodity q = pp_commodity p /\ pp_other q = pp_other p \/ pp_commodity q = pp_other p /\ pp_other q = pp_commodity p)).
