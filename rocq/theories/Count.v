(** Model of the functions that count: list.rs, parser/mod.rs, account.rs, transaction.rs. *)
From Verif Require Import Base Money Alist Txn Tokens.

(** list.rs:127-129 *)
Definition l_len_alias {T} (l : alist T) : nat := length (l_aliases l) + l_len l.
(** parser/mod.rs:65-73 *)
Definition pl_len (l : pledger) : nat :=
  l_len (pl_accounts l) + l_len (pl_payees l) + l_len (pl_commodities l) + length (pl_txns l) + length (pl_prices l) +
  length (pl_comments l) + length (pl_tags l).
(** account.rs:56-64 *)
Definition ac_depth (a : account) : nat := length (filter (fun c => (c =? c_colon)%N) (ac_name a)) + 1.
(** transaction.rs:262-269 *)
Definition num_empty_postings (t : txn posting) : nat :=
  length (filter (fun p => match p_amount p with None => true | Some _ => false end && match p_balance p with None => true | Some _ => false end) (t_postings t)).
