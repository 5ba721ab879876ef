(** Vocabulary for reports of some accounts only: which accounts the words of the command line ask for. *)
From Verif Require Import Base Money Alist Txn Filter Tokens Ledger Spec SpecLedger SpecQuery SpecReports SpecExpr SpecBook.
Open Scope Qc_scope.

(** A word that asks for the accounts in whose name a pattern is found: regardless of letter case, or exactly as
    written between slashes.  [A] says for each name whether it is asked for. *)
Inductive account_word (w : world) (x : str) : (str -> bool) -> Prop :=
| aw_text : ~ In (trim x) [[]; L "and"; L "or"; L "expr"] -> (forall k r, In k [L "@"; L "%"; L "/"] -> trim x <> k ++ r) ->
    pattern_ok w (L "(?i)" ++ trim x) -> account_word w x (w_rx w (L "(?i)" ++ trim x))
| aw_regex y : trim x = L "/" ++ y ++ L "/" -> pattern_ok w y -> account_word w x (w_rx w y).
(** No words, one, or two, joined by [or], by [and], or by nothing, which means [or]. *)
Inductive asked_accounts (w : world) : list str -> (str -> bool) -> Prop :=
| aa_all : asked_accounts w [] (fun _ => true)
| aa_one x A : account_word w x A -> asked_accounts w [x] A
| aa_two x y A B : account_word w x A -> account_word w y B -> asked_accounts w [x; y] (fun n => A n || B n)
| aa_or x y A B : account_word w x A -> account_word w y B -> asked_accounts w [x; L "or"; y] (fun n => A n || B n)
| aa_and x y A B : account_word w x A -> account_word w y B -> asked_accounts w [x; L "and"; y] (fun n => A n && B n).

(** [cut] shortens each name to the depth asked for, if one is. *)
Definition cut_to_depth (o : opts) (cut : str -> str) : Prop :=
  forall n, match o_depth o with Some d => shortened d n (cut n) | None => cut n = n end.
(** How much of [c] the journal puts into the accounts asked for that satisfy [P]. *)
Definition asked_total (w : world) (o : opts) (l : pledger) (A P : str -> bool) (c : str) : Qc :=
  book_total w o l (fun n => A n && P n) c.
(** The lines of the register of the accounts asked for. *)
Definition asked_entries (o : opts) (A : str -> bool) (te : txn rposting * list entry) : list (option (txn rposting) * entry) :=
  if in_window o (fst te)
  then match filter (fun e => asked_for o (entry_kind e) && A (snd (fst e))) (snd te) with
       | [] => []
       | e :: r => (Some (fst te), e) :: map (fun x => (None, x)) r
       end
  else [].
