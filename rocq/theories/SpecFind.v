(** Specification vocabulary for C85: which postings of the journal the words of the command line ask for, by account,
    payee or tag, and the lines of the journal with the postings they are written in. *)
From Verif Require Import Base Money Alist Comment Txn Filter Tokens Ledger Reports Spec SpecTxn SpecLedger SpecQuery SpecReports SpecExpr SpecBook SpecAsk SpecAssert.
Open Scope Qc_scope.

(** ** Words *)
(** What a word asks for, given the account, the payee and the tags. *)
Definition wish : Type := str -> str -> list tag -> bool.
Inductive found_word (w : world) (x : str) : wish -> Prop :=
| fw_account A : account_word w x A -> found_word w x (fun a _ _ => A a)
| fw_payee y : trim x = L "@" ++ y -> pattern_ok w (L "(?i)" ++ y) -> found_word w x (fun _ n _ => w_rx w (L "(?i)" ++ y) n)
| fw_tag y : trim x = L "%" ++ y -> pattern_ok w (L "(?i)" ++ y) ->
    found_word w x (fun _ _ ts => existsb (fun g => w_rx w (L "(?i)" ++ y) (tag_name g)) ts).
(** No words, one, or two, joined by [or], by [and], or by nothing, which means [or]. *)
Inductive found_words (w : world) : list str -> wish -> Prop :=
| fs_all : found_words w [] (fun _ _ _ => true)
| fs_one x F : found_word w x F -> found_words w [x] F
| fs_two x y F G : found_word w x F -> found_word w y G -> found_words w [x; y] (fun a n ts => F a n ts || G a n ts)
| fs_or x y F G : found_word w x F -> found_word w y G -> found_words w [x; L "or"; y] (fun a n ts => F a n ts || G a n ts)
| fs_and x y F G : found_word w x F -> found_word w y G -> found_words w [x; L "and"; y] (fun a n ts => F a n ts && G a n ts).

(** ** Lines *)
(** A line of the register and the posting of the journal it is written in. *)
Definition sourced : Type := entry * rposting.
Section Lines.
Context (w : world) (l : pledger) (skip : bool).
(** Which postings a wish finds: [pay] says what the payees stand for.  A posting has the tags of its transaction and
    its own; but one whose amount is left open has those of its transaction only. *)
Definition line_tags (u : txn rposting) (p : rposting) : list tag :=
  flat_map get_tags (t_comments u) ++ if blank skip p then [] else flat_map get_tags (rp_comments p).
Definition finds (F : wish) (pay : str -> str) (u : txn rposting) (p : rposting) : bool :=
  match rp_payee p with
  | Some n => F (its_account w l p) (pay n) (line_tags u p)
  | None => false
  end.
(** The lines of the real postings that are not left open. *)
Inductive real_sourced : holdings -> list rposting -> list sourced -> Prop :=
| rs_nil now : real_sourced now [] []
| rs_skip now p ps es : real_posting p && negb (blank skip p) = false -> real_sourced (after_posting w l skip now p) ps es -> real_sourced now (p :: ps) es
| rs_line now p ps m es : real_posting p && negb (blank skip p) = true -> amount_of w l skip now p m -> real_sourced (after_posting w l skip now p) ps es ->
    real_sourced now (p :: ps) ((Real, its_account w l p, m, p) :: es).
(** The lines of a transaction, as in C83. *)
Inductive sourced_now (now : holdings) (t : txn rposting) : list sourced -> Prop :=
| sn reals fills :
    real_sourced now (t_postings t) reals ->
    (forall x, In x fills -> filter (blank skip) (t_postings t) = [snd x] /\ fst (fst x) = (Real, its_account w l (snd x))) ->
    NoDup fills ->
    (forall p, filter (blank skip) (t_postings t) = [p] -> forall m,
       In m (map (fun x => snd (fst x)) fills) <-> exists c, rest_of w l skip now t c <> 0 /\ m = M (rest_of w l skip now t c) c) ->
    sourced_now now t (reals ++ fills ++
      flat_map (fun p => map (fun e => (e, p)) (written_entry w l p)) (filter (fun p => negb (real_posting p)) (t_postings t))).
(** One transaction after the other. *)
Inductive all_sourced : holdings -> list (txn rposting) -> list (list sourced) -> Prop :=
| as_nil now : all_sourced now [] []
| as_cons now t ts es ess : sourced_now now t es -> all_sourced (after_txn w l skip now t) ts ess -> all_sourced now (t :: ts) (es :: ess).
End Lines.

(** ** The reports *)
(** What the payees of the journal stand for. *)
Definition payees_meant (w : world) (l : pledger) (pay : str -> str) : Prop := forall n, payee_meant w l n (pay n).
(** How much of [c] the lines put into the accounts that satisfy [P], in the period asked for, if [Q] says which postings
    are asked for. *)
Definition found_total (o : opts) (Q : txn rposting -> rposting -> bool) (us : list (txn rposting)) (ess : list (list sourced)) (P : str -> bool) (c : str) : Qc :=
  qsum (map (fun te => if in_window o (fst te)
                       then qsum (map (fun x => if asked_for o (entry_kind (fst x)) && Q (fst te) (snd x) && P (snd (fst (fst x))) then money_amt (snd (fst x)) c else 0) (snd te))
                       else 0) (combine us ess)).
(** The lines of the register. *)
Definition found_entries (o : opts) (Q : txn rposting -> rposting -> bool) (te : txn rposting * list sourced) : list (option (txn rposting) * entry) :=
  if in_window o (fst te)
  then match filter (fun x => asked_for o (entry_kind (fst x)) && Q (fst te) (snd x)) (snd te) with
       | [] => []
       | x :: r => (Some (fst te), fst x) :: map (fun y => (None, fst y)) r
       end
  else [].
Definition register_found_shows (w : world) (o : opts) (l : pledger) (Q : txn rposting -> rposting -> bool) (us : list (txn rposting)) (ess : list (list sourced)) (rows : list rrow) : Prop :=
  let lines := flat_map (found_entries o Q) (combine us ess) in
  length rows = length lines /\
  forall i row h e, nth_error rows i = Some row -> nth_error lines i = Some (h, e) ->
    rr_account row = entry_shown e /\ rr_amount row = snd e /\ head_written w l h (rr_head row) /\
    (rr_total row = [MZero] \/ shown_amounts (rr_total row) /\ rr_total row <> []) /\
    forall c, moneys_amt (rr_total row) c = qsum (map (fun x => money_amt (snd (snd x)) c) (firstn (S i) lines)).
