(** Vocabulary for C92: conditions written with [expr]. *)
From Verif Require Import Base Money Alist Txn Expr Filter Tokens Ledger Reports SpecTxn SpecLedger SpecQuery SpecExpr SpecWorth.

(** The query is [expr] and the condition [e] in parentheses; there is no query. *)
Definition conditional (o : opts) (e : cexp) : Prop := o_query o = [L "expr"; L "(" ++ text_of e ++ L ")"].
Definition unasked (o : opts) : Prop := o_query o = [].
(** The transaction is in the period asked for, and the posting of the kind asked for. *)
Definition considered (o : opts) (t : txn posting) (p : posting) : Prop :=
  (exists d, t_date t = Some d /\ in_period o d) /\ wanted_kind o p.
(** The condition is true, or false, of a posting, with the commodities [cs] of the ledger. *)
Definition is_so (w : world) (cs : alist currency) (t : txn posting) (e : cexp) (p : posting) (b : bool) : Prop :=
  worth w t cs (literals e) p e (VBool b).
(** No commodity is written in two ways in the two conditions. *)
Definition spelled_alike (w : world) (e f : cexp) : Prop :=
  forall x y, In x (literals e) -> In y (literals f) -> w_lower w x = w_lower w y -> x = y.

(** (date >= to_date('s')) and (date < to_date('s')), for a date [s]. *)
Definition from_day (q : N) (s : str) : cexp := CBin OGe (CVar KDate) (CFun FToDate (CString q s)).
Definition before_day (q : N) (s : str) : cexp := CBin OLt (CVar KDate) (CFun FToDate (CString q s)).
(** (account =~ /x/), (payee =~ /x/), has_tag(/x/) *)
Definition account_like (x : str) : cexp := CBin OMatch (CVar KAccount) (CRegex x).
Definition payee_like (x : str) : cexp := CBin OMatch (CVar KPayee) (CRegex x).
Definition tagged_like (x : str) : cexp := CFun FHasTag (CRegex x).
(** The condition a word stands for. *)
Inductive word_condition (w : world) (x : str) : cexp -> Prop :=
| wc_text : ~ In (trim x) [[]; L "and"; L "or"; L "expr"] -> (forall k r, In k [L "@"; L "%"; L "/"] -> trim x <> k ++ r) ->
    pattern_ok w (L "(?i)" ++ trim x) -> word_condition w x (account_like (L "(?i)" ++ trim x))
| wc_regex y : trim x = L "/" ++ y ++ L "/" -> pattern_ok w y -> word_condition w x (account_like y)
| wc_payee y : trim x = L "@" ++ y -> pattern_ok w (L "(?i)" ++ y) -> word_condition w x (payee_like (L "(?i)" ++ y))
| wc_tag y : trim x = L "%" ++ y -> pattern_ok w (L "(?i)" ++ y) -> word_condition w x (tagged_like (L "(?i)" ++ y)).
(** The condition that one or two words stand for. *)
Inductive words_condition (w : world) : list str -> cexp -> Prop :=
| wcs_one x e : word_condition w x e -> words_condition w [x] e
| wcs_two x y e f : word_condition w x e -> word_condition w y f -> words_condition w [x; y] (CBin OOr e f)
| wcs_or x y e f : word_condition w x e -> word_condition w y f -> words_condition w [x; L "or"; y] (CBin OOr e f)
| wcs_and x y e f : word_condition w x e -> word_condition w y f -> words_condition w [x; L "and"; y] (CBin OAnd e f).
(** The options ask for the same, but perhaps for another period and with another query. *)
Definition same_otherwise (o o' : opts) : Prop :=
  o_real o = o_real o' /\ o_depth o = o_depth o' /\ o_exchange o = o_exchange o' /\ o_no_balance_check o = o_no_balance_check o'.
