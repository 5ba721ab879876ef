(** Model of src/list.rs: the container of accounts, commodities and payees. *)
From Verif Require Import Base.

(** list.rs:20-25 *)
Record alist (T : Type) := {
  l_aliases : list (str * str);             (* lower-cased alias -> key of [l_list] *)
  l_list : list (str * T);                  (* lower-cased name -> element *)
  l_matches : list (str * option str);      (* pattern -> cached key *)
}.
Arguments l_aliases {T}. Arguments l_list {T}. Arguments l_matches {T}.
Arguments Build_alist {T}.

(** list.rs:28-37 *)
Definition l_new {T} : alist T := {| l_aliases := []; l_list := []; l_matches := [] |}.

Section Alist.
  Context {T : Type} (w : world) (name : T -> str) (aliases : T -> list str).
  (* [name] is HasName::get_name; [aliases] is HasAliases::get_aliases in iteration order. *)

  (** list.rs:40-53.  The element is dropped (with a message) when its name is already there. *)
  Definition l_insert (e : T) (l : alist T) : alist T :=
    let nm := w_lower w (name e) in
    match hget str_eqb nm (l_list l) with
    | Some _ => l
    | None =>
        {| l_aliases := fold_left (fun m a => hset str_eqb (w_lower w a) nm m) (aliases e) (l_aliases l);
           l_list := hset str_eqb nm e (l_list l);
           l_matches := l_matches l |}
    end.

  (** list.rs:55-70 *)
  Definition l_add_alias (alias : str) (e : T) (l : alist T) : res (alist T) :=
    match hget str_eqb (w_lower w alias) (l_aliases l) with
    | Some _ => Panic PExplicit
    | None => Ok {| l_aliases := hset str_eqb (w_lower w alias) (w_lower w (name e)) (l_aliases l);
                    l_list := l_list l; l_matches := l_matches l |}
    end.

  (** list.rs:72-84; line 80 unwraps the element an alias points to. *)
  Definition l_get (index : str) (l : alist T) : res T :=
    match hget str_eqb (w_lower w index) (l_list l) with
    | Some x => Ok x
    | None =>
        match hget str_eqb (w_lower w index) (l_aliases l) with
        | None => Err (ELedger (AliasNotInList index))
        | Some x => unwrap (hget str_eqb x (l_list l))
        end
    end.

  (** list.rs:86-116, iterating over the two maps in list order. *)
  Definition l_get_regex (rx : str) (l : alist T) : res (option T * alist T) :=
    let remember v := {| l_aliases := l_aliases l; l_list := l_list l;
                         l_matches := hset str_eqb rx v (l_matches l) |} in
    match hget str_eqb rx (l_matches l) with
    | Some (Some alias) =>
        match l_get alias l with
        | Ok x => Ok (Some x, l)
        | _ => Panic PUnwrap
        end
    | Some None => Ok (None, l)
    | None =>
        match find (fun kv => w_rx w rx (name (snd kv))) (l_list l) with
        | Some (k, v) => Ok (Some v, remember (Some k))
        | None =>
            match find (fun kv => w_rx w rx (fst kv)) (l_aliases l) with
            | Some (_, k) => Ok (hget str_eqb k (l_list l), remember (Some k))
            | None => Ok (None, remember None)
            end
        end
    end.
End Alist.

(** list.rs:121-123 *)
Definition l_values {T} (l : alist T) : list T := map snd (l_list l).
(** list.rs:124-126 *)
Definition l_len {T} (l : alist T) : nat := length (l_list l).

(** list.rs:133-136: [HashMap::extend], the other list's entries overwrite. *)
Definition l_append {T} (l other : alist T) : alist T :=
  {| l_aliases := fold_left (fun m kv => hset str_eqb (fst kv) (snd kv) m) (l_aliases other) (l_aliases l);
     l_list := fold_left (fun m kv => hset str_eqb (fst kv) (snd kv) m) (l_list other) (l_list l);
     l_matches := l_matches l |}.

(** ** The elements *)

(** currency.rs:48-57; origin kept as a boolean "from a directive". *)
Record currency := { cu_name : str; cu_aliases : list str; cu_note : option str;
                     cu_format : option str; cu_default : bool; cu_directive : bool;
                     cu_precision : option nat }.
(** currency.rs:86-98 *)
Definition currency_from (n : str) : currency :=
  {| cu_name := n; cu_aliases := []; cu_note := None; cu_format := None; cu_default := false;
     cu_directive := false; cu_precision := None |}.
(** currency.rs:59-64 *)
Definition cu_get_precision (c : currency) : nat :=
  match cu_precision c with Some p => p | None => 2 end.

(** account.rs:10-22 *)
Record account := { ac_name : str; ac_aliases : list str; ac_note : option str; ac_isin : option str;
                    ac_check : list str; ac_assert : list str; ac_payees : list str;
                    ac_default : bool; ac_directive : bool }.
(** account.rs:105-120 *)
Definition account_from (n : str) : account :=
  {| ac_name := n; ac_aliases := []; ac_note := None; ac_isin := None; ac_check := [];
     ac_assert := []; ac_payees := []; ac_default := false; ac_directive := false |}.

(** payee.rs:10-18 *)
Record payee := { py_name : str; py_aliases : list str; py_regexes : list str; py_note : option str;
                  py_directive : bool }.
(** payee.rs:94-104 *)
Definition payee_from (n : str) : payee :=
  {| py_name := n; py_aliases := []; py_regexes := []; py_note := None; py_directive := false |}.

(** account.rs:66-77 and payee.rs:37-48: regex matching memoised per element.  [memo] is the
    [matches] field. *)
Definition is_match (w : world) (nm : str) (memo : list (str * bool)) (rx : str)
  : bool * list (str * bool) :=
  match hget str_eqb rx memo with
  | Some b => (b, memo)
  | None => let b := w_rx w rx nm in (b, hset str_eqb rx b memo)
  end.

(** The instances used by the program. *)
(** list.rs:40-53 at [Currency] *)
Definition cur_insert w := l_insert w cu_name cu_aliases.
(** list.rs:40-53 at [Account] *)
Definition acc_insert w := l_insert w ac_name ac_aliases.
(** list.rs:40-53 at [Payee] *)
Definition pay_insert w := l_insert w py_name py_aliases.
