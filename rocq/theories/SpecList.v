(** Specification vocabulary for the lists of accounts, commodities and payees (C21-C25).  Nothing
    here mentions how the list stores its elements, except [alias_for] and [asked_before]. *)
From Verif Require Import Base Alist.

(** What a client does to a list: insert an element, or add an alias for an element. *)
Inductive op (T : Type) := Insert (e : T) | AddAlias (a : str) (e : T).
Arguments Insert {T}. Arguments AddAlias {T}.

Section SpecList.
  Context {T : Type} (w : world) (name : T -> str) (aliases : T -> list str).

  (** Two spellings are the same if they agree up to letter case. *)
  Definition same_name (a b : str) : bool := str_eqb (w_lower w a) (w_lower w b).

  (** The history [h] (oldest operation first), performed on an empty list. *)
  Definition perform (h : list (op T)) : res (alist T) :=
    foldM (fun l o => match o with
                      | Insert e => Ok (l_insert w name aliases e l)
                      | AddAlias a e => l_add_alias w name a e l
                      end) l_new h.

  (** The first element inserted under the name [n], in any letter case. *)
  Fixpoint first_named (n : str) (h : list (op T)) : option T :=
    match h with
    | [] => None
    | Insert e :: r => if same_name n (name e) then Some e else first_named n r
    | AddAlias _ _ :: r => first_named n r
    end.

  (** The element the alias [a] stands for: that of the last operation of the history [h] that
      gave somebody the alias [a].  An insertion whose name was already taken (in [past] or
      earlier in [h]) gives nobody anything. *)
  Fixpoint alias_owner (a : str) (past h : list (op T)) : option T :=
    match h with
    | [] => None
    | o :: r =>
        match alias_owner a (past ++ [o]) r with
        | Some e => Some e
        | None =>
            match o with
            | Insert e =>
                match first_named (name e) past with
                | Some _ => None
                | None => if existsb (same_name a) (aliases e) then Some e else None
                end
            | AddAlias b e => if same_name a b then Some e else None
            end
        end
    end.

  (** The lists a client can get, adding aliases only for elements of the list. *)
  Inductive buildable : alist T -> Prop :=
  | buildable_new : buildable l_new
  | buildable_insert e l : buildable l -> buildable (l_insert w name aliases e l)
  | buildable_alias a e l l' :
      buildable l -> In e (l_values l) -> l_add_alias w name a e l = Ok l' -> buildable l'
  | buildable_append l other : buildable l -> buildable other -> buildable (l_append l other)
  | buildable_regex rx l r l' : buildable l -> l_get_regex w name rx l = Ok (r, l') -> buildable l'.

  (** The (lower-cased) alias [a] belongs to element [e]. *)
  Definition alias_for (l : alist T) (a : str) (e : T) : Prop :=
    In (a, w_lower w (name e)) (l_aliases l).
  (** The pattern has already been looked up in this list. *)
  Definition asked_before (l : alist T) (rx : str) : Prop := In rx (hkeys (l_matches l)).

  (** A sequence of regex lookups, with the answers given. *)
  Inductive lookups : alist T -> list (str * option T) -> alist T -> Prop :=
  | lookups_nil l : lookups l [] l
  | lookups_cons l rx r l1 qs l2 :
      l_get_regex w name rx l = Ok (r, l1) -> lookups l1 qs l2 -> lookups l ((rx, r) :: qs) l2.
End SpecList.

(** A sequence of memoised matches on one account or payee called [nm], with the answers. *)
Inductive matched (w : world) (nm : str) : list (str * bool) -> list (str * bool) -> list (str * bool) -> Prop :=
| matched_nil memo : matched w nm memo [] memo
| matched_cons memo rx b memo1 qs memo2 :
    is_match w nm memo rx = (b, memo1) -> matched w nm memo1 qs memo2 ->
    matched w nm memo ((rx, b) :: qs) memo2.
