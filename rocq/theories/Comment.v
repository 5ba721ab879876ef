(** Model of src/models/comment.rs and of the tags of src/models/tag.rs. *)
From Verif Require Import Base.

(** models/models.rs:13-19; [check] and [assert] are always empty on tags read from comments. *)
Record tag := { tag_name : str; tag_value : option str }.

(** Helper of [re_flags] and [re_tag_value], comment.rs:12-17: Longest suffix without a newline:
    what a dot-star anchored at the end can reach. *)
Fixpoint last_line (s : str) : str :=
  match s with
  | [] => []
  | c :: r => if (contains_char c_nl r) then last_line r
              else if (c =? c_nl)%N then r else s
  end.

(** The starred space of the two regexes, comment.rs:12-17. *)
Fixpoint drop_spaces (s : str) : str :=
  match s with c :: r => if (c =? c_sp)%N then drop_spaces r else s | [] => [] end.
(** The starred space before the end of the two regexes, comment.rs:12-17. *)
Definition rstrip_spaces (s : str) : str := rev (drop_spaces (rev s)).

(** comment.rs:12-14, regex "(:.+:) *$" (leftmost, greedy; the dot is any character but newline; the
    dollar
    only at the end of the text).  The closing colon must be the last character that is not a
    space; the opening colon is the leftmost one that leaves at least one character between, with
    no newline in between.  Returns the captured group. *)
Fixpoint flags_from (t : str) : option str :=
  match t with
  | [] => None
  | c :: r =>
      if (c =? c_colon)%N
         && Nat.leb 2 (length r)
         && negb (contains_char c_nl (removelast r))
      then Some t else flags_from r
  end.
(** comment.rs:12-14, captured group. *)
Definition re_flags (s : str) : option str :=
  let t := rstrip_spaces s in
  match rev t with
  | c :: _ => if (c =? c_colon)%N then flags_from t else None
  | [] => None
  end.

(** comment.rs:15-17, the regex of "name: value" (spaces, anything, colon, spaces, anything, spaces,
    end): the name runs from the first non-space of the last
    line to its last colon, the value is what follows after spaces. *)
Fixpoint split_last_colon (s : str) : option (str * str) :=
  match s with
  | [] => None
  | c :: r =>
      match split_last_colon r with
      | Some (a, b) => Some (c :: a, b)
      | None => if (c =? c_colon)%N then Some ([], r) else None
      end
  end.
(** comment.rs:15-17, captured groups. *)
Definition re_tag_value (s : str) : option (str * str) :=
  match split_last_colon (drop_spaces (last_line s)) with
  | Some (a, b) => Some (a, drop_spaces b)
  | None => None
  end.

(** comment.rs:10-69; [pop] and [remove(0)] on the pieces of the captured group (which has at least
    three pieces, so [remove] does not panic). *)
Definition get_tags (s : str) : list tag :=
  match re_flags s with
  | Some v => map (fun n => {| tag_name := n; tag_value := None |})
                  (tl (removelast (split_char c_colon v)))
  | None =>
      match re_tag_value s with
      | Some (n, v) => if contains_char c_colon n then []
                       else [{| tag_name := n; tag_value := Some v |}]
      | None => []
      end
  end.
