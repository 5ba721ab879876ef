(** Vocabulary for the properties of the program as a whole (C62, C64, C65). *)
From Verif Require Import Base.

(** The lines of a text: each is ended by a newline or by a carriage return and a newline; the last one may
    have no end. *)
Definition one_line (l : str) : Prop := ~ In c_nl l.
Inductive text_lines : str -> list str -> Prop :=
| tl_none : text_lines [] []
| tl_last l : one_line l -> l <> [] -> text_lines l [l]
| tl_newline l r ls : one_line l -> (forall l0, l <> l0 ++ [c_cr]) -> text_lines r ls -> text_lines (l ++ [c_nl] ++ r) (l :: ls)
| tl_return l r ls : one_line l -> text_lines r ls -> text_lines (l ++ [c_cr; c_nl] ++ r) (l :: ls).

(** The words of a line, between white space. *)
Definition blank (s : str) : Prop := forall c, In c s -> is_ws c = true.
Definition solid (s : str) : Prop := s <> [] /\ forall c, In c s -> is_ws c = false.
Definition word_end (s : str) : Prop := match s with [] => True | c :: _ => is_ws c = true end.
Inductive spaced : str -> list str -> Prop :=
| sp_end b : blank b -> spaced b []
| sp_word b x r ws : blank b -> solid x -> word_end r -> spaced r ws -> spaced (b ++ x ++ r) (x :: ws).

(** What the lines of a configuration file say: comments and blank lines say nothing; a line that begins
    with two dashes gives an option and its value, the rest of its words with single spaces. *)
Definition silent (line : str) : Prop :=
  exists b r, blank b /\ line = b ++ r /\ (r = [] \/ exists c r', r = c :: r' /\ In c (L ";#!%")).
Inductive config_options : list str -> list (str * list str) -> Prop :=
| co_nil : config_options [] []
| co_silent line ls os : silent line -> config_options ls os -> config_options (line :: ls) os
| co_option line r o rest ls os : line = L "--" ++ r -> spaced line (o :: rest) -> config_options ls os ->
    config_options (line :: ls) ((o, match rest with [] => [] | _ => [join [c_sp] rest] end) :: os).

(** The option is among the arguments, by its name or, for --file, as -f. *)
Definition given (o : str) (args : list str) : Prop := In o args \/ o = L "--file" /\ In (L "-f") args.

(** Where the configuration file is looked for. *)
Inductive candidates (home : str) (args : list str) : list str -> Prop :=
| cd_default : ~ In (L "--init-file") args -> candidates home args [home; L ".ledgerrc"]
| cd_given pre x post : args = pre ++ [L "--init-file"; x] ++ post -> ~ In (L "--init-file") pre ->
    candidates home args [x; home; L ".ledgerrc"].
Definition first_file (w : world) (cands : list str) (f content : str) : Prop :=
  exists pre post, cands = pre ++ f :: post /\ Forall (fun g => w_read w g = None) pre /\ w_read w f = Some content.

(** [l'] is [l] with some elements left out. *)
Inductive part_of {A} : list A -> list A -> Prop :=
| po_nil : part_of [] []
| po_keep x l' l : part_of l' l -> part_of (x :: l') (x :: l)
| po_skip x l' l : part_of l' l -> part_of l' (x :: l).
