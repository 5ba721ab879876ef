(** A parsing-expression-grammar interpreter following the pest 2 semantics used by this grammar:
    ordered choice, greedy repetition without backtracking into it, negative lookahead that yields
    no pairs, a pair per non-silent rule, no implicit white space (the grammar defines neither
    WHITESPACE nor COMMENT). *)
From Verif Require Import Base.

Section Peg.
  Variable rule : Type.

  (** The expressions of grammar.pest:7-114. *)
  Inductive pexp :=
  | EEmpty
  | EStr (s : str)
  | EClass (f : N -> bool)        (* one character of a class: ANY, ASCII_DIGIT, ... *)
  | EEoi
  | ESeq (a b : pexp)
  | EAlt (a b : pexp)
  | EStar (a : pexp)
  | ENot (a : pexp)
  | ERule (r : rule).

  (** [+] of pest, grammar.pest:8. *)
  Definition EPlus a := ESeq a (EStar a).
  (** [?] of pest, grammar.pest:8. *)
  Definition EOpt a := EAlt a EEmpty.

  (** value_expr.rs:401-506: A pest [Pair]: rule, matched text, inner pairs. *)
  Inductive pair := Pair (r : rule) (txt : str) (kids : list pair).

  (** Outcome of [GrammarParser::parse], parser/mod.rs:28-30, value_expr.rs:23. *)
  Inductive pres := POk (ps : list pair) (rest : str) | PFail | PFuel.

  (** A literal of grammar.pest. *)
  Fixpoint strip_prefix (p s : str) : option str :=
    match p, s with
    | [], _ => Some s
    | x :: p', y :: s' => if (x =? y)%N then strip_prefix p' s' else None
    | _ :: _, [] => None
    end.

  (** [Pair::as_str] (pest), utils.rs:13. *)
  Definition taken (s rest : str) : str := firstn (length s - length rest) s.

  (** The parser pest generates from grammar.pest, parser/mod.rs:28-30: [g r] is (is silent, body).
      [fuel] bounds the depth of the call tree. *)
  Fixpoint peg (g : rule -> bool * pexp) (fuel : nat) (e : pexp) (s : str) : pres :=
    match fuel with
    | O => PFuel
    | S f =>
        match e with
        | EEmpty => POk [] s
        | EStr p => match strip_prefix p s with Some r => POk [] r | None => PFail end
        | EClass c => match s with
                      | x :: r => if c x then POk [] r else PFail
                      | [] => PFail
                      end
        | EEoi => match s with [] => POk [] s | _ => PFail end
        | ESeq a b =>
            match peg g f a s with
            | POk k1 r1 => match peg g f b r1 with
                           | POk k2 r2 => POk (k1 ++ k2) r2
                           | x => x
                           end
            | x => x
            end
        | EAlt a b => match peg g f a s with PFail => peg g f b s | x => x end
        | EStar a =>
            match peg g f a s with
            | POk k1 r1 => match peg g f (EStar a) r1 with
                           | POk k2 r2 => POk (k1 ++ k2) r2
                           | x => x
                           end
            | PFail => POk [] s
            | PFuel => PFuel
            end
        | ENot a => match peg g f a s with
                    | POk _ _ => PFail | PFail => POk [] s | PFuel => PFuel end
        | ERule r =>
            let (silent, body) := g r in
            match peg g f body s with
            | POk kids rest => if silent then POk kids rest
                               else POk [Pair r (taken s rest) kids] rest
            | x => x
            end
        end
    end.
End Peg.
Arguments EEmpty {rule}. Arguments EStr {rule}. Arguments EClass {rule}. Arguments EEoi {rule}.
Arguments ESeq {rule}. Arguments EAlt {rule}. Arguments EStar {rule}. Arguments ENot {rule}.
Arguments ERule {rule}. Arguments EPlus {rule}. Arguments EOpt {rule}.
Arguments Pair {rule}. Arguments POk {rule}. Arguments PFail {rule}. Arguments PFuel {rule}.
Arguments peg {rule}.
