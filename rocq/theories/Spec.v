(** Specification vocabulary: what the properties talk about, written without the helpers of the
    model.  Everything here is meant to be read together with the theorem statements. *)
From Verif Require Import Base Money.
Open Scope Qc_scope.

(** Sum of a list of rationals. *)
Definition qsum (l : list Qc) : Qc := fold_right Qcplus 0 l.

(** The amount of commodity [c] in one amount of money, and in a balance (a list of such). *)
Definition money_amt (m : money) (c : str) : Qc :=
  match m with MZero => 0 | M a c' => if str_eqb c' c then a else 0 end.
Definition bal_amt (b : balance) (c : str) : Qc := qsum (map (fun e => money_amt (snd e) c) b).

(** Two balances that hold the same amount of every commodity. *)
Definition same_amounts (a b : balance) : Prop := forall c, bal_amt a c = bal_amt b c.

(** The balances a client of the API can build: from nothing, from money, with the operators, and
    with any order of the entries of the underlying hash map. *)
Inductive built : balance -> Prop :=
| built_new : built bal_new
| built_of m : built (bal_of m)
| built_add a b : built a -> built b -> built (bal_add a b)
| built_sub a b : built a -> built b -> built (bal_sub a b)
| built_neg a : built a -> built (bal_neg a)
| built_perm a b : built a -> Permutation a b -> built b.

(** The balances that are the result of a sum or a difference (in any hash order). *)
Definition is_sum (b : balance) : Prop :=
  exists x y, built x /\ built y /\ Permutation (bal_add x y) b.

(** ** Printing amounts *)
(** [r] is the absolute value of [a], counted in units of 10^-d, rounded to the nearest integer,
    ties away from zero: r - 1/2 <= |a| * 10^d < r + 1/2. *)
From Coq Require Import Qabs.
Definition nearest (d : nat) (a : Qc) (r : N) : Prop :=
  (inject_Z (2 * Z.of_N r - 1) <= inject_Z (2 * 10 ^ Z.of_nat d) * Qabs (this a) /\
   inject_Z (2 * 10 ^ Z.of_nat d) * Qabs (this a) < inject_Z (2 * Z.of_N r + 1))%Q.

(** Value of a string of decimal digits. *)
Definition dec_value (s : str) : N := fold_left (fun v c => v * 10 + (c - 48))%N s 0%N.
Definition only_digits (s : str) : Prop := forall c, In c s -> (48 <= c <= 57)%N.

(** [text] is a decimal numeral with [d] digits after the point, no superfluous leading zero,
    with or without a minus sign, denoting [r] units of 10^-d, followed by a space and [name]. *)
Definition fixed_point (text : str) (neg : bool) (d : nat) (r : N) (name : str) : Prop :=
  exists ip fp, text = (if neg then L "-" else []) ++ ip ++ L "." ++ fp ++ L " " ++ name /\
    only_digits ip /\ only_digits fp /\ ip <> [] /\ length fp = d /\
    (hd 0%N ip = 48%N -> ip = [48%N]) /\ dec_value (ip ++ fp) = r.
