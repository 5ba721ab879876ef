(** Specification vocabulary for texts: literals. *)
From Verif Require Import Base Spec.

Definition of_Z (z : Z) : Qc := Q2Qc (inject_Z z).

(** [s] is a decimal literal, an optional minus sign, digits, optionally a point and digits, with at
    least one digit, and denotes the number [q]. *)
Definition literal (s : str) (q : Qc) : Prop :=
  exists (neg : bool) (ip : str) (point : bool) (fp : str),
    s = (if neg then L "-" else []) ++ ip ++ (if point then L "." ++ fp else []) /\
    only_digits ip /\ only_digits fp /\ (point = false -> fp = []) /\ ip ++ fp <> [] /\
    q = ((if neg then Qcopp 1 else 1) * of_Z (Z.of_N (dec_value (ip ++ fp))) /
         of_Z (10 ^ Z.of_nat (length fp)))%Qc.

(** The text [rest] cannot continue a literal. *)
Definition no_more (w : world) (rest : str) : Prop :=
  match rest with
  | [] => True
  | c :: _ => c <> c_dot /\ c <> c_minus /\ is_numeric w c = false
  end.
