(** Decimal numerals: [format!("{}", n)], [{:0width$}], [u64::from_str], [BigInt::from_str]. *)
From Verif Require Import Base.

(** money.rs:111, 119, 132: Decimal digits of a natural number, most significant first; [fuel]
    digits at most. *)
Fixpoint digits_fuel (fuel : nat) (n : N) (acc : str) : str :=
  match fuel with
  | O => acc
  | S f => let acc' := (48 + n mod 10)%N :: acc in
           if (n <? 10)%N then acc' else digits_fuel f (n / 10) acc'
  end.
(** [to_string] of a non-negative BigInt (num), money.rs:111, 117. *)
Definition N_digits (n : N) : str := digits_fuel (S (N.size_nat n)) n [].

(** money.rs:111, 128: [format!("{:0width$}", n)] for a non-negative number. *)
Definition pad0 (width : nat) (s : str) : str := repeat c_0 (width - length s) ++ s.

(** money.rs:114-118: Value of a digit string. *)
Fixpoint digits_val_acc (s : str) (acc : N) : N :=
  match s with
  | [] => acc
  | c :: r => digits_val_acc r (acc * 10 + (c - 48))%N
  end.
(** Value of a digit string, for [FromStr] at utils.rs:38 and tokenizers/transaction.rs:416. *)
Definition digits_val (s : str) : N := digits_val_acc s 0.
(** Accepted by [FromStr] of the number types: utils.rs:13-17. *)
Definition all_digits (s : str) : bool := forallb is_digit s.

(** money.rs:114-118: [u64::from_str] on the strings it is applied to (decimal digits only); empty
    is an error. *)
Definition parse_u64 (s : str) : option N :=
  match s with
  | [] => None
  | _ => if all_digits s then
           let v := digits_val s in if (v <? 2 ^ 64)%N then Some v else None
         else None
  end.

(** utils.rs:38, tokenizers/transaction.rs:416: [BigInt::from_str]: optional minus sign, then one or
    more ASCII digits.  (num-bigint also
    accepts a leading plus sign and underscores, which never reach it in this program.) *)
Definition parse_bigint (s : str) : option Z :=
  match s with
  | [] => None
  | c :: r =>
      if (c =? c_minus)%N then
        match r with [] => None | _ => if all_digits r then Some (- Z.of_N (digits_val r))%Z else None end
      else if all_digits s then Some (Z.of_N (digits_val s)) else None
  end.

(** money.rs:132: [format!("{}", z)] for a signed integer. *)
Definition Z_text (z : Z) : str :=
  if (z <? 0)%Z then c_minus :: N_digits (Z.to_N (- z)) else N_digits (Z.to_N z).
