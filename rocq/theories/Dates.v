(** Calendar dates (chrono's [NaiveDate]) as day numbers, and [date_parser] of src/app.rs. *)
From Verif Require Import Base Numerals.
Open Scope Z_scope.

(** Gregorian calendar of chrono's NaiveDate, used at utils.rs:20 and app.rs:234-267. *)
Definition is_leap (y : Z) : bool :=
  ((y mod 4 =? 0) && negb (y mod 100 =? 0)) || (y mod 400 =? 0).
(** Same, utils.rs:20. *)
Definition days_in_month (y m : Z) : Z :=
  if m =? 2 then (if is_leap y then 29 else 28)
  else if (m =? 4) || (m =? 6) || (m =? 9) || (m =? 11) then 30 else 31.
(** Days from 0001-01-01 to January 1st of year [y] in the proleptic Gregorian calendar. *)
(** Same, utils.rs:20. *)
Definition days_before_year (y : Z) : Z :=
  let p := y - 1 in 365 * p + p / 4 - p / 100 + p / 400.
(** Same, utils.rs:20. *)
Fixpoint days_before_month (y : Z) (m : nat) : Z :=   (* months 1..m of year y *)
  match m with
  | O => 0
  | S k => days_before_month y k + days_in_month y (Z.of_nat (S k))
  end.
(** Same, utils.rs:20. *)
Definition day_number (y m d : Z) : Z :=
  days_before_year y + days_before_month y (Z.to_nat (m - 1)) + d - 1.

(** [NaiveDate::from_ymd] panics ([None]) on impossible dates; chrono's range of years. *)
(** Same, utils.rs:20. *)
Definition valid_ymd (y m d : Z) : bool :=
  (-262144 <=? y) && (y <=? 262143) && (1 <=? m) && (m <=? 12) && (1 <=? d) && (d <=? days_in_month y m).
(** [NaiveDate::from_ymd] (chrono): utils.rs:20, app.rs:241, 248. *)
Definition from_ymd (y m d : Z) : option Z :=
  if valid_ymd y m d then Some (day_number y m d) else None.

(** Back from a day number, for printing: year by estimation and correction, then month. *)
(** Chrono's Display of a date, register.rs:62, price.rs:32-36. *)
Fixpoint year_adjust (fuel : nat) (n y : Z) : Z :=
  match fuel with
  | O => y
  | S f => if days_before_year (y + 1) <=? n then year_adjust f n (y + 1) else y
  end.
(** Same, register.rs:62. *)
Definition year_of (n : Z) : Z :=
  let c := n / 146097 in
  let r := n mod 146097 in
  400 * c + year_adjust 3 r (r / 366 + 1).
(** Same, register.rs:62. *)
Fixpoint month_find (fuel : nat) (y m k : Z) : Z * Z :=
  match fuel with
  | O => (m, k + 1)
  | S f => if k <? days_in_month y m then (m, k + 1)
           else month_find f y (m + 1) (k - days_in_month y m)
  end.
(** Same, register.rs:62. *)
Definition to_ymd (n : Z) : Z * Z * Z :=
  let y := year_of n in
  let '(m, d) := month_find 11 y 1 (n - days_before_year y) in (y, m, d).

(** register.rs:58-64, price.rs:32-36: chrono's [Display] for NaiveDate. *)
Definition date_text (n : Z) : str :=
  let '(y, m, d) := to_ymd n in
  (if (0 <=? y) && (y <=? 9999) then pad0 4 (N_digits (Z.to_N y))
   else (if y <? 0 then [c_minus] else [43%N]) ++ pad0 4 (N_digits (Z.to_N (Z.abs y))))
  ++ [c_minus] ++ pad0 2 (N_digits (Z.to_N m)) ++ [c_minus] ++ pad0 2 (N_digits (Z.to_N d)).

(** ** [date_parser], app.rs:234-267.  The class \d is modelled as the ASCII digits (other Unicode
    digits
    would make the later [parse] panic). *)
(** app.rs:236-237 *)
Definition is_dsep (c : N) : bool := ((c =? c_slash) || (c =? c_minus))%N.
(** app.rs:242-250 *)
Definition num_of (s : str) : Z := Z.of_N (digits_val s).

(** app.rs:236-237: [\d\d?] (greedy) followed by [k]. *)
Definition one_or_two {A} (s : str) (k : Z -> str -> option A) : option A :=
  match s with
  | a :: r =>
      if is_digit a then
        match r with
        | b :: r' => if is_digit b then
                       match k (num_of [a; b]) r' with Some x => Some x | None => k (num_of [a]) r end
                     else k (num_of [a]) r
        | [] => k (num_of [a]) r
        end
      else None
  | [] => None
  end.
(** app.rs:236-237 *)
Definition four_digits {A} (s : str) (k : Z -> str -> option A) : option A :=
  match s with
  | a :: b :: c :: d :: r =>
      if is_digit a && is_digit b && is_digit c && is_digit d then k (num_of [a; b; c; d]) r else None
  | _ => None
  end.
(** app.rs:236-237 *)
Definition dsep {A} (s : str) (k : str -> option A) : option A :=
  match s with c :: r => if is_dsep c then k r else None | [] => None end.
(** app.rs:236-237 *)
Definition eos {A} (s : str) (x : A) : option A := match s with [] => Some x | _ => None end.

(** app.rs:237 *)
Definition re_date_at (s : str) : option (Z * Z * Z) :=
  four_digits s (fun y s1 => dsep s1 (fun s2 => one_or_two s2 (fun m s3 =>
    dsep s3 (fun s4 => one_or_two s4 (fun d s5 => eos s5 (y, m, d)))))).
(** app.rs:236 *)
Definition re_month_at (s : str) : option (Z * Z) :=
  four_digits s (fun y s1 => dsep s1 (fun s2 => one_or_two s2 (fun m s3 => eos s3 (y, m)))).
(** app.rs:239-247: The regexes are not anchored at the start: leftmost match. *)
Fixpoint leftmost {A} (f : str -> option A) (s : str) : option A :=
  match f s with
  | Some x => Some x
  | None => match s with [] => None | _ :: r => leftmost f r end
  end.

(** app.rs:234-267: [Ok (Some d)] = Ok(date), [Ok None] = Err (the message is not modelled). *)
Definition date_parser (w : world) (s : str) : res (option Z) :=
  match leftmost re_date_at s with
  | Some (y, m, d) => match from_ymd y m d with Some n => Ok (Some n) | None => Panic PExplicit end
  | None =>
      match leftmost re_month_at s with
      | Some (y, m) => match from_ymd y m 1 with Some n => Ok (Some n) | None => Panic PExplicit end
      | None => Ok (w_two_timer w s)
      end
  end.
