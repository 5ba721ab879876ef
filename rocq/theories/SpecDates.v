(** Vocabulary for dates and times: the Gregorian calendar, day by day, and written dates. *)
From Verif Require Import Base Spec.
Open Scope Z_scope.

Definition leap_year (y : Z) : Prop := (4 | y) /\ (~ (100 | y) \/ (400 | y)).
Inductive month_length (y : Z) : Z -> Z -> Prop :=
| ml_feb_leap : leap_year y -> month_length y 2 29
| ml_feb : ~ leap_year y -> month_length y 2 28
| ml_30 m : In m [4; 6; 9; 11] -> month_length y m 30
| ml_31 m : In m [1; 3; 5; 7; 8; 10; 12] -> month_length y m 31.
Definition calendar_day (y m d : Z) : Prop := exists n, month_length y m n /\ 1 <= d <= n.
(** The day after. *)
Inductive day_after : Z -> Z -> Z -> Z -> Z -> Z -> Prop :=
| da_day y m d : calendar_day y m d -> calendar_day y m (d + 1) -> day_after y m d y m (d + 1)
| da_month y m d : month_length y m d -> m < 12 -> day_after y m d y (m + 1) 1
| da_year y : day_after y 12 31 (y + 1) 1 1.
(** Days counted forwards and backwards from the first of January of the year 1. *)
Inductive day_count : Z -> Z -> Z -> Z -> Prop :=
| dc_origin : day_count 1 1 1 0
| dc_next y m d n y' m' d' : day_count y m d n -> day_after y m d y' m' d' -> day_count y' m' d' (n + 1)
| dc_prev y m d y' m' d' n : day_count y' m' d' n -> day_after y m d y' m' d' -> calendar_day y m d -> day_count y m d (n - 1).
Definition earlier (y m d y' m' d' : Z) : Prop := y < y' \/ (y = y' /\ (m < m' \/ (m = m' /\ d < d'))).

(** A number written with [k] or fewer digits. *)
Definition written (k : nat) (n : Z) (s : str) : Prop :=
  only_digits s /\ s <> [] /\ (length s <= k)%nat /\ Z.of_N (dec_value s) = n.
(** Year, month and day written with separators; a year and a month. *)
Definition date_written (seps : str) (y m d : Z) (s : str) : Prop :=
  exists ty tm td a b, s = ty ++ a :: tm ++ b :: td /\ length ty = 4%nat /\ written 4 y ty /\
    written 2 m tm /\ written 2 d td /\ In a seps /\ In b seps.
Definition month_written (seps : str) (y m : Z) (s : str) : Prop :=
  exists ty tm a, s = ty ++ a :: tm /\ length ty = 4%nat /\ written 4 y ty /\ written 2 m tm /\ In a seps.
(** In journals the year may have any number of digits and the two separators must be the same. *)
Definition journal_date (y m d : Z) (s : str) : Prop :=
  exists ty tm td a, s = ty ++ a :: tm ++ a :: td /\ only_digits ty /\ ty <> [] /\ Z.of_N (dec_value ty) = y /\
    written 2 m tm /\ written 2 d td /\ In a (L "./-").
(** The years the program can represent. *)
Definition in_range (y : Z) : Prop := -262144 <= y <= 262143.
(** A time of day HH:MM:SS. *)
Definition two_digits (n : Z) (s : str) : Prop := written 2 n s /\ length s = 2%nat.
Definition time_written (h m s : Z) (text : str) : Prop :=
  exists th tm ts, text = th ++ L ":" ++ tm ++ L ":" ++ ts /\ two_digits h th /\ two_digits m tm /\ two_digits s ts /\
    0 <= h < 24 /\ 0 <= m < 60 /\ 0 <= s < 60.
