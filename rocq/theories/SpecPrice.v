(** Specification vocabulary for currency conversion (C33-C38). *)
From Verif Require Import Base Money Price.
Open Scope Z_scope.

(** ** The prices that count *)
Definition same_pair (p q : price) : Prop :=
  (pr_com p = pr_com q /\ pr_cur p = pr_cur q) \/ (pr_com p = pr_cur q /\ pr_cur p = pr_com q).
(** [p] is not after the date; prices of the same pair recorded before it are older, and those
    recorded after it are not newer, unless they are after the date. *)
Definition usable (date : Z) (ps : list price) (p : price) : Prop :=
  exists pre post, ps = pre ++ p :: post /\ pr_date p <= date /\
    (forall q, In q pre -> same_pair q p -> pr_date q <= date -> pr_date q < pr_date p) /\
    (forall q, In q post -> same_pair q p -> pr_date q <= date -> pr_date q <= pr_date p).

(** ** Chains of prices *)
(** [chain U t c r]: one [c] is [r] of [t] along a chain of prices of [U], each used forwards or
    backwards. *)
Inductive chain (U : price -> Prop) (t : str) : str -> Qc -> Prop :=
| ch_here : chain U t t 1
| ch_forwards p r : U p -> chain U t (pr_cur p) r -> chain U t (pr_com p) (pr_amount p * r)
| ch_backwards p r : U p -> pr_amount p <> 0%Qc -> chain U t (pr_com p) r -> chain U t (pr_cur p) (r / pr_amount p).
(** Commodities connected by prices. *)
Inductive connected (U : price -> Prop) (t : str) : str -> Prop :=
| co_here : connected U t t
| co_forwards p : U p -> connected U t (pr_cur p) -> connected U t (pr_com p)
| co_backwards p : U p -> connected U t (pr_com p) -> connected U t (pr_cur p).

(** ** Chains in time *)
(** [timed U t date c d k r]: from [t] at the conversion date to [c] at date [d] in [k] days of
    waiting, forwards or backwards in time, using prices of [U] at their dates; one [c] is [r] of
    [t] along the way. *)
Inductive timed (U : price -> Prop) (t : str) (date : Z) : str -> Z -> Z -> Qc -> Prop :=
| ti_here : timed U t date t date 0 1
| ti_wait c d d' k r : timed U t date c d k r -> timed U t date c d' (k + Z.abs (d - d')) r
| ti_forwards p k r : U p -> timed U t date (pr_cur p) (pr_date p) k r ->
    timed U t date (pr_com p) (pr_date p) k (pr_amount p * r)
| ti_backwards p k r : U p -> timed U t date (pr_com p) (pr_date p) k r ->
    timed U t date (pr_cur p) (pr_date p) k (r / pr_amount p).

(** The results that some iteration order of the hash maps gives. *)
Definition possible (cur : str) (date : Z) (ps : list price) (r : res (list (str * Qc))) : Prop :=
  exists w site, world_ok w /\ conversion w site cur date ps = r.
