(** Model of src/models/money.rs and src/models/balance.rs. *)
From Verif Require Import Base Numerals.
Open Scope Qc_scope.

(** money.rs:48-54.  A currency is represented by its name, the only thing its [Eq], [Ord] and
    [Hash] look at (currency.rs:109-131); its precision is a parameter of [money_display]. *)
Inductive money := MZero | M (a : Qc) (c : str).

(** [==] on BigRational (num): money.rs:63, 143-162. *)
Definition qc_eqb (a b : Qc) : bool := if Qc_eq_dec a b then true else false.
(** [cmp] on BigRational (num): money.rs:164-185. *)
Definition qc_cmp (a b : Qc) : comparison := (a ?= b)%Qc.
(** [is_positive] on BigRational (num): money.rs:69. *)
Definition qc_pos (a : Qc) : bool := match qc_cmp 0 a with Lt => true | _ => false end.
(** [is_negative] on BigRational (num): money.rs:75. *)
Definition qc_neg (a : Qc) : bool := match qc_cmp a 0 with Lt => true | _ => false end.

(** money.rs:60-77 *)
Definition m_is_zero (m : money) : bool := match m with MZero => true | M a _ => qc_eqb a 0 end.
(** money.rs:66-71 *)
Definition m_is_positive (m : money) : bool := match m with MZero => true | M a _ => qc_pos a end.
(** money.rs:72-77 *)
Definition m_is_negative (m : money) : bool := match m with MZero => true | M a _ => qc_neg a end.
(** money.rs:78-89 *)
Definition m_commodity (m : money) : option str := match m with MZero => None | M _ c => Some c end.
(** money.rs:84-89 *)
Definition m_amount (m : money) : Qc := match m with MZero => 0 | M a _ => a end.
(** money.rs:241-252 *)
Definition m_neg (m : money) : money := match m with MZero => MZero | M a c => M (- a) c end.
(** money.rs:90-95 *)
Definition m_abs (m : money) : money := if m_is_negative m then m_neg m else m.
(** money.rs:186-195 *)
Definition m_mul (m : money) (q : Qc) : money := match m with MZero => MZero | M a c => M (a * q) c end.
(** money.rs:197-203: multiplies by the inverse; num's [inv] of zero panics. *)
Definition m_div (m : money) (q : Qc) : res money :=
  if qc_eqb q 0 then Panic PDivZero else Ok (m_mul m (/ q)).
(** money.rs:143-162 *)
Definition money_eqb (m1 m2 : money) : bool :=
  match m1, m2 with
  | MZero, MZero => true
  | MZero, M a _ => qc_eqb a 0
  | M a _, MZero => qc_eqb a 0
  | M a1 c1, M a2 c2 => qc_eqb a1 a2 && str_eqb c1 c2
  end.
(** money.rs:164-185 *)
Definition money_cmp (m1 m2 : money) : res comparison :=
  match m1, m2 with
  | M a1 c1, M a2 c2 => if str_eqb c1 c2 then Ok (qc_cmp a1 a2) else Panic PExplicit
  | _, _ => Ok (qc_cmp (m_amount m1) (m_amount m2))
  end.

(** money.rs:106-107: num's [Ratio::trunc] and [Ratio::fract]: quotient and remainder truncated
    towards zero. *)
Definition q_num (a : Qc) : Z := Qnum (this a).
(** [Ratio::denom] (num), through money.rs:98-139. *)
Definition q_den (a : Qc) : Z := Zpos (Qden (this a)).
(** [Ratio::trunc] (num): money.rs:108-112. *)
Definition q_trunc (a : Qc) : Z := Z.quot (q_num a) (q_den a).
(** [Ratio::fract] (num): money.rs:113-118. *)
Definition q_fract_num (a : Qc) : Z := Z.rem (q_num a) (q_den a).  (* over [q_den a] *)

(** money.rs:98-139 for a currency of precision [decimals] and name [name]:
    - 107: [base.pow(decimals + 2)] in i32 overflows when decimals + 2 > 9;
    - 107-109: absolute value of fract * 10^(decimals+2), truncated;
    - 110-112: printed with decimals+2 digits, then truncated to decimals+1 digits;
    - 114-118: round on the last digit;
    - 119-127: if the rounded part has decimals+1 digits, carry into the integer part. *)
Definition money_display (decimals : nat) (amount : Qc) (name : str) : res str :=
  if Nat.ltb 9 (decimals + 2) then Panic PArith else
  let integer_part := q_trunc amount in
  let decimal_part := Z.quot (Z.abs (q_fract_num amount) * 10 ^ Z.of_nat (decimals + 2)) (q_den amount) in
  let decimal_str := firstn (decimals + 1) (pad0 (decimals + 2) (Z_text decimal_part)) in
  v <- unwrap (parse_u64 decimal_str) ;;
  let decimal := if (5 <=? v mod 10)%N then (v / 10 + 1)%N else (v / 10)%N in
  let carry := Nat.eqb (length (N_digits decimal)) (decimals + 1) in
  let decimal' := if carry then 0%N else decimal in
  let integer' := if carry then (if (0 <? integer_part)%Z then integer_part + 1 else integer_part - 1)%Z
                  else integer_part in
  Ok (Z_text integer' ++ [c_dot] ++ pad0 decimals (N_digits decimal') ++ [c_sp] ++ name).

(** money.rs:98-101: [Money::Zero] prints as 0. *)
Definition m_display (prec : str -> nat) (m : money) : res str :=
  match m with MZero => Ok (L "0") | M a c => money_display (prec c) a c end.

(** ** Balances (balance.rs) *)

(** balance.rs:10-13: HashMap<Option<Rc<Currency>>, Money>. *)
Definition bkey := option str.
(** [==] on the keys of balance.rs:11-13 (currency.rs:109-113: by name). *)
Definition bkey_eqb : bkey -> bkey -> bool := opt_eqb str_eqb.
(** balance.rs:10-13 *)
Definition balance := list (bkey * money).

(** balance.rs:15-20 *)
Definition bal_new : balance := [].
(** balance.rs:137-148 *)
Definition bal_of (m : money) : balance :=
  match m with MZero => [(None, MZero)] | M _ c => [(Some c, m)] end.
(** balance.rs:34-46 *)
Definition bal_is_zero (b : balance) : bool := forallb (fun e => m_is_zero (snd e)) b.
(** balance.rs:47-61: scan with early exit. *)
Fixpoint can_be_zero_scan (b : balance) (pos neg : bool) : bool :=
  match b with
  | [] => false
  | (_, m) :: r =>
      let pos' := m_is_positive m || pos in
      let neg' := m_is_negative m || neg in
      if pos' && neg' then true else can_be_zero_scan r pos' neg'
  end.
(** balance.rs:47-61 *)
Definition can_be_zero (b : balance) : bool :=
  if bal_is_zero b then true else can_be_zero_scan b false false.
(** balance.rs:22-33 *)
Definition to_money (b : balance) : res money :=
  match filter (fun m => negb (m_is_zero m)) (map snd b) with
  | [] => Ok MZero
  | [m] => Ok m
  | _ => Err (ELedger TransactionIsNotBalanced)
  end.
(** balance.rs:80-90 *)
Definition bal_neg (b : balance) : balance := map (fun e => (fst e, m_neg (snd e))) b.

(** balance.rs:98-119, one step of the loop.  Line 111 unwraps the key: see [bal_add_res]. *)
Definition bal_add_step (total : balance) (e : bkey * money) : balance :=
  let (cur, m) := e in
  match hget bkey_eqb cur total with
  | None => hset bkey_eqb cur m total
  | Some MZero => hset bkey_eqb cur m total
  | Some (M already _) =>
      match m with
      | MZero => total
      | M amount _ =>
          match cur with
          | Some c => hset bkey_eqb cur (M (amount + already) c) total
          | None => total   (* the unwrap of line 111 panics here; unreachable, see [bal_add_ok] *)
          end
      end
  end.
(** balance.rs:92-125 *)
Definition bal_add (b1 b2 : balance) : balance :=
  filter (fun e => negb (m_is_zero (snd e)))
         (fold_left bal_add_step b2 (fold_left bal_add_step b1 [])).
(** balance.rs:127-134 *)
Definition bal_sub (b1 b2 : balance) : balance := bal_add b1 (bal_neg b2).

(** The same with the panic of line 111 explicit; [bal_add_ok] (MoneyFacts.v) shows it never
    happens for balances built with the API. *)
(** balance.rs:98-119 with the [unwrap] of line 111. *)
Definition bal_add_step_res (total : balance) (e : bkey * money) : res balance :=
  match hget bkey_eqb (fst e) total, snd e, fst e with
  | Some (M _ _), M _ _, None => Panic PUnwrap
  | _, _, _ => Ok (bal_add_step total e)
  end.
(** balance.rs:92-125 with the [unwrap] of line 111. *)
Definition bal_add_res (b1 b2 : balance) : res balance :=
  t <- foldM bal_add_step_res [] (b1 ++ b2) ;;
  Ok (filter (fun e => negb (m_is_zero (snd e))) t).

(** money.rs:222-239 *)
Definition money_add (m1 m2 : money) : balance := bal_add (bal_of m1) (bal_of m2).
(** money.rs:231-239 *)
Definition money_sub (m1 m2 : money) : balance := bal_sub (bal_of m1) (bal_of m2).

(** balance.rs:150-169: only the entries of [self] are looked at. *)
Definition bal_eqb (b1 b2 : balance) : bool :=
  forallb (fun e => match hget bkey_eqb (fst e) b2 with
                    | None => m_is_zero (snd e)
                    | Some m => money_eqb m (snd e)
                    end) b1.
