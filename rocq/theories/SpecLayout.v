(** Specification vocabulary for the printed reports (C69, C70). *)
From Verif Require Import Base Money Dates Price Tokens Reports Spec SpecText SpecDates SpecJournal.

(** [text] at the right (left) of a field of [n] columns; a longer text makes the field wider. *)
Definition at_right (n : nat) (text field : str) : Prop :=
  (exists k, field = repeat c_sp k ++ text) /\ length field = Nat.max n (length text).
Definition at_left (n : nat) (text field : str) : Prop :=
  (exists k, field = text ++ repeat c_sp k) /\ length field = Nat.max n (length text).
(** An amount of money with two decimals and its commodity; see C07 for the sign. *)
Definition amount_text (m : money) (text : str) : Prop :=
  match m with
  | MZero => text = L "0"
  | M a c => exists neg r, fixed_point text neg 2 r c /\ nearest 2 a r
  end.

(** ** The balance report *)
(** One line per amount, the last one with the account. *)
Inductive amounts_printed (tail : str) : list money -> list str -> Prop :=
| ap_last m text field : amount_text m text -> at_right 20 text field -> amounts_printed tail [m] [field ++ tail]
| ap_more m text field ms ls : amount_text m text -> at_right 20 text field -> amounts_printed tail ms ls ->
    amounts_printed tail (m :: ms) (field :: ls).
(** The account is two columns to the right for each of its levels; two in a flat report. *)
Definition row_printed (r : brow) (ls : list str) : Prop :=
  amounts_printed (repeat c_sp (2 * Nat.max 1 (br_indent r)) ++ br_label r) (br_moneys r) ls.
(** The total below a rule. *)
Definition total_printed (t : option (list money)) (ls : list str) : Prop :=
  match t with
  | None => ls = []
  | Some ms => exists fields, ls = L "--------------------" :: fields /\
      Forall2 (fun m f => exists text, amount_text m text /\ at_right 20 text f) ms fields
  end.
Definition balance_printed (r : breport) (lines : list str) : Prop :=
  exists groups total, lines = concat groups ++ total /\ Forall2 row_printed (bp_rows r) groups /\ total_printed (bp_total r) total.

(** ** The register *)
(** The payee fits, or is cut off and marked so. *)
Definition cut_short (text shown : str) : Prop :=
  (shown = text \/ exists p r, text = p ++ r /\ shown = p ++ L "..") /\ (length shown <= 41)%nat /\
  ((forall c, In c text -> (c < 128)%N) -> (length text < 39)%nat -> shown = text).
(** The heading of a transaction, 53 columns. *)
Definition heading_printed (h : option (Z * str)) (field : str) : Prop :=
  match h with
  | None => field = repeat c_sp 53
  | Some (day, payee) => exists d p date shown, field = d ++ p /\ at_left 11 date d /\ at_left 42 shown p /\
      (exists y m dd, day_count y m dd day /\ ((0 <= y <= 9999)%Z -> date_written (L "-") y m dd date)) /\
      cut_short (payee ++ L " ") shown
  end.
(** Columns of the account, and of each of the two amounts: what remains beside the heading on a
    terminal of more than 95 columns; else, or on an unknown terminal, fixed ones. *)
Definition columns (terminal : option nat) (account amount : nat) : Prop :=
  ((exists n, terminal = Some n /\ (95 < n)%nat) /\ amount = 21%nat /\ terminal = Some (53 + account + amount + amount)%nat) \/
  ((forall n, terminal = Some n -> (n <= 95)%nat) /\ account = 34%nat /\ amount = 17%nat).
(** Heading, account, amount and the running total, one line per commodity. *)
Inductive entry_printed (terminal : option nat) (r : rrow) : list str -> Prop :=
| ep ca cm h acc a ta m tm t ms more : columns terminal ca cm ->
    heading_printed (rr_head r) h -> at_left ca (rr_account r) acc -> amount_text (rr_amount r) ta -> at_right cm ta a ->
    rr_total r = m :: ms -> amount_text m tm -> at_right cm tm t ->
    Forall2 (fun m' line => exists text f, amount_text m' text /\ at_right cm text f /\ line = repeat c_sp (53 + ca + cm) ++ f) ms more ->
    entry_printed terminal r ((h ++ acc ++ a ++ t) :: more).

(** ** Reading the balance report back *)
(** Words with single blanks between them. *)
Definition tidy (s : str) : Prop :=
  exists words, words <> [] /\ Forall (fun w => w <> [] /\ ~ In c_sp w) words /\ s = join [c_sp] words.
Definition tidy_money (m : money) : Prop := match m with MZero => True | M _ c => tidy c end.
Definition tidy_report (r : breport) : Prop :=
  Forall (fun row => tidy (br_label row) /\ Forall tidy_money (br_moneys row)) (bp_rows r) /\
  match bp_total r with Some ms => Forall tidy_money ms | None => True end.
(** Equal to the second decimal, apart from the sign. *)
Definition same_money (m m' : money) : Prop :=
  match m, m' with
  | MZero, MZero => True
  | M a c, M a' c' => c = c' /\ exists r, nearest 2 a r /\ nearest 2 a' r
  | _, _ => False
  end.
Definition same_row (r r' : brow) : Prop :=
  br_label r = br_label r' /\ Nat.max 1 (br_indent r) = Nat.max 1 (br_indent r') /\ Forall2 same_money (br_moneys r) (br_moneys r').

(** ** The list of prices *)
(** Prices that can be written in a journal: commodities that need no quotes, years of four digits. *)
Definition writable_price (p : price) : Prop :=
  price_commodity (pr_com p) (pr_com p) /\ price_commodity (pr_cur p) (pr_cur p) /\
  exists y m d, day_count y m d (pr_date p) /\ (0 <= y <= 9999)%Z.
(** Commodities are told apart by more than the case of their letters. *)
Definition prices_mention (ps : list price) (n : str) : Prop := exists p, In p ps /\ (n = pr_com p \/ n = pr_cur p).
Definition told_apart (w : world) (ps : list price) : Prop :=
  forall n n', prices_mention ps n -> prices_mention ps n' -> w_lower w n = w_lower w n' -> n = n'.
(** The list as a journal. *)
Definition as_prices (lines : list str) : str := concat (map (fun l => L "P " ++ l ++ [c_nl]) lines).
(** A price of a journal that says what [p] says, to the second decimal; the sign is the one C07 tells. *)
Definition says (p : price) (q : parsed_price) : Prop :=
  pp_date q = pr_date p /\ pp_commodity q = pr_com p /\ pp_other q = pr_cur p /\
  exists (neg : bool) r, nearest 2 (pr_amount p) r /\
    pp_quantity q = ((if neg then Qcopp 1 else 1) * of_Z (Z.of_N r) / of_Z 100)%Qc /\
    (1 <= pr_amount p \/ pr_amount p <= - (1) \/ (0 <= pr_amount p /\ ~ nearest 2 (pr_amount p) 100) ->
     (neg = true <-> pr_amount p < 0 /\ r <> 0%N))%Qc.
