(** Dates and times (C53, C63). *)
From Coq Require Import Lia.
From Verif Require Import Base BaseFacts Numerals NumFacts Money Txn Peg Grammar Dates Expr Tokens Spec SpecText LiteralFacts SpecDates DateFacts PropTxn.
Open Scope Z_scope.

(** ** C63 *)
(** A date given on the command line as year, month and day is accepted exactly if the calendar has
    that day, and then stands for that day, counted from the first of January of the year 1. *)
Theorem C63_command_line_dates w y m d s n : date_written (L "/-") y m d s ->
  (date_parser w s = Ok (Some n) <-> day_count y m d n) /\
  (~ calendar_day y m d -> date_parser w s = Panic PExplicit).
Proof.
  intros H. rewrite (date_parser_full w y m d s H), day_count_spec.
  assert (R : in_range y).
  { destruct H as (ty & _ & _ & _ & _ & _ & L4 & (D & _ & _ & <-) & _). apply only_digits_all in D.
    pose proof (digits_val_lt ty D) as B. rewrite <- dec_value_val, L4 in B. change (10 ^ N.of_nat 4)%N with 10000%N in B.
    unfold in_range. lia. }
  split.
  - split.
    + intros E. destruct (from_ymd y m d) eqn:F; inv E. apply from_spec in F. tauto.
    + intros [C ->]. assert (F : from_ymd y m d = Some (day_number y m d)) by (apply from_spec; auto). rewrite F. auto.
  - intros C. destruct (from_ymd y m d) eqn:F; auto. apply from_spec in F. tauto.
Qed.
(** A year and a month stand for the first day of the month. *)
Theorem C63_command_line_months w y m s s1 : month_written (L "/-") y m s -> date_written (L "/-") y m 1 s1 ->
  date_parser w s = date_parser w s1.
Proof. intros H H1. rewrite (date_parser_month w y m s H), (date_parser_full w y m 1 s1 H1). auto. Qed.
(** The order of the days is the order of the calendar. *)
Theorem C63_order y m d n y' m' d' n' : day_count y m d n -> day_count y' m' d' n' ->
  (n < n' <-> earlier y m d y' m' d') /\ (n = n' <-> (y, m, d) = (y', m', d')).
Proof.
  rewrite !day_count_spec. intros [C ->] [C' ->]. split; [apply day_order; auto|]. split.
  - intros E. destruct (day_inj _ _ _ _ _ _ C C' E) as (-> & -> & ->). auto.
  - congruence.
Qed.
(** Every day of the calendar has exactly one number. *)
Theorem C63_days_counted y m d : calendar_day y m d <-> exists! n, day_count y m d n.
Proof.
  split.
  - intros C. exists (day_number y m d). split; [apply day_count_spec; auto|]. intros n H. apply day_count_spec in H. symmetry. tauto.
  - intros (n & H & _). apply day_count_spec in H. tauto.
Qed.
(** In journals: the date of a transaction and of a price.  Impossible days are never accepted. *)
Theorem C63_transaction_dates y m d s rest h : journal_date y m d s ->
  parse_header (s ++ L " " ++ rest) = Ok h -> day_count y m d (h_date h).
Proof.
  intros (ty & tm & td & a & E & H1 & H2 & H3 & H4 & H5 & H6) H. apply day_count_spec.
  destruct (header_date y m d ty tm td a a s rest h) as [_ F]; [unfold shaped; tauto|auto|]. apply from_spec in F. tauto.
Qed.
Theorem C63_price_dates y m d s rest p : journal_date y m d s ->
  parse_price_line (L "P " ++ s ++ L " " ++ rest) = Ok p -> day_count y m d (pp_date p).
Proof.
  intros (ty & tm & td & a & E & H1 & H2 & H3 & H4 & H5 & H6) H. apply day_count_spec.
  destruct (price_date y m d ty tm td a a s rest p) as [_ F]; [unfold shaped; tauto|auto|]. apply from_spec in F. tauto.
Qed.
(** And every day the program can represent is accepted. *)
Theorem C63_journal_dates_accepted y m d s : journal_date y m d s -> calendar_day y m d -> in_range y ->
  (exists h, parse_header (s ++ L " Shop") = Ok h /\ day_count y m d (h_date h)) /\
  (exists p, parse_price_line (L "P " ++ s ++ L " EUR 2 USD") = Ok p /\ day_count y m d (pp_date p)).
Proof.
  intros (ty & tm & td & a & E & H1 & H2 & H3 & H4 & H5 & H6) C R.
  assert (F : from_ymd y m d = Some (day_number y m d)) by (apply from_spec; auto).
  assert (Sh : shaped y m d ty tm td a a s) by (unfold shaped; tauto). split.
  - destruct (header_example y m d ty tm td a s _ Sh F) as (h & E1 & E2 & _). exists h. split; auto. apply day_count_spec. auto.
  - destruct (price_example y m d ty tm td a s _ Sh F) as (p & E1 & E2 & _). exists p. split; auto. apply day_count_spec. auto.
Qed.
(** Dates are printed as the day they stand for, and read back. *)
Theorem C63_printed_dates w n : exists y m d, day_count y m d n /\
  (0 <= y <= 9999 -> date_written (L "-") y m d (date_text n) /\ date_parser w (date_text n) = Ok (Some n)).
Proof.
  pose proof (to_ymd_spec n) as S. pose proof (date_text_written n) as W. destruct (to_ymd n) as [[y m] d]. destruct S as [S1 S2].
  exists y, m, d. assert (C : day_count y m d n) by (apply day_count_spec; auto). split; auto. intros Hy. specialize (W Hy). split; auto.
  apply (C63_command_line_dates w y m d); auto. destruct W as (ty & tm & td & a & b & E & L4 & W1 & W2 & W3 & Ha & Hb).
  exists ty, tm, td, a, b. cbn in *. intuition.
Qed.
Print Assumptions C63_command_line_dates.
Print Assumptions C63_command_line_months.
Print Assumptions C63_order.
Print Assumptions C63_days_counted.
Print Assumptions C63_transaction_dates.
Print Assumptions C63_price_dates.
Print Assumptions C63_journal_dates_accepted.
Print Assumptions C63_printed_dates.

Example C63_ex_leap : calendar_day 2024 2 29 /\ ~ calendar_day 2023 2 29 /\ calendar_day 2000 2 29 /\ ~ calendar_day 1900 2 29.
Proof. rewrite !calendar_spec. cbn. lia. Qed.
Example C63_ex_written : date_written (L "/-") 2024 2 29 (L "2024-02/29") /\ month_written (L "/-") 2024 2 (L "2024/2").
Proof.
  split.
  - exists (L "2024"), (L "02"), (L "29"), c_minus, c_slash. repeat split; try reflexivity; try discriminate; try (cbn; lia); try (cbn; auto);
      intros; cbn in H; intuition lia.
  - exists (L "2024"), (L "2"), c_slash. repeat split; try reflexivity; try discriminate; try (cbn; lia); try (cbn; auto);
      intros; cbn in H; intuition lia.
Qed.
Example C63_ex_day : date_parser w0 (L "2024-02/29") = Ok (Some 738944) /\ date_parser w0 (L "2023-02-29") = Panic PExplicit.
Proof. vm_compute. auto. Qed.
Example C63_ex_journal : journal_date 2024 2 29 (L "2024.2.29").
Proof.
  exists (L "2024"), (L "2"), (L "29"), c_dot. repeat split; try reflexivity; try discriminate; try (cbn; lia); try (cbn; auto);
    intros; cbn in H; intuition lia.
Qed.

(** ** C53 *)
(** Times of day before eight in the evening are accepted after the date of a price and ignored; [rest] is
    what follows, which does not begin with a digit. *)
Theorem C53_times_ignored_partial y mo d date h m s text rest : journal_date y mo d date -> time_written h m s text -> h < 20 ->
  (forall c r, rest = c :: r -> ~ (48 <= c <= 57)%N) ->
  parse_price_line (L "P " ++ date ++ L " " ++ text ++ L " " ++ rest) = parse_price_line (L "P " ++ date ++ L " " ++ rest).
Proof.
  intros (ty & tm & td & a & E & H1 & H2 & H3 & H4 & H5 & H6) Ht Hh Hr. eapply price_time; eauto.
  - unfold shaped. repeat (split; [eassumption|]). auto.
  - destruct rest as [|c r]; cbn; auto. specialize (Hr c r eq_refl). unfold is_digit. apply andb_false_iff. rewrite !N.leb_gt. lia.
Qed.
(** The claim fails for every later time, whatever follows. *)
Theorem C53_evening_refuted y mo d date h m s text rest : journal_date y mo d date -> time_written h m s text -> 20 <= h ->
  parse_price_line (L "P " ++ date ++ L " " ++ text ++ rest) = Panic PUnwrap.
Proof.
  intros (ty & tm & td & a & E & H1 & H2 & H3 & H4 & H5 & H6) Ht Hh. eapply price_evening; eauto.
  unfold shaped. repeat (split; [eassumption|]). auto.
Qed.
Print Assumptions C53_times_ignored_partial.
Print Assumptions C53_evening_refuted.
Lemma ex_time h m s th tm ts : two_digits h th -> two_digits m tm -> two_digits s ts -> 0 <= h < 24 -> 0 <= m < 60 -> 0 <= s < 60 ->
  time_written h m s (th ++ L ":" ++ tm ++ L ":" ++ ts).
Proof. intros. exists th, tm, ts. auto 10. Qed.
Example C53_ex_times : time_written 19 59 0 (L "19:59:00") /\ time_written 20 15 0 (L "20:15:00").
Proof.
  split.
  - apply (ex_time 19 59 0 (L "19") (L "59") (L "00")); try lia;
      repeat split; try reflexivity; try discriminate; try (cbn; lia); intros; cbn in H; intuition lia.
  - apply (ex_time 20 15 0 (L "20") (L "15") (L "00")); try lia;
      repeat split; try reflexivity; try discriminate; try (cbn; lia); intros; cbn in H; intuition lia.
Qed.
Example C53_ex_read : (exists p, parse_price_line (L "P 2024-02-29 19:59:00 EUR 2 USD") = Ok p) /\
  parse_price_line (L "P 2024-02-29 20:15:00 EUR 2 USD") = Panic PUnwrap.
Proof. split; [eexists|]; vm_compute; reflexivity. Qed.
