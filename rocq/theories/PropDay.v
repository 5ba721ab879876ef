(** C109: the day and the terminal. *)
From Verif Require Import Base BaseFacts Money Alist Txn Expr Filter Tokens Ledger Reports App SpecDay DayFacts PropAsk PropLedger PropTxn PropNews.

(** ** What a command gives does not depend on the day it is run, but for a balance in another commodity *)
Theorem C109_day : forall depth w c o file day, (forall flat nt, c = CBalance flat nt -> o_exchange o = None) ->
  run_cmd depth (on_day day w) c o file = run_cmd depth w c o file.
Proof.
  intros depth w c o file day X. unfold run_cmd, on_day. rewrite tokenize_file_day by reflexivity. apply bind_ext. intros l. unfold run_on.
  destruct c; rewrite to_ledger_day; try reflexivity; apply bind_ext; intros lg; cbv zeta.
  - rewrite balance_day by (left; eapply X; reflexivity). reflexivity.
  - rewrite register_day. reflexivity.
Qed.
Print Assumptions C109_day.
(** ** The terminal is for the register only *)
Theorem C109_terminal : forall depth w c o file width, c <> CRegister -> run_cmd depth (on_width width w) c o file = run_cmd depth w c o file.
Proof.
  intros depth w c o file width N. unfold run_cmd, on_width. rewrite tokenize_file_day by reflexivity. apply bind_ext. intros l. unfold run_on.
  destruct c; rewrite to_ledger_day; try reflexivity; try congruence; apply bind_ext; intros lg; cbv zeta.
  rewrite balance_day by (right; reflexivity). reflexivity.
Qed.
Print Assumptions C109_terminal.
(** The register makes the same rows; it is accepted or refused in the same cases. *)
Theorem C109_register : forall depth w o file day width, exit_status (run_cmd depth (elsewhere day width (w_read w) w) CRegister o file) = exit_status (run_cmd depth w CRegister o file).
Proof.
  intros depth w o file day width. unfold run_cmd. rewrite tokenize_file_day by reflexivity. destruct (tokenize_file depth w file) as [l| |]; try reflexivity. cbn [bind]. unfold run_on.
  rewrite to_ledger_day. destruct (to_ledger w (o_no_balance_check o) l) as [lg| |]; try reflexivity. cbn [bind]. cbv zeta. rewrite register_day.
  destruct (register_report w (report_site lg) o lg) as [rs| |]; try reflexivity. cbn [bind]. unfold register_lines.
  assert (M : exit_status (mapM (rrow_lines (elsewhere day width (w_read w) w)) rs) = exit_status (mapM (rrow_lines w) rs)).
  { assert (R : forall r, exit_status (rrow_lines (elsewhere day width (w_read w) w) r) = exit_status (rrow_lines w r)).
    { intros r. unfold rrow_lines. destruct (register_widths (elsewhere day width (w_read w) w)) as [a b]. destruct (register_widths w) as [a' b'].
      destruct (show (rr_amount r)) as [s| |]; try reflexivity. cbn [bind]. destruct (mapM show (rr_total r)) as [ts| |]; try reflexivity. cbn [bind]. destruct ts; reflexivity. }
    induction rs as [|r rs IH]; [reflexivity|]. cbn [mapM]. specialize (R r).
    destruct (rrow_lines (elsewhere day width (w_read w) w) r) as [x| |], (rrow_lines w r) as [y| |]; cbn [exit_status bind] in *; try discriminate; try reflexivity.
    destruct (mapM (rrow_lines (elsewhere day width (w_read w) w)) rs), (mapM (rrow_lines w) rs); cbn [exit_status bind] in *; try discriminate; reflexivity. }
  destruct (mapM (rrow_lines (elsewhere day width (w_read w) w)) rs), (mapM (rrow_lines w) rs); cbn [exit_status bind] in *; try discriminate; reflexivity.
Qed.
Print Assumptions C109_register.

(** ** A case: the journal of C108, with a price of December 2021, in July 2021 and in 2022 *)
Definition plain109 : opts :=
  {| o_real := false; o_begin := None; o_end := None; o_query := []; o_depth := None; o_exchange := None; o_no_balance_check := false |}.
Example C109_case : run_cmd 2 (on_day 738200 w108) (CBalance true true) plain109 (L "more") = run_cmd 2 w108 (CBalance true true) plain109 (L "more") /\
  (exists lines, run_cmd 2 w108 (CBalance true true) plain109 (L "more") = Ok lines /\ length lines = 5%nat) /\
  (exists lines, run_cmd 2 (on_width (Some 115%nat) w108) (CBalance true true) (in108 "EUR") (L "more") = Ok lines /\ length lines = 5%nat).
Proof.
  split; [apply C109_day; reflexivity|]. split; vm_compute; eexists; split; reflexivity.
Qed.
(** A balance in another commodity depends on the day, the register on the terminal. *)
Example C109_exceptions : run_cmd 2 (on_day 738200 w108) (CBalance true true) (in108 "EUR") (L "more") <> run_cmd 2 w108 (CBalance true true) (in108 "EUR") (L "more") /\
  run_cmd 2 (on_width (Some 115%nat) w108) CRegister plain109 (L "more") <> run_cmd 2 w108 CRegister plain109 (L "more").
Proof. split; vm_compute; intros H; discriminate H. Qed.
