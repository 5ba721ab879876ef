(** C67: a journal is read as it was written. *)
From Coq Require Import Lia.
From Verif Require Import Base BaseFacts Numerals Money Alist Comment Txn Peg Grammar Dates Expr Tokens Spec SpecText SpecDates SpecTokens
  DateFacts SpecJournal JournalRead JournalHeader JournalPrice JournalItems JournalLoop LiteralFacts PropTxn.

(** What counts as a blank. *)
Theorem C67_blanks c : (is_ws c = true <-> In c unicode_white_space) /\ (is_sep c = true <-> In c unicode_separators).
Proof.
  assert (S : is_sep c = true <-> In c unicode_separators).
  { unfold is_sep. rewrite !orb_true_iff, andb_true_iff, !N.eqb_eq, !N.leb_le. cbn [unicode_separators In]. split; [|intuition (subst; lia)].
    intros H. assert (8192 <= c <= 8202 \/ ~ (8192 <= c <= 8202))%N by lia. lia. }
  split; auto. unfold is_ws, unicode_white_space. rewrite !orb_true_iff, S, in_app_iff, andb_true_iff, N.eqb_eq, !N.leb_le.
  cbn [In]. intuition lia.
Qed.
Print Assumptions C67_blanks.


(** A text that is the written form of some contents (SpecJournal: items with arbitrary blank lines, blanks and
    comments between their parts) is read, and what is read is those contents. *)
Theorem C67_journal_read_as_written w d file seen l s :
  blanks_not_numeric w -> journal_written w pl_new l s -> tokenize (S d) w file seen s = Ok l.
Proof.
  intros Hw H. cbn [tokenize]. apply TokenFacts.in_file_ok. apply main_read with (s := s); auto.
  apply ready_rest; reflexivity.
Qed.
(** The same from a file. *)
Theorem C67_file_read_as_written w d path l s :
  blanks_not_numeric w -> w_read w path = Some s -> journal_written w pl_new l s -> tokenize_file (S d) w path = Ok l.
Proof. intros Hw Hr H. unfold tokenize_file. rewrite Hr. apply C67_journal_read_as_written; auto. Qed.
(** So a text is the written form of at most one journal. *)
Theorem C67_unambiguous w l l' s :
  blanks_not_numeric w -> journal_written w pl_new l s -> journal_written w pl_new l' s -> l = l'.
Proof.
  intros Hw H H'. pose proof (C67_journal_read_as_written w 0 None [] l s Hw H) as E.
  rewrite (C67_journal_read_as_written w 0 None [] l' s Hw H') in E. inv E. auto.
Qed.
Print Assumptions C67_journal_read_as_written.
Print Assumptions C67_file_read_as_written.
Print Assumptions C67_unambiguous.

(** The hypothesis on the world holds in the worlds used in the examples, and the written form has cases. *)
Example C67_ex_world : blanks_not_numeric w0.
Proof.
  intros c H. unfold is_numeric. destruct (c <? 128)%N; [|reflexivity]. unfold is_ws, is_sep in H. unfold is_digit.
  destruct (N.leb_spec 48 c); [|reflexivity]. destruct (N.leb_spec c 57); [|reflexivity]. exfalso.
  assert (X : (c = 48 \/ c = 49 \/ c = 50 \/ c = 51 \/ c = 52 \/ c = 53 \/ c = 54 \/ c = 55 \/ c = 56 \/ c = 57)%N) by lia.
  decompose [or] X; subst; discriminate.
Qed.
Definition nl : str := [c_nl].
Definition ex_text : str :=
  nl ++
  (L "account  Assets:Cash" ++ nl ++
   L "  note in the   drawer" ++ nl ++ L " alias cash " ++ nl ++ L "  default" ++ nl ++ L "   ; said in passing" ++ nl) ++
  nl ++ (L "; about prices" ++ nl) ++
  [] ++ (L "P 2020/02/29 EUR 1.10 USD ; close" ++ nl) ++
  [] ++
  (L "2020-01-31=2020-02-01 * (""7"") Corner shop | Ann ;weekly" ++ nl ++
   (L "  ; for two" ++ nl) ++
   L "  Expenses:Food:Fruit  -10.50 EUR @ $ 1.1 = EUR 0 ; paid" ++ nl ++ (nl ++ L "  ; late" ++ nl) ++
   L "	[Assets:Cash]" ++ nl) ++
  nl ++ (L "= expr account =~ /Food/" ++ nl ++ L "  (Budget)  (amount * 2)" ++ nl) ++ nl ++ L "  ".
Definition ex_account : account :=
  {| ac_name := L "Assets:Cash"; ac_aliases := [L "cash"]; ac_note := Some (L "in the   drawer"); ac_isin := None; ac_check := [];
     ac_assert := []; ac_payees := []; ac_default := true; ac_directive := true |}.
Definition ex_price : parsed_price :=
  {| pp_date := 737483; pp_commodity := L "EUR"; pp_other := L "USD"; pp_quantity := (of_Z 110 / of_Z 100)%Qc |}.
Definition ex_post1 : rposting :=
  {| rp_account := L "Expenses:Food:Fruit"; rp_money := Some (- of_Z 1050 / of_Z 100, L "EUR")%Qc; rp_cost_type := Some PPerUnit;
     rp_cost := Some (of_Z 11 / of_Z 10, L "$")%Qc; rp_balance := Some (of_Z 0, L "EUR")%Qc; rp_comments := [L "paid"; L "late"];
     rp_expr := None; rp_kind := Real; rp_payee := Some (L "Ann") |}.
Definition ex_post2 : rposting :=
  {| rp_account := L "Assets:Cash"; rp_money := None; rp_cost_type := None; rp_cost := None; rp_balance := None; rp_comments := [];
     rp_expr := None; rp_kind := VirtualMustBalance; rp_payee := Some (L "Ann") |}.
Definition ex_post3 : rposting :=
  {| rp_account := L "Budget"; rp_money := None; rp_cost_type := None; rp_cost := None; rp_balance := None; rp_comments := [];
     rp_expr := Some (L "(amount * 2)"); rp_kind := Virtual; rp_payee := None |}.
Definition ex_txn : txn rposting :=
  {| t_date := Some 737454%Z; t_edate := Some 737455%Z; t_cleared := CUnknown; t_code := None; t_desc := L "Corner shop"; t_payee := Some (L "Ann");
     t_postings := [ex_post1; ex_post2]; t_comments := [L ";weekly"; L "for two"]; t_type := TReal; t_tags := [] |}.
Definition ex_auto : txn rposting :=
  {| t_date := None; t_edate := None; t_cleared := CUnknown; t_code := None; t_desc := L " expr account =~ /Food/"; t_payee := None;
     t_postings := [ex_post3]; t_comments := []; t_type := TAutomated; t_tags := [] |}.
Definition ex_ledger : pledger :=
  add_txn ex_auto (add_txn ex_txn (add_price ex_price (add_lcomment (L "about prices") (add_acc w0 ex_account pl_new)))).

Lemma blanks_b b : forallb (fun c => is_ws c && negb (c =? c_nl)%N) b = true -> blanks b.
Proof.
  intros H c Hc. eapply forallb_forall in H; eauto. cbn beta in H. apply andb_prop in H. destruct H as [H1 H2]. split; auto. intros ->. discriminate.
Qed.
Lemma one_line_b s : forallb (fun c => negb (c =? c_nl)%N) s = true -> one_line s.
Proof. intros H Hc. eapply forallb_forall in H; eauto. discriminate. Qed.
Lemma spaces_b s : forallb (fun c => c =? c_sp)%N s = true -> spaces s.
Proof. intros H c Hc. eapply forallb_forall in H; eauto. apply N.eqb_eq. auto. Qed.
Lemma name_b s : s <> [] -> forallb (fun c => negb (is_ws c)) s = true -> plain_name s.
Proof.
  intros Hn H. assert (F : forall c, In c s -> is_ws c = false). { intros c Hc. eapply forallb_forall in H; eauto. apply negb_true_iff. auto. }
  split; [auto|]. split; [intros X; apply F in X; discriminate|]. split; [intros X; apply F in X; discriminate|].
  split; [intros p c d r -> H1 _; rewrite F in H1 by (apply in_or_app; right; left; auto); discriminate|].
  split; [intros c r ->; apply F; left; auto|intros p c ->; apply F; apply in_or_app; right; left; auto].
Qed.
Lemma free_b s : forallb (fun c => negb (existsb (N.eqb c) (L "|;")) && negb (c =? c_nl)%N && negb (c =? c_cr)%N) s = true -> trim s = s -> free_text s.
Proof.
  intros H Ht. split; auto. intros c Hc. eapply forallb_forall in H; eauto. cbn beta in H. apply andb_prop in H. destruct H as [H H3]. apply andb_prop in H.
  destruct H as [H1 H2]. split; [|split; intros ->; discriminate]. intros X. apply negb_true_iff in H1.
  assert (E : existsb (N.eqb c) (L "|;") = true) by (apply existsb_exists; exists c; split; auto; apply N.eqb_refl). congruence.
Qed.
Lemma word_b w c : match c with x :: _ => negb (existsb (N.eqb x) (L "(=@")) | [] => false end = true ->
  forallb (fun x => negb (is_ws x) && negb (is_numeric w x) && negb (existsb (N.eqb x) (L ".-;"""))) c = true -> commodity_written w c c.
Proof.
  intros H1 H2. assert (N0 : forall x l, negb (existsb (N.eqb x) l) = true -> ~ In x l).
  { intros x l H X. apply negb_true_iff in H. assert (E : existsb (N.eqb x) l = true) by (apply existsb_exists; exists x; split; auto; apply N.eqb_refl). congruence. }
  apply cw_word.
  - destruct c as [|x c]; [discriminate|]. exists x, c. split; auto.
  - intros x Hx. eapply forallb_forall in H2; eauto. cbn beta in H2. apply andb_prop in H2. destruct H2 as [H2 H5]. apply andb_prop in H2. destruct H2 as [H3 H4].
    apply negb_true_iff in H3, H4. split; auto.
Qed.
Lemma price_b c : match c with x :: _ => negb (existsb (N.eqb x) (L "=-&0123456789")) | [] => false end = true ->
  forallb (fun x => negb (is_sep x) && negb (existsb (N.eqb x) (L "+*/\|%<>:?();""'")) && negb (x =? c_nl)%N) c = true -> price_commodity c c.
Proof.
  intros H1 H2. assert (N0 : forall x l, negb (existsb (N.eqb x) l) = true -> ~ In x l).
  { intros x l H X. apply negb_true_iff in H. assert (E : existsb (N.eqb x) l = true) by (apply existsb_exists; exists x; split; auto; apply N.eqb_refl). congruence. }
  apply pc_word.
  - destruct c as [|x c]; [discriminate|]. exists x, c. split; auto.
  - intros x Hx. eapply forallb_forall in H2; eauto. cbn beta in H2. apply andb_prop in H2. destruct H2 as [H2 H5]. apply andb_prop in H2. destruct H2 as [H3 H4].
    apply negb_true_iff in H3. split; [auto|]. split; [auto|]. intros ->. discriminate.
Qed.
Lemma literal_b neg ip point fp q : all_digits ip = true -> all_digits fp = true -> (point = false -> fp = []) -> ip ++ fp <> [] ->
  q = ((if neg : bool then Qcopp 1 else 1) * of_Z (Z.of_N (dec_value (ip ++ fp))) / of_Z (10 ^ Z.of_nat (length fp)))%Qc ->
  literal ((if neg then L "-" else []) ++ ip ++ (if point : bool then L "." ++ fp else [])) q.
Proof. intros H1 H2 H3 H4 ->. exists neg, ip, point, fp. split; [reflexivity|]. split; [apply only_digits_all; auto|]. split; [apply only_digits_all; auto|]. auto. Qed.
Lemma day_b y m d ty tm td a n : all_digits ty = true -> ty <> [] -> all_digits tm = true -> all_digits td = true -> length tm = 2%nat -> length td = 2%nat ->
  Z.of_N (dec_value ty) = y -> Z.of_N (dec_value tm) = m -> Z.of_N (dec_value td) = d -> In a (L "./-") -> from_ymd y m d = Some n ->
  day_written n (ty ++ a :: tm ++ a :: td).
Proof.
  intros H1 H2 H3 H4 H5 H6 H7 H8 H9 H10 H11. apply from_spec in H11. destruct H11 as (R1 & R2 & ->). exists y, m, d.
  split; [|split; [auto|split; [auto|apply day_count_spec; auto]]]. exists ty, tm, td, a. split; [reflexivity|]. split; [apply only_digits_all; auto|].
  split; [auto|]. split; [auto|]. assert (tm <> []) by (intros ->; discriminate). assert (td <> []) by (intros ->; discriminate).
  split; [split; [apply only_digits_all; auto|split; [auto|split; [lia|auto]]]|]. split; [split; [apply only_digits_all; auto|split; [auto|split; [lia|auto]]]|auto].
Qed.
Ltac qc := apply Qc_is_canon; vm_compute; reflexivity.
Example C67_case : journal_written w0 pl_new ex_ledger ex_text.
Proof.
  refine (jw_item w0 _ nl _ _ _ _ _ _ _); [apply (bl_line [] []); [apply blanks_nil|constructor]|..].
  { (* account *)
    refine (iw_account w0 _ (L "Assets:Cash") ex_account (L "  ") [] _ _ _ _ _).
    - split; [discriminate|]. split; [apply one_line_b; reflexivity|reflexivity].
    - split; [apply spaces_b; reflexivity|discriminate].
    - apply blanks_nil.
    - eapply (se_cons _ _ _ _ (L "  note in the   drawer" ++ nl)).
      { eapply as_note. exists [], (L "  "), (L " "), []. split; [constructor|]. split; [split; [apply blanks_b; reflexivity|discriminate]|].
        split; [split; [apply blanks_b; reflexivity|discriminate]|]. split; [apply blanks_nil|]. split; [apply (one_line_b (L "in the   drawer")); reflexivity|].
        split; [reflexivity|]. split; [discriminate|reflexivity]. }
      eapply (se_cons _ _ _ _ (L " alias cash " ++ nl)).
      { eapply as_alias with (v := L "cash"); [|intros []]. exists [], (L " "), (L " "), (L " "). split; [constructor|]. split; [split; [apply blanks_b; reflexivity|discriminate]|].
        split; [split; [apply blanks_b; reflexivity|discriminate]|]. split; [apply blanks_b; reflexivity|]. split; [apply one_line_b; reflexivity|].
        split; [reflexivity|]. split; [discriminate|reflexivity]. }
      eapply (se_cons _ _ _ _ (L "  default" ++ nl)).
      { eapply as_default. exists [], (L "  "), []. split; [constructor|]. split; [split; [apply blanks_b; reflexivity|discriminate]|]. split; [apply blanks_nil|reflexivity]. }
      eapply (se_cons _ _ _ _ (L "   ; said in passing" ++ nl) []); [|constructor].
      eapply as_remark. exists (L "said in passing"). apply (cl_line [] (L "   ") (L "said in passing") (L "; said in passing") [] []); [constructor|split; [apply blanks_b; reflexivity|discriminate]| |constructor].
      exists (L " "). split; [reflexivity|]. split; [apply blanks_b; reflexivity|]. split; [apply one_line_b; reflexivity|]. intros (c & r & E & H). inv E. discriminate. }
  refine (jw_item w0 _ nl _ _ _ _ _ _ _); [apply (bl_line [] []); [apply blanks_nil|constructor]|..].
  { refine (iw_comment w0 _ c_semi (L " ") (L "about prices") _ _ _ _); [cbn; auto|apply blanks_b; reflexivity|apply one_line_b; reflexivity|].
    intros (c & r & E & H). inv E. discriminate. }
  refine (jw_item w0 _ [] _ _ _ _ _ _ _); [constructor|..].
  { refine (iw_price w0 _ ex_price _ _).
    refine (pw ex_price (L " ") (L "2020/02/29") (L " ") (L "EUR") (L " ") (L "1.10") (L " ") (L "USD") (L " ") (L "; close") _ _ _ _ _ _ _ _ _ _ _).
    - apply spaces_b. reflexivity.
    - apply (day_b 2020 2 29 (L "2020") (L "02") (L "29") 47%N); try reflexivity; try discriminate. cbn. auto.
    - split; [apply spaces_b; reflexivity|discriminate].
    - apply price_b; reflexivity.
    - split; [apply spaces_b; reflexivity|discriminate].
    - split; [apply (literal_b false (L "1") true (L "10")); try reflexivity; try discriminate; qc|].
      exists false, (L "1"), (L ".10"). split; [reflexivity|]. split; [apply only_digits_all; reflexivity|]. split; [discriminate|]. right.
      exists (L "10"). split; [reflexivity|]. split; [apply only_digits_all; reflexivity|discriminate].
    - split; [apply spaces_b; reflexivity|discriminate].
    - apply price_b; reflexivity.
    - apply spaces_b. reflexivity.
    - right. eexists _, _. split; reflexivity.
    - apply one_line_b. reflexivity. }
  refine (jw_item w0 _ [] _ _ _ _ _ _ _); [constructor|..].
  { refine (iw_transaction w0 _ ex_txn _ _).
    refine (tw w0 737454 (Some 737455%Z) (L "Corner shop") (Some (L "Ann")) (Some (L ";weekly")) [L "for two"] [ex_post1; ex_post2]
      (L "2020-01-31=2020-02-01 * (""7"") Corner shop | Ann ;weekly") (L "  ; for two" ++ nl)
      (L "  Expenses:Food:Fruit  -10.50 EUR @ $ 1.1 = EUR 0 ; paid" ++ nl ++ (nl ++ L "  ; late" ++ nl) ++ L "	[Assets:Cash]" ++ nl) _ _ _).
    - exists (L "2020-01-31"), (L "=2020-02-01"), (L " "), (L "* "), (L "(""7"") "), (L " "), (L "| Ann "), (L ";weekly").
      split; [reflexivity|]. split; [apply (day_b 2020 1 31 (L "2020") (L "01") (L "31") 45%N); try reflexivity; try discriminate; cbn; auto|].
      split; [exists (L "2020-02-01"); split; [apply (day_b 2020 2 1 (L "2020") (L "02") (L "01") 45%N); try reflexivity; try discriminate; cbn; auto|reflexivity]|].
      split; [split; [apply spaces_b; reflexivity|discriminate]|].
      split; [right; exists 42%N, (L " "); split; [cbn; auto|]; split; [apply spaces_b; reflexivity|reflexivity]|].
      split; [right; exists (L "7"), (L " "); split; [apply one_line_b; reflexivity|]; split; [cbn; intuition discriminate|]; split; [cbn; intuition discriminate|]; split; [apply spaces_b; reflexivity|reflexivity]|].
      split; [|split; [apply spaces_b; reflexivity|split]].
      + split; [apply free_b; reflexivity|]. split; [intros (c & r & E & H); inv E; cbn in H; intuition discriminate|]. split; [intros r; split; discriminate|].
        intros ds r Hd E. destruct ds as [|x ds]; [discriminate|]. inv E. specialize (Hd 67%N (or_introl eq_refl)). lia.
      + exists (L " "), (L " "). split; [apply free_b; reflexivity|]. split; [intros (c & r & E & H); inv E; cbn in H; intuition discriminate|].
        split; [apply spaces_b; reflexivity|]. split; [apply spaces_b; reflexivity|reflexivity].
      + split; [apply one_line_b; reflexivity|]. split; [reflexivity|]. eexists _, _. split; reflexivity.
    - apply (cl_line [] (L "  ") (L "for two") (L "; for two") [] []); [constructor|split; [apply blanks_b; reflexivity|discriminate]| |constructor].
      exists (L " "). split; [reflexivity|]. split; [apply blanks_b; reflexivity|]. split; [apply one_line_b; reflexivity|]. intros (c & r & E & H). inv E. discriminate.
    - refine (pl_line w0 _ [] (L "  ") ex_post1 [L "paid"] [L "late"] (L "Expenses:Food:Fruit  -10.50 EUR @ $ 1.1 = EUR 0 ; paid") (nl ++ L "  ; late" ++ nl) _ _ _ _ _ _ _ _ _);
        [constructor|split; [apply blanks_b; reflexivity|discriminate]| | |reflexivity|reflexivity|].
      + exists (L "Expenses:Food:Fruit"). split; [apply name_b; [discriminate|reflexivity]|].
        split; [refine (af_real _ _ _ eq_refl _ _ _); [reflexivity|discriminate|discriminate]|].
        split; [eexists _, _; split; [reflexivity|split; [discriminate|reflexivity]]|]. right.
        exists (L "  "), [], (L "-10.50 EUR @ $ 1.1 = EUR 0 ; paid"). split; [reflexivity|].
        split; [right; exists c_sp, c_sp; split; [reflexivity|]; split; [reflexivity|]; split; [reflexivity|]; split; discriminate|].
        split; [apply one_line_b; reflexivity|]. split; [apply blanks_nil|]. right.
        refine (de_parts w0 ex_post1 [L "paid"] [L "-10.50 EUR"] [L "@ $ 1.1"] [L "= EUR 0"] [L "; paid"] (L "-10.50 EUR @ $ 1.1 = EUR 0 ; paid") [] eq_refl _ _ _ _ _ _ _ _);
          [| | | |discriminate| |apply blanks_nil|reflexivity].
        * exists (L "-10.50 EUR"). split; [|reflexivity]. refine (mw_after w0 _ _ (L "-10.50") (L " ") (L "EUR") _ _ _).
          -- apply (literal_b true (L "10") true (L "50")); try reflexivity; try discriminate; qc.
          -- apply blanks_b. reflexivity.
          -- apply word_b; reflexivity.
        * exists (L " "), (L "$ 1.1"). split; [apply blanks_b; reflexivity|]. split; [|reflexivity]. refine (mw_before w0 _ _ (L "1.1") (L " ") (L "$") _ _ _).
          -- apply (literal_b false (L "1") true (L "1")); try reflexivity; try discriminate; qc.
          -- apply blanks_b. reflexivity.
          -- apply word_b; reflexivity.
        * exists (L " "), (L "EUR 0"). split; [apply blanks_b; reflexivity|]. split; [|reflexivity]. refine (mw_before w0 _ _ (L "0") (L " ") (L "EUR") _ _ _).
          -- apply (literal_b false (L "0") false []); try reflexivity; try discriminate; qc.
          -- apply blanks_b. reflexivity.
          -- apply word_b; reflexivity.
        * right. exists (L "paid"), (L "; paid"). split; [reflexivity|]. split; [|reflexivity]. exists (L " "). split; [reflexivity|]. split; [apply blanks_b; reflexivity|].
          split; [apply one_line_b; reflexivity|]. intros (c & r & E & H). inv E. discriminate.
        * assert (Sp : indent (L " ")) by (split; [apply blanks_b; reflexivity|discriminate]).
          refine (sp_more (L "-10.50 EUR") (L " ") _ _ Sp _). refine (sp_more (L "@ $ 1.1") (L " ") _ _ Sp _). refine (sp_more (L "= EUR 0") (L " ") _ _ Sp _). constructor.
      + refine (cl_line nl (L "  ") (L "late") (L "; late") [] [] _ _ _ _); [apply (bl_line [] []); [apply blanks_nil|constructor]|split; [apply blanks_b; reflexivity|discriminate]| |constructor].
        exists (L " "). split; [reflexivity|]. split; [apply blanks_b; reflexivity|]. split; [apply one_line_b; reflexivity|]. intros (c & r & E & H). inv E. discriminate.
      + refine (pl_line w0 _ [] (L "	") ex_post2 [] [] (L "[Assets:Cash]") [] _ _ _ _ _ _ _ _ _);
          [constructor|split; [apply blanks_b; reflexivity|discriminate]| |constructor|reflexivity|reflexivity|constructor].
        exists (L "[Assets:Cash]"). split; [apply name_b; [discriminate|reflexivity]|]. split; [apply (af_balanced (L "Assets:Cash"))|].
        split; [eexists _, _; split; [reflexivity|split; [discriminate|reflexivity]]|]. left. split; [reflexivity|]. split; [|reflexivity]. repeat split. }
  refine (jw_item w0 _ nl _ _ _ _ _ _ _); [apply (bl_line [] []); [apply blanks_nil|constructor]|..].
  { refine (iw_automated w0 _ ex_auto _ _).
    refine (aw w0 (L " expr account =~ /Food/") [] [ex_post3] [] (L "  (Budget)  (amount * 2)" ++ nl) _ _ _); [apply one_line_b; reflexivity|constructor|].
    refine (pl_line w0 _ [] (L "  ") ex_post3 [] [] (L "(Budget)  (amount * 2)") [] _ _ _ _ _ _ _ _ _);
      [constructor|split; [apply blanks_b; reflexivity|discriminate]| |constructor|reflexivity|reflexivity|constructor].
    exists (L "(Budget)"). split; [apply name_b; [discriminate|reflexivity]|]. split; [apply (af_virtual (L "Budget"))|].
    split; [eexists _, _; split; [reflexivity|split; [discriminate|reflexivity]]|]. right.
    exists (L "  "), [], (L "(amount * 2)"). split; [reflexivity|].
    split; [right; exists c_sp, c_sp; split; [reflexivity|]; split; [reflexivity|]; split; [reflexivity|]; split; discriminate|].
    split; [apply one_line_b; reflexivity|]. split; [apply blanks_nil|]. right.
    refine (de_expression w0 ex_post3 [] (L "(amount * 2)") [] eq_refl eq_refl eq_refl eq_refl eq_refl _ _).
    - split; [eexists _, _; split; reflexivity|]. split; [apply one_line_b; reflexivity|]. split; [cbn; intuition discriminate|reflexivity].
    - left. auto. }
  refine (jw_end w0 _ nl (L "  ") _ _); [apply (bl_line [] []); [apply blanks_nil|constructor]|apply blanks_b; reflexivity].
Qed.
Example C67_case_read : tokenize_string 1 w0 ex_text = Ok ex_ledger.
Proof. apply C67_journal_read_as_written; [apply C67_ex_world|apply C67_case]. Qed.
