(** C91: queries combine like the sets of postings they ask for. *)
From Coq Require Import Lia.
From Verif Require Import Base BaseFacts Numerals Money Alist Comment Txn Expr Filter Price Tokens Ledger Reports App Spec MoneyFacts SpecList SpecTxn TxnFacts SpecLedger
  LedgerFacts LedgerFacts2 PropTxn PropLedger SpecQuery SpecReports ReportFacts ReportFacts2 ReportFacts3 PropReports PropApp SpecLayout PropLayout SpecBook PropBook PropBook2 SpecAsk PropAsk
  SpecWords SpecAssert AssertFacts SpecRules PropRules BookFacts ShownFacts ExchangeFacts SpecFind FindFacts SpecAgree PropAgree SpecSame SpellFacts SpecCombine CombineFacts.
Open Scope Qc_scope.

(** * C91 *)
(** Two queries for the same postings give the same output, for every command. *)
Theorem C91_same_postings : forall depth w c o o' file F F', world_ok w -> same_but_query o o' ->
  found_words w (o_query o) F -> found_words w (o_query o') F' -> same_wish F F' ->
  run_cmd depth w c o file = run_cmd depth w c o' file.
Proof.
  intros depth w c o o' file F F' Hw B H H' S. unfold run_cmd. destruct (tokenize_file depth w file) as [items| |] eqn:E1; auto. cbn [bind]. unfold run_on.
  pose proof B as (_ & _ & _ & B4 & B5 & B6). rewrite <- B6.
  assert (K : forall lg, to_ledger w (o_no_balance_check o) items = Ok lg -> exists q q', query_node w o = Ok q /\ query_node w o' = Ok q' /\ forall cs, select_txns w o q (lg_txns lg) cs = select_txns w o' q' (lg_txns lg) cs).
  { intros lg E2. eapply asked_same; eauto. exact (made_of _ _ _ _ _ _ E1 E2). }
  destruct c; auto; (destruct (to_ledger w (o_no_balance_check o) items) as [lg| |] eqn:E2; auto; cbn [bind]; destruct (K lg eq_refl) as (q & q' & Q & Q' & SL)).
  - unfold balance_report. rewrite Q, Q', <- B4, <- B5. cbn [bind]. rewrite SL. auto.
  - unfold register_report. rewrite Q, Q'. cbn [bind]. rewrite SL. auto.
Qed.
Print Assumptions C91_same_postings.
(** The order and the number of times two words are given do not matter, and words that are joined by nothing are joined
    by [or]. *)
Theorem C91_words : forall depth w c o file x y F G, world_ok w -> found_word w x F -> found_word w y G ->
  let run q := run_cmd depth w c (asking o q) file in
  run [x; y] = run [x; L "or"; y] /\ run [x; L "or"; y] = run [y; L "or"; x] /\ run [x; L "and"; y] = run [y; L "and"; x] /\
  run [x; x] = run [x] /\ run [x; L "or"; x] = run [x] /\ run [x; L "and"; x] = run [x].
Proof.
  intros depth w c o file x y F G Hw HF HG. cbn zeta.
  assert (B : forall q q', same_but_query (asking o q) (asking o q')) by (intros; repeat split).
  repeat split; (eapply C91_same_postings; [auto|apply B|cbn [o_query asking]; econstructor; eauto|cbn [o_query asking]; econstructor; eauto|]); intros a n ts; auto using orb_comm, andb_comm, orb_diag, andb_diag.
Qed.
Print Assumptions C91_words.

(** ** Either and both *)
Lemma wish_join F G p : posting_wish (either_wish F G) p = posting_wish F p || posting_wish G p /\ posting_wish (both_wish F G) p = posting_wish F p && posting_wish G p.
Proof. unfold posting_wish, either_wish, both_wish. destruct (p_payee p); auto. Qed.
Lemma window_same o o' (t : txn posting) (p : posting) : same_but_query o o' -> window_of o t = window_of o' t /\ asked_for o (p_kind p) = asked_for o' (p_kind p).
Proof. intros (E1 & E2 & E3 & _). unfold window_of, asked_for. rewrite ?E1, ?E2, ?E3. auto. Qed.
Lemma in_ledger lg t p : In (t, p) (ledger_postings lg) -> In t (lg_txns lg) /\ In p (t_postings t).
Proof. unfold ledger_postings. intros H. apply in_flat_map in H. destruct H as (u & Hu & H). apply in_map_iff in H. destruct H as (p' & E & Hp). inv E. auto. Qed.
Section Join.
Context (w : world) (lg : ledger) (Hw : world_ok w) (M : made_from w lg).
Lemma reported_join o1 o2 o3 o4 q1 q2 q3 q4 F G F3 F4 cs t p : same_but_query o1 o2 -> same_but_query o1 o3 -> same_but_query o1 o4 ->
  grants w q1 F -> grants w q2 G -> grants w q3 F3 -> grants w q4 F4 -> same_wish F3 (either_wish F G) -> same_wish F4 (both_wish F G) -> In (t, p) (ledger_postings lg) ->
  (reported w o3 q3 cs t p <-> reported w o1 q1 cs t p \/ reported w o2 q2 cs t p) /\ (reported w o4 q4 cs t p <-> reported w o1 q1 cs t p /\ reported w o2 q2 cs t p).
Proof.
  intros B2 B3 B4 G1 G2 G3 G4 S3 S4 I. apply in_ledger in I. destruct I as [It Ip]. pose proof (ledger_payees w lg Hw M t p It Ip) as N.
  rewrite (reported_found _ _ _ _ _ _ _ G1 N), (reported_found _ _ _ _ _ _ _ G2 N), (reported_found _ _ _ _ _ _ _ G3 N), (reported_found _ _ _ _ _ _ _ G4 N).
  destruct (window_same _ _ t p B2) as [<- <-], (window_same _ _ t p B3) as [<- <-], (window_same _ _ t p B4) as [<- <-].
  rewrite (posting_wish_same _ _ p S3), (posting_wish_same _ _ p S4). destruct (wish_join F G p) as [-> ->].
  destruct (window_of o1 t), (asked_for o1 (p_kind p)), (posting_wish F p), (posting_wish G p); cbn; intuition discriminate.
Qed.
Lemma chosen_join o1 o2 o3 o4 q1 q2 q3 q4 F G F3 F4 s1 s2 s3 s4 : same_but_query o1 o2 -> same_but_query o1 o3 -> same_but_query o1 o4 ->
  grants w q1 F -> grants w q2 G -> grants w q3 F3 -> grants w q4 F4 -> same_wish F3 (either_wish F G) -> same_wish F4 (both_wish F G) ->
  reported_postings w o1 q1 lg s1 -> reported_postings w o2 q2 lg s2 -> reported_postings w o3 q3 lg s3 -> reported_postings w o4 q4 lg s4 ->
  Permutation (s3 ++ s4) (s1 ++ s2).
Proof.
  intros B2 B3 B4 G1 G2 G3 G4 S3 S4 R1 R2 R3 R4. eapply selection_join; [|exact R1|exact R2|exact R3|exact R4].
  intros [t p] I. cbn [fst snd]. eapply reported_join; eauto.
Qed.
End Join.
Lemma subtotal_perm a b P c : Permutation a b -> subtotal a P c = subtotal b P c.
Proof. intros H. unfold subtotal. apply qsum_perm, Permutation_map. induction H; cbn; auto; repeat (destruct (P _)); eauto using Permutation, perm_swap, perm_trans. Qed.
Lemma subtotal_app a b P c : subtotal (a ++ b) P c = subtotal a P c + subtotal b P c.
Proof. unfold subtotal. rewrite filter_app, map_app, qsum_app. auto. Qed.
Lemma posted_lines rows lines : Forall2 PropAgree.line_of rows lines ->
  map posted rows = map (fun p => (shown_account p, match p_amount p with Some m => m | None => MZero end)) (map snd lines).
Proof. induction 1 as [|row x rows lines (H1 & H2 & _) _ IH]; auto. cbn [map]. rewrite IH. f_equal. unfold posted. rewrite H1, H2. auto. Qed.

(** What two queries show is what the query for either and the query for both of them show, for the accounts of any set
    and every commodity. *)
Theorem C91_balances : forall depth w o1 o2 o3 o4 file F G F3 F4 n1 n2 n3 n4 lines1 lines2 lines3 lines4, world_ok w -> o_exchange o1 = None ->
  same_but_query o1 o2 -> same_but_query o1 o3 -> same_but_query o1 o4 ->
  found_words w (o_query o1) F -> found_words w (o_query o2) G -> found_words w (o_query o3) F3 -> found_words w (o_query o4) F4 ->
  same_wish F3 (either_wish F G) -> same_wish F4 (both_wish F G) ->
  run_cmd depth w (CBalance true n1) o1 file = Ok lines1 -> run_cmd depth w (CBalance true n2) o2 file = Ok lines2 ->
  run_cmd depth w (CBalance true n3) o3 file = Ok lines3 -> run_cmd depth w (CBalance true n4) o4 file = Ok lines4 ->
  exists r1 r2 r3 r4, balance_printed r1 lines1 /\ balance_printed r2 lines2 /\ balance_printed r3 lines3 /\ balance_printed r4 lines4 /\
    forall P c, shown_for r3 P c + shown_for r4 P c = shown_for r1 P c + shown_for r2 P c.
Proof.
  intros depth w o1 o2 o3 o4 file F G F3 F4 n1 n2 n3 n4 ls1 ls2 ls3 ls4 Hw Ex B2 B3 B4 W1 W2 W3 W4 S3 S4 H1 H2 H3 H4.
  destruct (C69_balance _ _ _ _ _ _ _ Hw H1) as (it1 & lg1 & r1 & E1 & L1 & R1 & P1). destruct (C69_balance _ _ _ _ _ _ _ Hw H2) as (it2 & lg2 & r2 & E2 & L2 & R2 & P2).
  destruct (C69_balance _ _ _ _ _ _ _ Hw H3) as (it3 & lg3 & r3 & E3 & L3 & R3 & P3). destruct (C69_balance _ _ _ _ _ _ _ Hw H4) as (it4 & lg4 & r4 & E4 & L4 & R4 & P4).
  rewrite E1 in E2, E3, E4. inv E2. inv E3. inv E4. rename it4 into items.
  pose proof B2 as (_ & _ & _ & D2 & X2 & C2). pose proof B3 as (_ & _ & _ & D3 & X3 & C3). pose proof B4 as (_ & _ & _ & D4 & X4 & C4).
  rewrite <- C2, L1 in L2. inv L2. rewrite <- C3, L1 in L3. inv L3. rewrite <- C4, L1 in L4. inv L4. rename lg4 into lg.
  pose proof (made_of _ _ _ _ _ _ E1 L1) as M.
  destruct (flat_shown _ _ _ _ _ _ Hw M Ex R1) as (q1 & t1 & Q1 & T1 & Y1). destruct (flat_shown _ _ _ _ _ _ Hw M (eq_trans (eq_sym X2) Ex) R2) as (q2 & t2 & Q2 & T2 & Y2).
  destruct (flat_shown _ _ _ _ _ _ Hw M (eq_trans (eq_sym X3) Ex) R3) as (q3 & t3 & Q3 & T3 & Y3). destruct (flat_shown _ _ _ _ _ _ Hw M (eq_trans (eq_sym X4) Ex) R4) as (q4 & t4 & Q4 & T4 & Y4).
  destruct (found_nodes w o1 F W1) as (z1 & Z1 & G1). destruct (found_nodes w o2 G W2) as (z2 & Z2 & G2). destruct (found_nodes w o3 F3 W3) as (z3 & Z3 & G3). destruct (found_nodes w o4 F4 W4) as (z4 & Z4 & G4).
  rewrite Q1 in Z1. inv Z1. rewrite Q2 in Z2. inv Z2. rewrite Q3 in Z3. inv Z3. rewrite Q4 in Z4. inv Z4.
  pose proof (chosen_join w lg Hw M _ _ _ _ _ _ _ _ _ _ _ _ _ _ _ _ B2 B3 B4 G1 G2 G3 G4 S3 S4 T1 T2 T3 T4) as PM.
  exists r1, r2, r3, r4. do 4 (split; auto). intros P c.
  assert (K : forall o, o_depth o1 = o_depth o -> cuts o (cut_by o1)) by (intros o E n; rewrite <- E; apply cut_by_cuts).
  rewrite (Y1 (cut_by o1) P c), (Y2 (cut_by o1) P c), (Y3 (cut_by o1) P c), (Y4 (cut_by o1) P c) by (apply K; auto).
  rewrite <- !subtotal_app, <- !map_app. apply subtotal_perm, Permutation_map. auto.
Qed.
Print Assumptions C91_balances.
Theorem C91_registers : forall depth w o1 o2 o3 o4 file F G F3 F4 lines1 lines2 lines3 lines4, world_ok w ->
  same_but_query o1 o2 -> same_but_query o1 o3 -> same_but_query o1 o4 ->
  found_words w (o_query o1) F -> found_words w (o_query o2) G -> found_words w (o_query o3) F3 -> found_words w (o_query o4) F4 ->
  same_wish F3 (either_wish F G) -> same_wish F4 (both_wish F G) ->
  run_cmd depth w CRegister o1 file = Ok lines1 -> run_cmd depth w CRegister o2 file = Ok lines2 ->
  run_cmd depth w CRegister o3 file = Ok lines3 -> run_cmd depth w CRegister o4 file = Ok lines4 ->
  exists rows1 rows2 rows3 rows4, register_printed w rows1 lines1 /\ register_printed w rows2 lines2 /\ register_printed w rows3 lines3 /\ register_printed w rows4 lines4 /\
    Permutation (map posted rows3 ++ map posted rows4) (map posted rows1 ++ map posted rows2) /\
    forall c, final_total rows3 c + final_total rows4 c = final_total rows1 c + final_total rows2 c.
Proof.
  intros depth w o1 o2 o3 o4 file F G F3 F4 ls1 ls2 ls3 ls4 Hw B2 B3 B4 W1 W2 W3 W4 S3 S4 H1 H2 H3 H4.
  destruct (C69_register _ _ _ _ _ Hw H1) as (it1 & lg1 & r1 & g1 & E1 & L1 & R1 & -> & P1). destruct (C69_register _ _ _ _ _ Hw H2) as (it2 & lg2 & r2 & g2 & E2 & L2 & R2 & -> & P2).
  destruct (C69_register _ _ _ _ _ Hw H3) as (it3 & lg3 & r3 & g3 & E3 & L3 & R3 & -> & P3). destruct (C69_register _ _ _ _ _ Hw H4) as (it4 & lg4 & r4 & g4 & E4 & L4 & R4 & -> & P4).
  rewrite E1 in E2, E3, E4. inv E2. inv E3. inv E4. rename it4 into items.
  pose proof B2 as (_ & _ & _ & _ & _ & C2). pose proof B3 as (_ & _ & _ & _ & _ & C3). pose proof B4 as (_ & _ & _ & _ & _ & C4).
  rewrite <- C2, L1 in L2. inv L2. rewrite <- C3, L1 in L3. inv L3. rewrite <- C4, L1 in L4. inv L4. rename lg4 into lg.
  pose proof (made_of _ _ _ _ _ _ E1 L1) as M.
  destruct (register_shown _ _ _ _ _ Hw M R1) as (q1 & t1 & Q1 & _ & T1 & Y1 & V1 & _). destruct (register_shown _ _ _ _ _ Hw M R2) as (q2 & t2 & Q2 & _ & T2 & Y2 & V2 & _).
  destruct (register_shown _ _ _ _ _ Hw M R3) as (q3 & t3 & Q3 & _ & T3 & Y3 & V3 & _). destruct (register_shown _ _ _ _ _ Hw M R4) as (q4 & t4 & Q4 & _ & T4 & Y4 & V4 & _).
  destruct (found_nodes w o1 F W1) as (z1 & Z1 & G1). destruct (found_nodes w o2 G W2) as (z2 & Z2 & G2). destruct (found_nodes w o3 F3 W3) as (z3 & Z3 & G3). destruct (found_nodes w o4 F4 W4) as (z4 & Z4 & G4).
  rewrite Q1 in Z1. inv Z1. rewrite Q2 in Z2. inv Z2. rewrite Q3 in Z3. inv Z3. rewrite Q4 in Z4. inv Z4.
  pose proof (chosen_join w lg Hw M _ _ _ _ _ _ _ _ _ _ _ _ _ _ _ _ B2 B3 B4 G1 G2 G3 G4 S3 S4 T1 T2 T3 T4) as PM.
  apply (Permutation_map snd) in PM. rewrite !map_app, !sel_postings in PM.
  exists r1, r2, r3, r4. split; [exists g1; auto|]. split; [exists g2; auto|]. split; [exists g3; auto|]. split; [exists g4; auto|]. split.
  - rewrite (posted_lines _ _ Y1), (posted_lines _ _ Y2), (posted_lines _ _ Y3), (posted_lines _ _ Y4), !headings_postings, <- !map_app. apply Permutation_map. exact PM.
  - intros c. rewrite V1, V2, V3, V4, <- !subtotal_app. apply subtotal_perm. exact PM.
Qed.
Print Assumptions C91_registers.
(** A query that asks for no more than another one leaves lines out and changes nothing else: the lines that remain are
    those of the other one, in its order. *)
Theorem C91_narrower : forall depth w o o' file F G lines lines', world_ok w -> same_but_query o o' ->
  found_words w (o_query o) F -> found_words w (o_query o') G -> narrower F G ->
  run_cmd depth w CRegister o file = Ok lines -> run_cmd depth w CRegister o' file = Ok lines' ->
  exists rows rows', register_printed w rows lines /\ register_printed w rows' lines' /\ subsequence (map posted rows) (map posted rows').
Proof.
  intros depth w o1 o2 file F G ls1 ls2 Hw B2 W1 W2 S H1 H2.
  destruct (C69_register _ _ _ _ _ Hw H1) as (it1 & lg1 & r1 & g1 & E1 & L1 & R1 & -> & P1). destruct (C69_register _ _ _ _ _ Hw H2) as (it2 & lg2 & r2 & g2 & E2 & L2 & R2 & -> & P2).
  rewrite E1 in E2. inv E2. rename it2 into items. pose proof B2 as (_ & _ & _ & _ & _ & C2). rewrite <- C2, L1 in L2. inv L2. rename lg2 into lg.
  pose proof (made_of _ _ _ _ _ _ E1 L1) as M.
  destruct (register_shown _ _ _ _ _ Hw M R1) as (q1 & t1 & Q1 & _ & T1 & Y1 & V1 & _). destruct (register_shown _ _ _ _ _ Hw M R2) as (q2 & t2 & Q2 & _ & T2 & Y2 & V2 & _).
  destruct (found_nodes w o1 F W1) as (z1 & Z1 & G1). destruct (found_nodes w o2 G W2) as (z2 & Z2 & G2). rewrite Q1 in Z1. inv Z1. rewrite Q2 in Z2. inv Z2.
  exists r1, r2. split; [exists g1; auto|]. split; [exists g2; auto|]. rewrite (posted_lines _ _ Y1), (posted_lines _ _ Y2), !headings_postings.
  apply subsequence_map. rewrite <- (sel_postings t1), <- (sel_postings t2). apply subsequence_map. eapply selection_narrow; [|exact T1|exact T2].
  intros [t p] I. cbn [fst snd]. apply in_ledger in I. destruct I as [It Ip]. pose proof (ledger_payees w lg Hw M t p It Ip) as N.
  rewrite (reported_found _ _ _ _ _ _ _ G1 N), (reported_found _ _ _ _ _ _ _ G2 N). destruct (window_same _ _ t p B2) as [<- <-].
  rewrite !andb_true_iff. intros (X & Y & Z). do 2 (split; auto). unfold posting_wish in *. destruct (p_payee p); auto.
Qed.
Print Assumptions C91_narrower.

(** ** A journal that meets the hypotheses *)
(** A rule, a stated balance, tags and payees. *)
Definition t91 : list Coq.Strings.String.string :=
  ["= food"; "  (Budget:Food)  -1"; "2021-01-02 Shop"; "  Expenses:Food  10 EUR"; "  Expenses:Drinks  5 EUR"; "  ; :party:"; "  Assets:Bank"; "2021-01-03 Bar"; "  Expenses:Drinks  7 EUR"; "  Assets:Bank  = 20 EUR"; "  Equity"]%string.
Definition by_shop : wish := fun _ n _ => w_rx (w84 t91) (L "(?i)shop") n.
Definition on_exp : wish := fun a _ _ => w_rx (w84 t91) (L "(?i)exp") a.
Lemma w91_shop : found_word (w84 t91) (L "@shop") by_shop.
Proof. apply fw_payee with (y := L "shop"); [reflexivity|]. split; [cbn; intuition discriminate|reflexivity]. Qed.
Lemma w91_exp : found_word (w84 t91) (L "exp") on_exp.
Proof. exact (fw_account _ (L "exp") _ (PropAsk.plain_word (w84 t91) (L "exp") eq_refl eq_refl eq_refl eq_refl)). Qed.
Example C91_case : world_ok (w84 t91) /\ found_word (w84 t91) (L "@shop") by_shop /\ found_word (w84 t91) (L "exp") on_exp /\
  found_words (w84 t91) (o_query (ask ["@shop"; "exp"]%string None)) (either_wish by_shop on_exp) /\
  found_words (w84 t91) (o_query (ask ["@shop"; "and"; "exp"]%string None)) (both_wish by_shop on_exp) /\
  narrower (both_wish by_shop on_exp) by_shop /\ same_but_query (ask ["@shop"]%string None) (ask ["@shop"; "exp"]%string None) /\
  run_cmd 2 (w84 t91) (CBalance true true) (ask ["@shop"; "exp"]%string None) (L "book") = Ok (map L
    ["          -15.00 EUR  Assets:Bank"; "          -10.00 EUR  Budget:Food"; "           12.00 EUR  Expenses:Drinks"; "           10.00 EUR  Expenses:Food"]%string) /\
  run_cmd 2 (w84 t91) (CBalance true true) (ask ["@shop"; "and"; "exp"]%string None) (L "book") = Ok (map L
    ["            5.00 EUR  Expenses:Drinks"; "           10.00 EUR  Expenses:Food"]%string) /\
  run_cmd 2 (w84 t91) (CBalance true true) (ask ["@shop"]%string None) (L "book") = Ok (map L
    ["          -15.00 EUR  Assets:Bank"; "          -10.00 EUR  Budget:Food"; "            5.00 EUR  Expenses:Drinks"; "           10.00 EUR  Expenses:Food"]%string) /\
  run_cmd 2 (w84 t91) (CBalance true true) (ask ["exp"]%string None) (L "book") = Ok (map L
    ["           12.00 EUR  Expenses:Drinks"; "           10.00 EUR  Expenses:Food"]%string) /\
  run_cmd 2 (w84 t91) CRegister (ask ["@shop"; "and"; "exp"]%string None) (L "book") = Ok (map L
    ["2021-01-02 Shop                                      Expenses:Food                             10.00 EUR        10.00 EUR";
     "                                                     Expenses:Drinks                            5.00 EUR        15.00 EUR"]%string).
Proof.
  split; [exact (w84_ok _)|]. split; [exact w91_shop|]. split; [exact w91_exp|].
  split; [exact (fs_two _ _ _ _ _ w91_shop w91_exp)|]. split; [exact (fs_and _ _ _ _ _ w91_shop w91_exp)|].
  split; [intros a n ts H; apply andb_true_iff in H; apply H|]. split; [unfold same_but_query; cbn; repeat split|].
  split; [vm_compute; reflexivity|]. split; [vm_compute; reflexivity|]. split; [vm_compute; reflexivity|]. split; [vm_compute; reflexivity|]. vm_compute. reflexivity.
Qed.
(** Three words are beyond this: the third one is not looked at (C41). *)
Example C91_third_word :
  run_cmd 2 (w84 t91) (CBalance true true) (ask ["food"; "drinks"; "bank"]%string None) (L "book") = run_cmd 2 (w84 t91) (CBalance true true) (ask ["food"; "drinks"]%string None) (L "book") /\
  run_cmd 2 (w84 t91) (CBalance true true) (ask ["food"; "drinks"; "bank"]%string None) (L "book") <> run_cmd 2 (w84 t91) (CBalance true true) (ask ["bank"; "drinks"; "food"]%string None) (L "book").
Proof.
  split; [vm_compute; reflexivity|]. intros H.
  assert (E : existsb (fun l => ends_with (L "Bank") l) (get [] (run_cmd 2 (w84 t91) (CBalance true true) (ask ["bank"; "drinks"; "food"]%string None) (L "book"))) = false) by (rewrite <- H; vm_compute; reflexivity).
  vm_compute in E. discriminate E.
Qed.
