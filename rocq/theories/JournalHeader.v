(** The first line of a transaction, read as it was written (SpecJournal). *)
From Verif Require Import Base BaseFacts Money Alist Comment Txn Peg Grammar Dates Expr Tokens Spec SpecText SpecDates SpecTokens SpecJournal
  PegFacts ExprFacts LiteralFacts DateFacts JournalRead.
From Coq Require Import Lia.


(** ** Trimming *)
Lemma trim_start_length s : (length (trim_start s) <= length s)%nat.
Proof. induction s as [|c s IH]; cbn; auto. destruct (is_ws c); cbn; lia. Qed.
Lemma trim_length s : (length (trim s) <= length (trim_start s))%nat.
Proof. unfold trim, trim_end. rewrite rev_length. pose proof (trim_start_length (rev (trim_start s))). rewrite rev_length in H. auto. Qed.
Lemma trimmed_start s : trim s = s -> trim_start s = s.
Proof.
  intros H. destruct s as [|c s]; auto. cbn. destruct (is_ws c) eqn:E; auto. pose proof (trim_length (c :: s)) as X. rewrite H in X.
  cbn in X. rewrite E in X. pose proof (trim_start_length s). lia.
Qed.
Lemma trimmed_first s : trim s = s -> ~ first_is (fun c => is_ws c = true) s.
Proof. intros H (c & r & -> & E). apply trimmed_start in H. cbn in H. rewrite E in H. pose proof (trim_start_length r). rewrite H in *. cbn in *. lia. Qed.
Lemma rev_blanks b : blanks b -> blanks (rev b).
Proof. intros H c Hc. apply H. apply in_rev. auto. Qed.
Lemma trim_blanks s b : trim s = s -> blanks b -> trim (s ++ b) = s.
Proof.
  intros H Hb. pose proof (trimmed_start _ H) as H1. destruct s as [|c s].
  - cbn [app]. unfold trim, trim_end. rewrite <- (app_nil_r b), (trim_start_blanks b []) by auto. reflexivity.
  - unfold trim. assert (E : trim_start ((c :: s) ++ b) = (c :: s) ++ b).
    { cbn in *. destruct (is_ws c); auto. pose proof (trim_start_length s). rewrite H1 in *. cbn in *. lia. }
    rewrite E. unfold trim_end. rewrite rev_app_distr, trim_start_blanks by (apply rev_blanks; auto).
    unfold trim, trim_end in H. rewrite H1 in H. auto.
Qed.
Lemma spaces_blanks b : spaces b -> blanks b.
Proof. intros H c Hc. rewrite (H c Hc). split; [reflexivity|discriminate]. Qed.
Lemma spaces_tl c b : spaces (c :: b) -> c = c_sp /\ spaces b.
Proof. intros H. split; [apply H; left; auto|]. intros x Hx. apply H. right. auto. Qed.
Lemma skip_spaces b r : spaces b -> skip (b ++ r) = skip r.
Proof. induction b as [|c b IH]; intros H; auto. apply spaces_tl in H. destruct H as [-> H]. cbn [app skip]. rewrite N.eqb_refl. auto. Qed.
Lemma skip_first c r : c <> c_sp -> skip (c :: r) = c :: r.
Proof. intros H. cbn. destruct (N.eqb_spec c c_sp); [congruence|auto]. Qed.

(** ** The first line of a transaction *)
Lemma p_wsplus b r : spaces1 b -> P (EPlus ws) (b ++ r) (POk [] (skip r)).
Proof.
  intros [H Hn]. destruct b as [|c b]; [congruence|]. apply spaces_tl in H. destruct H as [-> H]. cbn [app].
  apply (s_seq_ok grammar _ _ _ [] (b ++ r) []); [apply p_ws|]. rewrite <- (skip_spaces b r H). apply p_wss.
Qed.
(** Characters at which a description stops. *)
Definition text_end (s : str) : Prop := s = [] \/ first_is (fun c => c = 124%N \/ c = c_semi) s.
Lemma p_free s e : (forall c, In c s -> ~ In c (L "|;") /\ c <> c_nl /\ c <> c_cr) -> text_end e ->
  P (EStar (ENot (T (L "|")) ~~ ENot (T (L ";")) ~~ ENot (R Rend) ~~ any)) (s ++ e) (POk [] e).
Proof.
  intros H He. induction s as [|c s IH].
  - apply s_star0. destruct He as [->|(c & r & -> & [->| ->])].
    + eapply s_seq_fail2; [apply s_not, s_str_fail; reflexivity|]. eapply s_seq_fail2; [apply s_not, s_str_fail; reflexivity|].
      apply s_seq_fail1. eapply s_not_fail. eapply (s_rule grammar Rend _ [] []); [reflexivity|]. apply s_alt1.
      eapply (s_rule grammar REOI _ [] []); [reflexivity|]. apply s_eoi.
    + apply s_seq_fail1. eapply s_not_fail. apply (s_str grammar (L "|")).
    + eapply s_seq_fail2; [apply s_not, s_str_fail; reflexivity|]. apply s_seq_fail1. eapply s_not_fail. apply (s_str grammar (L ";")).
  - destruct (H c (or_introl eq_refl)) as (H1 & H2 & H3). cbn [app]. eapply (s_star1 grammar _ _ [] (s ++ e) []); [|apply IH; intros; apply H; right; auto].
    eapply (s_seq_ok grammar _ _ _ [] (c :: s ++ e) []). { apply s_not, s_str_fail. apply strip1, N.eqb_neq. intros ->. apply H1. cbn. auto. }
    eapply (s_seq_ok grammar _ _ _ [] (c :: s ++ e) []). { apply s_not, s_str_fail. apply strip1, N.eqb_neq. intros ->. apply H1. cbn. auto. }
    eapply (s_seq_ok grammar _ _ _ [] (c :: s ++ e) []); [|apply s_class; auto].
    apply s_not. eapply s_rule_fail; [reflexivity|]. apply s_alt2; [eapply s_rule_fail; [reflexivity|]; apply s_eoi_fail; discriminate|].
    apply N.eqb_neq in H2, H3. apply s_alt2; [apply s_str_fail, strip1; auto|]. apply s_alt2; apply s_str_fail.
    + cbn [strip_prefix]. rewrite N.eqb_sym, H3. auto.
    + apply strip1. auto.
Qed.
Lemma p_string_none s : ~ first_is (fun c => In c (L "'""")) s -> P (R Rstring) s PFail.
Proof.
  intros H. eapply s_rule_fail; [reflexivity|].
  apply s_alt2; apply s_seq_fail1; apply s_str_fail; (destruct s as [|c s]; [reflexivity|]); apply strip1, N.eqb_neq; intros ->; apply H;
    eexists _, s; (split; [reflexivity|]); cbn; auto.
Qed.
Lemma text_end_first s : text_end s -> ~ first_is (fun c => In c (L "'""")) s.
Proof. intros [->|(c & r & -> & [->| ->])] (c' & x & E & H); inversion E; subst; cbn in H; intuition discriminate. Qed.
Lemma first_app f s e : (s <> [] -> ~ first_is f s) -> ~ first_is f e -> ~ first_is f (s ++ e).
Proof.
  intros H1 H2 H. destruct s as [|c s]; auto. apply H1; [discriminate|]. destruct H as (x & r & E & H). inversion E. subst. exists x, s. auto.
Qed.
Lemma p_description rl s e : (rl = Rdescription \/ rl = Rpayee) -> (forall c, In c s -> ~ In c (L "|;") /\ c <> c_nl /\ c <> c_cr) ->
  ~ first_is (fun c => In c (L "'""")) s -> text_end e -> P (R rl) (s ++ e) (POk [Pair rl s []] e).
Proof.
  intros Hr H1 H2 He. assert (G : grammar rl = (false, R Rstring /// EStar (ENot (T (L "|")) ~~ ENot (T (L ";")) ~~ ENot (R Rend) ~~ any)))
    by (destruct Hr as [->| ->]; reflexivity).
  eapply s_rule; [exact G|]. apply s_alt2; [|apply p_free; auto]. apply p_string_none. apply first_app; auto. apply text_end_first. auto.
Qed.
Lemma spaces_free b : spaces b -> forall c, In c b -> ~ In c (L "|;") /\ c <> c_nl /\ c <> c_cr.
Proof. intros H c Hc. rewrite (H c Hc). split; [cbn; intuition discriminate|split; discriminate]. Qed.
Lemma in_app_free a b : (forall c, In c a -> ~ In c (L "|;") /\ c <> c_nl /\ c <> c_cr) -> spaces b ->
  forall c, In c (a ++ b) -> ~ In c (L "|;") /\ c <> c_nl /\ c <> c_cr.
Proof. intros Ha Hb c Hc. apply in_app_or in Hc. destruct Hc; [apply Ha; auto|eapply spaces_free; eauto]. Qed.
(** The end of the line. *)
Lemma p_line_end cm ct : header_comment cm ct ->
  P (wss ~~ EOpt (R Rcomment) ~~ R Rend) ct
    (POk (match cm with Some x => [Pair Rcomment x []] | None => [] end ++ [Pair Rend [] [Pair REOI [] []]]) []) /\ text_end ct /\ skip ct = ct.
Proof.
  assert (E : P (R Rend) [] (POk [Pair Rend [] [Pair REOI [] []]] [])).
  { eapply (s_rule grammar Rend _ [] []); [reflexivity|]. apply s_alt1. eapply (s_rule grammar REOI _ [] []); [reflexivity|]. apply s_eoi. }
  destruct cm as [x|]; cbn [header_comment].
  - intros (Hl & -> & (c & r & -> & ->)). split; [|split; [right; eexists c_semi, r; auto|reflexivity]].
    change (c_semi :: r) with (skip (c_semi :: r)) at 1. eapply (s_seq_ok grammar _ _ _ [] _ _); [apply p_wss|].
    change (skip (skip (c_semi :: r))) with (c_semi :: r).
    apply (s_seq_ok grammar _ _ _ [Pair Rcomment (c_semi :: r) []] [] [Pair Rend [] [Pair REOI [] []]] []); [|exact E]. apply s_alt1.
    pose proof (s_rule grammar Rcomment (T (L ";") ~~ EStar any) (c_semi :: r) [] [] eq_refl) as X. rewrite app_nil_r in X. apply X.
    apply (s_seq_ok grammar _ _ _ [] r []); [apply (s_str grammar (L ";"))|].
    pose proof (s_class_star grammar (fun _ => true) r [] ) as Y. rewrite app_nil_r in Y. apply Y; [apply forallb_forall; auto|auto].
  - intros ->. split; [|split; [left; auto|reflexivity]]. eapply (s_seq_ok grammar _ _ _ [] [] _); [apply p_wss|].
    eapply (s_seq_ok grammar _ _ _ [] [] _); [|exact E]. apply s_alt2; [|apply s_empty]. eapply s_rule_fail; [reflexivity|]. apply s_seq_fail1, s_str_fail. auto.
Qed.
Definition skipped (d b : str) : str := match d with [] => [] | _ => b end.
Lemma skip_text d b r : spaces b -> trim d = d -> (d = [] -> skip r = r) -> skip (d ++ b ++ r) = d ++ skipped d b ++ r.
Proof.
  intros Hb Hd Hr. destruct d as [|c d]; cbn [app skipped].
  - rewrite skip_spaces; auto.
  - apply skip_first. intros ->. apply (trimmed_first _ Hd). eexists c_sp, d. auto.
Qed.
Lemma skipped_spaces d b : spaces b -> spaces (skipped d b).
Proof. destruct d; auto. intros _ c []. Qed.
Lemma skipped_nil b : skipped [] b = [].
Proof. auto. Qed.
Lemma trim_free x b : trim x = x -> spaces b -> trim (x ++ skipped x b) = x.
Proof. intros H Hb. apply trim_blanks; auto. apply spaces_blanks, skipped_spaces. auto. Qed.
(** The payee and what follows. *)
Lemma p_payee pay pa cm ct : payee_written pay pa -> header_comment cm ct -> exists kp,
  P (wss ~~ EOpt (T (L "|") ~~ wss ~~ R Rpayee) ~~ wss ~~ EOpt (R Rcomment) ~~ R Rend) (pa ++ ct)
    (POk (kp ++ match cm with Some x => [Pair Rcomment x []] | None => [] end ++ [Pair Rend [] [Pair REOI [] []]]) []) /\
  match pay with None => kp = [] | Some x => exists t, kp = [Pair Rpayee t []] /\ trim t = x end /\ text_end (pa ++ ct) /\ skip (pa ++ ct) = pa ++ ct.
Proof.
  intros Hp Hc. destruct (p_line_end cm ct Hc) as (E & T1 & S1). destruct pay as [x|]; cbn [payee_written] in Hp.
  - destruct Hp as (b & b' & [H1 H2] & H3 & Hb & Hb' & ->). rewrite <- !app_assoc.
    change (L "|" ++ b ++ x ++ b' ++ ct) with (124%N :: b ++ x ++ b' ++ ct).
    exists [Pair Rpayee (x ++ skipped x b') []]. split; [|split; [eexists; split; [reflexivity|apply trim_free; auto]|split; [right; eexists 124%N, _; auto|reflexivity]]].
    eapply (s_seq_ok grammar _ _ _ [] _ _); [apply p_wss|]. rewrite skip_first by discriminate.
    refine (s_seq_ok grammar _ _ _ [Pair Rpayee (x ++ skipped x b') []] _ _ _ _ E). apply s_alt1. eapply (s_seq_ok grammar _ _ _ [] _ _); [apply (s_str grammar (L "|"))|].
    eapply (s_seq_ok grammar _ _ _ [] _ _); [apply p_wss|]. rewrite skip_spaces, skip_text by auto. rewrite app_assoc.
    apply p_description; auto.
    + apply in_app_free; auto. apply skipped_spaces. auto.
    + apply first_app; auto. destruct x; [intros (c & r & X & _); discriminate|]. intros (c & r & X & Y). cbn in X. subst b'.
      apply spaces_tl in Hb'. destruct Hb' as [-> _]. cbn in Y. intuition discriminate.
  - subst pa. exists []. split; [|split; [auto|split; auto]]. cbn [app]. eapply (s_seq_ok grammar _ _ _ [] _ _); [apply p_wss|]. rewrite S1.
    eapply (s_seq_ok grammar _ _ _ [] _ _); [|exact E]. apply s_alt2; [|apply s_empty]. apply s_seq_fail1, s_str_fail.
    destruct cm as [x|]; cbn in Hc; [destruct Hc as (_ & -> & (c & r & -> & ->)); reflexivity|subst; reflexivity].
Qed.

(** The day. *)
Lemma day_read n s r : day_written n s -> no_digit r -> exists tx kids,
  parse_date (Pair Rdate tx kids) = Ok n /\ P (R Rdate) (s ++ r) (POk [Pair Rdate tx kids] r).
Proof.
  intros (y & m & d & (ty & tm & td & a & -> & Hy & Hn & Ey & Hm & Hd & Ha) & C & Hr & Dc) Hx.
  destruct (p_date ty tm td a a r m d Hy Hn Hm Hd Ha Ha Hx) as [(_ & _ & X)|(X & _)].
  - eexists _, _. split; [|exact X]. rewrite (parse_date_pairs ty tm td a a y m d) by auto. rewrite N.eqb_refl.
    apply day_count_spec in Dc. destruct Dc as [_ ->]. assert (E : from_ymd y m d = Some (day_number y m d)) by (apply from_spec; auto). rewrite E. auto.
  - exfalso. apply X. apply calendar_spec in C. pose proof (dim_bounds y m). lia.
Qed.
Lemma day_first n s : day_written n s -> first_is (fun c => (48 <= c <= 57)%N) s.
Proof.
  intros (y & m & d & (ty & tm & td & a & -> & Hy & Hn & _) & _). destruct ty as [|c ty]; [congruence|]. exists c, (ty ++ a :: tm ++ a :: td). split; auto.
  apply Hy. left. auto.
Qed.
(** The hour of a time of day consists of digits. *)
Lemma hour_digits s k r : P (R Rhour) s (POk k r) -> exists p, s = p ++ r /\ only_digits p /\ p <> [].
Proof.
  intros H. apply (i_rule grammar Rhour _ s k r eq_refl) in H. destruct H as (p & kids & -> & H & _). exists p. split; auto.
  apply i_alt in H. destruct H as [H|[_ H]]; apply i_seq in H; destruct H as (k1 & r1 & k2 & H1 & H2 & _).
  - assert (E : exists c, p ++ r = c :: r1 /\ (48 <= c <= 57)%N).
    { apply i_alt in H1. destruct H1 as [H1|[_ H1]]; apply i_str in H1; destruct H1 as [_ ->]; eexists; (split; [reflexivity|cbn; lia]). }
    destruct E as (c & E & Hc). apply i_class in H2. destruct H2 as (_ & x & Hx & ->).
    assert (p = [c; x]). { change (c :: x :: r) with ([c; x] ++ r) in E. apply app_inv_tail in E. auto. } subst p.
    split; [|discriminate]. intros z [<-|[<-|[]]]; auto. unfold is_digit in Hx. lia.
  - apply i_str in H1. destruct H1 as [_ H1]. apply i_seq in H2. destruct H2 as (k3 & r3 & k4 & H2 & H3 & _). apply i_str in H2. destruct H2 as [_ ->].
    apply i_seq in H3. destruct H3 as (k5 & r5 & k6 & H3 & H4 & _). apply i_str in H3. destruct H3 as [_ ->].
    apply i_seq in H4. destruct H4 as (k7 & r7 & k8 & H4 & H5 & _). apply i_str in H4. destruct H4 as [_ ->]. apply i_str in H5. destruct H5 as [_ ->].
    assert (p = L "20123"). { change (L "2" ++ L "0" ++ L "1" ++ L "2" ++ L "3" ++ r) with (L "20123" ++ r) in H1. apply app_inv_tail in H1. auto. } subst p.
    split; [|discriminate]. intros z Hz. cbn in Hz. intuition (subst; lia).
Qed.
Lemma p_no_time s : (forall ds r, only_digits ds -> s <> ds ++ L ":" ++ r) -> P (R Rtime) s PFail.
Proof.
  intros H. eapply s_rule_fail; [reflexivity|]. destruct (p_total Rhour s) as [F|(k & r & K)]; [apply s_seq_fail1; auto|].
  eapply s_seq_fail2; [exact K|]. apply s_seq_fail1, s_str_fail. destruct (hour_digits _ _ _ K) as (p & -> & Hp & _).
  destruct r as [|c r]; [reflexivity|]. apply strip1, N.eqb_neq. intros ->. apply (H p r Hp). reflexivity.
Qed.
Lemma digits_colon_app d e : (forall ds r, only_digits ds -> d <> ds ++ L ":" ++ r) -> ~ first_is (fun c => (48 <= c <= 58)%N) e ->
  forall ds r, only_digits ds -> d ++ e <> ds ++ L ":" ++ r.
Proof.
  intros Hd He. induction d as [|c d IH]; intros ds r Hs E.
  - apply He. destruct ds as [|x ds]; cbn in E; subst e; [eexists _, _; split; [reflexivity|cbn; lia]|].
    eexists _, _. split; [reflexivity|]. specialize (Hs x (or_introl eq_refl)). lia.
  - destruct ds as [|x ds]; cbn in E; inversion E; subst.
    + apply (Hd [] d). { intros z []. } reflexivity.
    + apply (IH) with (ds := ds) (r := r); auto.
      * intros ds' r' Hs' ->. apply (Hd (x :: ds') r'); auto. intros z [<-|Hz]; [apply Hs; left; auto|apply Hs'; auto].
      * intros z Hz. apply Hs. right. auto.
Qed.
Lemma first_none_digit s : ~ first_is (fun c => (48 <= c <= 58)%N) s -> forall ds r, only_digits ds -> s <> ds ++ L ":" ++ r.
Proof.
  intros H ds r Hd ->. apply H. destruct ds as [|c ds]; [eexists _, _; split; [reflexivity|cbn; lia]|].
  eexists _, _. split; [reflexivity|]. specialize (Hd c (or_introl eq_refl)). lia.
Qed.
Lemma text_end_digit e : text_end e -> ~ first_is (fun c => (48 <= c <= 58)%N) e.
Proof. intros [->|(c & r & -> & [->| ->])] (c' & x & E & H); inversion E; subst; unfold c_semi in *; lia. Qed.
Lemma spaces_first b e f : spaces b -> ~ f c_sp -> ~ first_is f e -> ~ first_is f (b ++ e).
Proof.
  intros H Hf He (c & r & E & Hc). destruct b as [|x b]; [apply He; exists c, r; auto|]. apply spaces_tl in H. destruct H as [-> _]. inversion E. subst. auto.
Qed.
(** What stands after the date: status, code, description and the rest. *)
Definition after_date (st co desc b2 e : str) : str := st ++ co ++ desc ++ b2 ++ e.
Lemma after_no_time b st co desc b2 e : spaces b -> status_written st -> code_written co -> description_written desc -> spaces b2 -> text_end e ->
  P (R Rtime) (b ++ st ++ co ++ desc ++ b2 ++ e) PFail.
Proof.
  intros Hb Hst Hco (Hf & _ & _ & Ht) Hb2 He. apply p_no_time. destruct b as [|c b].
  - cbn [app]. destruct Hst as [->|(m & b3 & Hm & _ & ->)].
    + cbn [app]. destruct Hco as [->|(x & b4 & _ & _ & _ & _ & ->)].
      * cbn [app]. apply digits_colon_app; auto. apply spaces_first; auto; [unfold c_sp; lia|]. apply text_end_digit. auto.
      * apply first_none_digit. intros (z & r & E & Hz). inversion E. subst. unfold c_sp in *. cbn in Hz. lia.
    + apply first_none_digit. intros (z & r & E & Hz). inversion E. subst. cbn in Hm. intuition (subst; lia).
  - apply spaces_tl in Hb. destruct Hb as [-> Hb]. apply first_none_digit. intros (z & r & E & Hz). inversion E. subst. unfold c_sp in *. cbn in Hz. lia.
Qed.
Lemma p_no_clock b x : spaces b -> P (R Rtime) (b ++ x) PFail -> P (R Rtime) (match b with [] => [] | _ :: b' => b' end ++ x) PFail ->
  spaces1 b -> P (EOpt (ws ~~ R Rtime)) (b ++ x) (POk [] (b ++ x)).
Proof.
  intros H _ H2 [_ Hn]. destruct b as [|c b]; [congruence|]. apply spaces_tl in H. destruct H as [-> H]. cbn [app].
  apply s_alt2; [|apply s_empty]. eapply s_seq_fail2; [apply p_ws|]. exact H2.
Qed.
Lemma skip_same s : ~ first_is (fun c => c = c_sp) s -> skip s = s.
Proof. intros H. destruct s as [|c s]; auto. apply skip_first. intros ->. apply H. exists c_sp, s. auto. Qed.
(** Status and code are passed over. *)
Lemma p_status st x : status_written st -> ~ first_is (fun c => In c (L "*!")) (skip x) -> exists k,
  P (EOpt (R Rstatus) ~~ wss) (skip (st ++ x)) (POk k (skip x)) /\ (k = [] \/ exists t, k = [Pair Rstatus t []]).
Proof.
  intros [->|(m & b & Hm & Hb & ->)] Hx.
  - exists []. split; [|auto]. cbn [app]. apply (s_seq_ok grammar _ _ _ [] (skip x) []); [|rewrite <- (skip_skip x) at 2; apply p_wss].
    apply s_alt2; [|apply s_empty]. eapply s_rule_fail; [reflexivity|].
    apply s_alt2; apply s_str_fail; (destruct (skip x) as [|c r] eqn:E; [reflexivity|]); apply strip1, N.eqb_neq; intros ->; apply Hx; eexists _, r; (split; [reflexivity|cbn; auto]).
  - exists [Pair Rstatus [m] []]. split; [|eauto]. cbn [app]. rewrite skip_first by (cbn in Hm; intros ->; intuition discriminate).
    apply (s_seq_ok grammar _ _ _ [Pair Rstatus [m] []] (b ++ x) []); [|rewrite <- (skip_spaces b x Hb); apply p_wss].
    apply s_alt1. eapply (s_rule grammar Rstatus _ [m] (b ++ x)); [reflexivity|].
    cbn in Hm. destruct Hm as [<-|[<-|[]]].
    + apply s_alt1. apply (s_str grammar (L "*")).
    + apply s_alt2; [apply s_str_fail; reflexivity|]. apply (s_str grammar (L "!")).
Qed.
Lemma p_code co x : code_written co -> (forall r, skip x <> L "(""" ++ r /\ skip x <> L "('" ++ r) -> exists k,
  P (EOpt (R Rcode) ~~ wss) (skip (co ++ x)) (POk k (skip x)) /\ (k = [] \/ exists t kk, k = [Pair Rcode t kk]).
Proof.
  intros [->|(z & b & Hl & H1 & H2 & Hb & ->)] Hx.
  - exists []. split; [|auto]. cbn [app]. apply (s_seq_ok grammar _ _ _ [] (skip x) []); [|rewrite <- (skip_skip x) at 2; apply p_wss].
    apply s_alt2; [|apply s_empty]. eapply s_rule_fail; [reflexivity|]. destruct (skip x) as [|c r] eqn:E; [apply s_seq_fail1, s_str_fail; reflexivity|].
    destruct (N.eqb_spec c 40%N) as [->|N1]; [|apply s_seq_fail1, s_str_fail, strip1, N.eqb_neq; auto].
    eapply s_seq_fail2; [apply (s_str grammar (L "("))|]. apply s_seq_fail1. apply p_string_none. intros (q & r' & -> & Hq).
    cbn in Hq. destruct Hq as [<-|[<-|[]]]; [apply (proj2 (Hx r'))|apply (proj1 (Hx r'))]; reflexivity.
  - assert (E : (L "(""" ++ z ++ L """)" ++ b) ++ x = (L "(" ++ (L """" ++ z ++ L """") ++ L ")") ++ (b ++ x)) by (rewrite <- !app_assoc; reflexivity).
    rewrite E. exists [Pair Rcode (L "(" ++ (L """" ++ z ++ L """") ++ L ")") [Pair Rstring (L """" ++ z ++ L """") []]]. split; [|eauto].
    change (skip ((L "(" ++ (L """" ++ z ++ L """") ++ L ")") ++ (b ++ x))) with ((L "(" ++ (L """" ++ z ++ L """") ++ L ")") ++ (b ++ x)).
    rewrite <- (app_nil_r [Pair Rcode _ _]). eapply (s_seq_ok grammar _ _ _ _ (b ++ x) []); [|rewrite <- (skip_spaces b x Hb); apply p_wss].
    apply s_alt1. eapply (s_rule grammar Rcode); [reflexivity|]. rewrite <- app_assoc.
    eapply (s_seq_ok grammar _ _ _ [] _ _); [apply (s_str grammar (L "("))|]. rewrite <- (app_nil_r [Pair Rstring _ _]).
    eapply (s_seq_ok grammar _ _ _ _ _ []); [rewrite <- app_assoc; apply (p_string c_dq z (L ")" ++ b ++ x)); [auto|apply plain_in_quotes; auto]|]. apply (s_str grammar (L ")")).
Qed.

Lemma s_seq2 a b c s k r k2 r2 : P (a ~~ b) s (POk k r) -> P c r (POk k2 r2) -> P (a ~~ b ~~ c) s (POk (k ++ k2) r2).
Proof.
  intros H1 H2. apply i_seq in H1. destruct H1 as (k1 & r1 & k3 & A & B & ->). rewrite <- app_assoc.
  eapply s_seq_ok; [exact A|]. eapply s_seq_ok; eauto.
Qed.
Lemma skip_from desc b2 e : spaces b2 -> description_written desc -> skip e = e ->
  skip (desc ++ b2 ++ e) = (desc ++ skipped desc b2) ++ e.
Proof. intros Hb (Hf & _) He. rewrite <- app_assoc. apply skip_text; auto. apply Hf. Qed.
(** The whole line. *)
Lemma header_pairs date edate desc pay cm s : header_written date edate desc pay cm s ->
  exists D E S C T PA,
    gparse Rtransaction s = Ok [Pair Rtransaction s (D :: E ++ S ++ C ++ Pair Rdescription T [] :: PA ++
      match cm with Some x => [Pair Rcomment x []] | None => [] end ++ [Pair Rend [] [Pair REOI [] []]])] /\
    parse_date D = Ok date /\
    match edate with None => E = [] | Some n => exists t k, E = [Pair Rdate t k] /\ parse_date (Pair Rdate t k) = Ok n end /\
    (S = [] \/ exists t, S = [Pair Rstatus t []]) /\ (C = [] \/ exists t k, C = [Pair Rcode t k]) /\
    trim T = desc /\
    match pay with None => PA = [] | Some x => exists t, PA = [Pair Rpayee t []] /\ trim t = x end.
Proof.
  intros (d & e & b & st & co & b2 & pa & ct & -> & Hd & He & Hb & Hst & Hco & Hde & Hb2 & Hpa & Hct).
  destruct (p_payee pay pa cm ct Hpa Hct) as (PA & HPA & HPA2 & Te & Se).
  assert (Hde' := Hde). destruct Hde as (Hf & Hq & Hp & Ht).
  assert (Esk : skip (desc ++ b2 ++ pa ++ ct) = (desc ++ skipped desc b2) ++ pa ++ ct) by (apply skip_from; auto).
  assert (Fi : forall f, ~ first_is f desc -> ~ first_is f (pa ++ ct) -> ~ first_is f (skip (desc ++ b2 ++ pa ++ ct))).
  { intros f F1 F2. rewrite Esk, <- app_assoc. destruct desc as [|c x]; [exact F2|]. intros (z & r & Z & Hz). inversion Z. subst. apply F1. exists z, x. auto. }
  assert (Tf : forall f : N -> Prop, (forall c, f c -> c <> 124%N /\ c <> c_semi) -> ~ first_is f (pa ++ ct)).
  { intros f Hf0 (c & r & X & Hc). apply Hf0 in Hc. destruct Te as [Te|(c' & r' & Te & Hx)]; rewrite Te in X; inversion X; subst. destruct Hx; tauto. }
  (* description *)
  assert (PD : P (R Rdescription) (skip (desc ++ b2 ++ pa ++ ct)) (POk [Pair Rdescription (desc ++ skipped desc b2) []] (pa ++ ct))).
  { rewrite Esk. apply p_description; auto; [apply in_app_free; [apply Hf|apply skipped_spaces; auto]|]. apply first_app.
    - intros _ (c & r & X & Hc). apply Hq. exists c, r. split; auto. cbn in Hc |- *. tauto.
    - destruct desc; [intros (c & r & X & _); discriminate|]. cbn [skipped]. intros (c & r & X & Hc). subst b2. apply spaces_tl in Hb2. destruct Hb2 as [-> _].
      cbn in Hc. intuition discriminate. }
  (* code *)
  destruct (p_code co (desc ++ b2 ++ pa ++ ct) Hco) as (C & HC & HC2).
  { intros r. rewrite Esk. destruct desc as [|x desc].
    - cbn [app skipped]. split; intros X; destruct Te as [Te|(c & r' & Te & [->| ->])]; rewrite Te in X; discriminate.
    - split; intros X; cbn [app] in X; inversion X; subst x.
      + destruct desc as [|y desc].
        * cbn [app skipped] in H1. destruct b2 as [|z b2]; [cbn [app] in H1; destruct Te as [Te|(c & r' & Te & [->| ->])]; rewrite Te in H1; discriminate|].
          apply spaces_tl in Hb2. destruct Hb2 as [-> _]. discriminate.
        * inversion H1. subst y. apply (proj1 (Hp desc)). reflexivity.
      + destruct desc as [|y desc].
        * cbn [app skipped] in H1. destruct b2 as [|z b2]; [cbn [app] in H1; destruct Te as [Te|(c & r' & Te & [->| ->])]; rewrite Te in H1; discriminate|].
          apply spaces_tl in Hb2. destruct Hb2 as [-> _]. discriminate.
        * inversion H1. subst y. apply (proj2 (Hp desc)). reflexivity. }
  (* status *)
  destruct (p_status st (co ++ desc ++ b2 ++ pa ++ ct) Hst) as (S & HS & HS2).
  { destruct Hco as [->|(z & b4 & _ & _ & _ & _ & ->)].
    - cbn [app]. apply Fi.
      + intros (c & r & X & Hc). apply Hq. exists c, r. split; auto. cbn in Hc |- *. tauto.
      + apply Tf. intros c Hc. cbn in Hc. split; intros ->; intuition discriminate.
    - intros (c & r & X & Hc). inversion X. subst. cbn in Hc. intuition discriminate. }
  (* together, from the blanks on *)
  set (x := st ++ co ++ desc ++ b2 ++ pa ++ ct) in *.
  assert (PB : P (EPlus ws ~~ EOpt (R Rstatus) ~~ wss ~~ EOpt (R Rcode) ~~ wss ~~ R Rdescription ~~
                  wss ~~ EOpt (T (L "|") ~~ wss ~~ R Rpayee) ~~ wss ~~ EOpt (R Rcomment) ~~ R Rend) (b ++ x)
    (POk (S ++ C ++ [Pair Rdescription (desc ++ skipped desc b2) []] ++ PA ++
          match cm with Some x => [Pair Rcomment x []] | None => [] end ++ [Pair Rend [] [Pair REOI [] []]]) [])).
  { apply (s_seq_ok grammar _ _ _ [] (skip x)); [apply p_wsplus; auto|]. eapply s_seq2; [exact HS|]. eapply s_seq2; [exact HC|].
    eapply s_seq_ok; [exact PD|]. exact HPA. }
  assert (NC : P (EOpt (ws ~~ R Rtime)) (b ++ x) (POk [] (b ++ x))).
  { apply p_no_clock; auto; [apply Hb|..]; apply after_no_time; auto; [apply Hb|]. destruct b as [|c b]; [intros z []|]. destruct Hb as [Hb _]. apply spaces_tl in Hb. apply Hb. }
  assert (ND : no_digit (b ++ x)). { destruct Hb as [Hb Hn]. destruct b as [|c b]; [congruence|]. apply spaces_tl in Hb. destruct Hb as [-> _]. reflexivity. }
  (* the dates *)
  assert (HE : exists E, P (EOpt (ws ~~ R Rtime) ~~ EOpt (T (L "=") ~~ R Rdate ~~ EOpt (ws ~~ R Rtime))) (e ++ b ++ x) (POk E (b ++ x)) /\
    match edate with None => E = [] | Some n => exists t k, E = [Pair Rdate t k] /\ parse_date (Pair Rdate t k) = Ok n end /\ no_digit (e ++ b ++ x)).
  { destruct edate as [n|]; cbn [effective_written] in He.
    - destruct He as (d2 & Hd2 & ->). destruct (day_read n d2 (b ++ x) Hd2 ND) as (tx & kids & K1 & K2). exists [Pair Rdate tx kids].
      split; [|split; [eauto|reflexivity]]. rewrite <- !app_assoc. apply (s_seq_ok grammar _ _ _ [] (L "=" ++ d2 ++ b ++ x)).
      + apply s_alt2; [|apply s_empty]. apply s_seq_fail1. apply p_ws_fail. reflexivity.
      + apply s_alt1. apply (s_seq_ok grammar _ _ _ [] (d2 ++ b ++ x)); [apply s_str|]. rewrite <- (app_nil_r [Pair Rdate tx kids]).
        eapply s_seq_ok; [exact K2|]. exact NC.
    - subst e. exists []. split; [|auto]. cbn [app]. apply (s_seq_ok grammar _ _ _ [] (b ++ x) []); [exact NC|]. apply s_alt2; [|apply s_empty].
      apply s_seq_fail1, s_str_fail. destruct Hb as [Hb Hn]. destruct b as [|c b]; [congruence|]. apply spaces_tl in Hb. destruct Hb as [-> _]. reflexivity. }
  destruct HE as (E & HE1 & HE2 & HE3).
  destruct (day_read date d (e ++ b ++ x) Hd HE3) as (tx & kids & K1 & K2).
  exists (Pair Rdate tx kids), E, S, C, (desc ++ skipped desc b2), PA. split; [|split; [auto|split; [auto|split; [auto|split; [auto|split; [apply trim_free; auto; apply Hf|auto]]]]]].
  eapply gparse_pegs_ok with (rest := []).
  match goal with |- pegs _ _ ?s (POk [Pair _ _ ?k] _) => pose proof (s_rule grammar Rtransaction (R Rdate ~~ header_tail) s [] k header_body) as G end.
  rewrite app_nil_r in G. apply G. clear G.
  refine (s_seq_ok grammar _ _ _ [Pair Rdate tx kids] (e ++ b ++ x) _ [] K2 _).
  eapply s_seq2; [exact HE1|]. exact PB.
Qed.
Lemma header_read date edate desc pay cm s : header_written date edate desc pay cm s ->
  parse_header s = Ok {| h_date := date; h_edate := edate; h_desc := desc; h_payee := payee_of desc pay; h_comment := cm |}.
Proof.
  intros H. destruct (header_pairs _ _ _ _ _ _ H) as (D & E & S & C & T0 & PA & G & HD & HE & HS & HC & HT & HP). unfold parse_header. rewrite G.
  cbn [bind pnext p_kids]. rewrite HD. cbn [bind].
  destruct edate as [n|]; [destruct HE as (te & ke & -> & HE)|subst E]; (destruct HS as [->|(ts & ->)]); (destruct HC as [->|(tc & kc & ->)]);
    (destruct pay as [x|]; [destruct HP as (tp & -> & HP)|subst PA]); destruct cm as [y|];
    unfold opt_item; cbn -[parse_date trim payee_of]; rewrite ?HE; cbn -[parse_date trim payee_of]; rewrite ?HT, ?HP; reflexivity.
Qed.
