(** Error messages: the lines that are shown. *)
From Coq Require Import Lia.
From Verif Require Import Base BaseFacts Numerals Money Alist Comment Txn Peg Grammar Dates Expr Tokens SpecTokens SpecErrors Message.
Open Scope Z_scope.

Lemma count_app c a b : count c (a ++ b) = (count c a + count c b)%nat.
Proof. unfold count. rewrite filter_app, app_length. auto. Qed.
Lemma count_zero c s : ~ In c s -> count c s = 0%nat.
Proof.
  unfold count. induction s as [|d s IH]; intros H; auto. cbn. destruct (N.eqb_spec c d); [exfalso; apply H; left; auto|].
  apply IH. intros X. apply H. right. auto.
Qed.
Lemma lines_acc_split a : forall acc s, lines_acc acc (a ++ c_nl :: s) = lines_acc acc (a ++ [c_nl]) ++ lines_acc [] s.
Proof.
  induction a as [|c a IH]; intros acc s; cbn [app lines_acc].
  - change (c_nl =? c_nl)%N with true. cbn iota. reflexivity.
  - destruct (c =? c_nl)%N; [cbn; rewrite IH; auto|apply IH].
Qed.
Lemma lines_acc_length a : forall acc, length (lines_acc acc (a ++ [c_nl])) = Datatypes.S (count c_nl a).
Proof.
  induction a as [|c a IH]; intros acc; cbn [app lines_acc].
  - change (c_nl =? c_nl)%N with true. reflexivity.
  - unfold count. cbn [filter]. rewrite (N.eqb_sym c_nl c). destruct (c =? c_nl)%N; cbn [length]; rewrite IH; auto.
Qed.
Lemma lines_start a s : at_line_start a -> exists ls, lines (a ++ s) = ls ++ lines s /\ length ls = count c_nl a.
Proof.
  intros [-> | (a' & ->)]; [exists []; auto|]. exists (lines_acc [] (a' ++ [c_nl])). unfold lines.
  rewrite <- app_assoc. cbn [app]. rewrite lines_acc_split. split; auto. rewrite lines_acc_length, count_app. cbn. lia.
Qed.
(** How [strip_cr] shows a line. *)
Lemma strip_cr_shows acc : rev acc = strip_cr acc ++ [13%N] \/ rev acc = strip_cr acc /\ forall x, rev acc <> x ++ [13%N].
Proof.
  unfold strip_cr. destruct acc as [|c acc].
  - right. split; auto. intros x E. destruct x; discriminate.
  - destruct (N.eqb_spec c 13) as [->|n]; [left; auto|]. right. split; auto. intros x E. cbn in E.
    apply app_inj_tail in E. destruct E. auto.
Qed.
Lemma shows_unique (l v v' : str) : l = v ++ [13%N] \/ l = v /\ (forall x, l <> x ++ [13%N]) ->
  l = v' ++ [13%N] \/ l = v' /\ (forall x, l <> x ++ [13%N]) -> v = v'.
Proof.
  intros [H|[H N]] [H'|[H' N']]; subst; auto.
  - apply app_inj_tail in H'. apply H'.
  - exfalso. eapply N'. reflexivity.
  - exfalso. eapply N. reflexivity.
Qed.
Lemma lines_first l : ~ In c_nl l -> forall acc r v,
  (r = [] /\ rev acc ++ l <> [] /\ rev acc ++ l = v \/
   (exists r', r = c_nl :: r') /\ (rev acc ++ l = v ++ [13%N] \/ rev acc ++ l = v /\ forall x, rev acc ++ l <> x ++ [13%N])) ->
  exists ls, lines_acc acc (l ++ r) = v :: ls.
Proof.
  induction l as [|c l IH]; intros Hn acc r v Hr; cbn [app lines_acc].
  - rewrite app_nil_r in Hr. destruct Hr as [[-> [Hr <-]]|[[r' ->] Hr]].
    + cbn. destruct acc; [cbn in Hr; congruence|]. eauto.
    + cbn [lines_acc]. change (c_nl =? c_nl)%N with true. cbn iota.
      rewrite <- (shows_unique _ _ _ (strip_cr_shows acc) Hr). eauto.
  - destruct (N.eqb_spec c c_nl); [exfalso; apply Hn; left; auto|].
    apply IH; [intros X; apply Hn; right; auto|]. cbn [rev]. rewrite <- app_assoc. exact Hr.
Qed.
(** The element [k] of [lines] is the line number [k]. *)
Lemma line_of_lines content k v : nth_error (lines content) k = Some v -> line_is content k v.
Proof.
  unfold lines, line_is.
  assert (G : forall s acc k, ~ In c_nl acc -> nth_error (lines_acc acc s) k = Some v -> line_is (rev acc ++ s) k v).
  { induction s as [|c s IH]; intros acc j Ha H; cbn [lines_acc] in H.
    - destruct acc as [|x acc]; [destruct j; discriminate|]. destruct j; [|destruct j; discriminate]. cbn [nth_error] in H. inv H.
      exists [], (rev (x :: acc)), []. rewrite !app_nil_r. split; auto. split; [left; auto|]. split; auto.
      split; [rewrite <- in_rev; auto|]. left. split; auto. split; auto.
      intros E; apply (f_equal (@length N)) in E; rewrite rev_length in E; discriminate.
    - destruct (N.eqb_spec c c_nl).
      + subst. destruct j as [|j]; cbn [nth_error] in H.
        * inv H. exists [], (rev acc), (c_nl :: s). split; auto. split; [left; auto|]. split; auto.
          split; [rewrite <- in_rev; auto|]. right. split; [eauto|]. apply strip_cr_shows.
        * apply IH in H; [|auto]. destruct H as (a & l & r & E1 & E2 & E3 & E4). cbn in E1.
          exists ((rev acc ++ [c_nl]) ++ a), l, r. split; [rewrite E1, <- !app_assoc; auto|]. split.
          -- destruct E2 as [-> | (a' & ->)]; right; [exists (rev acc); rewrite app_nil_r; auto|].
             exists (rev acc ++ [c_nl] ++ a'). rewrite <- !app_assoc. auto.
          -- split; [|auto]. rewrite !count_app, E3, (count_zero _ (rev acc)) by (rewrite <- in_rev; auto). reflexivity.
      + apply IH in H.
        * cbn [rev] in H. rewrite <- app_assoc in H. auto.
        * intros [X|X]; auto. }
  intros H. apply G in H; auto.
Qed.
Lemma lines_of_line content k v : line_is content k v -> nth_error (lines content) k = Some v.
Proof.
  intros (a & l & r & -> & Ha & Hk & Hl & Hr). destruct (lines_start a (l ++ r) Ha) as (ls & E1 & E2). rewrite E1, nth_error_app2 by lia.
  rewrite E2, Hk, Nat.sub_diag. destruct (lines_first l Hl [] r v Hr) as (ls' & E3).
  unfold lines. rewrite E3. auto.
Qed.

Lemma shown_above n lo hi : forall ls i, hi < i -> lo <= i -> shown_lines n lo hi i ls = [].
Proof. intros [|l ls] i H1 H2; auto. cbn. destruct (Z.ltb_spec i lo); [lia|]. destruct (Z.ltb_spec hi i); [auto|lia]. Qed.
Lemma shown_none n lo hi : forall ls i, i + Z.of_nat (length ls) <= lo -> shown_lines n lo hi i ls = [].
Proof.
  induction ls as [|l ls IH]; intros i H; auto. cbn [shown_lines length] in *. destruct (Z.ltb_spec i lo); [apply IH|]; lia.
Qed.
Lemma shown_two n k l0 l : forall ls i, nth_error ls i = Some l0 -> nth_error ls (Datatypes.S i) = Some l ->
  forall j, k = j + Z.of_nat i + 1 ->
  shown_lines n (k - 1) k j ls = numbered n (k - 1) l0 ++ numbered n k l.
Proof.
  induction ls as [|x ls IH]; intros i H1 H2 j Hk; [destruct i; discriminate|]. cbn [shown_lines].
  destruct i as [|i].
  - cbn [nth_error] in *. inv H1. destruct ls as [|y ls]; [discriminate|]. cbn [nth_error] in H2. inv H2.
    destruct (Z.ltb_spec j (j + Z.of_nat 0 + 1 - 1)); [lia|]. destruct (Z.ltb_spec (j + Z.of_nat 0 + 1) j); [lia|].
    cbn [shown_lines]. destruct (Z.ltb_spec (j + 1) (j + Z.of_nat 0 + 1 - 1)); [lia|].
    destruct (Z.ltb_spec (j + Z.of_nat 0 + 1) (j + 1)); [lia|]. rewrite shown_above by lia. rewrite app_nil_r.
    replace (j + Z.of_nat 0 + 1 - 1) with j by lia. replace (j + Z.of_nat 0 + 1) with (j + 1) by lia. reflexivity.
  - destruct (Z.ltb_spec j (k - 1)); [|lia]. apply (IH i); auto. lia.
Qed.
Lemma shown_last n k l0 : forall ls i, nth_error ls i = Some l0 -> length ls = Datatypes.S i ->
  forall j, k = j + Z.of_nat i + 1 -> shown_lines n (k - 1) k j ls = numbered n (k - 1) l0.
Proof.
  induction ls as [|x ls IH]; intros i H1 H2 j Hk; [destruct i; discriminate|]. cbn [shown_lines].
  destruct i as [|i].
  - cbn [nth_error length] in *. inv H1. destruct ls as [|y ls]; [|discriminate].
    destruct (Z.ltb_spec j (j + Z.of_nat 0 + 1 - 1)); [lia|]. destruct (Z.ltb_spec (j + Z.of_nat 0 + 1) j); [lia|].
    cbn [shown_lines]. rewrite app_nil_r. replace (j + Z.of_nat 0 + 1 - 1) with j by lia. reflexivity.
  - destruct (Z.ltb_spec j (k - 1)); [|lia]. cbn [length] in H2. apply (IH i); auto. lia.
Qed.
Lemma marks_underline col : forall n i, length (marks col i n) = n /\
  forall j, (j < n)%nat -> nth_error (marks col i n) j = Some (if Nat.eqb (i + j) col then 94%N else c_minus).
Proof.
  induction n as [|n IH]; intros i; cbn [marks length].
  - split; auto. lia.
  - destruct (IH (Datatypes.S i)) as [E1 E2]. split; [auto|]. intros [|j] Hj; cbn [nth_error].
    + rewrite Nat.add_0_r. auto.
    + rewrite E2 by lia. replace (i + Datatypes.S j)%nat with (Datatypes.S i + j)%nat by lia. auto.
Qed.
Lemma marks_spec col n : underline col n (marks col 0 n).
Proof. destruct (marks_underline col n 0) as [H1 H2]. split; auto. Qed.
Lemma lines_some_acc s : forall acc, acc <> [] \/ s <> [] -> exists l ls, lines_acc acc s = l :: ls.
Proof.
  induction s as [|c r IH]; intros acc H; cbn [lines_acc].
  - destruct acc; [exfalso; destruct H as [H|H]; apply H; auto|eauto].
  - destruct (c =? c_nl)%N; [eauto|]. apply IH. left. discriminate.
Qed.
Lemma lines_some s : s <> [] -> exists l ls, lines s = l :: ls.
Proof. intros H. apply lines_some_acc. auto. Qed.
Lemma shown_empty n lo hi : hi < lo -> forall ls i, shown_lines n lo hi i ls = [].
Proof.
  intros H ls. induction ls as [|l ls IH]; intros i; auto. cbn. destruct (Z.ltb_spec i lo); [auto|].
  destruct (Z.ltb_spec hi i); [auto|lia].
Qed.
