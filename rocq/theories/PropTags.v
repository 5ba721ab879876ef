(** Property C45: tags written in comments are read back. *)
From Coq Require Import Lia.
From Verif Require Import Base BaseFacts Comment.

Definition flag (n : str) : tag := {| tag_name := n; tag_value := None |}.
Definition spaces (n : nat) : str := repeat c_sp n.
Definition one_line (s : str) : Prop := ~ In c_nl s.
Definition no_colon (s : str) : Prop := ~ In c_colon s.

Lemma drop_spaces_app n s : drop_spaces (spaces n ++ s) = drop_spaces s.
Proof. induction n; cbn; auto. Qed.
Lemma drop_spaces_id s : match s with c :: _ => c <> c_sp | [] => True end -> drop_spaces s = s.
Proof. destruct s as [|c s]; cbn; auto. intros H. destruct (N.eqb_spec c c_sp); congruence. Qed.
Lemma rev_spaces n : rev (spaces n) = spaces n.
Proof.
  unfold spaces. induction n; cbn; auto. rewrite IHn. clear. induction n; cbn; auto. rewrite IHn. auto.
Qed.
Lemma rstrip_spec s c n : c <> c_sp -> rstrip_spaces (s ++ [c] ++ spaces n) = s ++ [c].
Proof.
  intros H. unfold rstrip_spaces. rewrite !rev_app_distr, rev_spaces. cbn [rev app]. rewrite <- app_assoc, drop_spaces_app, drop_spaces_id; auto.
  cbn [app rev]. rewrite rev_involutive. auto.
Qed.
Lemma contains_In c s : contains_char c s = true <-> In c s.
Proof.
  unfold contains_char. rewrite existsb_exists. split.
  - intros (x & H & E). apply N.eqb_eq in E. subst. auto.
  - intros H. exists c. split; auto. apply N.eqb_refl.
Qed.
Lemma contains_not c s : contains_char c s = false <-> ~ In c s.
Proof. rewrite <- contains_In. destruct (contains_char c s); split; congruence. Qed.
Lemma flags_from_pre pre s : no_colon pre -> flags_from (pre ++ s) = flags_from s.
Proof.
  induction pre as [|c pre IH]; intros H; cbn; auto. destruct (N.eqb_spec c c_colon).
  - subst. exfalso. apply H. left. auto.
  - cbn. apply IH. intros X. apply H. right. auto.
Qed.
Lemma split_none c s : ~ In c s -> split_char c s = [s].
Proof.
  induction s as [|x s IH]; cbn; auto. intros H. destruct (N.eqb_spec x c); [subst; exfalso; apply H; auto|]. rewrite IH; auto.
Qed.
Lemma split_app c a b : ~ In c a -> split_char c (a ++ c :: b) = a :: split_char c b.
Proof.
  induction a as [|x a IH]; cbn; intros H.
  - rewrite N.eqb_refl. auto.
  - destruct (N.eqb_spec x c); [subst; exfalso; apply H; auto|]. rewrite IH; auto.
Qed.
Lemma split_join c names rest : names <> [] -> (forall n, In n names -> ~ In c n) -> 
  split_char c (join [c] names ++ c :: rest) = names ++ split_char c rest.
Proof.
  induction names as [|n names IH]; intros Hn H; [congruence|]. destruct names as [|m names].
  - cbn [join app]. apply split_app. apply H. left. auto.
  - change (join [c] (n :: m :: names)) with (n ++ [c] ++ join [c] (m :: names)). rewrite <- !app_assoc. cbn [app].
    rewrite split_app by (apply H; left; auto). f_equal. apply IH; [discriminate|]. intros k Hk. apply H. right. auto.
Qed.
Lemma in_join c sep names : In c (join sep names) -> In c sep \/ exists n, In n names /\ In c n.
Proof.
  induction names as [|n names IH]; cbn; [contradiction|]. destruct names as [|m names].
  - intros H. right. exists n. auto.
  - intros H. apply in_app_or in H. destruct H as [H|H]; [right; exists n; auto|]. apply in_app_or in H. destruct H as [H|H]; auto.
    destruct (IH H) as [X|(k & K & X)]; [auto|]. right. exists k. split; auto.
Qed.
Lemma last_line_id s : one_line s -> last_line s = s.
Proof.
  induction s as [|c s IH]; intros H; cbn; auto. destruct (contains_char c_nl s) eqn:E.
  - apply contains_In in E. exfalso. apply H. right. auto.
  - destruct (N.eqb_spec c c_nl); auto. subst. exfalso. apply H. left. auto.
Qed.
Lemma split_last_none s : split_last_colon s = None <-> no_colon s.
Proof.
  unfold no_colon. induction s as [|c s IH]; cbn; [tauto|]. destruct (split_last_colon s) as [[a b]|].
  - split; [discriminate|]. intros H. assert (X : Some (a, b) = None) by (apply IH; tauto). discriminate.
  - destruct (N.eqb_spec c c_colon) as [->|N]; split; try discriminate; auto.
    + intros H. exfalso. auto.
    + intros _ [X|X]; [congruence|]. revert X. apply IH. auto.
Qed.
Lemma split_last_app a b : no_colon b -> split_last_colon (a ++ c_colon :: b) = Some (a, b).
Proof.
  intros H. induction a as [|c a IH]; cbn.
  - apply split_last_none in H. rewrite H. auto.
  - rewrite IH. auto.
Qed.
Lemma drop_spaces_split s : exists n, s = spaces n ++ drop_spaces s.
Proof.
  induction s as [|c s (n & IH)]; [exists O; auto|]. cbn. destruct (N.eqb_spec c c_sp); [|exists O; auto]. subst. exists (S n). cbn. f_equal. auto.
Qed.
Lemma In_drop c s : In c (drop_spaces s) -> In c s.
Proof. destruct (drop_spaces_split s) as (n & E). intros H. rewrite E. apply in_or_app. auto. Qed.
Lemma In_last_line c s : In c (last_line s) -> In c s.
Proof.
  induction s as [|x s IH]; cbn; auto. destruct (contains_char c_nl s); auto. destruct (x =? c_nl)%N; auto.
Qed.
Lemma In_rstrip c s : In c (rstrip_spaces s) -> In c s.
Proof. unfold rstrip_spaces. rewrite <- in_rev. intros H. apply In_drop in H. apply in_rev. auto. Qed.
Lemma flags_In s v : flags_from s = Some v -> In c_colon s.
Proof.
  induction s as [|c s IH]; cbn; [discriminate|]. destruct (N.eqb_spec c c_colon); [left; auto|]. cbn. intros H. right. auto.
Qed.
Lemma re_flags_last s v : re_flags s = Some v -> exists t n, s = t ++ [c_colon] ++ spaces n /\ In c_colon t.
Proof.
  unfold re_flags. destruct (rev (rstrip_spaces s)) as [|c r] eqn:E; [discriminate|]. destruct (N.eqb_spec c c_colon); [|discriminate]. subst c.
  intros H. assert (E2 : rstrip_spaces s = rev r ++ [c_colon]) by (rewrite <- (rev_involutive (rstrip_spaces s)), E; auto).
  destruct (drop_spaces_split (rev s)) as (n & S). exists (rev r), n. split.
  - unfold rstrip_spaces in E2. rewrite <- (rev_involutive s), S, rev_app_distr, E2, rev_spaces, <- app_assoc. auto.
  - rewrite E2 in H. clear -H. revert H. induction (rev r) as [|x l IH]; cbn; [discriminate|].
    destruct (N.eqb_spec x c_colon); [left; auto|]. cbn. intros H. right. auto.
Qed.

(** ** C45 *)
(** Flags, possibly after other text and followed by blanks. *)
Theorem C45_flags : forall pre names n, no_colon pre -> names <> [] ->
  (forall x, In x names -> x <> [] /\ no_colon x /\ one_line x) ->
  get_tags (pre ++ L ":" ++ join (L ":") names ++ L ":" ++ spaces n) = map flag names.
Proof.
  intros pre names n Hp Hn H. unfold get_tags, re_flags. change (L ":") with [c_colon].
  assert (J : join [c_colon] names <> []).
  { destruct names as [|a [|b names]]; [congruence| |]; cbn; destruct (H a (or_introl eq_refl)) as [X _]; auto.
    intros E. apply app_eq_nil in E. destruct E. auto. }
  assert (E : rstrip_spaces (pre ++ [c_colon] ++ join [c_colon] names ++ [c_colon] ++ spaces n) =
              pre ++ [c_colon] ++ join [c_colon] names ++ [c_colon]).
  { pose proof (rstrip_spec (pre ++ [c_colon] ++ join [c_colon] names) c_colon n ltac:(discriminate)) as X.
    rewrite <- !app_assoc in X. exact X. }
  rewrite E. assert (R : rev (pre ++ [c_colon] ++ join [c_colon] names ++ [c_colon]) =
     c_colon :: rev (pre ++ [c_colon] ++ join [c_colon] names)).
  { rewrite !app_assoc. rewrite rev_app_distr. auto. }
  rewrite R, N.eqb_refl, flags_from_pre by auto. cbn [app flags_from]. rewrite N.eqb_refl.
  assert (Len : Nat.leb 2 (length (join [c_colon] names ++ [c_colon])) = true).
  { apply Nat.leb_le. rewrite app_length. cbn. destruct (join [c_colon] names); [congruence|]. cbn. lia. }
  assert (NL : contains_char c_nl (removelast (join [c_colon] names ++ [c_colon])) = false).
  { rewrite removelast_last. apply contains_not. intros X. apply in_join in X. destruct X as [[X|[]]|(x & I & X)]; [discriminate|].
    destruct (H x I) as (_ & _ & O). auto. }
  rewrite Len, NL. cbn [andb negb]. change (c_colon :: join [c_colon] names ++ [c_colon]) with ([] ++ c_colon :: join [c_colon] names ++ [c_colon]).
  rewrite split_app by auto. rewrite split_join; auto; [|intros x Hx; apply H; auto].
  cbn [split_char]. change ([] :: names ++ [[]]) with (([] :: names) ++ [[]]). rewrite removelast_last. cbn [tl]. reflexivity.
Qed.
Print Assumptions C45_flags.
Example C45_flags_case : get_tags (L "bought :food:two words:z: ") = map flag [L "food"; L "two words"; L "z"].
Proof. exact (C45_flags (L "bought ") [L "food"; L "two words"; L "z"] 1 ltac:(vm_compute; intuition discriminate) ltac:(discriminate)
  ltac:(intros x [<-|[<-|[<-|[]]]]; (split; [discriminate|]); split; vm_compute; intuition discriminate)). Qed.

(** A name and a value; blanks before the name and before the value are not part of them. *)
Theorem C45_name_value_partial : forall n name m value, name <> [] ->
  match name with c :: _ => c <> c_sp | [] => True end -> match value with c :: _ => c <> c_sp | [] => True end ->
  no_colon name -> no_colon value -> one_line name -> one_line value ->
  get_tags (spaces n ++ name ++ L ":" ++ spaces m ++ value) = [{| tag_name := name; tag_value := Some value |}].
Proof.
  intros n name m value Hn Hs Hs' Hc Hc' Hl Hl'. unfold get_tags. change (L ":") with [c_colon].
  assert (Sp : forall k c, In c (spaces k) -> c = c_sp) by (intros k c H; apply repeat_spec in H; auto).
  assert (OL : one_line (spaces n ++ name ++ [c_colon] ++ spaces m ++ value)).
  { intros X. repeat (apply in_app_or in X; destruct X as [X|X]); auto; [|destruct X as [X|[]]; discriminate|]; apply Sp in X; discriminate. }
  destruct (re_flags (spaces n ++ name ++ [c_colon] ++ spaces m ++ value)) as [v|] eqn:F.
  - exfalso. apply re_flags_last in F. destruct F as (t & k & E & I).
    assert (C : count_occ N.eq_dec (spaces n ++ name ++ [c_colon] ++ spaces m ++ value) c_colon = 1%nat).
    { rewrite !count_occ_app. cbn [count_occ].
      assert (Z : forall s, ~ In c_colon s -> count_occ N.eq_dec s c_colon = 0%nat) by (intros; apply count_occ_not_In; auto).
      rewrite !Z; auto; try (intros X; apply Sp in X; discriminate). }
    rewrite E, !count_occ_app in C. cbn [count_occ] in C. apply (count_occ_In N.eq_dec) in I.
    destruct (N.eq_dec c_colon c_colon); [lia|congruence].
  - unfold re_tag_value. rewrite last_line_id by auto. rewrite drop_spaces_app, drop_spaces_id by (destruct name; cbn; auto).
    cbn [app]. rewrite split_last_app by (intros X; apply in_app_or in X; destruct X as [X|X]; auto; apply Sp in X; discriminate).
    rewrite drop_spaces_app, drop_spaces_id by auto. destruct (contains_char c_colon name) eqn:E; auto. apply contains_In in E. contradiction.
Qed.
Print Assumptions C45_name_value_partial.
Example C45_name_value_case : get_tags (L "  due date:  2021-03-01 ") = [{| tag_name := L "due date"; tag_value := Some (L "2021-03-01 ") |}].
Proof. exact (C45_name_value_partial 2 (L "due date") 2 (L "2021-03-01 ") ltac:(discriminate) ltac:(discriminate) ltac:(discriminate)
  ltac:(vm_compute; intuition discriminate) ltac:(vm_compute; intuition discriminate)
  ltac:(vm_compute; intuition discriminate) ltac:(vm_compute; intuition discriminate)). Qed.
(** A value with a colon inside: the tag is lost. *)
Theorem C45_value_with_colon_lost : forall name a b, ~ In c_nl (name ++ a ++ b) -> no_colon b -> (exists c, In c b /\ c <> c_sp) ->
  get_tags (name ++ L ":" ++ a ++ L ":" ++ b) = [].
Proof.
  intros name a b Hl Hb (c & Ic & Nc). change (L ":") with [c_colon]. unfold get_tags.
  destruct (re_flags (name ++ [c_colon] ++ a ++ [c_colon] ++ b)) as [v|] eqn:F.
  - exfalso. apply re_flags_last in F. destruct F as (t & k & E & _).
    assert (L1 : rev (name ++ [c_colon] ++ a ++ [c_colon] ++ b) = rev b ++ c_colon :: rev (name ++ [c_colon] ++ a)).
    { rewrite !rev_app_distr. cbn. rewrite <- !app_assoc. cbn. auto. }
    rewrite E, !rev_app_distr, rev_spaces in L1. cbn [rev app] in L1. rewrite <- app_assoc in L1. cbn [app] in L1.
    assert (Ir : In c (rev b)) by (apply in_rev in Ic; auto). assert (Hr : ~ In c_colon (rev b)) by (rewrite <- in_rev; auto).
    clear -L1 Ir Hr Nc. revert k L1. induction (rev b) as [|x l IH]; [contradiction|]. intros [|k] L1.
    + cbn in L1. injection L1 as <- _. apply Hr. left. auto.
    + cbn in L1. injection L1 as <- L1. destruct Ir as [X|X]; [congruence|]. eapply IH; eauto. intros Y. apply Hr. right. auto.
  - unfold re_tag_value. rewrite last_line_id.
    + destruct (drop_spaces_split name) as (k & En). rewrite En, <- app_assoc, drop_spaces_app.
      assert (D : drop_spaces (drop_spaces name ++ [c_colon] ++ a ++ [c_colon] ++ b) = drop_spaces name ++ [c_colon] ++ a ++ [c_colon] ++ b).
      { clear. induction name as [|x name IH]; auto. cbn [drop_spaces]. destruct (N.eqb_spec x c_sp) as [->|]; auto.
        cbn [app drop_spaces]. destruct (N.eqb_spec x c_sp); congruence. }
      rewrite D. clear D. rewrite !app_assoc. rewrite <- !app_assoc with (n := b). cbn [app].
      replace (((drop_spaces name ++ [c_colon]) ++ a) ++ c_colon :: b) with ((drop_spaces name ++ [c_colon] ++ a) ++ c_colon :: b)
        by (rewrite <- !app_assoc; auto).
      rewrite split_last_app by auto. assert (X : contains_char c_colon (drop_spaces name ++ [c_colon] ++ a) = true).
      { apply contains_In. apply in_or_app. right. left. auto. }
      rewrite X. auto.
    + intros X. apply Hl. repeat (apply in_app_or in X; destruct X as [X|X]); try (destruct X as [X|[]]; discriminate); apply in_or_app; auto;
      right; apply in_or_app; auto.
Qed.
Theorem C45_colon_in_value_refuted : exists name value, no_colon name /\ one_line name /\ one_line value /\
  get_tags (name ++ L ": " ++ value) = [].
Proof. exists (L "url"), (L "https://example.com"). repeat split; vm_compute; intuition discriminate. Qed.
Print Assumptions C45_colon_in_value_refuted.

Theorem C45_no_colon_no_tags : forall s, no_colon s -> get_tags s = [].
Proof.
  intros s H. unfold get_tags. destruct (re_flags s) as [v|] eqn:F.
  - exfalso. apply re_flags_last in F. destruct F as (t & n & -> & I). apply H. apply in_or_app. auto.
  - unfold re_tag_value. destruct (split_last_colon (drop_spaces (last_line s))) as [[a b]|] eqn:E; auto.
    exfalso. assert (X : no_colon (drop_spaces (last_line s))).
    { intros X. apply H. apply In_last_line. apply In_drop. auto. }
    apply split_last_none in X. congruence.
Qed.
Print Assumptions C45_no_colon_no_tags.
