(** Directives, items and the whole journal, read as they were written (SpecJournal). *)
From Coq Require Import Lia.
From Verif Require Import Base BaseFacts Numerals Money Alist Comment Txn Peg Grammar PegFacts Dates Expr Tokens Spec SpecText SpecDates
  SpecTokens TokenFacts SpecJournal JournalRead JournalHeader JournalPrice JournalItems.

Lemma one_line_app a b : one_line a -> one_line b -> one_line (a ++ b).
Proof. intros Ha Hb Hi. apply in_app_or in Hi. destruct Hi; auto. Qed.
Lemma one_line_blanks b : blanks b -> one_line b.
Proof. intros H Hi. apply H in Hi. destruct Hi; congruence. Qed.
Lemma one_line_spaces b : spaces b -> one_line b.
Proof. intros H. apply one_line_blanks, spaces_blanks, H. Qed.

(** ** Lines of directives *)
Definition keyword (w : world) (key : str) : Prop := solid key /\ first_is (fun x => x <> c_semi) key /\ forall x, In x key -> word_char w x.
Ltac key := split; [eexists _, _; split; reflexivity|split; [eexists _, _; split; [reflexivity|discriminate]|
  let x := fresh in let H := fresh in intros x H; cbn in H; intuition (subst; split; [reflexivity|split; [reflexivity|cbn; intuition discriminate]])]].
Lemma setting_read w key v s r t : keyword w key -> setting key v s -> line_at t (s ++ r) ->
  exists t1 c t2 l t3, consume_whitespaces_and_lines t = (Indented, t1) /\ get_char t1 = Some c /\ (c =? c_semi)%N = false /\
    get_string w t1 = (key, t2) /\ get_line t2 = (l, t3) /\ trim l = v /\ line_at t3 r.
Proof.
  intros (Ks & (c & key' & Ek & Hc) & Kw) (g & b1 & b2 & b3 & Hg & H1 & [H2 H2n] & H3 & Hv & Ht & Hn & ->) H. rewrite <- !app_assoc in H.
  destruct (at_line_indented _ _ _ _ _ H Hg H1 Ks) as (t1 & G1 & E1).
  destruct (get_string_word w t1 key (b2 ++ v ++ b3 ++ [c_nl] ++ r) Ks Kw) as (t2 & G2 & E2); auto.
  { apply ends_stopper. destruct b2 as [|x b2]; [congruence|]. apply blanks_cons in H2. exact (proj1 (proj1 H2)). }
  assert (Sv : solid v).
  { destruct v as [|x v]; [congruence|]. exists x, v. split; auto. destruct (is_ws x) eqn:E; auto. exfalso. apply (trimmed_first _ Ht). exists x, v. auto. }
  rewrite dropb_blanks, dropb_solid in E2 by auto. rewrite app_assoc in E2. change ([c_nl] ++ r) with (c_nl :: r) in E2.
  destruct (get_line_spec (v ++ b3) r t2) as (t3 & G3 & E3 & E4); auto. { apply one_line_app; auto. apply one_line_blanks. auto. }
  exists t1, c, t2, (v ++ b3), t3. split; [auto|]. split; [unfold get_char; rewrite E1, Ek; auto|]. split; [apply N.eqb_neq; auto|].
  split; [auto|]. split; [auto|]. split; [apply trim_blanks; auto|left; auto].
Qed.
Lemma flag_read w key s r t : keyword w key -> flag_setting key s -> line_at t (s ++ r) ->
  exists t1 c t2, consume_whitespaces_and_lines t = (Indented, t1) /\ get_char t1 = Some c /\ (c =? c_semi)%N = false /\
    get_string w t1 = (key, t2) /\ line_at t2 r.
Proof.
  intros (Ks & (c & key' & Ek & Hc) & Kw) (g & b1 & b2 & Hg & H1 & H2 & ->) H. rewrite <- !app_assoc in H.
  destruct (at_line_indented _ _ _ _ _ H Hg H1 Ks) as (t1 & G1 & E1).
  destruct (get_string_word w t1 key (b2 ++ [c_nl] ++ r) Ks Kw) as (t2 & G2 & E2); auto.
  { apply ends_stopper. destruct b2 as [|x b2]; [reflexivity|]. apply blanks_cons in H2. exact (proj1 (proj1 H2)). }
  rewrite dropb_blanks in E2 by auto. change (dropb ([c_nl] ++ r)) with (c_nl :: r) in E2.
  exists t1, c, t2. split; [auto|]. split; [unfold get_char; rewrite E1, Ek; auto|]. split; [apply N.eqb_neq; auto|]. split; [auto|right; auto].
Qed.
Lemma remark_read s r t : remark s -> line_at t (s ++ r) ->
  exists t1, consume_whitespaces_and_lines t = (Indented, t1) /\ get_char t1 = Some c_semi /\
    (exists l t2, get_line t1 = (l, t2) /\ line_at t2 r) /\ (exists l t2, parse_comment t1 = (l, t2) /\ line_at t2 r).
Proof.
  intros (c & Hc) H. inversion Hc as [|g b c0 s0 cs r0 Hg Hb Ht Hr E1 E2]. subst c0 cs s. inversion Hr. subst r0. rewrite <- !app_assoc in H.
  destruct (comment_first _ _ Ht) as (x & y & Ex & ->). 
  destruct (at_line_indented _ _ _ _ _ H Hg Hb) as (t1 & G1 & X1). { exists c_semi, y. auto. }
  exists t1. split; [auto|]. split; [unfold get_char; rewrite X1, Ex; reflexivity|]. cbn [app] in X1.
  split.
  - destruct (get_line_spec s0 r t1) as (t2 & G2 & A & B); auto.
    { destruct Ht as (b0 & -> & Hb0 & Hl & _). apply one_line_app; [intros [Z|[]]; discriminate|]. apply one_line_app; auto. apply one_line_blanks. auto. }
    exists s0, t2. split; [auto|left; auto].
  - destruct (comment_read _ _ _ _ Ht X1) as (t2 & G2 & A & B). exists c, t2. split; [auto|left; auto].
Qed.
Lemma setting_long key v s : setting key v s -> (0 < length s)%nat.
Proof. intros (g & b1 & b2 & b3 & _ & _ & _ & _ & _ & _ & _ & ->). rewrite !app_length. cbn. lia. Qed.
Lemma flag_long key s : flag_setting key s -> (0 < length s)%nat.
Proof. intros (g & b1 & b2 & _ & _ & _ & ->). rewrite !app_length. cbn. lia. Qed.
Lemma remark_long s : remark s -> (0 < length s)%nat.
Proof. intros (c & H). inversion H. subst. rewrite !app_length. cbn. lia. Qed.

(** A loop over settings, given that each of them is passed over as it says. *)
Lemma settings_read {A} (st : A -> A -> str -> Prop) (loop : nat -> A -> tok -> res (A * tok)) :
  (forall f a t r, line_at t r -> margin r -> exists t1, loop (S f) a t = Ok (a, t1) /\ ready t1 r) ->
  (forall f a b s r t, st a b s -> line_at t (s ++ r) -> exists t', loop (S f) a t = loop f b t' /\ line_at t' r) ->
  (forall a b s, st a b s -> (0 < length s)%nat) ->
  forall a b s, settings st a b s -> forall f r t, line_at t (s ++ r) -> margin r -> (length s < f)%nat ->
    exists t', loop f a t = Ok (b, t') /\ ready t' r.
Proof.
  intros H1 H2 H3 a b s H. induction H as [a|a b c s r0 Hs Hr IH]; intros f r t Ht Hm Hf.
  - destruct f as [|f]; [cbn in Hf; lia|]. apply H1; auto.
  - destruct f as [|f]; [lia|]. rewrite <- app_assoc in Ht. destruct (H2 f a b s (r0 ++ r) t Hs Ht) as (t' & -> & Ht').
    apply IH; auto. rewrite app_length in Hf. pose proof (H3 _ _ _ Hs). lia.
Qed.
Lemma sadd_new v l : ~ In v l -> sadd str_eqb v l = l ++ [v].
Proof.
  intros H. unfold sadd. destruct (existsb (str_eqb v) l) eqn:E; auto. apply existsb_exists in E. destruct E as (x & Hx & E).
  destruct (str_eqb_spec v x); [subst; tauto|discriminate].
Qed.
Lemma keywords w key : In key [L "note"; L "isin"; L "alias"; L "check"; L "assert"; L "payee"; L "default"; L "format"] -> keyword w key.
Proof. intros H. cbn [In] in H. decompose [or] H; try contradiction; subst key; key. Qed.
Ltac by_setting w Hs H := match type of Hs with setting ?k _ _ =>
  let K := fresh in assert (K : keyword w k) by (apply keywords; cbn; auto 20); destruct (setting_read w _ _ _ _ _ K Hs H) as (t1 & c & t2 & l & t3 & G1 & G2 & G3 & G4 & G5 & G6 & G7);
  exists t3; split; [|exact G7]; rewrite G1, G2, G3, G4, ?G5, ?G6 end.
Ltac by_flag w Hs H := match type of Hs with flag_setting ?k _ =>
  let K := fresh in assert (K : keyword w k) by (apply keywords; cbn; auto 20); destruct (flag_read w _ _ _ _ K Hs H) as (t1 & c & t2 & G1 & G2 & G3 & G4 & G5);
  exists t2; split; [|exact G5]; rewrite G1, G2, G3, G4 end.
Lemma account_step w f a b s r t : account_setting w a b s -> line_at t (s ++ r) -> exists t', account_loop (S f) w a t = account_loop f w b t' /\ line_at t' r.
Proof.
  intros Hs H. cbn [account_loop]. destruct Hs as [v s Hs|v s Hs|v s Hs Hn|v s Hs|v s Hs|v s Hs Hx|s Hs|s Hs].
  - by_setting w Hs H. reflexivity.
  - by_setting w Hs H. reflexivity.
  - by_setting w Hs H. rewrite sadd_new by auto. reflexivity.
  - by_setting w Hs H. reflexivity.
  - by_setting w Hs H. reflexivity.
  - by_setting w Hs H. rewrite Hx. reflexivity.
  - by_flag w Hs H. destruct (get_line t2). reflexivity.
  - destruct (remark_read _ _ _ Hs H) as (t1 & G1 & G2 & (l & t2 & G3 & G4) & _). exists t2. split; auto. rewrite G1, G2, G3. reflexivity.
Qed.
Lemma commodity_step w f a b s r t : commodity_setting a b s -> line_at t (s ++ r) -> exists t', commodity_loop (S f) w a t = commodity_loop f w b t' /\ line_at t' r.
Proof.
  intros Hs H. cbn [commodity_loop]. destruct Hs as [v s Hs|v s Hs Hn|v s Hs|s Hs|s Hs].
  - by_setting w Hs H. reflexivity.
  - by_setting w Hs H. rewrite sadd_new by auto. reflexivity.
  - by_setting w Hs H. reflexivity.
  - by_flag w Hs H. destruct (get_line t2). reflexivity.
  - destruct (remark_read _ _ _ Hs H) as (t1 & G1 & G2 & _ & (l & t2 & G3 & G4)). exists t2. split; auto. rewrite G1, G2, G3. reflexivity.
Qed.
Lemma payee_step w f a b s r t : payee_setting w a b s -> line_at t (s ++ r) -> exists t', payee_loop (S f) w a t = payee_loop f w b t' /\ line_at t' r.
Proof.
  intros Hs H. cbn [payee_loop]. destruct Hs as [v s Hs Hn Hx|s Hs].
  - by_setting w Hs H. cbn [str_eqb]. rewrite ?G5, ?G6. rewrite sadd_new by auto. reflexivity.
  - destruct (remark_read _ _ _ Hs H) as (t1 & G1 & G2 & _ & (l & t2 & G3 & G4)). exists t2. split; auto. rewrite G1, G2, G3. reflexivity.
Qed.
Lemma tag_step w f a b s r t : tag_setting a b s -> line_at t (s ++ r) -> exists t', tag_loop (S f) w a t = tag_loop f w b t' /\ line_at t' r.
Proof.
  intros Hs H. cbn [tag_loop]. destruct Hs as [v s Hs|v s Hs]; by_setting w Hs H; reflexivity.
Qed.

(** ** Items *)
Lemma day_line n d : day_written n d -> one_line d.
Proof.
  intros (y & m & dd & (ty & tm & td & a & -> & Hy & _ & _ & (Hm & _) & (Hdd & _) & Ha) & _).
  assert (Dg : forall t, only_digits t -> one_line t). { intros t Ht Hi. apply Ht in Hi. unfold c_nl in Hi. lia. }
  assert (Hal : one_line [a]). { intros [Hi|[]]. subst a. cbn in Ha. intuition discriminate. }
  apply one_line_app; [apply Dg; auto|]. change (a :: tm ++ a :: td) with ([a] ++ tm ++ [a] ++ td). repeat apply one_line_app; auto.
Qed.
Lemma header_line date edate desc pay cm s : header_written date edate desc pay cm s -> one_line s.
Proof.
  intros (d & e & b & st & co & b2 & pa & ct & -> & Hd & He & Hb & Hst & Hco & (Hf & _) & Hb2 & Hpa & Hct).
  assert (F : forall x, free_text x -> one_line x). { intros x [Hx _] Hi. apply Hx in Hi. tauto. }
  assert (One : forall c, c <> c_nl -> one_line [c]). { intros c Hc [Hi|[]]. congruence. }
  apply one_line_app; [eapply day_line; eauto|]. apply one_line_app.
  { destruct edate; cbn [effective_written] in He; [destruct He as (d2 & Hd2 & ->)|subst; intros []]. apply one_line_app; [apply One; discriminate|eapply day_line; eauto]. }
  apply one_line_app; [apply one_line_spaces, Hb|]. apply one_line_app.
  { destruct Hst as [->|(m & b3 & Hm & Hb3 & ->)]; [intros []|]. apply (one_line_app [m]); [apply One; intros ->; cbn in Hm; intuition discriminate|apply one_line_spaces; auto]. }
  apply one_line_app.
  { destruct Hco as [->|(x & b3 & Hx & _ & _ & Hb3 & ->)]; [intros []|]. apply one_line_app; [intros Z; cbn in Z; intuition discriminate|].
    apply one_line_app; auto. apply one_line_app; [intros Z; cbn in Z; intuition discriminate|apply one_line_spaces; auto]. }
  apply one_line_app; auto. apply one_line_app; [apply one_line_spaces; auto|]. apply one_line_app.
  { destruct pay; cbn [payee_written] in Hpa; [destruct Hpa as (b3 & b4 & Hx & _ & H3 & H4 & ->)|subst; intros []].
    apply one_line_app; [apply One; discriminate|]. apply one_line_app; [apply one_line_spaces; auto|]. apply one_line_app; [auto|apply one_line_spaces; auto]. }
  destruct cm; cbn in Hct; [destruct Hct as (H & -> & _); auto|subst; intros []].
Qed.
Lemma transaction_read w x s r t : blanks_not_numeric w -> transaction_written w x s -> margin r -> tk_rest t = s ++ r ->
  exists t', parse_transaction w t = Ok (x, t') /\ ready t' r.
Proof.
  intros Hw [date edate desc pay cm cs ps h c p Hh Hc Hp] Hm E. rewrite <- app_assoc in E. cbn [app] in E. rewrite <- app_assoc in E.
  destruct (get_line_spec _ _ _ (header_line _ _ _ _ _ _ Hh) E) as (t1 & G & E1 & E2). unfold parse_transaction. rewrite G, (header_read _ _ _ _ _ _ Hh).
  cbn [bind h_payee h_comment h_date h_edate h_desc].
  destruct (entries_read w TReal (Some (payee_of desc pay)) cs ps (opt_list cm) c p r t1 Hw Hc Hp Hm E1 E2) as (t2 & G2 & R2).
  change (match cm with Some c0 => [c0] | None => [] end) with (opt_list cm). rewrite G2. cbn [bind]. eauto.
Qed.
Lemma automated_read w x s r t : blanks_not_numeric w -> automated_written w x s -> margin r -> tk_rest t = s ++ r ->
  exists t', parse_automated w t = Ok (x, t') /\ ready t' r.
Proof.
  intros Hw [query cs ps c p Hq Hc Hp] Hm E. rewrite <- !app_assoc in E. cbn [app] in E. rewrite <- app_assoc in E.
  change (L "=" ++ query ++ c_nl :: c ++ p ++ r) with ((c_eq :: query) ++ c_nl :: c ++ p ++ r) in E.
  destruct (get_line_spec (c_eq :: query) (c ++ p ++ r) t) as (t1 & G & E1 & E2); auto. { apply (one_line_app [c_eq]); auto. intros [Z|[]]; discriminate. }
  unfold parse_automated. rewrite G. cbn [after_char]. rewrite N.eqb_refl. cbn [unwrap bind].
  destruct (entries_read w TAutomated None cs ps [] c p r t1 Hw Hc Hp Hm E1 E2) as (t2 & G2 & R2). rewrite G2. cbn [bind app]. eauto.
Qed.
Lemma starts_with_app k s : starts_with k (k ++ s) = true.
Proof. induction k as [|c k IH]; cbn; auto. rewrite N.eqb_refl. auto. Qed.
Lemma skipn_pre {A} (k s : list A) : skipn (length k) (k ++ s) = s.
Proof. induction k; cbn; auto. Qed.
Lemma drop_spaces_pre b x : spaces b -> ~ first_is (fun c => c = c_sp) x -> drop_spaces (b ++ x) = x.
Proof.
  intros Hb Hx. induction b as [|c b IH]; cbn [app].
  - destruct x as [|c x]; auto. cbn. destruct (N.eqb_spec c c_sp); auto. subst. exfalso. apply Hx. exists c_sp, x. auto.
  - apply spaces_tl in Hb. destruct Hb as [-> Hb]. cbn. auto.
Qed.
Lemma directive_name kw b x : spaces1 b -> ~ first_is (fun c => c = c_sp) x -> re_directive kw (kw ++ b ++ x) = Some x.
Proof.
  intros [Hb Hn] Hx. destruct b as [|c b]; [congruence|]. apply spaces_tl in Hb. destruct Hb as [-> Hb].
  assert (E : re_directive kw (kw ++ (c_sp :: b) ++ x) =
    match (if starts_with kw (kw ++ (c_sp :: b) ++ x) then
           match skipn (length kw) (kw ++ (c_sp :: b) ++ x) with
           | c :: r => if (c =? c_sp)%N then Some (drop_spaces r) else None
           | [] => None
           end
         else None) with
  | Some x => Some x
  | None => match kw ++ (c_sp :: b) ++ x with [] => None | _ :: r => re_directive kw r end
  end) by (destruct (kw ++ (c_sp :: b) ++ x); reflexivity).
  rewrite E, starts_with_app, skipn_pre. cbn [app]. rewrite N.eqb_refl, drop_spaces_pre by auto. reflexivity.
Qed.
Lemma bare_first n r : bare_name n -> ~ first_is (fun c => c = c_sp) (n ++ r).
Proof.
  intros (Hn & _ & Ht) (c & x & E & ->). destruct n as [|y n]; [congruence|]. inversion E. subst. apply (trimmed_first _ Ht). eexists c_sp, n. auto.
Qed.
Lemma payees_ok w al al' s : settings (payee_setting w) al al' s -> forallb (w_rx_ok w) al = true -> forallb (w_rx_ok w) al' = true.
Proof.
  induction 1 as [|a b c s r Hs Hr IH]; auto. intros Ha. apply IH. destruct Hs as [v s _ _ Hx|]; auto. rewrite forallb_app, Ha. cbn. rewrite Hx. auto.
Qed.
Lemma loop_fuel s r t : tk_rest t = s ++ r -> (length s < entries_fuel t)%nat.
Proof. intros H. unfold entries_fuel. rewrite H, app_length. lia. Qed.
Lemma account_read w n a b1 b2 s r t : bare_name n -> spaces1 b1 -> blanks b2 -> settings (account_setting w) (account_named n) a s -> margin r ->
  tk_rest t = (L "account" ++ b1 ++ n ++ b2 ++ c_nl :: s) ++ r -> exists t', parse_account w t = Ok (a, t') /\ ready t' r.
Proof.
  intros Hn H1 H2 Hs Hm E. rewrite <- !app_assoc in E. cbn [app] in E.
  assert (E' : tk_rest t = (L "account" ++ b1 ++ n ++ b2) ++ c_nl :: s ++ r) by (rewrite E, <- !app_assoc; reflexivity).
  destruct (get_line_spec _ _ _ ltac:(assert (one_line (L "account" ++ b1 ++ n ++ b2)) by
    (apply one_line_app; [intros Z; cbn in Z; intuition discriminate|]; apply one_line_app; [apply one_line_spaces, H1|];
     apply one_line_app; [apply Hn|apply one_line_blanks; auto]); eassumption) E') as (t1 & G & E1 & E2).
  unfold parse_account. rewrite G, directive_name by (auto; apply bare_first; auto). cbn [unwrap bind]. rewrite trim_blanks by (auto; apply Hn).
  apply (settings_read (account_setting w) (fun f => account_loop f w)) with (s := s); auto.
  - intros f a0 t0 r0 Ht Hr. destruct (at_line_margin _ _ Ht Hr) as (t2 & G2 & R2 & _). exists t2. cbn [account_loop]. rewrite G2. auto.
  - intros. apply account_step with (s := s0); auto.
  - intros a0 b0 s0 [v x Hx|v x Hx|v x Hx _|v x Hx|v x Hx|v x Hx _|x Hx|x Hx];
      first [eapply setting_long; eauto; fail|eapply flag_long; eauto; fail|eapply remark_long; eauto; fail].
  - left. auto.
  - eapply loop_fuel; eauto.
Qed.
Lemma commodity_item_read w n nt a b1 b2 cm s r t : price_commodity n nt -> trim n = n -> spaces1 b1 -> spaces b2 ->
  (cm = [] \/ first_is (fun x => x = c_semi) cm) -> one_line cm -> settings commodity_setting (commodity_named n) a s -> margin r ->
  tk_rest t = (L "commodity" ++ b1 ++ nt ++ b2 ++ cm ++ c_nl :: s) ++ r -> exists t', parse_commodity w t = Ok (a, t') /\ ready t' r.
Proof.
  intros Hn Htn H1 H2 Hcm Hl Hs Hm E. rewrite <- !app_assoc in E. cbn [app] in E.
  assert (E' : tk_rest t = (L "commodity" ++ b1 ++ nt ++ b2 ++ cm) ++ c_nl :: s ++ r) by (rewrite E, <- !app_assoc; reflexivity).
  assert (Hnl : one_line nt).
  { destruct Hn as [Hf Hx|Hx Hy Hz]; [intros Hi; apply Hx in Hi; destruct Hi as (_ & _ & Hi); congruence|].
    apply one_line_app; [intros [Z|[]]; discriminate|]. apply one_line_app; auto. intros [Z|[]]; discriminate. }
  destruct (get_line_spec _ _ _ ltac:(assert (one_line (L "commodity" ++ b1 ++ nt ++ b2 ++ cm)) by
    (apply one_line_app; [intros Z; cbn in Z; intuition discriminate|]; apply one_line_app; [apply one_line_spaces, H1|];
     apply one_line_app; [auto|]; apply one_line_app; [apply one_line_spaces; auto|auto]); eassumption) E') as (t1 & G & E1 & E2).
  destruct (commodity_line_read n nt b1 b2 cm Hn H1 H2 Hcm) as (q & c & ks & G0 & P0).
  unfold parse_commodity. rewrite G, G0. cbn [unwrap bind pnext p_kids]. rewrite P0. cbn [bind]. rewrite Htn.
  apply (settings_read commodity_setting (fun f => commodity_loop f w)) with (s := s); auto.
  - intros f a0 t0 r0 Ht Hr. destruct (at_line_margin _ _ Ht Hr) as (t2 & G2 & R2 & _). exists t2. cbn [commodity_loop]. rewrite G2. auto.
  - intros. apply commodity_step with (s := s0); auto.
  - intros a0 b0 s0 [v x Hx|v x Hx _|v x Hx|x Hx|x Hx];
      first [eapply setting_long; eauto; fail|eapply flag_long; eauto; fail|eapply remark_long; eauto; fail].
  - left. auto.
  - eapply loop_fuel; eauto.
Qed.
Lemma payee_read w n al b1 s r t : bare_name n -> spaces1 b1 -> settings (payee_setting w) [] al s -> margin r ->
  tk_rest t = (L "payee" ++ b1 ++ n ++ c_nl :: s) ++ r -> exists t', parse_payee w t = Ok (payee_named n al, t') /\ ready t' r.
Proof.
  intros Hn H1 Hs Hm E. rewrite <- !app_assoc in E. cbn [app] in E.
  assert (E' : tk_rest t = (L "payee" ++ b1 ++ n) ++ c_nl :: s ++ r) by (rewrite E, <- !app_assoc; reflexivity).
  destruct (get_line_spec _ _ _ ltac:(assert (one_line (L "payee" ++ b1 ++ n)) by
    (apply one_line_app; [intros Z; cbn in Z; intuition discriminate|]; apply one_line_app; [apply one_line_spaces, H1|apply Hn]); eassumption) E') as (t1 & G & E1 & E2).
  pose proof (bare_first n [] Hn) as Bf. rewrite app_nil_r in Bf.
  unfold parse_payee. rewrite G, directive_name by auto. cbn [unwrap bind].
  destruct (settings_read (payee_setting w) (fun f => payee_loop f w)) with (a := @nil str) (b := al) (s := s) (f := entries_fuel t1) (r := r) (t := t1) as (t2 & G2 & R2); auto.
  - intros f a0 t0 r0 Ht Hr. destruct (at_line_margin _ _ Ht Hr) as (t2 & G2 & R2 & _). exists t2. cbn [payee_loop]. rewrite G2. auto.
  - intros. apply payee_step with (s := s0); auto.
  - intros a0 b0 s0 [v x Hx _ _|x Hx]; [eapply setting_long; eauto|eapply remark_long; eauto].
  - left. auto.
  - eapply loop_fuel; eauto.
  - exists t2. rewrite G2. cbn [bind]. rewrite (payees_ok _ _ _ _ Hs eq_refl). auto.
Qed.
Lemma tag_read w n a b1 b2 s r t : bare_name n -> spaces1 b1 -> blanks b2 -> settings tag_setting (tag_named n) a s -> margin r ->
  tk_rest t = (L "tag" ++ b1 ++ n ++ b2 ++ c_nl :: s) ++ r -> exists t', parse_tag w t = Ok (a, t') /\ ready t' r.
Proof.
  intros Hn H1 H2 Hs Hm E. rewrite <- !app_assoc in E. cbn [app] in E.
  assert (E' : tk_rest t = (L "tag" ++ b1 ++ n ++ b2) ++ c_nl :: s ++ r) by (rewrite E, <- !app_assoc; reflexivity).
  destruct (get_line_spec _ _ _ ltac:(assert (one_line (L "tag" ++ b1 ++ n ++ b2)) by
    (apply one_line_app; [intros Z; cbn in Z; intuition discriminate|]; apply one_line_app; [apply one_line_spaces, H1|];
     apply one_line_app; [apply Hn|apply one_line_blanks; auto]); eassumption) E') as (t1 & G & E1 & E2).
  unfold parse_tag. rewrite G, directive_name by (auto; apply bare_first; auto). cbn [unwrap bind]. rewrite trim_blanks by (auto; apply Hn).
  apply (settings_read tag_setting (fun f => tag_loop f w)) with (s := s); auto.
  - intros f a0 t0 r0 Ht Hr. destruct (at_line_margin _ _ Ht Hr) as (t2 & G2 & R2 & _). exists t2. cbn [tag_loop]. rewrite G2. auto.
  - intros. apply tag_step with (s := s0); auto.
  - intros a0 b0 s0 [v x Hx|v x Hx]; eapply setting_long; eauto.
  - left. auto.
  - eapply loop_fuel; eauto.
Qed.
Lemma ready_rest t r : tk_rest t = r -> tk_col t = O -> ready t r.
Proof. intros. split; auto. Qed.
Lemma item_solid w l l1 s : item_written w l l1 s -> solid s.
Proof.
  intros [x s' H|x s' H|x s' H|m b c H|n a b1 b2 s' _ _ _ _|n nt a b1 b2 cm s' _ _ _ _ _ _ _|n al b1 s' _ _ _|n a b1 b2 s' _ _ _ _].
  - destruct H as [date edate desc pay cm cs ps h c p (d & e & b & st & co & b2 & pa & ct & -> & Hd & _) _ _].
    destruct (day_first _ _ Hd) as (x & y & -> & Hx). eexists _, _. split; [reflexivity|].
    assert (X : (x = 48 \/ x = 49 \/ x = 50 \/ x = 51 \/ x = 52 \/ x = 53 \/ x = 54 \/ x = 55 \/ x = 56 \/ x = 57)%N) by lia.
    decompose [or] X; subst; reflexivity.
  - destruct H. eexists _, _. split; reflexivity.
  - destruct H. eexists _, _. split; reflexivity.
  - eexists _, _. split; [reflexivity|]. cbn in H. decompose [or] H; subst; try reflexivity. contradiction.
  - eexists _, _. split; reflexivity.
  - eexists _, _. split; reflexivity.
  - eexists _, _. split; reflexivity.
  - eexists _, _. split; reflexivity.
Qed.
Lemma digit_char w x : (48 <= x <= 57)%N -> is_comment_char x = false /\ is_numeric w x = true.
Proof.
  intros Hx. assert (X : (x = 48 \/ x = 49 \/ x = 50 \/ x = 51 \/ x = 52 \/ x = 53 \/ x = 54 \/ x = 55 \/ x = 56 \/ x = 57)%N) by lia.
  decompose [or] X; subst; split; reflexivity.
Qed.
Lemma item_read inc w l l1 s r t : blanks_not_numeric w -> item_written w l l1 s -> margin r -> tk_rest t = s ++ r ->
  exists c t', get_char t = Some c /\ item inc w c l t = Ok (l1, t') /\ ready t' r.
Proof.
  intros Hw H Hm E. destruct H as [x s' H|x s' H|x s' H|m b c H Hb Hl Hf|n a b1 b2 s' Hn H1 H2 Hs|n nt a b1 b2 cm s' Hn Ht H1 H2 Hcm Hl Hs|n al b1 s' Hn H1 Hs|n a b1 b2 s' Hn H1 H2 Hs].
  - destruct (transaction_read w x s' r t Hw H Hm E) as (t' & G & R). pose proof H as H0.
    destruct H0 as [date edate desc pay cm cs ps h c p (d & e & b & st & co & b2 & pa & ct & -> & Hd & _) _ _].
    destruct (day_first _ _ Hd) as (x0 & y & -> & Hx). exists x0, t'. split; [unfold get_char; rewrite E; reflexivity|]. split; auto.
    destruct (digit_char w x0 Hx) as [D1 D2]. unfold item. rewrite D1, D2, G. reflexivity.
  - destruct (automated_read w x s' r t Hw H Hm E) as (t' & G & R). exists c_eq, t'. split; [|split; auto; unfold item; cbn -[parse_automated]; rewrite G; reflexivity].
    destruct H. unfold get_char. rewrite E. reflexivity.
  - destruct (price_read x s' r t H E) as (t' & G & R1 & R2). exists 80%N, t'. split; [|split; [unfold item; cbn -[parse_price]; rewrite G; reflexivity|apply ready_rest; auto]].
    destruct H. unfold get_char. rewrite E. reflexivity.
  - exists m. rewrite <- !app_assoc in E. change ([c_nl] ++ r) with (c_nl :: r) in E. cbn [app] in E.
    assert (D : is_comment_char m = true) by (cbn in H; decompose [or] H; try contradiction; subst; reflexivity).
    destruct (get_line_spec c r (consume_whitespaces (adv t)) Hl) as (t' & G & R1 & R2).
    { rewrite cw_rest, (adv_rest _ _ _ E), dropb_blanks by auto. destruct c as [|y c]; [apply dropb_nl|]. apply dropb_solid. exists y, c. split; auto.
      destruct (is_ws y) eqn:Ey; auto. exfalso. apply Hf. exists y, c. auto. }
    exists t'. split; [unfold get_char; rewrite E; reflexivity|]. unfold item. rewrite D. unfold parse_comment. rewrite G. split; [reflexivity|apply ready_rest; auto].
  - destruct (account_read w n a b1 b2 s' r t Hn H1 H2 Hs Hm E) as (t' & G & R). exists 97%N, t'.
    split; [unfold get_char; rewrite E; reflexivity|split; auto; unfold item; cbn -[parse_account]; rewrite G; reflexivity].
  - destruct (commodity_item_read w n nt a b1 b2 cm s' r t Hn Ht H1 H2 Hcm Hl Hs Hm E) as (t' & G & R). exists 99%N, t'.
    split; [unfold get_char; rewrite E; reflexivity|split; auto; unfold item; cbn -[parse_commodity]; rewrite G; reflexivity].
  - destruct (payee_read w n al b1 s' r t Hn H1 Hs Hm E) as (t' & G & R). exists 112%N, t'.
    split; [unfold get_char; rewrite E; reflexivity|split; auto; unfold item; cbn -[parse_payee]; rewrite G; reflexivity].
  - destruct (tag_read w n a b1 b2 s' r t Hn H1 H2 Hs Hm E) as (t' & G & R). exists 116%N, t'.
    split; [unfold get_char; rewrite E; reflexivity|split; auto; unfold item; cbn -[parse_tag]; rewrite G; reflexivity].
Qed.

(** ** The journal *)
Lemma journal_margin w l l' s : journal_written w l l' s -> margin s.
Proof.
  destruct 1 as [l g b Hg Hb|l g l1 s l2 r Hg Hi Hj].
  - exists g, b. auto.
  - exists g, (s ++ r). split; auto. split; auto. right. destruct (item_solid _ _ _ _ Hi) as (c & x & -> & H). exists c, (x ++ r). auto.
Qed.
Lemma trim_start_blank b : blanks b -> trim_start b = [].
Proof. intros H. rewrite <- (app_nil_r b), trim_start_blanks by auto. reflexivity. Qed.
Lemma trim_start_twice s : trim_start (trim_start s) = trim_start s.
Proof. induction s as [|c s IH]; cbn; auto. destruct (is_ws c) eqn:E; auto. cbn. rewrite E. auto. Qed.
Lemma trim_start_cons s c x : trim_start s = c :: x -> is_ws c = false.
Proof. induction s as [|y s IH]; cbn; [discriminate|]. destruct (is_ws y) eqn:E; auto. intros H. inversion H. subst. auto. Qed.
Lemma margin_trim r : margin r -> margin (trim_start r).
Proof.
  intros _. exists [], (trim_start r). split; [reflexivity|]. split; [constructor|].
  destruct (trim_start r) as [|c x] eqn:E; [left; intros z []|right]. exists c, x. split; auto. eapply trim_start_cons; eauto.
Qed.
Lemma main_read inc w l l' s : blanks_not_numeric w -> journal_written w l l' s ->
  forall f t, ready t s -> (length (tk_rest t) < f)%nat -> main_loop f inc w l t = Ok l'.
Proof.
  intros Hw H. induction H as [l g b Hg Hb|l g l1 s l2 r Hg Hi Hj IH]; intros f t [Hr Hc] Hf.
  - assert (Et : trim_start (tk_rest t) = []).
    { destruct Hr as [-> | ->]; rewrite ?trim_start_twice, trim_start_lines by auto; apply trim_start_blank; auto. }
    destruct f as [|f]; [lia|]. cbn [main_loop]. destruct (tk_rest t) as [|c x] eqn:E; auto. destruct Hc as [Hc|Hc]; [discriminate|].
    assert (Hm : margin (tk_rest t)).
    { destruct Hr as [Hr|Hr]; [rewrite E, Hr; exists g, b; auto|]. rewrite E, Hr. apply margin_trim. exists g, b. auto. }
    destruct (at_line_margin t (tk_rest t)) as (t1 & G & _ & E1); [left; auto|auto|]. rewrite G. unfold get_char. rewrite E1, E, Et.
    destruct f as [|f]; [cbn in Hf; lia|]. cbn [main_loop]. rewrite E1, E, Et. reflexivity.
  - assert (Hs := item_solid _ _ _ _ Hi). assert (Et : trim_start (tk_rest t) = s ++ r).
    { destruct Hr as [-> | ->]; rewrite ?trim_start_twice, trim_start_lines by auto; apply trim_start_solid; auto. }
    destruct f as [|f]; [lia|]. cbn [main_loop]. destruct (tk_rest t) as [|c x] eqn:E.
    { destruct Hs as (c & x & -> & _). discriminate. }
    destruct Hc as [Hc|Hc]; [discriminate|].
    assert (Hsr : solid (s ++ r)) by (destruct Hs as (c0 & x0 & -> & H0); exists c0, (x0 ++ r); auto).
    assert (Hm : margin (tk_rest t)).
    { destruct Hr as [Hr|Hr]; [rewrite E, Hr; exists g, (s ++ r); auto|]. rewrite E, Hr. apply margin_trim. exists g, (s ++ r). auto. }
    destruct (at_line_margin t (tk_rest t)) as (t1 & G & _ & E1); [left; auto|auto|]. rewrite G. rewrite E, Et in E1.
    destruct (item_read inc w l l1 s r t1 Hw Hi (journal_margin _ _ _ _ Hj) E1) as (c1 & t2 & G1 & G2 & R2).
    rewrite G1, G2. cbn [bind]. apply IH; auto.
    assert (L1 : (length (tk_rest t2) <= length r)%nat). { destruct R2 as [[-> | ->] _]; auto. apply trim_start_length. }
    assert (L2 : (length (s ++ r) <= length (c :: x))%nat). { rewrite <- Et. apply trim_start_length. }
    rewrite app_length in L2. destruct Hs as (c0 & x0 & -> & _). cbn [length] in L2, Hf. lia.
Qed.
