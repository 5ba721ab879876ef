(** Reading the items of a journal: transactions, directives; the whole journal. *)
From Coq Require Import Lia.
From Verif Require Import Base BaseFacts Numerals Money Alist Comment Txn Peg Grammar PegFacts Dates Expr Tokens Spec SpecText SpecDates
  SpecTokens TokenFacts LiteralFacts PropLiteral PostingFacts SpecExpr ExprFacts DateFacts SpecJournal JournalRead.

(** ** The lines of a transaction *)
Lemma comment_lines_fuel cs s : comment_lines cs s -> (length cs <= length s)%nat.
Proof. induction 1 as [|g b c s cs r Hg Hb Hc H IH]; cbn; auto. rewrite !app_length. cbn. lia. Qed.
Lemma posting_line_solid w p cs s : SpecJournal.posting_line w p cs s ->
  first_is (fun c => is_ws c = false /\ c <> c_semi /\ is_numeric w c = false) s.
Proof.
  intros (acc & Hp & Hf & (c & r & -> & Hc) & H).
  assert (W : is_ws c = false).
  { clear H. remember (c :: r) as acc eqn:Ea. destruct Hf as [c0 r0 E _ _ _| |].
    - destruct Hp as (_ & _ & _ & _ & Hp & _). apply (Hp c r). auto.
    - inversion Ea. reflexivity.
    - inversion Ea. reflexivity. }
  destruct H as [(-> & _)|(sep & b & d & -> & _)]; eexists c, _; (split; [reflexivity|auto]).
Qed.
Lemma comment_solid c s : comment_text c s -> solid s.
Proof. intros H. destruct (comment_first _ _ H) as (x & r & -> & ->). eexists c_semi, r. auto. Qed.
Lemma add_last_app c ps p : add_comment_last c (ps ++ [p]) = Ok (ps ++ [add_comment c p]).
Proof. unfold add_comment_last. rewrite rev_app_distr. cbn. rewrite rev_involutive. auto. Qed.
Lemma entries_comments w ty pay cms ps cs s : comment_lines cs s -> forall p r t f, line_at t (s ++ r) ->
  exists t', entries (length cs + f) w ty pay true cms (ps ++ [p]) t = entries f w ty pay true cms (ps ++ [add_all cs p]) t' /\ line_at t' r.
Proof.
  induction 1 as [|g b c s cs r0 Hg Hb Hc H IH]; intros p r t f Ht; [exists t; auto|]. cbn [length Nat.add entries].
  rewrite <- !app_assoc in Ht. cbn [app] in Ht. destruct (at_line_indented t g b s _ Ht Hg Hb (comment_solid _ _ Hc)) as (t1 & -> & E).
  destruct (comment_read c s (r0 ++ r) t1 Hc E) as (t2 & G & E2 & E3). destruct (comment_first _ _ Hc) as (x & u & -> & ->).
  unfold get_char. rewrite E. cbn [app]. change (c_semi =? c_semi)%N with true. cbn iota. rewrite G, add_last_app. cbn [bind].
  destruct (IH (add_comment c p) r t2 f) as (t3 & -> & A); [left; auto|]. exists t3. auto.
Qed.
Lemma entries_heading w ty pay ps cs s : comment_lines cs s -> forall cms r t f, line_at t (s ++ r) ->
  exists t', entries (length cs + f) w ty pay false cms ps t = entries f w ty pay false (cms ++ cs) ps t' /\ line_at t' r.
Proof.
  induction 1 as [|g b c s cs r0 Hg Hb Hc H IH]; intros cms r t f Ht; [exists t; rewrite app_nil_r; auto|]. cbn [length Nat.add entries].
  rewrite <- !app_assoc in Ht. cbn [app] in Ht. destruct (at_line_indented t g b s _ Ht Hg Hb (comment_solid _ _ Hc)) as (t1 & -> & E).
  destruct (comment_read c s (r0 ++ r) t1 Hc E) as (t2 & G & E2 & E3). destruct (comment_first _ _ Hc) as (x & u & -> & ->).
  unfold get_char. rewrite E. cbn [app]. change (c_semi =? c_semi)%N with true. cbn iota. rewrite G.
  destruct (IH (cms ++ [c]) r t2 f) as (t3 & -> & A); [left; auto|]. exists t3. rewrite <- app_assoc. auto.
Qed.
Lemma recomment_all cs1 cs2 p : rp_comments p = cs1 ++ cs2 -> add_all cs2 (recomment cs1 p) = p.
Proof. intros H. rewrite add_all_fields. cbn. rewrite <- H. destruct p; reflexivity. Qed.
Lemma entries_postings w ty pay ps s : blanks_not_numeric w -> posting_lines w pay ps s -> exists n, (n <= length s)%nat /\
  forall parsed cms ps0 r t f, line_at t (s ++ r) ->
  exists t' parsed', entries (n + f) w ty pay parsed cms ps0 t = entries f w ty pay parsed' cms (ps0 ++ ps) t' /\ line_at t' r.
Proof.
  intros Hw. induction 1 as [|g b p cs1 cs2 s u ps r0 Hg Hb Hl Hc Hcs Hpay H (n & Hn & IH)].
  - exists O. split; auto. intros. exists t, parsed. rewrite app_nil_r. auto.
  - exists (S (length cs2 + n)). split.
    { apply comment_lines_fuel in Hc. rewrite !app_length. cbn [length]. rewrite app_length. lia. }
    intros parsed cms ps0 r t f Ht. cbn [Nat.add entries]. rewrite <- !app_assoc in Ht. cbn [app] in Ht. rewrite <- app_assoc in Ht.
    destruct (posting_line_solid _ _ _ _ Hl) as (x & y & Es & X1 & X2 & X3).
    destruct (at_line_indented t g b s _ Ht Hg Hb ltac:(exists x, y; auto)) as (t1 & -> & E).
    destruct (posting_line_read w p cs1 s ty (u ++ r0 ++ r) t1 Hw Hl E) as (t2 & G & A).
    unfold get_char. rewrite E, Es. cbn [app]. destruct (N.eqb_spec x c_semi); [congruence|]. rewrite X3. rewrite Hpay in G. rewrite G. cbn [bind].
    rewrite <- Nat.add_assoc.
    destruct (entries_comments w ty pay cms ps0 cs2 u Hc (recomment cs1 p) (r0 ++ r) t2 (n + f) A) as (t3 & -> & A3).
    rewrite recomment_all by auto. destruct (IH true cms (ps0 ++ [p]) r t3 f A3) as (t4 & pa & -> & A4). exists t4, pa. rewrite <- app_assoc. auto.
Qed.
Lemma entries_read w ty pay cs ps cms c p r t : blanks_not_numeric w -> comment_lines cs c -> posting_lines w pay ps p -> margin r ->
  tk_rest t = c ++ p ++ r -> tk_col t = O ->
  exists t', entries (entries_fuel t) w ty pay false cms [] t = Ok (cms ++ cs, ps, t') /\ ready t' r.
Proof.
  intros Hw Hc Hp Hm E Ec. destruct (entries_postings w ty pay ps p Hw Hp) as (n & Hn & HP). pose proof (comment_lines_fuel _ _ Hc) as Hf.
  assert (F : exists f, entries_fuel t = (length cs + (n + S f))%nat).
  { unfold entries_fuel. rewrite E, !app_length. exists (length c + (length p + length r) - length cs - n)%nat. lia. }
  destruct F as (f & ->).
  destruct (entries_heading w ty pay [] cs c Hc cms (p ++ r) t (n + S f)) as (t1 & -> & A1); [left; auto|].
  destruct (HP false (cms ++ cs) [] r t1 (S f) A1) as (t2 & pa & -> & A2). cbn [entries app].
  destruct (at_line_margin t2 r A2 Hm) as (t3 & -> & Rd & _). eauto.
Qed.
