(** C92: conditions select the postings they are true of. *)
From Coq Require Import Lia.
From Verif Require Import Base BaseFacts Numerals Money Alist Comment Txn Dates Expr Filter Price Tokens Ledger Reports App Spec MoneyFacts SpecList SpecTxn TxnFacts SpecLedger
  LedgerFacts LedgerFacts2 PropTxn PropLedger SpecQuery SpecExpr ExprFacts PropExpr PropQuery EvalFacts SpecText NumFacts LiteralFacts SpecWorth PropWorth SpecReports ReportFacts ReportFacts2 ReportFacts3 PropReports PropApp SpecLayout PropLayout SpecBook PropBook PropBook2 SpecAsk PropAsk
  SpecWords SpecAssert AssertFacts SpecRules PropRules BookFacts ShownFacts ExchangeFacts SpecFind FindFacts SpecAgree PropAgree SpecSame SpellFacts SpecCombine CombineFacts PropCombine SpecCondition.
Open Scope Qc_scope.

(** ** A report that is made has an answer for every posting *)
Lemma select_answers w o q cs ts sel cs' : buildable w cu_name cu_aliases cs -> (forall t, In t ts -> exists d, t_date t = Some d) ->
  select_txns w o q ts cs = Ok (sel, cs') -> forall t p, In t ts -> In p (t_postings t) -> exists b c, filter_posting w o q t p cs = Ok (b, c).
Proof.
  intros B. assert (G : forall ts, (forall t, In t ts -> exists d, t_date t = Some d) -> forall cs1 sel cs', between w q cs cs1 ->
    select_txns w o q ts cs1 = Ok (sel, cs') -> forall t p, In t ts -> In p (t_postings t) -> exists b c, filter_posting w o q t p cs = Ok (b, c)).
  { induction ts0 as [|u us IH]; cbn [select_txns]; intros D cs1 sel0 cs0 Bt H t p Ht Hp; [destruct Ht|]. bind_inv H. destruct a as [ps c1]. bind_inv H. destruct a as [l c2].
    destruct (D u (or_introl eq_refl)) as (d & Ed). destruct (select_postings_spec w o q u d cs Ed B _ _ _ _ Bt Hb) as [_ Bt2].
    destruct Ht as [<-|Ht]; [|exact (IH (fun x Hx => D x (or_intror Hx)) c1 l c2 Bt2 Hb0 t p Ht Hp)]. clear -B Bt Hb Hp.
    revert cs1 ps c1 Bt Hb. induction (t_postings u) as [|x xs IHx]; intros cs1 ps c1 Bt H; [destruct Hp|]. cbn [select_postings] in H.
    pose proof (filter_between w o q u x cs cs1 B Bt) as F. destruct (filter_posting w o q u x cs) as [[b c]|e|z] eqn:E.
    - destruct F as (cs3 & F & Bt3). rewrite F in H. cbn [bind] in H. bind_inv H. destruct a as [l' cs4]. destruct Hp as [<-|Hp]; [eauto|exact (IHx Hp cs3 l' cs4 Bt3 Hb)].
    - rewrite F in H. discriminate.
    - rewrite F in H. discriminate. }
  intros D H. eapply G; eauto. left. auto.
Qed.
Lemma considered_dec o t p : (exists d, t_date t = Some d) -> considered o t p \/ ~ considered o t p.
Proof.
  intros (d & Ed). destruct (period_dec o d p) as [[P1 P2]|P]; [left; split; eauto|right; intros [(d' & E & X) Y]]. rewrite Ed in E. inv E. tauto.
Qed.
Lemma reported_considered w o cs t p : reported w o None cs t p <-> considered o t p.
Proof. unfold reported, considered. cbn [query_holds]. split; [intros (d & ? & ? & ? & _)|intros [(d & ? & ?) ?]]; [split; eauto|exists d; auto]. Qed.
Lemma reported_if w o n cs t p : reported w o (Some n) cs t p <-> considered o t p /\ query_holds w (Some n) t p cs.
Proof. unfold reported, considered. split; [intros (d & ? & ? & ? & ?)|intros [[(d & ? & ?) ?] ?]]; [split; [split|]; eauto|exists d; auto]. Qed.
Lemma unasked_node w o : unasked o -> query_node w o = Ok None.
Proof. intros E. unfold query_node. rewrite E. reflexivity. Qed.

Lemma condition_node w o e : written w e -> conditional o e -> query_node w o = Ok (Some (denotes e)).
Proof.
  intros W Q. set (c := {| cl_before := [L "expr"]; cl_term := L "(" ++ text_of e ++ L ")" |}).
  assert (T : taken_verbatim c) by (apply Exists_cons_hd; vm_compute; reflexivity).
  assert (CO : clause_ok c).
  { split; [constructor; [right; right; right; vm_compute; reflexivity|constructor]|]. unfold connective, SpecQuery.blank, is_word. cbn [cl_term c]. rewrite trim_parens.
    intros [H|[H|[H|H]]]; [discriminate|apply (not_word _ _) in H..]; cbn; auto. }
  rewrite (C41_filter_is_translation w o [c] [] (L "(" ++ trim (cl_term c) ++ L ")")); [|constructor; auto|discriminate|constructor|exact Q|apply qm_one; apply tm_expr; auto].
  cbn [cl_term c]. rewrite trim_parens.
  pose proof (C46_parsed_as_written_partial w (CParen (CParen e)) [] W) as P. cbn [denotes] in P. rewrite app_nil_r in P. cbn [text_of] in P. rewrite <- ?app_assoc in P. rewrite <- ?app_assoc. rewrite P. reflexivity.
Qed.

(** A condition that was asked: [q] is its query, and it is true or false of every posting considered. *)
Definition decided (w : world) (lg : ledger) (o : opts) (q : option node) (e : cexp) : Prop :=
  forall t p, In t (lg_txns lg) -> In p (t_postings t) ->
    (reported w o q (lg_commodities lg) t p <-> considered o t p /\ is_so w (lg_commodities lg) t e p true) /\
    (considered o t p -> exists b, is_so w (lg_commodities lg) t e p b).
Lemma asked_decides w o e lg sel cs' : world_ok w -> made_from w lg -> written w e -> conditional o e -> forall q, query_node w o = Ok q ->
  select_txns w o q (lg_txns lg) (lg_commodities lg) = Ok (sel, cs') -> decided w lg o q e.
Proof.
  intros Hw M W C q Q S. rewrite (condition_node w o e W C) in Q. inv Q. set (n := denotes e) in *.
  assert (H : forall t p cs, buildable w cu_name cu_aliases cs -> query_holds w (Some n) t p cs <-> is_so w cs t e p true) by (intros t p cs B; exact (C80_value w e p t cs (VBool true) B)). destruct (made_dated w lg Hw M) as [(_ & B & _) D].
  intros t p Ht Hp. split; [rewrite reported_if, H by auto; tauto|]. intros Cn.
  destruct (select_answers w o (Some n) _ _ _ _ B D S t p Ht Hp) as (b & c & F). destruct (D t Ht) as (d & Ed).
  assert (P : in_period o d /\ wanted_kind o p) by (destruct Cn as [(d' & E & X) Y]; rewrite Ed in E; inv E; auto).
  destruct (C40_filter w o (Some n) t p (lg_commodities lg) d Ed) as [K _]. rewrite (K P) in F. unfold filter_expression in F.
  bind_inv F. destruct a as [v c']. destruct v as [| |b'| | | | | |]; try discriminate. exists b'.
  apply C80_value; eauto.
Qed.

(** ** Conditions in one another *)
Lemma worth_literals w t cs ls ls' X : (forall x n, In x X -> literal_commodity w cs ls x n -> literal_commodity w cs ls' x n) ->
  forall p e v, worth w t cs ls p e v -> incl (literals e) X -> worth w t cs ls' p e v.
Proof.
  intros HX p e v H.
  assert (A : forall a b : list str, incl (a ++ b) X -> incl a X /\ incl b X) by (intros a b I; split; intros x Hx; apply I, in_or_app; auto).
  induction H; intros I; cbn [literals] in I; try (apply A in I; destruct I as [I1 I2]); try solve [econstructor; eauto].
  apply wo_money. apply HX; auto. apply I. left. auto.
Qed.
Lemma literal_left w cs ls ls' x n : In x ls -> literal_commodity w cs ls x n -> literal_commodity w cs (ls ++ ls') x n.
Proof.
  intros I H. destruct H as [c E|a n b N E Lo F]; [apply lc_known; auto|]. apply lc_new with (a := a) (b := b ++ ls'); auto. rewrite E, <- app_assoc. reflexivity.
Qed.
Lemma first_alike w (x : str) (ls : list str) : (forall y, In y ls -> w_lower w y <> w_lower w x) \/ exists a n b, ls = a ++ n :: b /\ w_lower w n = w_lower w x /\ forall y, In y a -> w_lower w y <> w_lower w x.
Proof.
  induction ls as [|z ls IH]; [left; intros y []|]. destruct (str_dec (w_lower w z) (w_lower w x)) as [E|E]; [right; exists [], z, ls; repeat split; auto; intros y []|].
  destruct IH as [IH|(a & n & b & -> & E1 & E2)]; [left; intros y [<-|Hy]; auto|]. right. exists (z :: a), n, b. repeat split; auto. intros y [<-|Hy]; auto.
Qed.
Lemma literal_right w cs ls ls' x n : (forall y z, In y ls -> In z ls' -> w_lower w y = w_lower w z -> y = z) -> In x ls' -> literal_commodity w cs ls' x n -> literal_commodity w cs (ls ++ ls') x n.
Proof.
  intros S I H. destruct H as [c E|a n b N E Lo F]; [apply lc_known; auto|]. destruct (first_alike w x ls) as [G|(a' & n' & b' & E' & L' & F')].
  - apply lc_new with (a := ls ++ a) (b := b); auto; [rewrite E, <- app_assoc; reflexivity|]. intros y Hy. apply in_app_or in Hy. destruct Hy; auto.
  - assert (n' = n) as ->. { apply S; [rewrite E'; apply in_or_app; right; left; auto|rewrite E; apply in_or_app; right; left; auto|congruence]. }
    apply lc_new with (a := a') (b := b' ++ ls'); auto. rewrite E', <- app_assoc. reflexivity.
Qed.
Section Conditions.
Context (w : world) (cs : alist currency) (t : txn posting) (p : posting) (B : buildable w cu_name cu_aliases cs).
Lemma so_once e b b' : is_so w cs t e p b -> is_so w cs t e p b' -> b = b'.
Proof. intros H H'. pose proof (C80_one_value _ _ _ _ _ _ _ B H H') as E. congruence. Qed.
Lemma not_so e b : is_so w cs t e p b -> is_so w cs t (CNot e) p (negb b).
Proof. intros H. apply wo_not. exact H. Qed.
Lemma so_left e f b : is_so w cs t e p b -> worth w t cs (literals e ++ literals f) p e (VBool b).
Proof. intros H. eapply worth_literals; [|exact H|apply incl_refl]. intros x n Hx. apply literal_left. auto. Qed.
Lemma so_right e f b : spelled_alike w e f -> is_so w cs t f p b -> worth w t cs (literals e ++ literals f) p f (VBool b).
Proof. intros S H. eapply worth_literals; [|exact H|apply incl_refl]. intros x n Hx. apply literal_right; auto. Qed.
Lemma both_so e f x y : spelled_alike w e f -> is_so w cs t e p x -> is_so w cs t f p y ->
  is_so w cs t (CBin OAnd e f) p (x && y) /\ is_so w cs t (CBin OOr e f) p (x || y).
Proof.
  intros S He Hf. split.
  - apply wo_and; [auto|exact (so_left e f x He)|exact (so_right e f y S Hf)].
  - apply wo_or; [auto|exact (so_left e f x He)|exact (so_right e f y S Hf)].
Qed.
End Conditions.

(** ** The reports *)
Record asked (depth : nat) (w : world) (o : opts) (file : str) (lg : ledger) (q : option node) (tps : list (txn posting * posting)) : Prop := {
  ak_made : made_from w lg;
  ak_ledger : exists items, tokenize_file depth w file = Ok items /\ to_ledger w (o_no_balance_check o) items = Ok lg;
  ak_query : query_node w o = Ok q;
  ak_select : exists sel cs, select_txns w o q (lg_txns lg) (lg_commodities lg) = Ok (sel, cs);
  ak_chosen : reported_postings w o q lg tps
}.
Definition posting_line (p : posting) : str * money := (shown_account p, match p_amount p with Some m => m | None => MZero end).
Lemma register_asked depth w o file lines : world_ok w -> run_cmd depth w CRegister o file = Ok lines ->
  exists lg rows q tps, asked depth w o file lg q tps /\ register_printed w rows lines /\ map posted rows = map posting_line (map snd tps) /\
    forall c, final_total rows c = subtotal (map snd tps) (fun _ => true) c.
Proof.
  intros Hw H. destruct (C69_register _ _ _ _ _ Hw H) as (items & lg & rows & g & E1 & L1 & R & -> & P). pose proof (made_of _ _ _ _ _ _ E1 L1) as M.
  destruct (register_shown _ _ _ _ _ Hw M R) as (q & sel & Q & _ & T & Y & V & _). exists lg, rows, q. eexists. split; [split; [auto|eauto|exact Q| |exact T]|split; [exists g; auto|split]].
  - unfold register_report in R. rewrite Q in R. cbn [bind] in R. bind_inv R. destruct a as [s c]. eauto.
  - rewrite (posted_lines _ _ Y), headings_postings, sel_postings. auto.
  - intros c. rewrite V, sel_postings. auto.
Qed.
Lemma balance_asked depth w o file no_total lines : world_ok w -> o_exchange o = None -> run_cmd depth w (CBalance true no_total) o file = Ok lines ->
  exists lg r q tps, asked depth w o file lg q tps /\ balance_printed r lines /\ forall cut P c, cuts o cut -> shown_for r P c = subtotal (map snd tps) (fun n => P (cut n)) c.
Proof.
  intros Hw X H. destruct (C69_balance _ _ _ _ _ _ _ Hw H) as (items & lg & r & E1 & L1 & R & P). pose proof (made_of _ _ _ _ _ _ E1 L1) as M.
  destruct (flat_shown _ _ _ _ _ _ Hw M X R) as (q & tps & Q & T & Y). exists lg, r, q, tps. split; [split; [auto|eauto|exact Q| |exact T]|split; auto].
  unfold balance_report in R. rewrite Q in R. cbn [bind] in R. bind_inv R. destruct a as [s c]. eauto.
Qed.
Lemma same_ledger depth w o o' file lg lg' q q' tps tps' : same_but_query o o' -> asked depth w o file lg q tps -> asked depth w o' file lg' q' tps' -> lg = lg'.
Proof. intros (_ & _ & _ & _ & _ & E) [_ (i & A1 & A2) _ _ _] [_ (i' & B1 & B2) _ _ _]. rewrite A1 in B1. inv B1. rewrite <- E, A2 in B2. congruence. Qed.
Lemma considered_same o o' t p : same_but_query o o' -> considered o t p <-> considered o' t p.
Proof. intros (E1 & E2 & E3 & _). unfold considered, in_period, wanted_kind. rewrite E1, E2, E3. tauto. Qed.
Lemma selection_iff {A} (P Q : A -> Prop) l a : (forall x, In x l -> P x <-> Q x) -> selection P l a -> selection Q l a.
Proof.
  intros E H. induction H as [|x ps l' Hx H IH|x ps l' Hx H IH]; [constructor| |].
  - apply sel_in; [apply E; [left|]; auto|]. apply IH. intros y Hy. apply E. right. auto.
  - apply sel_out; [intros X; apply Hx, E; [left|]; auto|]. apply IH. intros y Hy. apply E. right. auto.
Qed.
Section Asked.
Context (depth : nat) (w : world) (file : str) (lg : ledger) (Hw : world_ok w).
Lemma asked_decided o q tps e : written w e -> conditional o e -> asked depth w o file lg q tps -> decided w lg o q e.
Proof. intros W C [M _ Q (sel & cs & S) _]. eapply asked_decides; eauto. Qed.
Lemma asked_chosen o q tps e : written w e -> conditional o e -> asked depth w o file lg q tps ->
  selection (fun x => considered o (fst x) (snd x) /\ is_so w (lg_commodities lg) (fst x) e (snd x) true) (ledger_postings lg) tps.
Proof.
  intros W C A. pose proof (asked_decided o q tps e W C A) as D. eapply selection_iff; [|exact (ak_chosen _ _ _ _ _ _ _ A)]. intros [t p] I. cbn [fst snd].
  apply in_ledger in I. destruct I as [It Ip]. apply (D t p It Ip).
Qed.
Lemma unasked_chosen o q tps : unasked o -> asked depth w o file lg q tps -> selection (fun x => considered o (fst x) (snd x)) (ledger_postings lg) tps.
Proof.
  intros U [M _ Q _ S]. rewrite (unasked_node w o U) in Q. inv Q. eapply selection_iff; [|exact S]. intros [t p] _. cbn [fst snd]. apply reported_considered.
Qed.
Lemma not_chosen o1 o2 o3 e q1 q2 q3 s1 s2 s3 : same_but_query o1 o2 -> same_but_query o1 o3 -> written w e -> conditional o1 e -> conditional o2 (CNot e) -> unasked o3 ->
  asked depth w o1 file lg q1 s1 -> asked depth w o2 file lg q2 s2 -> asked depth w o3 file lg q3 s3 -> Permutation s3 (s1 ++ s2).
Proof.
  intros B2 B3 W C1 C2 U A1 A2 A3. pose proof (asked_chosen _ _ _ _ W C1 A1) as S1. pose proof (asked_chosen _ _ _ (CNot e) W C2 A2) as S2. pose proof (unasked_chosen _ _ _ U A3) as S3.
  pose proof (asked_decided _ _ _ _ W C1 A1) as D. destruct (made_dated w lg Hw (ak_made _ _ _ _ _ _ _ A1)) as [(_ & B & _) _].
  rewrite <- (app_nil_r s3). eapply selection_join with (P4 := fun _ => False); [|exact S1|exact S2|exact S3|].
  - intros [t p] I. cbn [fst snd]. apply in_ledger in I. destruct I as [It Ip]. rewrite <- (considered_same _ _ t p B2), <- (considered_same _ _ t p B3).
    assert (N : considered o1 t p -> (is_so w (lg_commodities lg) t e p true /\ ~ is_so w (lg_commodities lg) t (CNot e) p true) \/ (~ is_so w (lg_commodities lg) t e p true /\ is_so w (lg_commodities lg) t (CNot e) p true)).
    { intros K. destruct (D t p It Ip) as [_ K2]. destruct (K2 K) as (b & Hb). pose proof (not_so _ _ _ _ _ _ Hb) as Hn. destruct b; [left|right]; split; auto.
      - intros Y. pose proof (so_once _ _ _ _ B _ _ _ Hn Y). discriminate.
      - intros Y. pose proof (so_once _ _ _ _ B _ _ _ Hb Y). discriminate. }
    clear -N. tauto.
  - clear. induction (ledger_postings lg); constructor; auto.
Qed.
Lemma joined_chosen o1 o2 o3 o4 e f q1 q2 q3 q4 s1 s2 s3 s4 : same_but_query o1 o2 -> same_but_query o1 o3 -> same_but_query o1 o4 -> written w (CBin OOr e f) -> spelled_alike w e f ->
  conditional o1 e -> conditional o2 f -> conditional o3 (CBin OOr e f) -> conditional o4 (CBin OAnd e f) ->
  asked depth w o1 file lg q1 s1 -> asked depth w o2 file lg q2 s2 -> asked depth w o3 file lg q3 s3 -> asked depth w o4 file lg q4 s4 -> Permutation (s3 ++ s4) (s1 ++ s2).
Proof.
  intros B2 B3 B4 W Sp C1 C2 C3 C4 A1 A2 A3 A4. pose proof W as (We & Wf & _).
  pose proof (asked_chosen _ _ _ _ We C1 A1) as S1. pose proof (asked_chosen _ _ _ _ Wf C2 A2) as S2. pose proof (asked_chosen _ _ _ _ W C3 A3) as S3. pose proof (asked_chosen _ _ _ (CBin OAnd e f) W C4 A4) as S4.
  pose proof (asked_decided _ _ _ _ We C1 A1) as D1. pose proof (asked_decided _ _ _ _ Wf C2 A2) as D2. destruct (made_dated w lg Hw (ak_made _ _ _ _ _ _ _ A1)) as [(_ & B & _) _].
  eapply selection_join; [|exact S1|exact S2|exact S3|exact S4].
  intros [t p] I. cbn [fst snd]. apply in_ledger in I. destruct I as [It Ip]. rewrite <- (considered_same _ _ t p B2), <- (considered_same _ _ t p B3), <- (considered_same _ _ t p B4).
  assert (N : considered o1 t p -> (is_so w (lg_commodities lg) t (CBin OOr e f) p true <-> is_so w (lg_commodities lg) t e p true \/ is_so w (lg_commodities lg) t f p true) /\
                                   (is_so w (lg_commodities lg) t (CBin OAnd e f) p true <-> is_so w (lg_commodities lg) t e p true /\ is_so w (lg_commodities lg) t f p true)).
  { intros K. destruct (D1 t p It Ip) as [_ K1]. destruct (K1 K) as (x & Hx). destruct (D2 t p It Ip) as [_ K2]. destruct (K2 (proj1 (considered_same _ _ t p B2) K)) as (y & Hy).
    destruct (both_so w (lg_commodities lg) t p e f x y Sp Hx Hy) as [Ha Ho]. pose proof (so_once w (lg_commodities lg) t p B) as U.
    assert (T : forall g b, is_so w (lg_commodities lg) t g p b -> (is_so w (lg_commodities lg) t g p true <-> b = true)) by (intros g b Hg; split; [intros Y; exact (U g b true Hg Y)|intros ->; auto]).
    rewrite (T _ _ Ha), (T _ _ Ho), (T _ _ Hx), (T _ _ Hy). rewrite orb_true_iff, andb_true_iff. tauto. }
  clear -N. tauto.
Qed.
End Asked.

(** * C92 *)
(** The register has the lines of the postings the condition is true of, and no others; no line is made without a yes or
    no for every posting of the period and kind asked for. *)
Theorem C92_register : forall depth w o e file lines, world_ok w -> written w e -> conditional o e -> run_cmd depth w CRegister o file = Ok lines ->
  exists items lg rows tps, file_parses depth w file items /\ to_ledger w (o_no_balance_check o) items = Ok lg /\ register_printed w rows lines /\
    selection (fun x => considered o (fst x) (snd x) /\ is_so w (lg_commodities lg) (fst x) e (snd x) true) (ledger_postings lg) tps /\
    (forall t p, In (t, p) (ledger_postings lg) -> considered o t p -> exists b, is_so w (lg_commodities lg) t e p b) /\
    map posted rows = map posting_line (map snd tps) /\
    forall c, final_total rows c = subtotal (map snd tps) (fun _ => true) c.
Proof.
  intros depth w o e file lines Hw W C H. destruct (register_asked _ _ _ _ _ Hw H) as (lg & rows & q & tps & A & P & Y & V). pose proof (ak_ledger _ _ _ _ _ _ _ A) as (items & E1 & E2).
  exists items, lg, rows, tps. split; [apply file_parses_iff; auto|]. do 2 (split; auto). split; [exact (asked_chosen _ _ _ _ Hw _ _ _ _ W C A)|]. split; [|split; auto].
  intros t p I. apply in_ledger in I. destruct I as [It Ip]. apply (asked_decided _ _ _ _ Hw _ _ _ _ W C A t p It Ip).
Qed.
Print Assumptions C92_register.
(** And the flat balance report adds them up. *)
Theorem C92_balance : forall depth w o e file no_total lines, world_ok w -> o_exchange o = None -> written w e -> conditional o e ->
  run_cmd depth w (CBalance true no_total) o file = Ok lines ->
  exists items lg r tps, file_parses depth w file items /\ to_ledger w (o_no_balance_check o) items = Ok lg /\ balance_printed r lines /\
    selection (fun x => considered o (fst x) (snd x) /\ is_so w (lg_commodities lg) (fst x) e (snd x) true) (ledger_postings lg) tps /\
    forall cut P c, cuts o cut -> shown_for r P c = subtotal (map snd tps) (fun n => P (cut n)) c.
Proof.
  intros depth w o e file no_total lines Hw X W C H. destruct (balance_asked _ _ _ _ _ _ Hw X H) as (lg & r & q & tps & A & P & Y). pose proof (ak_ledger _ _ _ _ _ _ _ A) as (items & E1 & E2).
  exists items, lg, r, tps. split; [apply file_parses_iff; auto|]. do 2 (split; auto). split; [exact (asked_chosen _ _ _ _ Hw _ _ _ _ W C A)|]. auto.
Qed.
Print Assumptions C92_balance.
(** A condition and its opposite divide the register and the balances among them. *)
Theorem C92_not : forall depth w o1 o2 o3 e file lines1 lines2 lines3, world_ok w -> same_but_query o1 o2 -> same_but_query o1 o3 ->
  written w e -> conditional o1 e -> conditional o2 (CNot e) -> unasked o3 ->
  (run_cmd depth w CRegister o1 file = Ok lines1 -> run_cmd depth w CRegister o2 file = Ok lines2 -> run_cmd depth w CRegister o3 file = Ok lines3 ->
   exists rows1 rows2 rows3, register_printed w rows1 lines1 /\ register_printed w rows2 lines2 /\ register_printed w rows3 lines3 /\
     Permutation (map posted rows3) (map posted rows1 ++ map posted rows2) /\ forall c, final_total rows3 c = final_total rows1 c + final_total rows2 c) /\
  forall n1 n2 n3, o_exchange o1 = None ->
   run_cmd depth w (CBalance true n1) o1 file = Ok lines1 -> run_cmd depth w (CBalance true n2) o2 file = Ok lines2 -> run_cmd depth w (CBalance true n3) o3 file = Ok lines3 ->
   exists r1 r2 r3, balance_printed r1 lines1 /\ balance_printed r2 lines2 /\ balance_printed r3 lines3 /\ forall P c, shown_for r3 P c = shown_for r1 P c + shown_for r2 P c.
Proof.
  intros depth w o1 o2 o3 e file ls1 ls2 ls3 Hw B2 B3 W C1 C2 U. split.
  - intros H1 H2 H3. destruct (register_asked _ _ _ _ _ Hw H1) as (lg & r1 & q1 & s1 & A1 & P1 & Y1 & V1). destruct (register_asked _ _ _ _ _ Hw H2) as (lg2 & r2 & q2 & s2 & A2 & P2 & Y2 & V2).
    destruct (register_asked _ _ _ _ _ Hw H3) as (lg3 & r3 & q3 & s3 & A3 & P3 & Y3 & V3). assert (lg = lg2) as <- by exact (same_ledger _ _ _ _ _ _ _ _ _ _ _ B2 A1 A2). assert (lg = lg3) as <- by exact (same_ledger _ _ _ _ _ _ _ _ _ _ _ B3 A1 A3).
    pose proof (not_chosen depth w file lg Hw _ _ _ _ _ _ _ _ _ _ B2 B3 W C1 C2 U A1 A2 A3) as PM. apply (Permutation_map snd) in PM. rewrite map_app in PM.
    exists r1, r2, r3. do 3 (split; auto). split.
    + rewrite Y1, Y2, Y3, <- map_app. apply Permutation_map. exact PM.
    + intros c. rewrite V1, V2, V3, <- subtotal_app. apply subtotal_perm. exact PM.
  - intros n1 n2 n3 X H1 H2 H3. pose proof B2 as (_ & _ & _ & D2 & X2 & _). pose proof B3 as (_ & _ & _ & D3 & X3 & _).
    destruct (balance_asked _ _ _ _ _ _ Hw X H1) as (lg & r1 & q1 & s1 & A1 & P1 & Y1). destruct (balance_asked _ _ _ _ _ _ Hw (eq_trans (eq_sym X2) X) H2) as (lg2 & r2 & q2 & s2 & A2 & P2 & Y2).
    destruct (balance_asked _ _ _ _ _ _ Hw (eq_trans (eq_sym X3) X) H3) as (lg3 & r3 & q3 & s3 & A3 & P3 & Y3). assert (lg = lg2) as <- by exact (same_ledger _ _ _ _ _ _ _ _ _ _ _ B2 A1 A2). assert (lg = lg3) as <- by exact (same_ledger _ _ _ _ _ _ _ _ _ _ _ B3 A1 A3).
    pose proof (not_chosen depth w file lg Hw _ _ _ _ _ _ _ _ _ _ B2 B3 W C1 C2 U A1 A2 A3) as PM. apply (Permutation_map snd) in PM. rewrite map_app in PM.
    exists r1, r2, r3. do 3 (split; auto). intros P c. assert (K : forall o, o_depth o1 = o_depth o -> cuts o (cut_by o1)) by (intros o E n; rewrite <- E; apply cut_by_cuts).
    rewrite (Y1 (cut_by o1) P c), (Y2 (cut_by o1) P c), (Y3 (cut_by o1) P c), <- subtotal_app by (apply K; auto). apply subtotal_perm. exact PM.
Qed.
Print Assumptions C92_not.
(** Two conditions show together what their disjunction and their conjunction show together. *)
Theorem C92_and_or : forall depth w o1 o2 o3 o4 e f file lines1 lines2 lines3 lines4, world_ok w -> same_but_query o1 o2 -> same_but_query o1 o3 -> same_but_query o1 o4 ->
  written w (CBin OOr e f) -> spelled_alike w e f -> conditional o1 e -> conditional o2 f -> conditional o3 (CBin OOr e f) -> conditional o4 (CBin OAnd e f) ->
  (run_cmd depth w CRegister o1 file = Ok lines1 -> run_cmd depth w CRegister o2 file = Ok lines2 -> run_cmd depth w CRegister o3 file = Ok lines3 -> run_cmd depth w CRegister o4 file = Ok lines4 ->
   exists rows1 rows2 rows3 rows4, register_printed w rows1 lines1 /\ register_printed w rows2 lines2 /\ register_printed w rows3 lines3 /\ register_printed w rows4 lines4 /\
     Permutation (map posted rows3 ++ map posted rows4) (map posted rows1 ++ map posted rows2) /\
     forall c, final_total rows3 c + final_total rows4 c = final_total rows1 c + final_total rows2 c) /\
  forall n1 n2 n3 n4, o_exchange o1 = None ->
   run_cmd depth w (CBalance true n1) o1 file = Ok lines1 -> run_cmd depth w (CBalance true n2) o2 file = Ok lines2 ->
   run_cmd depth w (CBalance true n3) o3 file = Ok lines3 -> run_cmd depth w (CBalance true n4) o4 file = Ok lines4 ->
   exists r1 r2 r3 r4, balance_printed r1 lines1 /\ balance_printed r2 lines2 /\ balance_printed r3 lines3 /\ balance_printed r4 lines4 /\
     forall P c, shown_for r3 P c + shown_for r4 P c = shown_for r1 P c + shown_for r2 P c.
Proof.
  intros depth w o1 o2 o3 o4 e f file ls1 ls2 ls3 ls4 Hw B2 B3 B4 W Sp C1 C2 C3 C4. split.
  - intros H1 H2 H3 H4. destruct (register_asked _ _ _ _ _ Hw H1) as (lg & r1 & q1 & s1 & A1 & P1 & Y1 & V1). destruct (register_asked _ _ _ _ _ Hw H2) as (lg2 & r2 & q2 & s2 & A2 & P2 & Y2 & V2).
    destruct (register_asked _ _ _ _ _ Hw H3) as (lg3 & r3 & q3 & s3 & A3 & P3 & Y3 & V3). destruct (register_asked _ _ _ _ _ Hw H4) as (lg4 & r4 & q4 & s4 & A4 & P4 & Y4 & V4).
    assert (lg = lg2) as <- by exact (same_ledger _ _ _ _ _ _ _ _ _ _ _ B2 A1 A2). assert (lg = lg3) as <- by exact (same_ledger _ _ _ _ _ _ _ _ _ _ _ B3 A1 A3). assert (lg = lg4) as <- by exact (same_ledger _ _ _ _ _ _ _ _ _ _ _ B4 A1 A4).
    pose proof (joined_chosen depth w file lg Hw _ _ _ _ _ _ _ _ _ _ _ _ _ _ B2 B3 B4 W Sp C1 C2 C3 C4 A1 A2 A3 A4) as PM. apply (Permutation_map snd) in PM. rewrite !map_app in PM.
    exists r1, r2, r3, r4. do 4 (split; auto). split.
    + rewrite Y1, Y2, Y3, Y4, <- !map_app. apply Permutation_map. rewrite !map_app. exact PM.
    + intros c. rewrite V1, V2, V3, V4, <- !subtotal_app. apply subtotal_perm. exact PM.
  - intros n1 n2 n3 n4 X H1 H2 H3 H4. pose proof B2 as (_ & _ & _ & D2 & X2 & _). pose proof B3 as (_ & _ & _ & D3 & X3 & _). pose proof B4 as (_ & _ & _ & D4 & X4 & _).
    destruct (balance_asked _ _ _ _ _ _ Hw X H1) as (lg & r1 & q1 & s1 & A1 & P1 & Y1). destruct (balance_asked _ _ _ _ _ _ Hw (eq_trans (eq_sym X2) X) H2) as (lg2 & r2 & q2 & s2 & A2 & P2 & Y2).
    destruct (balance_asked _ _ _ _ _ _ Hw (eq_trans (eq_sym X3) X) H3) as (lg3 & r3 & q3 & s3 & A3 & P3 & Y3). destruct (balance_asked _ _ _ _ _ _ Hw (eq_trans (eq_sym X4) X) H4) as (lg4 & r4 & q4 & s4 & A4 & P4 & Y4).
    assert (lg = lg2) as <- by exact (same_ledger _ _ _ _ _ _ _ _ _ _ _ B2 A1 A2). assert (lg = lg3) as <- by exact (same_ledger _ _ _ _ _ _ _ _ _ _ _ B3 A1 A3). assert (lg = lg4) as <- by exact (same_ledger _ _ _ _ _ _ _ _ _ _ _ B4 A1 A4).
    pose proof (joined_chosen depth w file lg Hw _ _ _ _ _ _ _ _ _ _ _ _ _ _ B2 B3 B4 W Sp C1 C2 C3 C4 A1 A2 A3 A4) as PM. apply (Permutation_map snd) in PM. rewrite !map_app in PM.
    exists r1, r2, r3, r4. do 4 (split; auto). intros P c. assert (K : forall o, o_depth o1 = o_depth o -> cuts o (cut_by o1)) by (intros o E n; rewrite <- E; apply cut_by_cuts).
    rewrite (Y1 (cut_by o1) P c), (Y2 (cut_by o1) P c), (Y3 (cut_by o1) P c), (Y4 (cut_by o1) P c), <- !subtotal_app by (apply K; auto). apply subtotal_perm. exact PM.
Qed.
Print Assumptions C92_and_or.

(** ** Conditions instead of options and words *)
Lemma run_same depth w c o o' file q q' : world_ok w -> same_otherwise o o' -> query_node w o = Ok q -> query_node w o' = Ok q' ->
  (forall t p cs, (exists d, t_date t = Some d) -> p_payee p <> None -> filter_posting w o q t p cs = filter_posting w o' q' t p cs) ->
  run_cmd depth w c o file = run_cmd depth w c o' file.
Proof.
  intros Hw (B1 & B4 & B5 & B6) Q Q' F. unfold run_cmd. destruct (tokenize_file depth w file) as [items| |] eqn:E1; auto. cbn [bind]. unfold run_on. rewrite <- B6.
  assert (K : forall lg, to_ledger w (o_no_balance_check o) items = Ok lg -> forall cs, select_txns w o q (lg_txns lg) cs = select_txns w o' q' (lg_txns lg) cs).
  { intros lg E2. pose proof (made_of _ _ _ _ _ _ E1 E2) as M. pose proof (ledger_payees w lg Hw M) as Y. destruct (made_dated w lg Hw M) as [_ D]. clear -F Y D.
    induction (lg_txns lg) as [|t ts IH]; intros cs; auto. cbn [select_txns].
    assert (E : forall ps, incl ps (t_postings t) -> forall cs, select_postings w o q t ps cs = select_postings w o' q' t ps cs).
    { induction ps as [|p ps IHp]; intros I cs0; auto. cbn [select_postings]. rewrite (F t p cs0 (D t (or_introl eq_refl)) (Y t p (or_introl eq_refl) (I p (or_introl eq_refl)))).
      apply bind_same; auto. intros [b cs1]. rewrite IHp by (intros x Hx; apply I; right; auto). auto. }
    rewrite (E _ (incl_refl _)). apply bind_same; auto. intros [ps cs1]. rewrite IH; auto; [intros u p Hu; apply Y; right; auto|intros u Hu; apply D; right; auto]. }
  destruct c; auto; (destruct (to_ledger w (o_no_balance_check o) items) as [lg| |] eqn:E2; auto; cbn [bind]; pose proof (K lg eq_refl) as SL).
  - unfold balance_report. rewrite Q, Q', <- B4, <- B5. cbn [bind]. rewrite SL. auto.
  - unfold register_report. rewrite Q, Q'. cbn [bind]. rewrite SL. auto.
Qed.
Lemma from_eval w q s d t p cs x : date_parser w s = Ok (Some d) -> t_date t = Some x -> eval w (denotes (from_day q s)) p t cs = Ok (VBool (d <=? x)%Z, cs).
Proof. intros E D. cbn. rewrite D, E. cbn. unfold Z.leb. rewrite (Z.compare_antisym x d). destruct (x ?= d)%Z; reflexivity. Qed.
Lemma before_eval w q s d t p cs x : date_parser w s = Ok (Some d) -> t_date t = Some x -> eval w (denotes (before_day q s)) p t cs = Ok (VBool (x <? d)%Z, cs).
Proof. intros E D. cbn. rewrite D, E. cbn. unfold Z.ltb. destruct (x ?= d)%Z; reflexivity. Qed.
(** A condition on the date stands for the option: every command prints the same. *)
Theorem C92_from_day : forall depth w c o o' file q s d, world_ok w -> same_otherwise o o' -> o_end o = o_end o' -> o_begin o = None -> o_begin o' = Some d ->
  written w (from_day q s) -> date_parser w s = Ok (Some d) -> conditional o (from_day q s) -> unasked o' ->
  run_cmd depth w c o file = run_cmd depth w c o' file.
Proof.
  intros depth w c o o' file q s d Hw B Ee Eb Eb' W Ed C U. eapply run_same; [auto|auto|exact (condition_node w o _ W C)|exact (unasked_node w o' U)|].
  intros t p cs (x & Dx) _. destruct B as (B1 & _). unfold filter_posting. rewrite B1, Ee, Eb, Eb', Dx. destruct (o_real o' && _); auto. unfold filter_expression. rewrite (from_eval w q s d t p cs x Ed Dx).
  destruct (match o_end o' with Some _ => _ | None => _ end) as [[]| |]; auto. cbn [bind unwrap]. rewrite Z.ltb_antisym. destruct (d <=? x)%Z; reflexivity.
Qed.
Print Assumptions C92_from_day.
Theorem C92_before_day : forall depth w c o o' file q s d, world_ok w -> same_otherwise o o' -> o_begin o = o_begin o' -> o_end o = None -> o_end o' = Some d ->
  written w (before_day q s) -> date_parser w s = Ok (Some d) -> conditional o (before_day q s) -> unasked o' ->
  run_cmd depth w c o file = run_cmd depth w c o' file.
Proof.
  intros depth w c o o' file q s d Hw B Eb Ee Ee' W Ed C U. eapply run_same; [auto|auto|exact (condition_node w o _ W C)|exact (unasked_node w o' U)|].
  intros t p cs (x & Dx) _. destruct B as (B1 & _). unfold filter_posting. rewrite B1, Eb, Ee, Ee', Dx. destruct (o_real o' && _); auto. unfold filter_expression. rewrite (before_eval w q s d t p cs x Ed Dx).
  cbn [bind unwrap]. destruct (o_begin o') as [b|]; cbn [bind unwrap]; rewrite (Z.ltb_antisym d x); destruct (d <=? x)%Z; cbn [negb]; try reflexivity; destruct (x <? b)%Z; reflexivity.
Qed.
Print Assumptions C92_before_day.
Theorem C92_period : forall depth w c o o' file q s d q' s' d', world_ok w -> same_otherwise o o' -> o_begin o = None -> o_end o = None -> o_begin o' = Some d -> o_end o' = Some d' ->
  written w (CBin OAnd (from_day q s) (before_day q' s')) -> date_parser w s = Ok (Some d) -> date_parser w s' = Ok (Some d') ->
  conditional o (CBin OAnd (from_day q s) (before_day q' s')) -> unasked o' ->
  run_cmd depth w c o file = run_cmd depth w c o' file.
Proof.
  intros depth w c o o' file q s d q' s' d' Hw B Eb Ee Eb' Ee' W Ed Ed' C U. eapply run_same; [auto|auto|exact (condition_node w o _ W C)|exact (unasked_node w o' U)|].
  intros t p cs (x & Dx) _. destruct B as (B1 & _). unfold filter_posting. rewrite B1, Eb, Ee, Eb', Ee', Dx. destruct (o_real o' && _); auto. unfold filter_expression.
  cbn [denotes eval op_node]. rewrite (from_eval w q s d t p cs x Ed Dx). cbn [bind unwrap]. rewrite (before_eval w q' s' d' t p cs x Ed' Dx). cbn [bind unwrap eval_binary].
  rewrite (Z.ltb_antisym d x), (Z.ltb_antisym d' x). destruct (d <=? x)%Z, (d' <=? x)%Z; reflexivity.
Qed.
Print Assumptions C92_period.
(** One or two words stand for a condition: every command prints the same. *)
Lemma condition_word w x e : word_condition w x e -> exists F, found_word w x F /\ written w e /\ ~ is_number e /\ forall t p cs, p_payee p <> None -> eval w (denotes e) p t cs = Ok (VBool (posting_wish F p), cs).
Proof.
  intros [N1 N2 P|y E P|y E P|y E P].
  - eexists. split; [apply fw_account, aw_text; auto|]. split; [destruct P; repeat split; auto; intros []; auto|]. split; [cbn; auto|]. intros t p cs Hp. unfold posting_wish. destruct (p_payee p); [|congruence]. reflexivity.
  - eexists. split; [eapply fw_account, aw_regex; eauto|]. split; [destruct P; repeat split; auto; intros []; auto|]. split; [cbn; auto|]. intros t p cs Hp. unfold posting_wish. destruct (p_payee p); [|congruence]. reflexivity.
  - eexists. split; [eapply fw_payee; eauto|]. split; [destruct P; repeat split; auto; intros []; auto|]. split; [cbn; auto|]. intros t p cs Hp. unfold posting_wish. cbn. destruct (p_payee p); [|congruence]. reflexivity.
  - eexists. split; [eapply fw_tag; eauto|]. split; [destruct P; repeat split; auto|]. split; [cbn; auto|]. intros t p cs Hp. unfold posting_wish. destruct (p_payee p); [|congruence]. reflexivity.
Qed.
Theorem C92_words : forall depth w c o o' file e, world_ok w -> same_but_query o o' -> words_condition w (o_query o) e -> conditional o' e ->
  run_cmd depth w c o file = run_cmd depth w c o' file.
Proof.
  intros depth w c o o' file e Hw B H C.
  assert (K : exists F, found_words w (o_query o) F /\ written w e /\ forall t p cs, p_payee p <> None -> eval w (denotes e) p t cs = Ok (VBool (posting_wish F p), cs)).
  { destruct H as [x e H|x y e f H H'|x y e f H H'|x y e f H H'].
    - destruct (condition_word _ _ _ H) as (F & W & Wr & _ & E). exists F. split; [apply fs_one; auto|]. auto.
    - destruct (condition_word _ _ _ H) as (F & W & Wr & N & E). destruct (condition_word _ _ _ H') as (G & W' & Wr' & _ & E'). eexists. split; [apply fs_two; eauto|]. split; [cbn [written]; tauto|].
      intros t p cs Hp. cbn [denotes eval]. rewrite E by auto. cbn [bind]. rewrite E' by auto. destruct (wish_join F G p) as [X _]. unfold either_wish in X. rewrite X. cbn. destruct (posting_wish F p), (posting_wish G p); reflexivity.
    - destruct (condition_word _ _ _ H) as (F & W & Wr & N & E). destruct (condition_word _ _ _ H') as (G & W' & Wr' & _ & E'). eexists. split; [apply fs_or; eauto|]. split; [cbn [written]; tauto|].
      intros t p cs Hp. cbn [denotes eval]. rewrite E by auto. cbn [bind]. rewrite E' by auto. destruct (wish_join F G p) as [X _]. unfold either_wish in X. rewrite X. cbn. destruct (posting_wish F p), (posting_wish G p); reflexivity.
    - destruct (condition_word _ _ _ H) as (F & W & Wr & N & E). destruct (condition_word _ _ _ H') as (G & W' & Wr' & _ & E'). eexists. split; [apply fs_and; eauto|]. split; [cbn [written]; tauto|].
      intros t p cs Hp. cbn [denotes eval]. rewrite E by auto. cbn [bind]. rewrite E' by auto. destruct (wish_join F G p) as [_ X]. unfold both_wish in X. rewrite X. cbn. destruct (posting_wish F p), (posting_wish G p); reflexivity. }
  destruct K as (F & W & Wr & E). destruct (found_nodes w o F W) as (q & Q & Gr). destruct B as (B1 & B2 & B3 & B4 & B5 & B6).
  eapply run_same; [auto|repeat split; auto|exact Q|exact (condition_node w o' e Wr C)|]. intros t p cs _ Hp. apply (filter_same w o o' q (Some (denotes e)) F F t p cs); [repeat split; auto|exact Gr|intros t0 p0 cs0 Hp0; apply E; auto|intros a n ts; auto|auto].
Qed.
Print Assumptions C92_words.

(** ** Conditions on the journal of C91 *)
Definition o92 (b e : option Z) (q : list str) : opts :=
  {| o_real := false; o_begin := b; o_end := e; o_query := q; o_depth := None; o_exchange := None; o_no_balance_check := false |}.
Definition c92 (e : cexp) : opts := o92 None None [L "expr"; L "(" ++ text_of e ++ L ")"].
Definition big : cexp := CBin OGt (CFun FAbs (CVar KAmount)) (CMoney (L "6") (Some (L "50")) (L "eur")).
Definition spent : cexp := CBin OOr (account_like (L "Food")) (CBin OOr (tagged_like (L "party")) (payee_like (L "Bar"))).
Lemma big_written : written (w84 t91) big.
Proof.
  cbn [written big]. split; [exact I|]. split; [|tauto]. split; [|split; [reflexivity|split; [|split]; discriminate]].
  split; [apply only_digits_all; reflexivity|]. split; [discriminate|]. split; [apply only_digits_all; reflexivity|discriminate].
Qed.
Lemma spent_written : written (w84 t91) spent.
Proof.
  assert (K : forall s, ~ In c_slash s -> written (w84 t91) (CRegex s)) by (intros s Hs; split; [exact Hs|reflexivity]).
  assert (K1 : written (w84 t91) (account_like (L "Food"))) by (split; [exact I|split; [apply K; cbn; intuition discriminate|tauto]]).
  assert (K2 : written (w84 t91) (payee_like (L "Bar"))) by (split; [exact I|split; [apply K; cbn; intuition discriminate|tauto]]).
  assert (K3 : written (w84 t91) (tagged_like (L "party"))) by (apply K; cbn; intuition discriminate).
  unfold spent. cbn [written] in *. tauto.
Qed.
(** ((abs(amount) > 6.50 eur)), and three things to look for in one condition. *)
Example C92_case : world_ok (w84 t91) /\ written (w84 t91) big /\ conditional (c92 big) big /\ conditional (c92 (CNot big)) (CNot big) /\ unasked (o92 None None []) /\
  written (w84 t91) (CBin OOr big spent) /\ spelled_alike (w84 t91) big spent /\
  run_cmd 2 (w84 t91) CRegister (c92 big) (L "book") = Ok (map L
    ["2021-01-02 Shop                                      Expenses:Food                             10.00 EUR        10.00 EUR";
     "                                                     Assets:Bank                              -15.00 EUR        -5.00 EUR";
     "                                                     (Budget:Food)                            -10.00 EUR       -15.00 EUR";
     "2021-01-03 Bar                                       Expenses:Drinks                            7.00 EUR        -8.00 EUR";
     "                                                     Assets:Bank                               35.00 EUR        27.00 EUR";
     "                                                     Equity                                   -42.00 EUR       -15.00 EUR"]%string) /\
  run_cmd 2 (w84 t91) CRegister (c92 (CNot big)) (L "book") = Ok (map L
    ["2021-01-02 Shop                                      Expenses:Drinks                            5.00 EUR         5.00 EUR"]%string) /\
  run_cmd 2 (w84 t91) (CBalance true true) (c92 spent) (L "book") = Ok (map L
    ["           35.00 EUR  Assets:Bank"; "          -10.00 EUR  Budget:Food"; "          -42.00 EUR  Equity"; "           12.00 EUR  Expenses:Drinks"; "           10.00 EUR  Expenses:Food"]%string) /\
  run_cmd 2 (w84 t91) (CBalance true true) (c92 (CBin OOr big spent)) (L "book") = Ok (map L
    ["           20.00 EUR  Assets:Bank"; "          -10.00 EUR  Budget:Food"; "          -42.00 EUR  Equity"; "           12.00 EUR  Expenses:Drinks"; "           10.00 EUR  Expenses:Food"]%string) /\
  match run_cmd 2 (w84 t91) (CBalance true true) (c92 (CBin OAnd big spent)) (L "book") with Ok _ => True | _ => False end.
Proof.
  split; [exact (w84_ok _)|]. split; [exact big_written|]. split; [reflexivity|]. split; [reflexivity|]. split; [reflexivity|].
  split; [split; [exact big_written|split; [exact spent_written|cbn; tauto]]|]. split; [intros x y _ Hy; destruct Hy|].
  split; [vm_compute; reflexivity|]. split; [vm_compute; reflexivity|]. split; [vm_compute; reflexivity|]. split; [vm_compute; reflexivity|]. vm_compute. exact I.
Qed.
(** The dates and words. *)
Example C92_option_case :
  written (w84 t91) (CBin OAnd (from_day c_sq (L "2021-01-03")) (before_day c_dq (L "2021/01/04"))) /\
  date_parser (w84 t91) (L "2021-01-03") = Ok (Some 737792%Z) /\ date_parser (w84 t91) (L "2021/01/04") = Ok (Some 737793%Z) /\
  same_otherwise (c92 (CBin OAnd (from_day c_sq (L "2021-01-03")) (before_day c_dq (L "2021/01/04")))) (o92 (Some 737792%Z) (Some 737793%Z) []) /\
  words_condition (w84 t91) (o_query (ask ["exp"; "and"; "@shop"]%string None)) (CBin OAnd (account_like (L "(?i)exp")) (payee_like (L "(?i)shop"))) /\
  run_cmd 2 (w84 t91) (CBalance true true) (c92 (CBin OAnd (from_day c_sq (L "2021-01-03")) (before_day c_dq (L "2021/01/04")))) (L "book") = Ok (map L
    ["           35.00 EUR  Assets:Bank"; "          -42.00 EUR  Equity"; "            7.00 EUR  Expenses:Drinks"]%string) /\
  run_cmd 2 (w84 t91) (CBalance true true) (c92 (CBin OAnd (account_like (L "(?i)exp")) (payee_like (L "(?i)shop")))) (L "book") = Ok (map L
    ["            5.00 EUR  Expenses:Drinks"; "           10.00 EUR  Expenses:Food"]%string).
Proof.
  assert (Q : forall q s, forallb (fun c => negb ((c =? q)%N || (c =? 92)%N)) s = true -> in_quotes q s).
  { intros q s. induction s as [|c s IH]; intros H; [constructor|]. cbn in H. apply andb_true_iff in H. destruct H as [H1 H2]. apply negb_true_iff, orb_false_iff in H1. destruct H1 as [X Y].
    apply N.eqb_neq in X, Y. apply iq_char; auto. }
  split; [cbn [written from_day before_day]; split; [split; [exact I|split; [split; [right; reflexivity|apply Q; reflexivity]|tauto]]|split; [split; [exact I|split; [split; [left; reflexivity|apply Q; reflexivity]|tauto]]|tauto]]|].
  split; [vm_compute; reflexivity|]. split; [vm_compute; reflexivity|]. split; [repeat split|].
  split; [|split; vm_compute; reflexivity]. cbn [ask o_query map]. apply wcs_and.
  - apply (wc_text (w84 t91) (L "exp")); [cbn; intuition discriminate|intros k r [<-|[<-|[<-|[]]]]; discriminate|split; [cbn; intuition discriminate|reflexivity]].
  - apply (wc_payee (w84 t91) (L "@shop") (L "shop")); [reflexivity|split; [cbn; intuition discriminate|reflexivity]].
Qed.
