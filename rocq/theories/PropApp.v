(** Properties C62, C64, C65: configuration file, listing commands, check and exit status. *)
From Coq Require Import Lia Sorting.Sorted.
From Verif Require Import Base BaseFacts Numerals Money Alist Comment Txn Dates Expr Filter Tokens Price Ledger Reports App Spec SpecList AlistFacts SpecTxn SpecLedger
  LedgerFacts LedgerFacts2 LedgerFacts3 LedgerFacts4 PropTxn PropLedger SpecReports ReportFacts ReportFacts2 PropReports SpecApp.

(** ** Lines and words *)
Lemma no_nl_app a b : one_line (a ++ b) <-> one_line a /\ one_line b.
Proof. unfold one_line. rewrite in_app_iff. tauto. Qed.
Lemma lines_of_line l : forall cur, one_line l -> lines_of l cur = match cur ++ l with [] => [] | x => [x] end.
Proof.
  induction l as [|c l IH]; intros cur H; cbn [lines_of]; [rewrite app_nil_r; destruct cur; auto|].
  destruct (N.eqb_spec c c_nl) as [->|]; [destruct H; left; auto|]. rewrite IH by (intros X; apply H; right; auto). rewrite <- app_assoc. auto.
Qed.
Lemma lines_of_nl l r : forall cur, one_line l -> lines_of (l ++ [c_nl] ++ r) cur =
  (match rev (cur ++ l) with x :: y => if (x =? c_cr)%N then rev y else cur ++ l | [] => cur ++ l end) :: lines_of r [].
Proof.
  induction l as [|c l IH]; intros cur H.
  - cbn [app lines_of]. rewrite N.eqb_refl, app_nil_r. auto.
  - cbn [app lines_of]. destruct (N.eqb_spec c c_nl) as [->|]; [destruct H; left; auto|]. change (l ++ c_nl :: r) with (l ++ [c_nl] ++ r).
    rewrite IH by (intros X; apply H; right; auto). rewrite <- app_assoc. auto.
Qed.
Lemma text_lines_of s ls : text_lines s ls -> lines_of s [] = ls.
Proof.
  induction 1 as [|l H1 H2|l r ls H1 H2 H3 IH|l r ls H1 H2 IH].
  - reflexivity.
  - rewrite lines_of_line by auto. cbn. destruct l; [congruence|auto].
  - rewrite lines_of_nl, IH by auto. cbn [app]. destruct (rev l) as [|x y] eqn:E; auto.
    destruct (N.eqb_spec x c_cr) as [->|]; auto. exfalso. apply (H2 (rev y)). rewrite <- (rev_involutive l), E. auto.
  - change (l ++ [c_cr; c_nl] ++ r) with (l ++ [c_cr] ++ [c_nl] ++ r). rewrite app_assoc. rewrite lines_of_nl, IH.
    + cbn [app]. rewrite rev_unit, N.eqb_refl, rev_involutive. auto.
    + apply no_nl_app. split; auto. intros [X|[]]. discriminate.
Qed.
Lemma text_lines_exist : forall n s, (length s <= n)%nat -> exists ls, text_lines s ls.
Proof.
  induction n as [|n IH]; intros s Hn; [destruct s; [exists []; constructor|cbn in Hn; lia]|].
  destruct (in_dec N.eq_dec c_nl s) as [Hi|Hi].
  - assert (X : exists l r, s = l ++ [c_nl] ++ r /\ one_line l).
    { clear Hn. induction s as [|c s IHs]; [destruct Hi|]. destruct (N.eq_dec c c_nl) as [->|Hc].
      - exists [], s. split; auto. intros [].
      - destruct Hi as [|Hi]; [congruence|]. destruct (IHs Hi) as (l & r & -> & Hl). exists (c :: l), r. split; auto. intros [|X]; [congruence|auto]. }
    destruct X as (l & r & -> & Hl). rewrite !app_length in Hn. cbn in Hn. destruct (IH r) as (ls & Hr); [lia|].
    destruct (rev l) as [|x y] eqn:E.
    + assert (l = []) as -> by (rewrite <- (rev_involutive l), E; auto). exists ([] :: ls). constructor; auto. intros [|? ?]; discriminate.
    + assert (El : l = rev y ++ [x]) by (rewrite <- (rev_involutive l), E; auto). destruct (N.eq_dec x c_cr) as [->|Hx].
      * exists (rev y :: ls). rewrite El. rewrite <- app_assoc. apply (tl_return (rev y) r ls); auto. rewrite El in Hl. apply no_nl_app in Hl. tauto.
      * exists (l :: ls). constructor; auto. intros l0 X. rewrite El in X. apply app_inj_tail in X. tauto.
  - destruct s as [|c s]; [exists []; constructor|]. exists [c :: s]. constructor; auto. discriminate.
Qed.
Lemma lines_of_text s : text_lines s (lines_of s []).
Proof. destruct (text_lines_exist (length s) s (le_n _)) as (ls & H). rewrite (text_lines_of s ls H). auto. Qed.

Lemma words_blank b r : blank b -> words_from (b ++ r) [] = words_from r [].
Proof.
  induction b as [|c b IH]; intros H; auto. cbn [app words_from]. rewrite (H c) by (left; auto). apply IH. intros d Hd. apply H. right. auto.
Qed.
Lemma words_solid x r : forall cur, (forall c, In c x -> is_ws c = false) -> word_end r -> cur ++ x <> [] ->
  words_from (x ++ r) cur = (cur ++ x) :: words_from r [].
Proof.
  induction x as [|c x IH]; intros cur H Hr Hn; cbn [app words_from].
  - rewrite app_nil_r in *. destruct r as [|d r]; cbn [words_from]; [destruct cur; [congruence|auto]|]. cbn in Hr. rewrite Hr. destruct cur; [congruence|]. auto.
  - rewrite (H c) by (left; auto). rewrite IH; auto; rewrite <- ?app_assoc; auto. intros d Hd. apply H. right. auto.
Qed.
Lemma spaced_words s ws : spaced s ws -> words s = ws.
Proof.
  unfold words. induction 1 as [b H|b x r ws H1 [H2 H3] H4 H5 IH].
  - rewrite <- (app_nil_r b), words_blank by auto. auto.
  - rewrite words_blank, words_solid by auto. rewrite IH. auto.
Qed.
Lemma split_while (f : N -> bool) s : exists a r, s = a ++ r /\ (forall c, In c a -> f c = true) /\ match r with [] => True | c :: _ => f c = false end.
Proof.
  induction s as [|c s (a & r & -> & H1 & H2)]; [exists [], []; split; [auto|split; [intros ? []|exact I]]|].
  destruct (f c) eqn:E; [exists (c :: a), r|exists [], (c :: a ++ r)]; (split; [reflexivity|split]).
  - intros d [<-|Hd]; auto.
  - exact H2.
  - intros ? [].
  - exact E.
Qed.
Lemma spaced_exist : forall n s, (length s <= n)%nat -> exists ws, spaced s ws.
Proof.
  induction n as [|n IH]; intros s Hn; [destruct s; [exists []; constructor; intros ? []|cbn in Hn; lia]|].
  destruct (split_while is_ws s) as (b & r & -> & Hb & Hr). destruct r as [|c r]; [exists []; rewrite app_nil_r; constructor; auto|].
  destruct (split_while (fun c => negb (is_ws c)) (c :: r)) as (x & r' & E & Hx & Hr'). rewrite E in *.
  destruct x as [|c' x]; [cbn in E; subst r'; rewrite Hr in Hr'; discriminate|]. rewrite !app_length in Hn. cbn in Hn.
  destruct (IH r') as (ws & Hw); [lia|]. exists ((c' :: x) :: ws). constructor; auto.
  - split; [discriminate|]. intros d Hd. apply Hx in Hd. destruct (is_ws d); [discriminate|auto].
  - unfold word_end. destruct r' as [|d r']; auto. destruct (is_ws d); auto; discriminate.
Qed.
Lemma words_spaced s : spaced s (words s).
Proof. destruct (spaced_exist (length s) s (le_n _)) as (ws & H). rewrite (spaced_words s ws H). auto. Qed.
Lemma trim_start_split s : exists b, blank b /\ s = b ++ trim_start s /\ match trim_start s with [] => True | c :: _ => is_ws c = false end.
Proof.
  induction s as [|c s (b & H1 & H2 & H3)]; [exists []; split; [intros ? []|split; [auto|exact I]]|]. cbn [trim_start]. destruct (is_ws c) eqn:E.
  - exists (c :: b). split; [intros d [<-|Hd]; auto|]. split; auto. cbn. congruence.
  - exists []. split; [intros ? []|]. auto.
Qed.
Lemma trim_start_blank b r : blank b -> match r with [] => True | c :: _ => is_ws c = false end -> trim_start (b ++ r) = r.
Proof.
  induction b as [|c b IH]; intros H Hr; cbn [app trim_start].
  - destruct r as [|c r]; auto. cbn. rewrite Hr. auto.
  - rewrite (H c) by (left; auto). apply IH; auto. intros d Hd. apply H. right. auto.
Qed.

(** ** One line of the configuration file *)
Lemma gives_given o args : existsb (gives o) args = true <-> given o args.
Proof.
  rewrite existsb_exists. unfold gives, given. split.
  - intros (x & Hx & H). apply orb_true_iff in H. destruct H as [H|H].
    + destruct (str_eqb_spec x o) as [->|]; [auto|discriminate].
    + apply andb_true_iff in H. destruct H as [H1 H2]. destruct (str_eqb_spec x (L "-f")) as [->|]; [|discriminate].
      destruct (str_eqb_spec (L "--file") o) as [<-|]; [auto|discriminate].
  - intros [H|[-> H]]; [exists o; rewrite str_eqb_refl; auto|]. exists (L "-f"). split; auto.
Qed.
Lemma silent_iff line : silent line <-> match trim_start line with [] => True | c :: _ => In c (L ";#!%") end.
Proof.
  split.
  - intros (b & r & Hb & -> & Hr). rewrite trim_start_blank; auto.
    + destruct Hr as [->|(c & r' & -> & Hc)]; auto.
    + destruct Hr as [->|(c & r' & -> & Hc)]; auto. cbn in Hc. destruct Hc as [<-|[<-|[<-|[<-|[]]]]]; reflexivity.
  - destruct (trim_start_split line) as (b & H1 & H2 & H3). intros H. exists b, (trim_start line). split; auto. split; auto.
    destruct (trim_start line) as [|c r]; auto. right. eauto.
Qed.
Definition option_entry (o : str) (rest : list str) : str * list str := (o, match rest with [] => [] | _ => [join [c_sp] rest] end).
Lemma config_line_cases args line :
  (silent line /\ config_line args line = Ok args) \/
  (exists r o rest, line = L "--" ++ r /\ spaced line (o :: rest) /\
     ((given o args /\ config_line args line = Ok args) \/
      (~ given o args /\ config_line args line = Ok (args ++ o :: snd (option_entry o rest))))) \/
  (exists p, config_line args line = Panic p).
Proof.
  unfold config_line. pose proof (silent_iff line) as S. destruct (trim_start line) as [|c t] eqn:Et; [left; split; [apply S; auto|auto]|].
  destruct (N.eqb_spec c c_minus) as [->|Hc].
  - destruct (starts_with (L "--") line) eqn:Es; cbn [negb]; [|right; right; eauto].
    apply starts_with_iff in Es. destruct Es as (r & Er). right. left. pose proof (words_spaced line) as W. exists r.
    destruct (words line) as [|o rest] eqn:Ew.
    { exfalso. apply spaced_words in W. rewrite Er in W. cbn in W. clear - W. 
      assert (X : forall r cur, cur <> [] -> words_from r cur <> []).
      { induction r0 as [|c r0 IH]; intros cur Hc; cbn; [destruct cur; congruence|]. destruct (is_ws c); [destruct cur; congruence|]. apply IH. destruct cur; discriminate. }
      eapply X; [|exact W]. discriminate. }
    exists o, rest. split; auto. split; auto. pose proof (gives_given o args) as G. destruct (existsb (gives o) args).
    + left. split; [apply G; auto|auto].
    + right. split; [intros X; apply G in X; discriminate|]. destruct rest; auto.
  - destruct ((c =? c_semi) || (c =? 35) || (c =? 33) || (c =? 37))%N eqn:Ec.
    + left. split; auto. apply S. rewrite !orb_true_iff, !N.eqb_eq in Ec. cbn. unfold c_semi in *. intuition.
    + right. right. eauto.
Qed.
Lemma config_lines_ok lines : forall args args', foldM config_line args lines = Ok args' ->
  exists options added, config_options lines options /\ part_of added options /\
    args' = args ++ flat_map (fun x => fst x :: snd x) added /\ NoDup (map fst added) /\
    (forall o, In o (map fst added) -> ~ given o args) /\ (forall o, In o (map fst options) -> given o args') /\
    (forall o v, In (o, v) added -> exists l1 l2, options = l1 ++ (o, v) :: l2 /\ ~ In o (map fst l1)).
Proof.
  induction lines as [|line lines IH]; intros args args' H; cbn [foldM] in H.
  - inv H. exists [], []. split; [constructor|]. split; [constructor|]. cbn. rewrite app_nil_r. split; [auto|split; [constructor|split; [intros ? []|split; [intros ? []|intros ? ? []]]]].
  - bind_inv H. destruct (config_line_cases args line) as [[S E]|[(r & o & rest & El & W & [[G E]|[G E]])|(p & E)]]; rewrite E in Hb; [| | |discriminate]; inv Hb.
    + destruct (IH _ _ H) as (os & ad & O1 & O2 & O3 & O4 & O5 & O6 & O7). exists os, ad. split; [constructor; auto|]. auto 12.
    + destruct (IH _ _ H) as (os & ad & O1 & O2 & O3 & O4 & O5 & O6 & O7). exists (option_entry o rest :: os), ad.
      split; [econstructor; [reflexivity|exact W|exact O1]|]. split; [constructor; auto|]. split; auto. split; auto. split; auto. split.
      * intros o' [<-|Ho]; auto. cbn. rewrite O3. destruct G as [G|[G1 G2]]; [left|right; split; auto]; apply in_or_app; auto.
      * intros o' v Hi. destruct (O7 o' v Hi) as (l1 & l2 & -> & Hn). exists (option_entry o rest :: l1), l2. split; auto. cbn. intros [<-|X]; auto.
        apply (O5 o); [apply (in_map fst _ _ Hi)|auto].
    + destruct (IH _ _ H) as (os & ad & O1 & O2 & O3 & O4 & O5 & O6 & O7). exists (option_entry o rest :: os), (option_entry o rest :: ad).
      assert (G' : given o (args ++ o :: snd (option_entry o rest))) by (left; apply in_or_app; right; left; auto).
      split; [econstructor; [reflexivity|exact W|exact O1]|]. split; [constructor; auto|]. split; [rewrite O3, <- app_assoc; auto|]. split.
      { cbn [map]. constructor; auto. intros X. apply (O5 _ X). exact G'. }
      split; [|split].
      * intros o' [<-|Ho]; auto. intros X. apply (O5 _ Ho). destruct X as [X|[X1 X2]]; [left|right; split; auto]; apply in_or_app; auto.
      * intros o' [<-|Ho]; auto. cbn. left. rewrite O3. apply in_or_app. left. apply in_or_app. right. left. auto.
      * intros o' v [Ei|Hi]; [inv Ei; exists [], os; auto|]. destruct (O7 o' v Hi) as (l1 & l2 & -> & Hn).
        exists (option_entry o rest :: l1), l2. split; auto. cbn. intros [<-|X]; auto. apply (O5 o); [apply (in_map fst _ _ Hi)|auto].
Qed.
Lemma init_file_cases args :
  (exists pre x post, args = pre ++ [L "--init-file"; x] ++ post /\ ~ In (L "--init-file") pre /\ init_file_arg args = Ok [x]) \/
  (~ In (L "--init-file") args /\ init_file_arg args = Ok []) \/
  (exists pre, args = pre ++ [L "--init-file"] /\ ~ In (L "--init-file") pre /\ init_file_arg args = Panic PIndex).
Proof.
  induction args as [|a args IH]; [right; left; split; auto|]. cbn [init_file_arg]. destruct (str_eqb_spec a (L "--init-file")) as [->|Ha].
  - destruct args as [|x r]; [right; right; exists []; auto|left; exists [], x, r; auto].
  - destruct IH as [(pre & x & post & -> & Hn & E)|[[Hn E]|(pre & -> & Hn & E)]].
    + left. exists (a :: pre), x, post. split; auto. split; auto. intros [|X]; auto.
    + right. left. split; auto. intros [|X]; auto.
    + right. right. exists (a :: pre). split; auto. split; auto. intros [|X]; auto.
Qed.
Lemma find_first w cands : match find (fun f => match w_read w f with Some _ => true | None => false end) cands with
  | Some f => exists content, first_file w cands f content
  | None => Forall (fun g => w_read w g = None) cands
  end.
Proof.
  induction cands as [|g cands IH]; cbn [find]; [constructor|]. destruct (w_read w g) as [t|] eqn:E.
  - exists t, [], cands. split; auto.
  - destruct (find _ cands) as [f|].
    + destruct IH as (t & pre & post & -> & H1 & H2). exists t, (g :: pre), post. split; auto.
    + constructor; auto.
Qed.

(** ** C62 *)
Theorem C62_config_file : forall w home args args', with_config w home args = Ok args' ->
  exists cands, candidates home args cands /\
   (args' = args /\ Forall (fun f => w_read w f = None) cands \/
    exists f content lines options added, first_file w cands f content /\ text_lines content lines /\ config_options lines options /\
      args' = args ++ flat_map (fun x => fst x :: snd x) added /\
      part_of added options /\ NoDup (map fst added) /\
      (forall o, In o (map fst added) -> ~ given o args) /\
      (forall o, In o (map fst options) -> given o args') /\
      (forall o v, In (o, v) added -> exists l1 l2, options = l1 ++ (o, v) :: l2 /\ ~ In o (map fst l1))).
Proof.
  intros w home args args' H. unfold with_config, config_path in H. bind_inv H. rename a into p. rename Hb into Hp. bind_inv Hp. inv Hp.
  assert (C : candidates home args (a ++ [home; L ".ledgerrc"])).
  { destruct (init_file_cases args) as [(pre & x & post & E1 & Hn & E)|[[Hn E]|(pre & E1 & Hn & E)]]; rewrite E in Hb; inv Hb; [eapply cd_given; eauto|constructor; auto]. }
  exists (a ++ [home; L ".ledgerrc"]). split; auto. pose proof (find_first w (a ++ [home; L ".ledgerrc"])) as F.
  destruct (find _ (a ++ _)) as [f|]; [|inv H; auto]. right. destruct F as (content & F). pose proof F as (pre & post & _ & _ & R). rewrite R in H. cbn [unwrap bind] in H.
  destruct (config_lines_ok _ _ _ H) as (os & ad & O1 & O2 & O3 & O4 & O5 & O6 & O7).
  exists f, content, (lines_of content []), os, ad. split; auto. split; [apply lines_of_text|]. auto 10.
Qed.
Print Assumptions C62_config_file.
(** A configuration file of options and comments is always accepted. *)
Theorem C62_accepted : forall w home args cands f content lines options, candidates home args cands -> first_file w cands f content ->
  text_lines content lines -> config_options lines options -> exists args', with_config w home args = Ok args'.
Proof.
  intros w home args cands f content lines options C (pre & post & Ec & Fp & R) T O.
  assert (E : config_path w home args = Ok (Some f)).
  { unfold config_path. assert (X : exists p, init_file_arg args = Ok p /\ cands = p ++ [home; L ".ledgerrc"]).
    { destruct C as [Hn|pre0 x post0 -> Hn].
      - exists []. split; auto. destruct (init_file_cases args) as [(p & x & q & E1 & Hn' & E)|[[_ E]|(p & E1 & Hn' & E)]]; auto; exfalso; apply Hn; rewrite E1; apply in_or_app; right; left; auto.
      - exists [x]. split; auto. clear - Hn. induction pre0 as [|a pre0 IH]; [reflexivity|]. cbn [app init_file_arg]. destruct (str_eqb_spec a (L "--init-file")) as [->|].
        + destruct Hn. left. auto.
        + apply IH. intros Y. apply Hn. right. auto. }
    destruct X as (p & -> & Ep). cbn [bind]. f_equal. rewrite <- Ep, Ec. clear - Fp R. induction Fp as [|g pre Hg Fp IH]; cbn [app find]; [rewrite R; auto|]. rewrite Hg. auto. }
  unfold with_config. rewrite E. cbn [bind]. rewrite R. cbn [unwrap bind]. rewrite (text_lines_of _ _ T). clear - O. revert args.
  induction O as [|line ls os S O IH|line r o rest ls os El W O IH]; intros args; cbn [foldM]; [eauto| |].
  - unfold config_line at 1. apply silent_iff in S. destruct (trim_start line) as [|c t] eqn:Et; [apply IH|].
    cbn in S. assert (X : config_line args line = Ok args).
    { unfold config_line. rewrite Et. destruct S as [<-|[<-|[<-|[<-|[]]]]]; reflexivity. }
    unfold config_line in X. rewrite Et in X. rewrite X. apply IH.
  - destruct (config_line_cases args line) as [[S E]|[(r' & o' & rest' & El' & W' & [[G E]|[G E]])|(p & E)]]; try (rewrite E; apply IH).
    exfalso. unfold config_line in E. apply spaced_words in W. rewrite W in E. rewrite El in E. cbn in E. destruct (existsb (gives o) args); discriminate.
Qed.
Print Assumptions C62_accepted.
Definition w62 : world :=
  {| w_lower := ascii_lower; w_numeric := fun _ => false; w_rx := fun _ _ => false; w_rx_ok := fun _ => true;
     w_width := None; w_read := fun f => if str_eqb f (L ".ledgerrc") then Some (text ["; my options"; ""; "--file  book.ledger"; "--depth 2"; "--flat"; "--depth 3"; "  # end"]%string) else None;
     w_glob := fun _ => None; w_two_timer := fun _ => None; w_now := 0%Z; w_ord := fun _ _ l => l |}.
Example C62_case :
  with_config w62 (L "home") [L "dinero"; L "bal"; L "-f"; L "other"] = Ok [L "dinero"; L "bal"; L "-f"; L "other"; L "--depth"; L "2"; L "--flat"] /\
  with_config w62 (L "home") [L "dinero"; L "reg"; L "--flat"] = Ok [L "dinero"; L "reg"; L "--flat"; L "--file"; L "book.ledger"; L "--depth"; L "2"].
Proof. split; vm_compute; reflexivity. Qed.

(** ** C64 *)
Lemma ascending_same l : forall l', ascending l -> ascending l' -> Permutation l l' -> l = l'.
Proof.
  intros l' A A' P. apply sorted_ascending in A, A'. revert l' A' P. induction A as [|x l S IH F]; intros l' A' P.
  - apply Permutation_nil in P. auto.
  - destruct l' as [|y l']; [symmetry in P; apply Permutation_nil in P; discriminate|]. inversion A' as [|? ? S' F']; subst.
    assert (x = y) as ->.
    { rewrite Forall_forall in F, F'. destruct (str_eqb_spec x y) as [|Hxy]; auto. exfalso.
      assert (Hx : In x (y :: l')) by (eapply Permutation_in; [exact P|left; auto]). destruct Hx as [|Hx]; [congruence|].
      assert (Hy : In y (x :: l)) by (eapply Permutation_in; [symmetry; exact P|left; auto]). destruct Hy as [|Hy]; [congruence|].
      specialize (F y Hy). specialize (F' x Hx). pose proof (lt_name_trans _ _ _ F F') as X. unfold lt_name in X. apply str_ltb_leb in X. tauto. }
    f_equal. apply IH; auto. eapply Permutation_cons_inv; eauto.
Qed.
Lemma names_distinct {T} w (name : T -> str) aliases l : buildable w name aliases l -> NoDup (map name (l_values l)).
Proof.
  intros B. pose proof (buildable_lwf w name aliases l B) as W. destruct W as [N _ K _ _]. unfold l_values. rewrite map_map.
  clear B. induction (l_list l) as [|[k e] m IH]; [constructor|]. cbn [map] in *. inversion N as [|? ? N1 N2]; subst. constructor.
  - intros X. apply N1. apply in_map_iff in X. destruct X as ([k' e'] & E & X). cbn [snd] in E. pose proof (K k e (or_introl eq_refl)) as E1. pose proof (K k' e' (or_intror X)) as E2.
    apply in_map_iff. exists (k', e'). split; auto. cbn [fst]. rewrite E1, E2, E. auto.
  - apply IH; auto. intros k' e' X. apply K. right. auto.
Qed.
Lemma sorted_names_ok w site l : world_ok w -> NoDup l -> ascending (sorted_names (w_ord w site _ l)) /\ Permutation (sorted_names (w_ord w site _ l)) l.
Proof.
  intros Hw N. assert (P : Permutation (sorted_names (w_ord w site _ l)) l).
  { unfold sorted_names. etransitivity; [apply stable_sort_perm|apply Hw]. }
  split; auto. apply sorted_ascending.
  assert (N' : NoDup (sorted_names (w_ord w site _ l))) by (eapply Permutation_NoDup; [symmetry; exact P|auto]).
  assert (S : StronglySorted (fun a b => str_leb a b = true) (sorted_names (w_ord w site _ l))).
  { unfold sorted_names. apply stable_sort_sorted; [intros a b; apply str_leb_total|intros a b c; apply str_leb_trans]. }
  clear P. induction S as [|x r S IH F]; [constructor|]. inversion N' as [|? ? N1 N2]; subst. constructor; auto.
  rewrite Forall_forall in *. intros y Hy. unfold lt_name. apply str_ltb_leb. split; [apply F; auto|]. intros ->. auto.
Qed.
(** The names listed by the three commands. *)
Theorem C64_listings : forall w site lg, world_ok w -> made_from w lg ->
  let listing names l := ascending l /\ forall n, In n l <-> In n names in
  listing (map ac_name (l_values (lg_accounts lg))) (accounts_report w site lg) /\
  listing (map py_name (l_values (lg_payees lg))) (payees_report w site lg) /\
  listing (map cu_name (l_values (lg_commodities lg))) (commodities_report w site lg).
Proof.
  intros w site lg Hw M. cbn zeta. destruct (made_dated w lg Hw M) as [(B1 & B2 & B3) _].
  split; [|split].
  - destruct (sorted_names_ok w site _ Hw (names_distinct _ _ _ _ B1)) as [A P]. split; auto. intros n. split; apply Permutation_in; auto; symmetry; auto.
  - destruct (sorted_names_ok w site _ Hw (names_distinct _ _ _ _ B3)) as [A P]. split; auto. intros n. split; apply Permutation_in; auto; symmetry; auto.
  - destruct (sorted_names_ok w site _ Hw (names_distinct _ _ _ _ B2)) as [A P]. split; auto. intros n. split; apply Permutation_in; auto; symmetry; auto.
Qed.
Print Assumptions C64_listings.
(** The order of the hash tables does not matter. *)
Theorem C64_hash_order : forall w w' site site' lg, world_ok w -> world_ok w' -> made_from w lg ->
  accounts_report w site lg = accounts_report w' site' lg /\ payees_report w site lg = payees_report w' site' lg /\
  commodities_report w site lg = commodities_report w' site' lg.
Proof.
  intros w w' site site' lg Hw Hw' M. destruct (made_dated w lg Hw M) as [(B1 & B2 & B3) _].
  assert (X : forall l, NoDup l -> sorted_names (w_ord w site _ l) = sorted_names (w_ord w' site' _ l)).
  { intros l N. destruct (sorted_names_ok w site l Hw N) as [A P]. destruct (sorted_names_ok w' site' l Hw' N) as [A' P'].
    apply ascending_same; auto. etransitivity; [exact P|symmetry; exact P']. }
  split; [|split]; apply X; eapply names_distinct; eauto.
Qed.
Print Assumptions C64_hash_order.
(** Everything the journal mentions is listed, under the name the ledger knows it by. *)
Theorem C64_mentioned_names_listed : forall w skip l lg site, world_ok w -> parsed w l -> to_ledger w skip l = Ok lg ->
  (forall n, mentions_account l n -> exists a, called w ac_name (lg_accounts lg) n a /\ In (ac_name a) (accounts_report w site lg)) /\
  (forall n, mentions_commodity l n -> exists c, called w cu_name (lg_commodities lg) n c /\ In (cu_name c) (commodities_report w site lg)) /\
  (forall n, mentions_payee l n -> exists y, called w py_name (lg_payees lg) n y /\ In (py_name y) (payees_report w site lg)).
Proof.
  intros w skip l lg site Hw HP H. destruct (C28_names_resolve w skip l lg Hw HP H) as (C1 & C2 & C3).
  destruct (C64_listings w site lg Hw) as ((_ & L1) & (_ & L2) & (_ & L3)); [exists skip, l; auto|].
  split; [|split]; intros n Hn.
  - destruct (C1 n Hn) as (a & Ha). exists a. split; auto. apply L1. apply in_map. apply Ha.
  - destruct (C2 n Hn) as (a & Ha). exists a. split; auto. apply L3. apply in_map. apply Ha.
  - destruct (C3 n Hn) as (a & Ha). exists a. split; auto. apply L2. apply in_map. apply Ha.
Qed.
Print Assumptions C64_mentioned_names_listed.
Example C64_case : accounts_report w1 9 lg55 = [L "Assets:Bank"; L "Assets:Cash"; L "Food"; L "Income:Gift"; L "Income:Job"] /\
  commodities_report w1 9 lg55 = [L "EUR"; L "USD"].
Proof. split; vm_compute; reflexivity. Qed.

(** ** C65 *)
(** The file parses to [items]. *)
Definition file_parses (depth : nat) (w : world) (file : str) (items : pledger) : Prop :=
  exists content, w_read w file = Some content /\ tokenize depth w (Some file) [file] content = Ok items.
Lemma file_parses_iff depth w file items : file_parses depth w file items <-> tokenize_file depth w file = Ok items.
Proof.
  unfold file_parses, tokenize_file. destruct (w_read w file) as [t|]; split.
  - intros (c & E & H). inv E. auto.
  - eauto.
  - intros (c & E & _). discriminate.
  - discriminate.
Qed.
(** check exits with 0 only if the file parses and all transactions and assertions check. *)
Theorem C65_check_sound : forall depth w o file, world_ok w -> exit_status (run_cmd depth w CCheck o file) = 0%Z ->
  exists items lg, file_parses depth w file items /\ ledger_built w false items lg.
Proof.
  intros depth w o file Hw H. unfold run_cmd in H. destruct (tokenize_file depth w file) as [items|e|p] eqn:E; cbn in H; try discriminate.
  destruct (to_ledger w false items) as [lg|e|p] eqn:E2; cbn in H; try discriminate.
  exists items, lg. assert (F : file_parses depth w file items) by (apply file_parses_iff; auto). split; auto.
  apply to_ledger_built; auto. apply parsed_ok. destruct F as (c & _ & F). exists depth, (Some file), [file], c. auto.
Qed.
Print Assumptions C65_check_sound.
(** All the outcomes of check: the journal is good; a transaction, as written or as the rules have changed it,
    is not, or a rule has no condition; or the program aborts, for a cost or a rule without meaning. *)
Theorem C65_check_verdict : forall depth w o file items, world_ok w -> file_parses depth w file items ->
  (exit_status (run_cmd depth w CCheck o file) = 0%Z /\ exists lg, ledger_built w false items lg) \/
  (exit_status (run_cmd depth w CCheck o file) = 1%Z /\
     ((exists v, v <> Accepted /\ (ledger_refused w false items v \/ refused_after_rules w false items v)) \/
      (exists r, In r (rules items) /\ no_condition w r))) \/
  (exit_status (run_cmd depth w CCheck o file) = 101%Z /\
     ((exists t p, In t (pl_txns items) /\ In p (t_postings t) /\ zero_total_cost p) \/
      (exists r x, In r (rules items) /\ rule_aborts w r x))).
Proof.
  intros depth w o file items Hw F. assert (J : parsed w items) by (destruct F as (c & _ & F); exists depth, (Some file), [file], c; auto). apply parsed_ok in J.
  apply file_parses_iff in F. unfold run_cmd. rewrite F. cbn [bind]. unfold run_on.
  pose proof (to_ledger_ends w false items Hw J) as T. destruct (to_ledger w false items) as [lg|e|x] eqn:E; cbn.
  - left. split; auto. exists lg. apply to_ledger_built; auto.
  - right. left. split; auto. destruct T as [(v & V & R)|(_ & R)]; auto. left. exists v. split; auto. intros ->. exact V.
  - right. right. split; auto. destruct T as [(_ & R)|(r & R1 & R2)]; auto. right. eauto.
Qed.
Print Assumptions C65_check_verdict.
(** A file that does not parse makes every command fail; so does, for every command that does not skip the
    checks, a file that check refuses. *)
Theorem C65_failures : forall depth w c o file,
  (exit_status (run_cmd depth w c o file) = 0%Z <-> exists out, run_cmd depth w c o file = Ok out) /\
  ((forall items, ~ file_parses depth w file items) -> exit_status (run_cmd depth w c o file) <> 0%Z) /\
  (o_no_balance_check o = false -> exit_status (run_cmd depth w c o file) = 0%Z -> forall o', exit_status (run_cmd depth w CCheck o' file) = 0%Z).
Proof.
  intros depth w c o file. split; [|split].
  - destruct (run_cmd depth w c o file); cbn; split; eauto; try discriminate; intros (out & X); discriminate.
  - intros Hn H. unfold run_cmd in H. destruct (tokenize_file depth w file) as [items|e|p] eqn:E; cbn in H; try discriminate.
    apply (Hn items). apply file_parses_iff. auto.
  - intros Ho H o'. unfold run_cmd in *. destruct (tokenize_file depth w file) as [items|e|p]; cbn [bind] in *; try (cbn in H; discriminate).
    unfold run_on in *. rewrite Ho in H. destruct (to_ledger w false items) as [lg|e|p]; auto; destruct c; cbn in H; discriminate.
Qed.
Print Assumptions C65_failures.
Definition w65 (t : list String.string) : world :=
  {| w_lower := ascii_lower; w_numeric := fun _ => false; w_rx := fun _ _ => false; w_rx_ok := fun _ => true;
     w_width := None; w_read := fun f => if str_eqb f (L "book") then Some (text t) else None;
     w_glob := fun _ => None; w_two_timer := fun _ => None; w_now := 0%Z; w_ord := fun _ _ l => l |}.
Definition check65 (t : list String.string) : Z := exit_status (run_cmd 2 (w65 t) CCheck plain_opts (L "book")).
Example C65_case : check65 t55 = 0%Z /\
  check65 ["2021-01-01 a"; "  A  5 EUR"; "  B  -4 EUR"]%string = 1%Z /\
  check65 ["2021-01-01 a"; "  A  5 EUR = 6 EUR"; "  B"]%string = 1%Z /\
  check65 ["2021-01-01 a"; "  A  0 EUR @@ 5 USD"; "  B"]%string = 101%Z /\
  exit_status (run_cmd 2 (w65 t55) CCheck plain_opts (L "nobook")) = 101%Z.
Proof. repeat split; vm_compute; reflexivity. Qed.
