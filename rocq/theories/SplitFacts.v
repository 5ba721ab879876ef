(** A journal in several files: lists of parts that declare different things are put one after the other. *)
From Coq Require Import Lia Sorting.Sorted.
From Verif Require Import Base BaseFacts Numerals Money Alist Comment Txn Peg Grammar PegFacts Dates Expr Tokens
  TokenFacts SpecList AlistFacts JournalFacts SpecTokens TokenFacts2 SimFacts JournalSim IncludeFacts InlineFacts SpecSplit.

(** ** Hash tables *)
Definition akey {V} (m : list (str * V)) (k : str) : Prop := In k (hkeys m).
Definition disjoint {V V'} (m : list (str * V)) (n : list (str * V')) : Prop := forall k, akey m k -> akey n k -> False.
Lemma hset_after {V} k (v : V) m n : ~ akey m k -> hset str_eqb k v (m ++ n) = m ++ hset str_eqb k v n.
Proof.
  induction m as [|[k' v'] m IH]; intros H; cbn [app hset]; auto.
  destruct (str_eqb_spec k k') as [->|Ne]; [destruct H; left; auto|]. f_equal. apply IH. intros X. apply H. right. auto.
Qed.
Lemma hget_after {V} k (m n : list (str * V)) : ~ akey m k -> hget str_eqb k (m ++ n) = hget str_eqb k n.
Proof.
  induction m as [|[k' v'] m IH]; intros H; cbn [app hget]; auto.
  destruct (str_eqb_spec k k') as [->|Ne]; [destruct H; left; auto|]. apply IH. intros X. apply H. right. auto.
Qed.
Lemma hget_akey {V} k (m : list (str * V)) : hget str_eqb k m <> None <-> akey m k.
Proof.
  unfold akey. induction m as [|[k' v'] m IH]; cbn [hget hkeys map fst In]; [split; [congruence|intros []]|].
  destruct (str_eqb_spec k k') as [->|Ne]; [split; [auto|discriminate]|]. rewrite IH. split; [auto|]. intros [X|X]; [congruence|auto].
Qed.
Lemma akey_hset {V} k (v : V) m x : akey (hset str_eqb k v m) x <-> x = k \/ akey m x.
Proof. apply (In_hkeys_hset _ str_eqb_spec). Qed.
Lemma fold_aliases_after nm als : forall (low : str -> str) (m n : list (str * str)), (forall a, In a als -> ~ akey m (low a)) ->
  fold_left (fun m a => hset str_eqb (low a) nm m) als (m ++ n) = m ++ fold_left (fun m a => hset str_eqb (low a) nm m) als n.
Proof.
  induction als as [|a als IH]; intros low m n H; cbn [fold_left]; auto.
  rewrite hset_after by (apply H; left; auto). apply IH. intros x Hx. apply H. right. auto.
Qed.
Lemma fold_aliases_keys nm als : forall (low : str -> str) (n : list (str * str)) x,
  akey (fold_left (fun m a => hset str_eqb (low a) nm m) als n) x <-> akey n x \/ exists a, In a als /\ x = low a.
Proof.
  induction als as [|a als IH]; intros low n x; cbn [fold_left]; [split; [auto|intros [H|(a & [] & _)]; auto]|].
  rewrite IH, akey_hset. split.
  - intros [[->|H]|(b & Hb & ->)]; [right; exists a; cbn; auto|auto|right; exists b; cbn; auto].
  - intros [H|(b & [<-|Hb] & ->)]; auto. right. exists b. auto.
Qed.
Lemma fold_extend_after {V} (o : list (str * V)) : forall m n, disjoint m o -> NoDup (hkeys o) -> disjoint n o ->
  fold_left (fun m kv => hset str_eqb (fst kv) (snd kv) m) o (m ++ n) = m ++ n ++ o.
Proof.
  induction o as [|[k v] o IH]; intros m n D N D2; cbn [fold_left fst snd]; [rewrite app_nil_r; auto|].
  assert (Hk : forall A (r : list A), r ++ [] = r) by (intros; apply app_nil_r).
  rewrite hset_after by (intros X; apply (D k X); left; auto).
  assert (E : hset str_eqb k v n = n ++ [(k, v)]).
  { rewrite <- (app_nil_r n) at 1. rewrite hset_after; [reflexivity|]. intros X. apply (D2 k X). left. auto. }
  rewrite E. cbn [hkeys map fst] in N. inversion N as [|? ? N1 N2]; subst. rewrite (IH m (n ++ [(k, v)])); auto.
  - rewrite <- app_assoc. reflexivity.
  - intros x Hx Ho. apply (D x Hx). right. auto.
  - intros x Hx Ho. unfold akey, hkeys in Hx. rewrite map_app in Hx. apply in_app_iff in Hx. destruct Hx as [Hx|[<-|[]]]; [apply (D2 x Hx); right; auto|auto].
Qed.

Lemma nodup_app {A} (a b : list A) : NoDup a -> NoDup b -> (forall x, In x a -> In x b -> False) -> NoDup (a ++ b).
Proof.
  induction a as [|x a IH]; intros Na Nb D; cbn [app]; auto. inversion Na as [|? ? N1 N2]; subst. constructor.
  - rewrite in_app_iff. intros [X|X]; [auto|]. apply (D x); [left|]; auto.
  - apply IH; auto. intros y Y1 Y2. apply (D y); [right|]; auto.
Qed.

(** ** Lists *)
Section Lists.
  Context {T : Type} (w : world) (name : T -> str) (aliases : T -> list str).
  (** One list after the other. *)
  Definition cat (l m : alist T) : alist T :=
    {| l_aliases := l_aliases l ++ l_aliases m; l_list := l_list l ++ l_list m; l_matches := l_matches l |}.
  Definition keys_apart (l m : alist T) : Prop := disjoint (l_list l) (l_list m) /\ disjoint (l_aliases l) (l_aliases m).
  Definition grown (m m' : alist T) : Prop := (forall k, akey (l_list m) k -> akey (l_list m') k) /\ (forall k, akey (l_aliases m) k -> akey (l_aliases m') k).
  Lemma insert_grown e m : grown m (l_insert w name aliases e m).
  Proof.
    unfold l_insert. destruct (hget str_eqb (w_lower w (name e)) (l_list m)); [split; auto|]. split; cbn [l_list l_aliases]; intros k Hk.
    - apply akey_hset. auto.
    - apply fold_aliases_keys. auto.
  Qed.
  Lemma apart_grown l m m' : grown m m' -> keys_apart l m' -> keys_apart l m.
  Proof using Type. intros [G1 G2] [K1 K2]. split; intros k A B; [apply (K1 k)|apply (K2 k)]; auto. Qed.
  Lemma insert_after e l m : keys_apart l (l_insert w name aliases e m) -> l_insert w name aliases e (cat l m) = cat l (l_insert w name aliases e m).
  Proof.
    unfold l_insert. cbn [cat l_list l_aliases l_matches]. destruct (hget str_eqb (w_lower w (name e)) (l_list m)) eqn:E.
    - intros [K _]. rewrite hget_after; [rewrite E; reflexivity|]. intros X. apply (K _ X). apply hget_akey. congruence.
    - cbn [l_list l_aliases]. intros [K1 K2].
      assert (N : ~ akey (l_list l) (w_lower w (name e))) by (intros X; apply (K1 _ X); apply akey_hset; auto).
      rewrite hget_after, E by auto. unfold cat. cbn [l_aliases l_list l_matches]. f_equal.
      + apply fold_aliases_after. intros a Ha X. apply (K2 _ X). apply fold_aliases_keys. right. exists a. auto.
      + apply hset_after. auto.
  Qed.
  Lemma append_after l m : keys_apart l m -> NoDup (hkeys (l_list m)) -> NoDup (hkeys (l_aliases m)) -> l_append l m = cat l m.
  Proof using Type.
    intros [K1 K2] N1 N2. unfold l_append, cat. f_equal.
    - rewrite <- (app_nil_r (l_aliases l)) at 1. rewrite fold_extend_after; auto. intros k [].
    - rewrite <- (app_nil_r (l_list l)) at 1. rewrite fold_extend_after; auto. intros k [].
  Qed.
  (** Lists made by inserting: the keys are the names and the aliases of the elements. *)
  Record tidy_list (l : alist T) : Prop := {
    td_names : NoDup (hkeys (l_list l)); td_aliases : NoDup (hkeys (l_aliases l));
    td_key : forall k, akey (l_list l) k -> exists e, In e (l_values l) /\ k = w_lower w (name e);
    td_alias : forall k, akey (l_aliases l) k -> exists e u, In e (l_values l) /\ In u (aliases e) /\ k = w_lower w u;
    td_matches : l_matches l = [];
  }.
  Lemma tidy_new : tidy_list l_new.
  Proof. split; cbn; try constructor; try (intros k []). Qed.
  Lemma hset_new {V} k (v : V) m : hget str_eqb k m = None -> hset str_eqb k v m = m ++ [(k, v)].
  Proof using Type. intros H. rewrite <- (app_nil_r m) at 1. rewrite hset_after; [reflexivity|]. intros X. apply hget_akey in X. auto. Qed.
  Lemma tidy_insert e l : tidy_list l -> tidy_list (l_insert w name aliases e l).
  Proof.
    intros [N1 N2 K A M]. unfold l_insert. destruct (hget str_eqb (w_lower w (name e)) (l_list l)) eqn:E; [split; auto|].
    assert (V : forall x, In x (map snd (hset str_eqb (w_lower w (name e)) e (l_list l))) <-> In x (l_values l) \/ x = e).
    { intros x. rewrite hset_new by auto. rewrite map_app, in_app_iff. cbn. unfold l_values. intuition. }
    split; cbn [l_list l_aliases l_matches]; auto.
    - apply (NoDup_hset _ str_eqb_spec). auto.
    - apply NoDup_fold_alias. auto.
    - intros k Hk. apply akey_hset in Hk. destruct Hk as [->|Hk]; [exists e; split; auto; apply V; auto|].
      destruct (K k Hk) as (x & X1 & X2). exists x. split; auto. apply V. auto.
    - intros k Hk. apply fold_aliases_keys in Hk. destruct Hk as [Hk|(a & Ha & ->)].
      + destruct (A k Hk) as (x & u & X1 & X2). exists x, u. split; auto. apply V. auto.
      + exists e, a. split; auto. apply V. auto.
  Qed.
  Lemma apart_keys l m : tidy_list l -> tidy_list m -> declare_apart w name aliases l m -> keys_apart l m.
  Proof.
    intros [_ _ K A _] [_ _ K' A' _] D. split; intros k H H'.
    - destruct (K k H) as (x & X1 & ->), (K' _ H') as (y & Y1 & Y2). apply (D x y X1 Y1). auto.
    - destruct (A k H) as (x & u & X1 & X2 & ->), (A' _ H') as (y & v & Y1 & Y2 & Y3). destruct (D x y X1 Y1) as [_ D2]. apply (D2 u v X2 Y2 Y3).
  Qed.
  Lemma cat_assoc a b c : cat (cat a b) c = cat a (cat b c).
  Proof using Type. unfold cat. cbn. rewrite <- !app_assoc. reflexivity. Qed.
  Lemma values_cat a b x : In x (l_values (cat a b)) <-> In x (l_values a) \/ In x (l_values b).
  Proof using Type. unfold l_values, cat. cbn. rewrite map_app, in_app_iff. reflexivity. Qed.
  Lemma tidy_cat a b : tidy_list a -> tidy_list b -> declare_apart w name aliases a b -> tidy_list (cat a b).
  Proof.
    intros Ta Tb D. pose proof (apart_keys _ _ Ta Tb D) as [K1 K2]. destruct Ta as [N1 N2 K A M], Tb as [N1' N2' K' A' M'].
    split; cbn [cat l_list l_aliases l_matches]; auto.
    - unfold hkeys. rewrite map_app. apply nodup_app; [exact N1|exact N1'|exact K1].
    - unfold hkeys. rewrite map_app. apply nodup_app; [exact N2|exact N2'|exact K2].
    - intros k Hk. unfold akey, hkeys in Hk. rewrite map_app in Hk. apply in_app_iff in Hk. destruct Hk as [Hk|Hk];
        [destruct (K k Hk) as (x & X1 & X2)|destruct (K' k Hk) as (x & X1 & X2)]; exists x; split; auto; apply values_cat; auto.
    - intros k Hk. unfold akey, hkeys in Hk. rewrite map_app in Hk. apply in_app_iff in Hk. destruct Hk as [Hk|Hk];
        [destruct (A k Hk) as (x & u & X1 & X2)|destruct (A' k Hk) as (x & u & X1 & X2)]; exists x, u; split; auto; apply values_cat; auto.
  Qed.
End Lists.

(** ** Journals *)
Definition pcat (a b : pledger) : pledger :=
  {| pl_accounts := cat (pl_accounts a) (pl_accounts b); pl_payees := cat (pl_payees a) (pl_payees b);
     pl_commodities := cat (pl_commodities a) (pl_commodities b); pl_txns := pl_txns a ++ pl_txns b;
     pl_prices := pl_prices a ++ pl_prices b; pl_comments := pl_comments a ++ pl_comments b; pl_tags := pl_tags a |}.
Definition ptidy (w : world) (l : pledger) : Prop :=
  tidy_list w ac_name ac_aliases (pl_accounts l) /\ tidy_list w py_name py_aliases (pl_payees l) /\
  tidy_list w cu_name cu_aliases (pl_commodities l).
Lemma same_refl l : same_journal l l.
Proof. unfold same_journal. auto 10. Qed.
Lemma same_sym a b : same_journal a b -> same_journal b a.
Proof. unfold same_journal. intuition. Qed.
Lemma same_trans a b c : same_journal a b -> same_journal b c -> same_journal a c.
Proof. unfold same_journal. intuition congruence. Qed.
Lemma same_apply w a b d : same_journal a b -> same_journal (apply_datum w a d) (apply_datum w b d).
Proof. intros (E1 & E2 & E3 & E4 & E5 & E6). unfold same_journal. destruct d; cbn; rewrite ?E1, ?E2, ?E3, ?E4, ?E5, ?E6; auto 10. Qed.
Lemma same_fold w ds : forall a b, same_journal a b -> same_journal (fold_left (apply_datum w) ds a) (fold_left (apply_datum w) ds b).
Proof. induction ds as [|d ds IH]; intros a b H; cbn [fold_left]; auto. apply IH, same_apply, H. Qed.
Lemma pcat_assoc a b c : pcat (pcat a b) c = pcat a (pcat b c).
Proof. unfold pcat. cbn. rewrite !cat_assoc, <- !app_assoc. reflexivity. Qed.
Lemma pcat_same a b b' : same_journal b b' -> same_journal (pcat a b) (pcat a b').
Proof. intros (E1 & E2 & E3 & E4 & E5 & E6). unfold same_journal, pcat. cbn. rewrite E1, E2, E3, E4, E5, E6. auto 10. Qed.
Lemma pcat_same_l a a' b : same_journal a a' -> same_journal (pcat a b) (pcat a' b).
Proof. intros (E1 & E2 & E3 & E4 & E5 & E6). unfold same_journal, pcat. cbn. rewrite E1, E2, E3, E4, E5, E6. auto 10. Qed.
Lemma cat_new_l {T} (m : alist T) : l_matches m = [] -> cat l_new m = m.
Proof. destruct m. cbn. intros ->. reflexivity. Qed.
Lemma cat_new_r {T} (m : alist T) : cat m l_new = m.
Proof. destruct m. unfold cat. cbn. rewrite !app_nil_r. reflexivity. Qed.
Lemma pcat_new_l w q : ptidy w q -> same_journal (pcat pl_new q) q.
Proof. intros (T1 & T2 & T3). unfold same_journal, pcat. cbn. rewrite !cat_new_l; auto 10; eapply td_matches; eauto. Qed.
Lemma pcat_new_r l : pcat l pl_new = l.
Proof. destruct l. unfold pcat. cbn. rewrite !cat_new_r, !app_nil_r. reflexivity. Qed.
Lemma ptidy_new w : ptidy w pl_new.
Proof. split; [|split]; apply tidy_new. Qed.
Lemma ptidy_cat w a b : ptidy w a -> ptidy w b -> no_clash w a b -> ptidy w (pcat a b).
Proof. intros (A1 & A2 & A3) (B1 & B2 & B3) (C1 & C2 & C3). split; [|split]; apply tidy_cat; auto. Qed.
Lemma clash_cat_r w l a b : no_clash w l (pcat a b) <-> no_clash w l a /\ no_clash w l b.
Proof.
  unfold no_clash, declare_apart, pcat. cbn [pl_accounts pl_payees pl_commodities]. split.
  - intros (H1 & H2 & H3). split; (split; [|split]); intros x y Hx Hy; first [apply H1|apply H2|apply H3]; auto; apply values_cat; auto.
  - intros ((A1 & A2 & A3) & (B1 & B2 & B3)). split; [|split]; intros x y Hx Hy; apply values_cat in Hy; destruct Hy as [Hy|Hy]; auto.
Qed.
Lemma clash_cat_l w a b l : no_clash w (pcat a b) l <-> no_clash w a l /\ no_clash w b l.
Proof.
  unfold no_clash, declare_apart, pcat. cbn [pl_accounts pl_payees pl_commodities]. split.
  - intros (H1 & H2 & H3). split; (split; [|split]); intros x y Hx Hy; first [apply H1|apply H2|apply H3]; auto; apply values_cat; auto.
  - intros ((A1 & A2 & A3) & (B1 & B2 & B3)). split; [|split]; intros x y Hx Hy; apply values_cat in Hx; destruct Hx as [Hx|Hx]; auto.
Qed.
Lemma clash_new_r w l : no_clash w l pl_new.
Proof. split; [|split]; intros x y _ []. Qed.
Lemma clash_new_l w l : no_clash w pl_new l.
Proof. split; [|split]; intros x y []. Qed.
Lemma clash_same w l a b : same_journal a b -> no_clash w l a -> no_clash w l b.
Proof. intros (E1 & E2 & E3 & _) (H1 & H2 & H3). unfold no_clash. rewrite <- E1, <- E2, <- E3. auto. Qed.
Lemma ptidy_same w a b : same_journal a b -> ptidy w a -> ptidy w b.
Proof. intros (E1 & E2 & E3 & _). unfold ptidy. rewrite E1, E2, E3. auto. Qed.

(** ** What a list of data puts behind what is there already *)
Definition adds (w : world) (ds : list datum) (q : pledger) : Prop :=
  forall l, ptidy w l -> no_clash w l q -> same_journal (fold_left (apply_datum w) ds l) (pcat l q).
Lemma adds_nil w : adds w [] pl_new.
Proof. intros l _ _. cbn. rewrite pcat_new_r. apply same_refl. Qed.
Lemma adds_app w ds1 ds2 q1 q2 : ptidy w q1 -> no_clash w q1 q2 -> adds w ds1 q1 -> adds w ds2 q2 -> adds w (ds1 ++ ds2) (pcat q1 q2).
Proof.
  intros T C A1 A2 l Tl Cl. rewrite fold_left_app. apply clash_cat_r in Cl. destruct Cl as [C1 C2].
  eapply same_trans; [apply same_fold, A1; auto|]. rewrite <- pcat_assoc. apply A2; [apply ptidy_cat; auto|apply clash_cat_l; auto].
Qed.
Lemma adds_same w ds q q' : same_journal q q' -> adds w ds q -> adds w ds q'.
Proof. intros E A l T C. eapply same_trans; [apply A; auto; eapply clash_same; [apply same_sym|]; eauto|]. apply pcat_same. auto. Qed.
Lemma adds_inc w x q : ptidy w q -> same_journal x q -> adds w [DInc x] q.
Proof.
  intros (T1 & T2 & T3) (E1 & E2 & E3 & E4 & E5 & E6) l (L1 & L2 & L3) (C1 & C2 & C3). unfold same_journal. cbn. rewrite E1, E2, E3, E4, E5, E6.
  rewrite !append_after; auto 10; try (eapply td_names; eassumption); try (eapply td_aliases; eassumption);
    eapply apart_keys; eassumption.
Qed.
Definition no_inc (d : datum) : Prop := match d with DInc _ => False | _ => True end.
Lemma fold_tidy w ds : Forall no_inc ds -> forall l, ptidy w l -> ptidy w (fold_left (apply_datum w) ds l).
Proof.
  induction 1 as [|d ds Hd _ IH]; intros l Hl; cbn [fold_left]; auto. apply IH. destruct Hl as (T1 & T2 & T3).
  destruct d; try destruct Hd; unfold ptidy; cbn; split; auto; try split; auto; apply tidy_insert; auto.
Qed.
Definition keys_of_apart (l m : pledger) : Prop :=
  keys_apart (pl_accounts l) (pl_accounts m) /\ keys_apart (pl_payees l) (pl_payees m) /\ keys_apart (pl_commodities l) (pl_commodities m).
Lemma step_apart w d l m : no_inc d -> keys_of_apart l (apply_datum w m d) -> keys_of_apart l m.
Proof.
  intros Hd (K1 & K2 & K3). destruct d; try destruct Hd; unfold keys_of_apart in *; cbn in *; split; auto; try split; auto;
    eapply apart_grown; try eassumption; apply insert_grown.
Qed.
Lemma fold_apart w ds : Forall no_inc ds -> forall l m, keys_of_apart l (fold_left (apply_datum w) ds m) -> keys_of_apart l m.
Proof. induction 1 as [|d ds Hd _ IH]; intros l m H; cbn [fold_left] in H; auto. eapply step_apart; [exact Hd|]. apply IH. exact H. Qed.
Lemma fold_after w ds : Forall no_inc ds -> forall l m, keys_of_apart l (fold_left (apply_datum w) ds m) ->
  same_journal (fold_left (apply_datum w) ds (pcat l m)) (pcat l (fold_left (apply_datum w) ds m)).
Proof.
  induction 1 as [|d ds Hd Hds IH]; intros l m H; cbn [fold_left] in *; [apply same_refl|].
  eapply same_trans; [|apply IH; exact H]. apply same_fold. apply (fold_apart w ds Hds) in H. destruct H as (K1 & K2 & K3).
  destruct d; try destruct Hd; unfold same_journal, pcat; cbn in *; rewrite ?app_assoc; auto 10;
    unfold acc_insert, pay_insert, cur_insert in *; rewrite insert_after by assumption; auto 10.
Qed.
Lemma adds_piece w ds : Forall no_inc ds -> adds w ds (fold_left (apply_datum w) ds pl_new).
Proof.
  intros Hd l (T1 & T2 & T3) (C1 & C2 & C3). rewrite <- (pcat_new_r l) at 1. apply fold_after; auto.
  destruct (fold_tidy w ds Hd pl_new (ptidy_new w)) as (U1 & U2 & U3). split; [|split]; eapply apart_keys; eassumption.
Qed.

(** ** The parts *)
Lemma piece_no_inc w a part ds : piece w a -> tokenize_string 1 w a = Ok part ->
  data_loop (S (length a)) (include_parse (fun f seen' c => tokenize 0 w (Some f) seen' c) w None []) w (tok_of a) = Ok ds ->
  Forall no_inc ds.
Proof.
  intros (_ & Hn & _ & Hi & _) _ H. eapply data_stands; [| | |apply stands_start|exact H].
  - intros t x t' X. split; [eapply include_parse_moves; eauto|eapply include_parse_margin; eauto].
  - left. exact Hn.
  - intros c t d t2 Hs Hc E. assert (Hne : (c =? 105)%N = false).
    { apply N.eqb_neq. intros ->. apply Hi. eapply stands_begins; eauto. }
    unfold item_datum in E. rewrite Hne in E.
    destruct (is_comment_char c). { destruct (parse_comment t). inv E. exact I. }
    repeat match type of E with (if ?b then _ else _) = _ => destruct b; [bind_inv E; destruct a0; inv E; exact I|] end.
    discriminate.
Qed.
Lemma piece_part w a part : piece w a -> tokenize_string 1 w a = Ok part ->
  ptidy w part /\ forall inc ds, data_loop (S (length a)) inc w (tok_of a) = Ok ds -> adds w ds part.
Proof.
  intros Hp H. pose proof H as H'. unfold tokenize_string in H'. apply tokenize_data in H'. destruct H' as (ds & E & ->).
  pose proof (piece_no_inc w a _ ds Hp H E) as Hd. split; [apply fold_tidy; [auto|apply ptidy_new]|].
  intros inc ds' E'. rewrite (data_inc inc (include_parse (fun f seen' c => tokenize 0 w (Some f) seen' c) w None []) w a) in E'; [|apply Hp|apply Hp|apply stands_start]. rewrite E in E'. inv E'. apply adds_piece. auto.
Qed.
(** [q] is all of [parts]. *)
Definition stands_for (w : world) (q : pledger) (parts : list pledger) : Prop :=
  ptidy w q /\ (forall l, Forall (no_clash w l) parts -> no_clash w l q) /\
  (forall l, Forall (fun p => no_clash w p l) parts -> no_clash w q l).
Lemma pairs_app {A} (R : A -> A -> Prop) a b : ForallOrdPairs R (a ++ b) ->
  ForallOrdPairs R a /\ ForallOrdPairs R b /\ Forall (fun x => Forall (R x) b) a.
Proof.
  induction a as [|x a IH]; intros H; cbn [app] in H; [repeat split; auto; constructor|].
  inversion H as [|? ? H1 H2]; subst. destruct (IH H2) as (X1 & X2 & X3). apply Forall_app in H1. destruct H1 as [H1 H1'].
  split; [constructor; auto|]. split; auto.
Qed.
Lemma stands_apart w q1 q2 p1 p2 : stands_for w q1 p1 -> stands_for w q2 p2 -> Forall (fun x => Forall (no_clash w x) p2) p1 -> no_clash w q1 q2.
Proof. intros (_ & _ & H1) (_ & H2 & _) H. apply H1. eapply Forall_impl; [|exact H]. intros x Hx. apply H2, Hx. Qed.
Lemma stands_for_app w q1 q2 p1 p2 : stands_for w q1 p1 -> stands_for w q2 p2 -> Forall (fun x => Forall (no_clash w x) p2) p1 ->
  stands_for w (pcat q1 q2) (p1 ++ p2).
Proof.
  intros S1 S2 H. pose proof (stands_apart w q1 q2 p1 p2 S1 S2 H) as C. destruct S1 as (T1 & A1 & B1), S2 as (T2 & A2 & B2).
  split; [apply ptidy_cat; auto|]. split; intros l Hl; apply Forall_app in Hl; destruct Hl; [apply clash_cat_r|apply clash_cat_l]; auto.
Qed.
Lemma stands_for_nil w : stands_for w pl_new [].
Proof. split; [apply ptidy_new|]. split; intros; [apply clash_new_r|apply clash_new_l]. Qed.
Lemma stands_for_one w q : ptidy w q -> stands_for w q [q].
Proof. intros T. split; auto. split; intros l H; inversion H; auto. Qed.

Scheme assembled_ind2 := Minimality for assembled Sort Prop
  with assembled_all_ind2 := Minimality for assembled_all Sort Prop.
Combined Scheme assembled_mut from assembled_ind2, assembled_all_ind2.
Lemma assembled_inlined w :
  (forall file s s' parts, assembled w file s s' parts -> inlined w file s s') /\
  (forall gs ts parts, assembled_all w gs ts parts -> inlined_all w gs ts).
Proof. apply assembled_mut; intros; try (econstructor; eassumption). Qed.

Section Split.
Context (w : world) (noinc : tok -> res (pledger * tok)) (Hno : good_inc noinc).
Notation tk d := (fun f seen' c => tokenize d w (Some f) seen' c).
Lemma split_data :
  (forall file s s' parts, assembled w file s s' parts -> ForallOrdPairs (no_clash w) parts ->
     forall d seen f t ds, tk_rest t = s -> (s = [] \/ tk_col t = O) ->
     data_loop f (include_parse (tk d) w file seen) w t = Ok ds ->
     ended s' /\ exists ds' q, reads noinc w s' ds' /\ Forall (datum_ok False) ds' /\
       stands_for w q parts /\ adds w ds q /\ adds w ds' q) /\
  (forall gs ts parts, assembled_all w gs ts parts -> ForallOrdPairs (no_clash w) parts -> forall d seen i l,
     foldM (fun items f =>
           match w_read w f with
           | None => Panic PExplicit
           | Some content => new <- tk d f (sadd str_eqb f seen) content ;; Ok (pl_append items new)
           end) i gs = Ok l ->
     ended ts /\ exists ds' q, reads noinc w ts ds' /\ Forall (datum_ok False) ds' /\
       stands_for w q parts /\ adds w ds' q /\ (ptidy w i -> no_clash w i q -> same_journal l (pcat i q))).
Proof.
  apply assembled_mut.
  - intros file _ d seen f t ds Er Ec H. split; [left; auto|]. exists [], pl_new.
    split; [apply reads_nil|]. destruct f; [discriminate|]. cbn in H. rewrite Er in H. inv H.
    split; [constructor|]. split; [apply stands_for_nil|]. split; apply adds_nil.
  - intros file a part s s' parts Hp Hpart Hin IH HF d seen f t ds Er Ec H.
    change (part :: parts) with ([part] ++ parts) in *. destruct (pairs_app _ _ _ HF) as (_ & HF2 & HF3). specialize (IH HF2).
    destruct (piece_part w a part Hp Hpart) as [Tp Ap].
    destruct (piece_data w a (include_parse (tk d) w file seen) Hp) as (a0 & dsa & Ea & Ht & Hd & Hcl).
    destruct (piece_data w a noinc Hp) as (a0' & dsa' & Ea' & Ht' & Hd' & Hcl').
    destruct (proj1 (inlined_flush w) _ _ _ (proj1 (assembled_inlined w) _ _ _ _ Hin)) as [F1 F2].
    pose proof (Ap _ _ Hd) as Ad.
    assert (dsa' = dsa).
    { rewrite (data_inc noinc (include_parse (tk d) w file seen) w a) in Hd'; [congruence| | |apply stands_start].
      - right. exists a0. auto.
      - apply Hp. }
    subst dsa'. clear Ap Hpart. subst a. apply app_inj_tail in Ea'. destruct Ea' as [<- _].
    rewrite <- app_assoc in Er. cbn [app] in Er.
    assert (Hcol : tk_col t = O). { destruct Ec as [Ec|Ec]; auto. destruct a0; discriminate. }
    destruct (piece_then _ w a0 s dsa (S (f + length (tk_rest t))) t (good_include (tk d) w file seen) Ht F1 Hd Hcl Er Hcol ltac:(lia))
      as (f2 & t2 & X1 & X2 & X3 & _ & X4).
    rewrite (data_fuel f _ _ _ _ _ H) in X4; [|lia]. symmetry in X4. bind_inv X4. inv X4.
    destruct (IH d seen f2 t2 a eq_refl X3 Hb) as (En & ds' & q & R1 & R2 & Sq & A1 & A2).
    pose proof (stands_apart w part q [part] parts (stands_for_one w part Tp) Sq HF3) as Cl.
    split.
    + apply ended_app; auto. right. eauto.
    + exists (dsa ++ ds'), (pcat part q). split.
      * rewrite <- app_assoc. cbn [app]. apply reads_app; auto.
      * split; [apply Forall_app; auto|]. split; [apply stands_for_app; auto; apply stands_for_one; auto|].
        split; apply adds_app; auto.
  - intros file line files texts s s' parts1 parts2 Hnl Hg Hall IHall Hin IH HF d seen f t ds Er Ec H.
    destruct (pairs_app _ _ _ HF) as (HF1 & HF2 & HF3). specialize (IH HF2). specialize (IHall HF1).
    assert (Hcol : tk_col t = O). { destruct Ec as [Ec|Ec]; [discriminate|auto]. }
    destruct f as [|f]; [discriminate|]. cbn [data_loop] in H.
    assert (Ew : consume_whitespaces_and_lines t = (Blank, t)).
    { unfold consume_whitespaces_and_lines. rewrite Hcol, Er. rewrite cwl_at_item by reflexivity.
      destruct t as [p r l k]. cbn in *. subst. auto. }
    assert (Eg : get_char t = Some 105%N). { unfold get_char. rewrite Er. reflexivity. }
    rewrite Ew, Eg in H. rewrite Er in H. cbn [L app] in H.
    rewrite item_datum_i in H. bind_inv H. destruct a as [x0 t2]. bind_inv Hb. destruct a as [x1 t3]. inv Hb.
    bind_inv H. inv H. unfold include_parse in Hb0.
    destruct (consume_include (line ++ c_nl :: s) t Er) as (v & V1 & V2). rewrite V1 in Hb0. cbn [bind] in Hb0.
    assert (Hedge : forall s t4, get_line v = (s, t4) -> end_or_margin t4) by (intros; eapply get_line_edge; eauto).
    unfold get_line in Hb0, Hedge. rewrite V2 in Hb0, Hedge.
    destruct (gline_line line Hnl (c_nl :: s) (tk_pre v) (tk_line v) (tk_col v) ltac:(eauto)) as (v2 & V3 & V4). rewrite V3 in Hb0.
    specialize (Hedge _ _ V3). rewrite Hg in Hb0. cbn [unwrap bind] in Hb0.
    destruct (find _ files); [discriminate|]. bind_inv Hb0. inv Hb0.
    destruct (IHall d seen pl_new x1 Hb1) as (En1 & ds1 & q1 & R1 & R2 & Sq1 & A1 & J1).
    specialize (J1 (ptidy_new w) (clash_new_l w q1)).
    assert (J : same_journal x1 q1) by (eapply same_trans; [exact J1|]; eapply pcat_new_l; apply Sq1).
    cbn [tl] in V4.
    destruct (IH d seen f t2 a V4) with (2 := Hb) as (En2 & ds2 & q2 & Q1 & Q2 & Sq2 & A2 & A3).
    { destruct Hedge as [E|[E _]]; [left; congruence|right; auto]. }
    pose proof (stands_apart w q1 q2 parts1 parts2 Sq1 Sq2 HF3) as Cl.
    split; [apply ended_app; auto|]. exists (ds1 ++ ds2), (pcat q1 q2).
    split.
    + apply flush_or_nil_app; auto. apply (proj1 (inlined_flush w) _ _ _ (proj1 (assembled_inlined w) _ _ _ _ Hin)).
    + split; [apply Forall_app; auto|]. split; [apply stands_for_app; auto|]. split.
      * change (DInc x1 :: a) with ([DInc x1] ++ a). apply adds_app; auto; [apply Sq1|]. apply adds_inc; auto. apply Sq1.
      * apply adds_app; auto. apply Sq1.
  - intros _ d seen i l H. cbn in H. inv H. split; [left; auto|]. exists [], pl_new. split; [apply reads_nil|].
    split; [constructor|]. split; [apply stands_for_nil|]. split; [apply adds_nil|]. intros _ _. rewrite pcat_new_r. apply same_refl.
  - intros g c gs text texts parts1 parts2 Hr Hin IH Hall IHall HF d seen i l H. cbn in H. bind_inv H. rewrite Hr in Hb. bind_inv Hb. inv Hb.
    destruct (pairs_app _ _ _ HF) as (HF1 & HF2 & HF3). specialize (IH HF1). specialize (IHall HF2).
    destruct d as [|d]; [discriminate|]. apply tokenize_data in Hb0. destruct Hb0 as (dsg & E1 & ->).
    destruct (IH d (sadd str_eqb g seen) (S (length c)) (tok_of c) dsg eq_refl (or_intror eq_refl) E1) as (En1 & ds1 & q1 & R1 & R2 & Sq1 & A1 & A1').
    destruct (IHall (S d) seen _ _ H) as (En2 & ds2 & q2 & Q1 & Q2 & Sq2 & A2 & J2).
    pose proof (stands_apart w q1 q2 parts1 parts2 Sq1 Sq2 HF3) as Cl.
    split; [apply ended_app; auto|]. exists (ds1 ++ ds2), (pcat q1 q2). split.
    + apply flush_or_nil_app; auto. apply (proj2 (inlined_flush w) _ _ (proj2 (assembled_inlined w) _ _ _ Hall)).
    + split; [apply Forall_app; auto|]. split; [apply stands_for_app; auto|]. split; [apply adds_app; auto; apply Sq1|].
      intros Ti Ci. apply clash_cat_r in Ci. destruct Ci as [Ci1 Ci2].
      assert (J1 : same_journal (fold_left (apply_datum w) dsg pl_new) q1).
      { eapply same_trans; [apply A1; [apply ptidy_new|apply clash_new_l]|]. eapply pcat_new_l. apply Sq1. }
      assert (J : same_journal (pl_append i (fold_left (apply_datum w) dsg pl_new)) (pcat i q1)).
      { apply (adds_inc w _ q1 (proj1 Sq1) J1 i Ti Ci1). }
      eapply same_trans; [apply J2|].
      * eapply ptidy_same; [apply same_sym, J|]. apply ptidy_cat; auto. apply Sq1.
      * destruct J as (E1' & E2' & E3' & _). unfold no_clash. rewrite E1', E2', E3'. apply clash_cat_l. auto.
      * rewrite <- pcat_assoc. apply pcat_same_l. exact J.
Qed.
End Split.

Lemma split_ok w file content text parts depth seen l : assembled w file content text parts -> ForallOrdPairs (no_clash w) parts ->
  tokenize depth w file seen content = Ok l ->
  forall d file' seen', exists l', tokenize (S d) w file' seen' text = Ok l' /\ same_journal l' l.
Proof.
  intros Ha HF H d' file' seen'. destruct depth as [|d]; [discriminate|]. apply tokenize_data in H. destruct H as (ds & E & ->).
  set (noinc := include_parse (fun f seen' c => tokenize d' w (Some f) seen' c) w file' seen').
  assert (Hno : good_inc noinc) by apply good_include.
  destruct (proj1 (split_data w noinc Hno) _ _ _ _ Ha HF d seen (S (length content)) (tok_of content) ds eq_refl (or_intror eq_refl) E)
    as (_ & ds' & q & R & _ & Sq & A & A').
  exists (fold_left (apply_datum w) ds' pl_new). rewrite tokenize_S, main_loop_is. fold noinc.
  rewrite (R (tok_of text) (S (length text)) eq_refl eq_refl ltac:(lia)). cbn [bind]. split; [apply in_file_ok; auto|].
  eapply same_trans; [apply A'; [apply ptidy_new|apply clash_new_l]|]. apply same_sym. apply A; [apply ptidy_new|apply clash_new_l].
Qed.

(** ** A journal that can be put together can be read *)
(** The text of [file]: pieces, and include lines for files that satisfy [P]. *)
Inductive laid (w : world) (P : str -> Prop) (file : option str) : str -> Prop :=
| ld_nil : laid w P file []
| ld_piece a s : piece w a -> laid w P file s -> laid w P file (a ++ s)
| ld_include line files s : ~ In c_nl line -> w_glob w (include_pattern file line) = Some files ->
    (forall g, In g files -> P g) -> laid w P file s -> laid w P file (L "include " ++ line ++ c_nl :: s).
(** Includes are nested less than [n] deep. *)
Fixpoint tall (w : world) (n : nat) (g : str) : Prop :=
  match n with O => False | S m => exists c, w_read w g = Some c /\ laid w (tall w m) (Some g) c end.
Lemma laid_mono w (P Q : str -> Prop) file s : (forall g, P g -> Q g) -> laid w P file s -> laid w Q file s.
Proof. intros H. induction 1; [apply ld_nil|apply ld_piece; auto|eapply ld_include; eauto]. Qed.
Lemma tall_S w n : forall g, tall w n g -> tall w (S n) g.
Proof. induction n as [|n IH]; intros g H; [destruct H|]. destruct H as (c & Hc & H). exists c. split; auto. eapply laid_mono; [|exact H]. exact IH. Qed.
Lemma tall_le w n m g : (n <= m)%nat -> tall w n g -> tall w m g.
Proof. induction 1; auto. intros H'. apply tall_S. auto. Qed.
Lemma assembled_laid w :
  (forall file s s' parts, assembled w file s s' parts -> exists n, laid w (tall w n) file s) /\
  (forall gs ts parts, assembled_all w gs ts parts -> exists n, forall g, In g gs -> tall w n g).
Proof.
  apply assembled_mut.
  - intros file. exists O. constructor.
  - intros file a part s s' parts Hp _ _ (n & H). exists n. apply ld_piece; auto.
  - intros file line files texts s s' p1 p2 Hnl Hg _ (n & Hn) _ (m & Hm). exists (n + m)%nat. apply (ld_include w _ file line files); auto.
    + intros g Hin. apply (tall_le w n); [lia|auto].
    + eapply laid_mono; [|exact Hm]. intros g. apply tall_le. lia.
  - exists O. intros g [].
  - intros g c gs text texts p1 p2 Hr _ (n & Hn) _ (m & Hm). exists (S (n + m)). intros h [<-|Hh].
    + exists c. split; auto. eapply laid_mono; [|exact Hn]. intros x. apply tall_le. lia.
    + apply (tall_le w m); [lia|auto].
Qed.
Lemma laid_flush w P file s : laid w P file s -> starts_flush s.
Proof. destruct 1 as [|a s ((c & r & -> & Hc) & _)|]; cbn; auto. Qed.
Section Laid.
Context (w : world) (d : nat) (file : option str) (seen : list str) (P : str -> Prop).
Notation tk := (fun f seen' c => tokenize d w (Some f) seen' c).
Context (HP : forall g, P g -> ~ In g seen /\ exists c l, w_read w g = Some c /\ tokenize d w (Some g) (sadd str_eqb g seen) c = Ok l).
Lemma files_ok files : (forall g, In g files -> P g) -> forall i, exists l,
  foldM (fun items f =>
           match w_read w f with
           | None => Panic PExplicit
           | Some content => new <- tk f (sadd str_eqb f seen) content ;; Ok (pl_append items new)
           end) i files = Ok l.
Proof.
  induction files as [|g gs IH]; intros H i; [exists i; reflexivity|]. cbn [foldM].
  destruct (HP g (H g (or_introl eq_refl))) as (_ & c & l & Hr & Hl). rewrite Hr, Hl. cbn [bind]. apply IH. intros x Hx. apply H. right. auto.
Qed.
Lemma laid_ok s : laid w P file s -> forall f t, tk_rest t = s -> (s = [] \/ tk_col t = O) -> (length s < f)%nat ->
  exists ds, data_loop f (include_parse tk w file seen) w t = Ok ds.
Proof.
  induction 1 as [|a s Hp Hl IH|line files s Hnl Hg Hf Hl IH]; intros f t Er Ec Lf.
  - exists []. destruct f; [lia|]. cbn [data_loop]. rewrite Er. reflexivity.
  - destruct (piece_data w a (include_parse tk w file seen) Hp) as (a0 & dsa & Ea & Ht & Hd & Hcl). subst a.
    rewrite <- app_assoc in Er. cbn [app] in Er.
    assert (Hcol : tk_col t = O). { destruct Ec as [Ec|Ec]; auto. destruct a0; discriminate. }
    rewrite <- app_assoc in Lf. cbn [app] in Lf. rewrite <- Er in Lf.
    destruct (piece_then _ w a0 s dsa f t (good_include tk w file seen) Ht (laid_flush _ _ _ _ Hl) Hd Hcl Er Hcol Lf)
      as (f2 & t2 & X1 & X2 & X3 & _ & X4).
    rewrite X2 in X1. destruct (IH f2 t2 X2 X3 X1) as (ds & E). rewrite X4, E. eexists. reflexivity.
  - assert (Hcol : tk_col t = O). { destruct Ec as [Ec|Ec]; [discriminate|auto]. }
    destruct f as [|f]; [lia|]. cbn [data_loop].
    assert (Ew : consume_whitespaces_and_lines t = (Blank, t)).
    { unfold consume_whitespaces_and_lines. rewrite Hcol, Er. rewrite cwl_at_item by reflexivity.
      destruct t as [p r l k]. cbn in *. subst. auto. }
    assert (Eg : get_char t = Some 105%N). { unfold get_char. rewrite Er. reflexivity. }
    rewrite Ew, Eg. rewrite Er. cbn [L app]. rewrite item_datum_i. unfold include_parse at 1.
    destruct (consume_include (line ++ c_nl :: s) t Er) as (v & V1 & V2). rewrite V1. cbn [bind].
    assert (Hedge : forall s t4, get_line v = (s, t4) -> end_or_margin t4) by (intros; eapply get_line_edge; eauto).
    unfold get_line in *. rewrite V2 in *.
    destruct (gline_line line Hnl (c_nl :: s) (tk_pre v) (tk_line v) (tk_col v) ltac:(eauto)) as (v2 & V3 & V4). rewrite V3.
    specialize (Hedge _ _ V3). rewrite Hg. cbn [unwrap bind].
    destruct (find _ files) as [g|] eqn:Ef.
    { apply find_some in Ef. destruct Ef as [Hin Hex]. apply existsb_exists in Hex. destruct Hex as (x & Hx & Hq).
      destruct (str_eqb_spec g x) as [->|]; [|discriminate]. destruct (HP x (Hf x Hin)) as [Hns _]. contradiction. }
    destruct (files_ok files Hf pl_new) as (l & El). unfold include_files. rewrite El. cbn [bind].
    cbn [tl] in V4. destruct (IH f v2 V4) as (ds & E).
    + destruct Hedge as [E|[E _]]; [left; congruence|right; auto].
    + rewrite !app_length in Lf. cbn [length] in Lf. lia.
    + rewrite E. eexists. reflexivity.
Qed.
End Laid.
Lemma least_tall w n : forall g, tall w n g -> ~ ~ exists m, (m <= n)%nat /\ tall w m g /\ forall k, (k < m)%nat -> ~ tall w k g.
Proof.
  induction n as [n IH] using (well_founded_induction lt_wf). intros g Hg N. apply N. exists n. repeat split; auto.
  intros k Hk Hkg. apply (IH k Hk g Hkg). intros (m & M1 & M2 & M3). apply N. exists m. repeat split; auto. lia.
Qed.
Lemma In_sadd x g (seen : list str) : In x (sadd str_eqb g seen) -> x = g \/ In x seen.
Proof. unfold sadd. destruct (existsb (str_eqb g) seen); auto. rewrite in_app_iff. cbn. intuition. Qed.
Lemma tall_ok w n : forall f seen d c, tall w n f -> (forall h, In h seen -> forall m, (m < n)%nat -> ~ tall w m h) -> (n <= d)%nat ->
  w_read w f = Some c -> exists l, tokenize d w (Some f) seen c = Ok l.
Proof.
  induction n as [n IH] using (well_founded_induction lt_wf). intros f seen d c Hf Hs Hd Hr.
  destruct n as [|n]; [destruct Hf|]. destruct d as [|d]; [lia|]. destruct Hf as (c' & Hr' & Hl). rewrite Hr in Hr'. inv Hr'.
  destruct (laid_ok w d (Some f) seen (tall w n)) with (s := c') (f := S (length c')) (t := tok_of c') as (ds & E); auto.
  - intros g Hg. split; [intros X; apply (Hs g X n); auto|]. destruct (w_read w g) as [cg|] eqn:Eg.
    + exists cg. destruct (tokenize d w (Some g) (sadd str_eqb g seen) cg) as [l|e|p] eqn:El; [eauto| |];
        exfalso; apply (least_tall w n g Hg); intros (m & M1 & M2 & M3);
        destruct (IH m ltac:(lia) g (sadd str_eqb g seen) d cg M2) as (l & X); auto; try lia; try congruence;
        intros h Hh k Hk; apply In_sadd in Hh; destruct Hh as [->|Hh]; auto; apply (Hs h Hh k); lia.
    + exfalso. destruct n as [|n]; [destruct Hg|]. destruct Hg as (x & Hx & _). congruence.
  - exists (fold_left (apply_datum w) ds pl_new). rewrite tokenize_S, main_loop_is, E. cbn [bind]. apply in_file_ok. reflexivity.
Qed.
Lemma assembled_reads w f c text parts : w_read w f = Some c -> assembled w (Some f) c text parts ->
  exists n, forall depth, (n <= depth)%nat -> exists l, tokenize_file depth w f = Ok l.
Proof.
  intros Hr Ha. destruct (proj1 (assembled_laid w) _ _ _ _ Ha) as (n & Hn). exists (S n). intros depth Hd.
  assert (Hf : tall w (S n) f) by (exists c; auto). unfold tokenize_file. rewrite Hr.
  destruct (tokenize depth w (Some f) [f] c) as [l|e|p] eqn:El; [eauto| |];
    exfalso; apply (least_tall w _ f Hf); intros (m & M1 & M2 & M3);
    destruct (tall_ok w m f [f] depth c M2) as (l & X); auto; try lia; try congruence;
    intros h [<-|[]] k Hk; auto.
Qed.
