(** Facts for C79, continued: automated transactions. *)
From Coq Require Import Lia.
From Verif Require Import Base BaseFacts Numerals Money Alist Comment Txn Expr Filter Price Tokens Ledger Reports Spec MoneyFacts SpecList SpecTxn TxnFacts SpecLedger AlistFacts JournalFacts
  LedgerFacts LedgerFacts2 EvalFacts SpecQuery SpecReports ReportFacts ReportFacts2 SpecBook SpecSame SameFacts SameRead SameFacts2 SameFacts3.
Open Scope Qc_scope.

(** ** Lists with the same names *)
Definition lsame {T} (w : world) (name : T -> str) aliases (l l' : alist T) : Prop :=
  buildable w name aliases l /\ buildable w name aliases l' /\ forall k, l_get w k l' = l_get w k l.
Lemma value_found {T} w (name : T -> str) aliases l e : world_ok w -> buildable w name aliases l -> In e (l_values l) -> l_get w (name e) l = Ok e.
Proof. intros W B H. apply (lwf_value w name) in H; [|eapply buildable_lwf; eauto]. unfold l_get. rewrite H. reflexivity. Qed.
Lemma values_nodup {T} w (name : T -> str) aliases l : buildable w name aliases l -> NoDup (l_values l).
Proof.
  intros B. pose proof (buildable_lwf _ _ _ _ B) as W. apply (NoDup_map_inv (fun e => w_lower w (name e))).
  assert (E : map (fun e => w_lower w (name e)) (l_values l) = hkeys (l_list l)).
  { unfold l_values, hkeys. rewrite map_map. apply map_ext_in. intros [k e] H. symmetry. exact (lwf_key _ _ _ W k e H). }
  rewrite E. apply W.
Qed.
Lemma lsame_names {T} w (name : T -> str) aliases l l' : world_ok w -> lsame w name aliases l l' -> same_names w l l'.
Proof.
  intros W (B & B' & G). split; auto. apply NoDup_Permutation; try (eapply values_nodup; eauto). intros e. split; intros H.
  - pose proof (value_found _ _ _ _ _ W B H) as E. rewrite <- G in E. destruct (lwf_get_cases w name (name e) l' (buildable_lwf _ _ _ _ B')) as [(x & Hx & E')|E']; congruence.
  - pose proof (value_found _ _ _ _ _ W B' H) as E. rewrite G in E. destruct (lwf_get_cases w name (name e) l (buildable_lwf _ _ _ _ B)) as [(x & Hx & E')|E']; congruence.
Qed.
Lemma ensure_lsame {T} w o (name : T -> str) aliases mk l l' n : (forall n, name (mk n) = n) -> (forall n, aliases (mk n) = []) -> lsame w name aliases l l' ->
  agree (lsame w name aliases) (ensure w (l_insert w name aliases) mk l n) (ensure (with_order w o) (l_insert (with_order w o) name aliases) mk l' n).
Proof.
  intros N A (B & B' & G). unfold ensure. change (l_get (with_order w o) n l') with (l_get w n l'). rewrite G.
  destruct (lwf_get_cases w name n l (buildable_lwf _ _ _ _ B)) as [(x & _ & E)|E]; rewrite E; cbn; [repeat (split; auto)|].
  split; [apply buildable_insert; auto|]. split; [apply (buildable_insert w); auto|].
  apply (insert_same w name aliases l l' (mk n)); auto. rewrite N, E. discriminate.
Qed.
Lemma unwrap_lsame {T} w o (name : T -> str) aliases (l l' : alist T) n : lsame w name aliases l l' -> get_unwrap (with_order w o) n l' = get_unwrap w n l.
Proof. intros (_ & _ & G). unfold get_unwrap. change (l_get (with_order w o) n l') with (l_get w n l'). rewrite G. reflexivity. Qed.

(** ** Rules in two runs *)
Definition asame (w : world) (s s' : astate) : Prop :=
  lsame w ac_name ac_aliases (as_accs s) (as_accs s') /\ cssame w (as_curs s) (as_curs s') /\ lsame w py_name py_aliases (as_pays s) (as_pays s').
Lemma value_same w o e p t cs cs' : cssame w cs cs' ->
  agree (fun x y => fst x = fst y /\ cssame w (snd x) (snd y)) (eval_value_expression w e p t cs) (eval_value_expression (with_order w o) e p t cs').
Proof.
  intros S. unfold eval_value_expression. rewrite build_root_order. eapply agree_bind; [apply agree_eq; reflexivity|]. intros n ? <-.
  eapply agree_bind; [apply (eval_same w o t t); auto; reflexivity|]. intros [v c] [v' c'] [E Sc]. cbn in E, Sc. subst v'. destruct v; try reflexivity; cbn; auto.
  destruct (p_amount p); cbn; auto.
Qed.
Lemma auto_posting_same w o t p s s' ap : asame w s s' ->
  agree (fun x y => fst x = fst y /\ asame w (snd x) (snd y)) (auto_posting w t p s ap) (auto_posting (with_order w o) t p s' ap).
Proof.
  intros (S1 & S2 & S3). unfold auto_posting.
  eapply agree_bind; [apply (ensure_lsame w o ac_name ac_aliases); [reflexivity|reflexivity|exact S1]|]. intros al al' HA.
  eapply (agree_bind (fun x y => fst x = fst y /\ lsame w py_name py_aliases (snd x) (snd y))).
  { destruct (rp_payee ap) as [x|]; [|cbn; auto]. eapply agree_bind; [apply (ensure_lsame w o py_name py_aliases); [reflexivity|reflexivity|exact S3]|]. intros pl pl' HP.
    rewrite (unwrap_lsame w o _ _ _ _ x HP). eapply agree_bind; [apply agree_eq; reflexivity|]. intros y ? <-. cbn. auto. }
  intros [pay pl] [pay' pl'] [E HP]. cbn in E, HP. subst pay'. rewrite (unwrap_lsame w o _ _ _ _ (rp_account ap) HA).
  eapply agree_bind; [apply agree_eq; reflexivity|]. intros acc ? <-.
  eapply (agree_bind (fun x y => fst x = fst y /\ cssame w (snd x) (snd y))).
  { destruct (rp_money ap) as [[q c]|].
    - destruct c as [|x c].
      + eapply agree_bind; [apply agree_eq; reflexivity|]. intros m ? <-. eapply agree_bind; [apply agree_eq; reflexivity|]. intros cur ? <-. cbn. auto.
      + eapply agree_bind; [apply (ensure_lsame w o cu_name cu_aliases); [reflexivity|reflexivity|exact S2]|]. intros c1 c2 HC. rewrite (unwrap_lsame w o _ _ _ _ (x :: c) HC).
        eapply agree_bind; [apply agree_eq; reflexivity|]. intros y ? <-. cbn. auto.
    - eapply agree_bind; [apply agree_eq; reflexivity|]. intros e ? <-. apply value_same. auto. }
  intros [m cs] [m' cs'] [E HC]. cbn in E, HC. subst m'. cbn. split; auto. repeat (split; auto).
Qed.
Lemma auto_postings_same w o t p aps : forall s s', asame w s s' ->
  agree (fun x y => fst x = fst y /\ asame w (snd x) (snd y)) (auto_postings w t p s aps) (auto_postings (with_order w o) t p s' aps).
Proof.
  induction aps as [|ap aps IH]; intros s s' S; cbn [auto_postings]; [cbn; auto|]. eapply agree_bind; [apply auto_posting_same; auto|].
  intros [x s1] [x' s1'] [E S1]. cbn [fst snd] in E, S1. subst x'. eapply agree_bind; [apply IH; eauto|]. intros [xs s2] [xs' s2'] [E S2]. cbn in *. subst xs'. auto.
Qed.
Lemma auto_scan_same w o t node auto todo : forall s s' dn extra, asame w s s' ->
  agree (fun x y => fst x = fst y /\ asame w (snd x) (snd y)) (auto_scan w t node auto s dn todo extra) (auto_scan (with_order w o) t node auto s' dn todo extra).
Proof.
  induction todo as [|p todo IH]; intros s s' dn extra S; cbn [auto_scan]; [cbn; auto|]. destruct (negb (is_from_txn (p_origin p))); [apply IH; auto|].
  eapply (agree_bind (fun x y => fst x = fst y /\ cssame w (snd x) (snd y))).
  { unfold filter_expression. eapply agree_bind; [apply (eval_same w o _ _); [reflexivity|right; reflexivity|apply S]|]. intros [v c] [v' c'] [E Sc]. cbn in E, Sc. subst v'. destruct v; cbn; auto. }
  intros [b c] [b' c'] [E Sc]. cbn in E, Sc. subst b'. assert (S1 : asame w (with_curs s c) (with_curs s' c')) by (destruct S as (S1 & S2 & S3); repeat (split; auto)).
  destruct b; [|apply IH; auto]. eapply agree_bind; [apply auto_postings_same; exact S1|]. intros [new s2] [new' s2'] [E S2]. cbn in E, S2. subst new'. apply IH; auto.
Qed.
Lemma auto_one_same w o x t s s' : asame w s s' ->
  agree (fun a b => fst a = fst b /\ asame w (snd a) (snd b)) (auto_one w (t, s) x) (auto_one (with_order w o) (t, s') x).
Proof. intros S. unfold auto_one. eapply agree_bind; [apply auto_scan_same; eauto|]. intros [[ps ex] s1] [[ps' ex'] s1'] [E S1]. cbn in E, S1. injection E as <- <-. cbn. auto. Qed.
Lemma auto_all_same w o autos ts : forall s s', asame w s s' ->
  agree (fun x y => fst x = fst y /\ asame w (snd x) (snd y)) (auto_all w autos ts s) (auto_all (with_order w o) autos ts s').
Proof.
  induction ts as [|t ts IH]; intros s s' S; cbn [auto_all]; [cbn; auto|].
  eapply agree_bind.
  { apply (agree_foldM (fun a b : txn posting * astate => fst a = fst b /\ asame w (snd a) (snd b)) (auto_one w) (auto_one (with_order w o))); [|cbn; auto].
    intros [t0 s0] [t0' s0'] x _ [E S0]. cbn in E, S0. subst t0'. apply auto_one_same. auto. }
  intros [t1 s1] [t1' s1'] [E S1]. cbn in E, S1. subst t1'. eapply agree_bind; [apply IH; eauto|]. intros [r s2] [r' s2'] [E S2]. cbn in *. subst r'. auto.
Qed.

(** ** Transactions whose lines come in one order only *)
Definition settled_txn (t : txn posting) : Prop :=
  written t \/
  exists c, forall p, In p (t_postings t) -> p_kind p = Real ->
    o_only c (p_amount p) /\ match p_cost p with Some (CTotal m) | Some (CPerUnit m) => m_only c m | None => True end /\ (p_amount p = None -> p_balance p = None).
Lemma pushed_steps skip ps : forall s s', (forall p, In p (bs_out s) -> p_amount p <> None) -> foldM (bal_step skip) s ps = Ok s' -> forall p, In p (bs_out s') -> p_amount p <> None.
Proof.
  induction ps as [|p ps IH]; intros s s' H E; cbn [foldM] in E; [injection E as <-; auto|]. destruct (bal_step skip s p) as [s1| |] eqn:E1; cbn [bind] in E; try discriminate.
  eapply IH; [|exact E]. clear E IH. unfold bal_step in E1. destruct (negb (kind_eqb _ _)); [injection E1 as <-; auto|]. destruct (p_amount p).
  - destruct (hget _ _ _); [|discriminate]. cbn [unwrap bind] in E1. destruct (negb skip && _); [discriminate|]. destruct (post_value _ _); cbn [bind] in E1; try discriminate. injection E1 as <-. cbn [bs_out].
    intros q Hq. apply in_app_or in Hq. destruct Hq as [Hq|[<-|[]]]; auto. discriminate.
  - destruct (p_balance p); [|injection E1 as <-; auto]. destruct skip; [injection E1 as <-; auto|]. destruct (hget _ _ _); [|discriminate]. cbn [unwrap bind] in E1.
    destruct (to_money _); cbn [bind] in E1; try discriminate. injection E1 as <-. cbn [bs_out]. intros q Hq. apply in_app_or in Hq. destruct Hq as [Hq|[<-|[]]]; auto. discriminate.
Qed.
(** Once balanced, every posting without brackets has its amount. *)
Lemma balanced_written ord skip t bals b t' bals' : txn_balance ord skip t bals = Ok (b, t', bals') -> written t'.
Proof.
  intros H. unfold txn_balance in H. destruct (total_balance _ _); cbn [bind] in H; try discriminate. destruct (negb _); [discriminate|].
  match type of H with bind (foldM _ ?s0 _) _ = _ => destruct (foldM (bal_step skip) s0 (t_postings t)) as [s| |] eqn:E end; cbn [bind] in H; try discriminate.
  assert (Q : forall p, In p (bs_out s) -> p_amount p <> None) by (eapply pushed_steps; [|exact E]; intros p []).
  assert (NR : forall p, In p (non_real (t_postings t)) -> p_kind p = Real -> p_amount p <> None).
  { intros p Hp K. apply filter_In in Hp. destruct Hp as [_ Hp]. rewrite K in Hp. discriminate. }
  destruct (length (real (t_postings t)) - length (bs_out s))%nat as [|[|n]]; [| |discriminate].
  - destruct (can_be_zero (bs_tb s)); [|discriminate]. injection H as <- <- <-. intros p Hp. cbn in Hp. apply in_app_or in Hp. destruct Hp; auto.
  - destruct (fill_loop _ _ _ _ _) as [[b2 o2]| |] eqn:F; cbn [bind] in H; try discriminate. injection H as <- <- <-.
    destruct (ord (bal_neg (bs_tb s))) as [|e0 es] eqn:Eo.
    + cbn in F. injection F as <- <-. intros p Hp. cbn in Hp. apply in_app_or in Hp. destruct Hp; auto.
    + destruct (hget str_eqb (fst (bs_fill s)) (bs_bals s)) as [old|] eqn:Ef; [|unfold fill_loop in F; cbn [foldM] in F; rewrite Ef in F; discriminate].
      destruct (fill_loop_is t (fst (bs_fill s)) (snd (bs_fill s)) (e0 :: es) (bs_bals s) (bs_out s) old Ef) as (b3 & F3 & G). rewrite F in F3. injection F3 as <- ->.
      intros p Hp K. cbn [set_postings t_postings] in Hp. apply in_app_or in Hp. destruct Hp as [Hp|Hp]; auto. apply in_app_or in Hp. destruct Hp as [Hp|Hp]; auto.
      change (In p (map (fun e => fill_posting t (fst (bs_fill s)) (snd (bs_fill s)) (snd e)) (e0 :: es))) in Hp. apply in_map_iff in Hp. destruct Hp as (e & <- & He). discriminate.
Qed.
Lemma all_balanced_written w skip ts : forall site bals prices ts' bals' prices', balance_all w site skip ts bals prices = Ok (ts', bals', prices') -> Forall written ts'.
Proof.
  induction ts as [|t ts IH]; intros site bals prices ts' bals' prices' H; cbn [balance_all] in H; [injection H as <- <- <-; constructor|].
  destruct (unwrap (t_date t)); cbn [bind] in H; try discriminate. destruct (txn_balance _ _ _ _) as [[[b t1] b1]| |] eqn:E; cbn [bind] in H; try discriminate.
  match type of H with bind ?x _ = _ => destruct x end; cbn [bind] in H; try discriminate.
  destruct (balance_all w _ skip ts b1 _) as [[[r b2] pr]| |] eqn:E2; cbn [bind] in H; try discriminate. injection H as <- <- <-. constructor; [eapply balanced_written; eauto|eapply IH; eauto].
Qed.
Lemma one_step c skip s p s' : wf_bal (bs_tb s) /\ b_only c (bs_tb s) ->
  (p_kind p = Real -> o_only c (p_amount p) /\ match p_cost p with Some (CTotal m) | Some (CPerUnit m) => m_only c m | None => True end /\ (p_amount p = None -> p_balance p = None)) ->
  bal_step skip s p = Ok s' -> wf_bal (bs_tb s') /\ b_only c (bs_tb s').
Proof.
  intros [W T] P H. unfold bal_step in H. destruct (kind_eqb_spec (p_kind p) Real) as [K|K]; cbn [negb] in H; [|injection H as <-; auto]. destruct (P K) as (P1 & P2 & P3).
  destruct (p_amount p) as [m|] eqn:Em.
  - destruct (hget str_eqb (p_account p) (bs_bals s)) as [b|] eqn:Eb; [|discriminate]. cbn [unwrap bind] in H. destruct (negb skip && _); [discriminate|].
    destruct (post_value m (p_cost p)) as [v| |] eqn:Ev; cbn [bind] in H; try discriminate. injection H as <-. pose proof (P1 m eq_refl) as Pm.
    pose proof (post_value_wf _ _ _ Ev) as Wv. pose proof (only_value c _ _ _ Pm P2 Ev) as Ov. cbn. split; [apply wf_add|apply only_add]; auto.
  - rewrite (P3 eq_refl) in H. injection H as <-. auto.
Qed.
Lemma txn_settled ord ord' skip t bals bals' : (forall b, Permutation (ord b) b) -> (forall b, Permutation (ord' b) b) -> balsame bals bals' -> settled_txn t ->
  agree (fun x y => bsame (fst (fst x)) (fst (fst y)) /\ nz_bal (fst (fst x)) /\ snd (fst x) = snd (fst y) /\ balsame (snd x) (snd y)) (txn_balance ord skip t bals) (txn_balance ord' skip t bals').
Proof.
  intros O O' B [P|(c & P)]; [apply txn_written; auto|]. unfold txn_balance. eapply agree_bind; [apply agree_eq; reflexivity|]. intros vb ? <-. destruct (negb (can_be_zero vb)); [reflexivity|].
  assert (S0 : agree (fun s s' => stsame s s' /\ wf_bal (bs_tb s) /\ b_only c (bs_tb s))
    (foldM (bal_step skip) {| bs_bals := bals; bs_tb := bal_new; bs_out := []; bs_fill := (L "this will never be used", None) |} (t_postings t))
    (foldM (bal_step skip) {| bs_bals := bals'; bs_tb := bal_new; bs_out := []; bs_fill := (L "this will never be used", None) |} (t_postings t))).
  { apply agree_foldM.
    - intros s s' p Hp [H1 H2]. pose proof (step_same skip s s' p H1) as H. pose proof (fun s1 => one_step c skip s p s1 H2 (P p Hp)) as K.
      destruct (bal_step skip s p) as [s1| |], (bal_step skip s' p) as [s1'| |]; cbn in *; auto.
    - split; [split; [|split; [|split; [|split]]]|split]; cbn; auto; try constructor; try (apply wf_nil); auto; constructor. }
  eapply agree_bind; [exact S0|]. clear S0. intros s s' [(B1 & T & Z & EO & EF) (W & Ob)].
  assert (Et : bs_tb s' = bs_tb s) by (apply short_eq; [apply T|eapply only_short; eauto]).
  rewrite EO, EF, Et. destruct (length (real (t_postings t)) - length (bs_out s))%nat as [|[|n]]; [| |reflexivity].
  - destruct (can_be_zero (bs_tb s)); [|reflexivity]. split; [|split; [|split]]; cbn; auto. apply bsame_refl. auto.
  - assert (Q : ord' (bal_neg (bs_tb s)) = ord (bal_neg (bs_tb s))).
    { pose proof (only_short c _ W Z Ob) as Sh. transitivity (bal_neg (bs_tb s)); [|symmetry]; (apply short_eq; [symmetry; auto|unfold bal_neg; rewrite map_length; auto]). }
    rewrite Q. eapply agree_bind; [apply (fill_same t _ _ _ _ _ _ (bs_out s) (Permutation_refl _) B1)|]. intros [b1 o1] [b2 o2] (X1 & X2 & X3). cbn [fst snd] in *. subst o1 o2. cbn.
    split; [apply bsame_refl, wf_nil|]. split; [constructor|auto].
Qed.
Lemma all_settled_same w w' skip ts : world_ok w -> world_ok w' -> forall site site' bals bals' prices prices', balsame bals bals' -> Forall2 same_price prices prices' -> Forall settled_txn ts ->
  agree (fun x y => fst (fst x) = fst (fst y) /\ Forall2 same_price (snd x) (snd y)) (balance_all w site skip ts bals prices) (balance_all w' site' skip ts bals' prices').
Proof.
  intros [O _] [O' _]. induction ts as [|t ts IH]; intros site site' bals bals' prices prices' B Pr P; cbn [balance_all]; [repeat (split; cbn; auto)|]. inversion P as [|? ? P1 P2]; subst.
  eapply agree_bind; [apply agree_eq; reflexivity|]. intros d ? <-.
  eapply agree_bind; [apply (txn_settled (w_ord w site _) (w_ord w' site' _)); auto|].
  intros [[b t1] b1] [[b' t1'] b1'] (X1 & X2 & X3 & X4). cbn [fst snd] in *. subst t1'.
  eapply agree_bind.
  { eapply price_same; [eapply nz_permuted; [exact X2|symmetry; apply O]|]. rewrite O, O'. apply X1. }
  intros prs prs' X5. eapply agree_bind; [apply IH; [exact X4|apply Forall2_app; eauto|auto]|]. intros [[r b2] pr] [[r' b2'] pr'] (Y1 & Y3). cbn in *. subst. auto.
Qed.

(** ** What rules add has its amount *)
Lemma ruled_written w from upto rs t t' : rules_pass w from upto rs t t' -> written t -> written t'.
Proof.
  induction 1 as [t|query rule rs t tg ad t' H R IH]; intros W; auto. apply IH. clear IH R. unfold written in *. cbn [set_postings t_postings].
  assert (X : (forall p, In p tg -> p_kind p = Real -> p_amount p <> None) /\ (forall p, In p ad -> p_amount p <> None)).
  { revert W. induction H as [dn|dn p r tg ad Hp H IH|dn p r tg ad Hp Hw H IH|dn p p' r new tg ad Hp Hw Ep F H IH]; intros W.
    - split; intros p [].
    - destruct IH as [I1 I2]; [intros; apply W; [right|]; auto|]. split; auto. intros q [<-|Hq]; auto. apply W. left. auto.
    - destruct IH as [I1 I2]; [intros; apply W; [right|]; auto|]. split; auto. intros q [<-|Hq]; auto. apply W. left. auto.
    - destruct IH as [I1 I2]; [intros; apply W; [right|]; auto|]. split.
      + intros q [<-|Hq]; auto. subst p'. cbn. apply W. left. auto.
      + intros q Hq. apply in_app_or in Hq. destruct Hq as [Hq|Hq]; auto. destruct (F2_in _ _ _ _ F Hq) as (ap & _ & (_ & _ & (m & Em & _) & _)). congruence. }
  intros p Hp K. apply in_app_or in Hp. destruct X, Hp; auto.
Qed.
Lemma only_div c a q m : m_only c a -> m_div a q = Ok m -> m_only c m.
Proof. intros A. unfold m_div. destruct (qc_eqb q 0); [discriminate|]. intros [= <-]. destruct a; cbn in *; auto. Qed.
Lemma unary_only w c p op v m : (forall x, v = VMoney x -> m_only c x) -> eval_unary w p op v = Ok (VMoney m) -> m_only c m.
Proof.
  intros Y E. destruct op, v as [x|x|x|x|x|x|x|x|]; cbn [eval_unary] in E; try discriminate.
  - injection E as <-. specialize (Y _ eq_refl). destruct x; cbn in *; auto.
  - specialize (Y _ eq_refl). destruct x; injection E as <-; cbn in *; auto.
  - destruct x; cbn in E; discriminate.
  - destruct x as [x|]; cbn [unwrap bind] in E; try discriminate. destruct (Dates.date_parser w x) as [[d|]| |]; cbn in E; discriminate.
Qed.
Lemma binary_only w c t op v u m : (forall x, v = VMoney x -> m_only c x) -> (forall x, u = VMoney x -> m_only c x) -> eval_binary w t op v u = Ok (VMoney m) -> m_only c m.
Proof.
  intros Y1 Y2 E. assert (Mul : forall a q, m_only c a -> m_only c (m_mul a q)) by (intros [|? ?] q H; cbn in *; auto).
  unfold eval_binary in E. destruct op.
  all: try (destruct (value_cmp v u) as [[?|]| |]; cbn in E; discriminate).
  all: try (destruct v as [x|x|x|x|x|x|x|x|], u as [y|y|y|y|y|y|y|y|]; try discriminate; try (destruct x; discriminate); try (destruct x, y; discriminate)).
  all: try (destruct (qc_eqb _ 0); discriminate).
  - destruct (to_money (money_add x y)) as [z| |] eqn:Z; try discriminate. injection E as <-. specialize (Y1 _ eq_refl). specialize (Y2 _ eq_refl).
    eapply only_money; [| |exact Z]; [apply wf_add; apply wf_of|apply only_add; auto using wf_of, only_of].
  - destruct (to_money (money_sub x y)) as [z| |] eqn:Z; try discriminate. injection E as <-. specialize (Y1 _ eq_refl). specialize (Y2 _ eq_refl).
    eapply only_money; [| |exact Z]; [apply wf_add; [apply wf_of|apply wf_neg, wf_of]|apply only_add; auto using wf_of, wf_neg, only_of, only_neg].
  - injection E as <-. auto.
  - injection E as <-. auto.
  - destruct (m_div x y) as [z| |] eqn:Z; cbn [bind] in E; try discriminate. injection E as <-. eapply only_div; eauto.
Qed.
Lemma eval_only w c t : forall n, no_literal n -> forall p cs m cs', o_only c (p_amount p) -> eval w n p t cs = Ok (VMoney m, cs') -> m_only c m.
Proof.
  induction n as [| | | | |q|cur q|op n IH|op a IHa b IHb|rx|s]; intros L p cs m cs' P E; cbn [eval] in E; try discriminate; try contradiction.
  - destruct (p_amount p) eqn:Ea; [|discriminate]. cbn in E. injection E as <- _. auto.
  - destruct (p_payee p); discriminate.
  - destruct (t_date t); discriminate.
  - destruct (eval w n p t cs) as [[v c1]| |] eqn:E1; cbn [bind] in E; try discriminate. cbn in L.
    assert (Y : forall x, v = VMoney x -> m_only c x) by (intros x ->; eapply IH; eauto).
    destruct op; try (destruct (any_loop _ _ _) as [[? ?]| |]; discriminate);
      (match type of E with bind ?x _ = _ => destruct x as [r| |] eqn:Eu end; cbn [bind] in E; try discriminate; injection E as -> _; eapply unary_only; eauto).
  - destruct L as [La Lb]. destruct (eval w a p t cs) as [[v c1]| |] eqn:E1; cbn [bind] in E; try discriminate. destruct (eval w b p t c1) as [[u c2]| |] eqn:E2; cbn [bind] in E; try discriminate.
    destruct (eval_binary w t op v u) as [r| |] eqn:Eb; cbn [bind] in E; try discriminate. injection E as -> _.
    eapply binary_only; [| |exact Eb]; intros x ->; eauto.
Qed.
Definition line_only (w : world) (c : str) (upto : alist currency) (ap : rposting) : Prop :=
  match rp_money ap with
  | Some (_, []) => True
  | Some (_, n) => forall x, l_get w n upto = Ok x -> cu_name x = c
  | None => forall e n, rp_expr ap = Some e -> build_root w e = Ok n -> no_literal n
  end.
Lemma line_only_posting w c from upto t p ap q : line_only w c (as_curs upto) ap -> p_only c p -> rule_posting w from upto t p ap q -> p_only c q.
Proof.
  intros HL (P1 & _) (_ & _ & (m & Em & RA) & _ & B & K & _). unfold p_only. rewrite B, K, Em. split; [|split; [intros x; discriminate|exact I]]. intros x [= <-].
  unfold line_only in HL. unfold rule_amount in RA. destruct (rp_money ap) as [[a n]|].
  - destruct n as [|k n].
    + destruct RA as (y & cur & Ey & ->). exact (P1 _ Ey).
    + destruct RA as (y & Ey & ->). exact (HL y Ey).
  - destruct RA as (e & n & E1 & E2 & [(cs & cs' & _ & Ev & _)|(y & a & _ & Ea & ->)]).
    + eapply eval_only; eauto.
    + specialize (P1 _ Ea). destruct a; cbn in *; auto.
Qed.
Lemma ruled_only w c from upto rs t t' : rules_pass w from upto rs t t' -> (forall x ap, In x rs -> In ap (t_postings (snd x)) -> line_only w c (as_curs upto) ap) ->
  Forall (p_only c) (t_postings t) -> Forall (p_only c) (t_postings t').
Proof.
  induction 1 as [t|query rule rs t tg ad t' H R IH]; intros HL W; auto. apply IH; [intros; eapply HL; [right|]; eauto|]. clear IH R. cbn [set_postings t_postings].
  assert (HR : forall ap, In ap (t_postings rule) -> line_only w c (as_curs upto) ap) by (intros ap Hap; eapply (HL (query, rule)); [left|]; auto).
  apply Forall_app. revert W. induction H as [dn|dn p r tg ad Hp H IH|dn p r tg ad Hp Hw H IH|dn p p' r new tg ad Hp Hw Ep F H IH]; intros W.
  - auto.
  - inversion W; subst. destruct IH; auto.
  - inversion W; subst. destruct IH; auto.
  - inversion W as [|? ? W1 W2]; subst. destruct IH as [I1 I2]; auto. split; [constructor; auto|]. apply Forall_app. split; auto.
    apply Forall_forall. intros q Hq. destruct (F2_in _ _ _ _ F Hq) as (ap & Hap & RP). eapply line_only_posting; [| |exact RP]; auto.
Qed.
Lemma read_settled w l cs al pays raw : names_ok w l cs al pays -> clear_names w l -> Forall2 (raw_ok w al pays cs) (pl_txns l) raw -> settled w l ->
  Forall settled_txn (sort_txns (flat_map (fun x : raw_result => fst (fst x)) raw)).
Proof.
  intros N C R O. destruct (raw_parts _ _ _ _ _ _ R) as (F & _). apply Forall_forall. intros t' Ht. eapply Permutation_in in Ht; [|apply stable_sort_perm].
  destruct (F2_in _ _ _ _ F Ht) as (t & Hin & Rd). pose proof Hin as Hin0. apply filter_In in Hin0. destruct Hin0 as [Hin0 _]. destruct Rd as (_ & Fp & _). destruct (O t Hin) as [W|(c & W)].
  - left. intros p' Hp' K. destruct (F2_in _ _ _ _ Fp Hp') as (p & Hp & (R1 & _ & _ & Rk & _)). pose proof (W p Hp ltac:(congruence)) as X.
    unfold reads_money in R1. destruct (rp_money p) as [[? ?]|]; [|congruence]. destruct (p_amount p'); [discriminate|contradiction].
  - right. exists c. intros p' Hp' K. destruct (F2_in _ _ _ _ Fp Hp') as (p & Hp & (R1 & R2 & R3 & Rk & _)). destruct (W p Hp ltac:(congruence)) as [W1 W2].
    assert (Q : forall m m', (m = rp_money p \/ m = rp_cost p) -> reads_money w cs m m' -> o_only c m').
    { intros m m' Hm H x ->. destruct m as [[q n]|]; [|contradiction]. destruct x as [|q' c']; [contradiction|]. destruct H as (-> & y & Ey & ->). cbn.
      assert (X : rp_money p = Some (q, n) \/ rp_cost p = Some (q, n)) by (destruct Hm as [-> | ->]; auto).
      rewrite <- (W1 q n X). eapply found_commodity; eauto. right. exists t, p, q. tauto. }
    split; [exact (Q (rp_money p) _ (or_introl eq_refl) R1)|]. split.
    + unfold reads_cost in R3. destruct (rp_cost p) as [k|] eqn:Ek; [|rewrite R3; exact I].
      destruct R3 as (m & Rm & Z). assert (m_only c m) by (exact (Q (Some k) (Some m) (or_intror eq_refl) Rm m eq_refl)). destruct (rp_cost_type p) as [[]|]; try contradiction; rewrite Z; auto.
    + intros E. unfold reads_money in R1, R2. destruct (rp_money p) as [[? ?]|]; [rewrite E in R1; contradiction|]. rewrite (W2 eq_refl) in R2. destruct (p_balance p'); [contradiction|auto].
Qed.
Lemma same_txn_refl t : same_txn t t.
Proof. split; auto. exists (t_postings t), [], [], [], []. rewrite app_nil_r. repeat (split; auto); constructor. Qed.
Lemma same_prices_refl prs : Forall2 same_price prs prs.
Proof. induction prs; constructor; auto. left. auto. Qed.
Lemma same_txns_refl ts : Forall2 same_txn ts ts.
Proof. induction ts; constructor; auto. apply same_txn_refl. Qed.
Lemma asame_start w l cs al pays cs' al' pays' : names_ok w l cs al pays -> names_ok w l cs' al' pays' -> same_names w cs cs' -> same_names w al al' -> same_names w pays pays' ->
  asame w {| as_accs := al; as_curs := cs; as_pays := pays |} {| as_accs := al'; as_curs := cs'; as_pays := pays' |}.
Proof. intros N N' Sc Sa Sp. repeat split; cbn; try apply N; try apply N'; try apply Sc; try apply Sa; try apply Sp. Qed.
Lemma start_ok w l cs al pays : names_ok w l cs al pays -> as_ok w {| as_accs := al; as_curs := cs; as_pays := pays |}.
Proof. intros N. split; [|split]; apply N. Qed.
Lemma asame_ledger w s s' ts pr pr' : world_ok w -> asame w s s' -> Forall2 same_price pr pr' ->
  same_ledger w {| lg_accounts := as_accs s; lg_commodities := as_curs s; lg_txns := ts; lg_prices := pr; lg_payees := as_pays s |}
    {| lg_accounts := as_accs s'; lg_commodities := as_curs s'; lg_txns := ts; lg_prices := pr'; lg_payees := as_pays s' |}.
Proof.
  intros W (S1 & S2 & S3) P. constructor; cbn; auto using same_txns_refl.
  - eapply lsame_names; [exact W|exact S1].
  - eapply lsame_names; [exact W|exact S2].
  - eapply lsame_names; [exact W|exact S3].
Qed.
Lemma ledger_settled w o skip l : world_ok w -> world_ok (with_order w o) -> journal_ok w l -> clear_names w l -> settled w l ->
  agree (fun lg lg' => same_ledger w lg lg' /\ lg_txns lg = lg_txns lg') (to_ledger w skip l) (to_ledger (with_order w o) skip l).
Proof.
  intros W W' J C O. destruct (read_same w o l W W' J C) as (cs & al & pays & cs' & al' & pays' & N & N' & Sc & Sa & Sp & [(prices & raw & E & E' & RO)|(x & E & E')]).
  - rewrite !to_ledger_phases, E, E'. cbn [bind]. unfold balance_phase.
    pose proof (read_settled w l cs al pays raw N C (ro_raw _ _ _ _ _ _ _ RO) O) as HS. set (ts := sort_txns (flat_map (fun x : raw_result => fst (fst x)) raw)) in *.
    pose proof (fun site bals prs ts1 b1 p1 => all_balanced_written w skip ts site bals prs ts1 b1 p1) as BW.
    pose proof (all_settled_same w (with_order w o) skip ts W W' 8%nat 8%nat _ _ _ _ (balsame_fresh w al al' Sa) (same_prices_refl (prices ++ flat_map snd raw)) HS) as A1.
    specialize (BW 8%nat (fresh_balances al) (prices ++ flat_map snd raw)).
    destruct (balance_all w 8 skip ts (fresh_balances al) (prices ++ flat_map snd raw)) as [[[ts1 b1] p1]| |], (balance_all (with_order w o) 8 skip ts (fresh_balances al') (prices ++ flat_map snd raw)) as [[[ts1' b1'] p1']| |];
      cbn in A1; try contradiction; cbn [bind]; try (cbn; congruence).
    destruct A1 as [<- Pr]. specialize (BW _ _ _ eq_refl). pose proof (asame_start w l _ _ _ _ _ _ N N' Sc Sa Sp) as AS.
    destruct (flat_map (fun x : raw_result => snd (fst x)) raw) as [|a0 autos] eqn:EA; [cbn; split; auto; apply (asame_ledger w _ _ ts1 p1 p1' W AS Pr)|].
    rewrite (mapM_ext (fun a => build_root (with_order w o) (get_filter_query a)) (fun a => build_root w (get_filter_query a))) by (intros; apply build_root_order).
    eapply agree_bind; [apply agree_eq; reflexivity|]. intros nodes ? <-.
    pose proof (auto_all_same w o (combine nodes (a0 :: autos)) ts1 _ _ AS) as A2.
    pose proof (fun ts2 s2 => auto_all_spec w (combine nodes (a0 :: autos)) ts1 _ ts2 s2 (start_ok w l cs al pays N)) as SP.
    destruct (auto_all w _ ts1 {| as_accs := al; as_curs := cs; as_pays := pays |}) as [[ts2 s2]| |], (auto_all (with_order w o) _ ts1 {| as_accs := al'; as_curs := cs'; as_pays := pays' |}) as [[ts2' s2']| |];
      cbn in A2; try contradiction; cbn [bind]; try (cbn; congruence). destruct A2 as [<- AS2]. destruct (SP _ _ eq_refl) as (_ & _ & _ & RP). clear SP.
    assert (WR : Forall settled_txn ts2).
    { specialize (RP _ _ (as_le_refl w _) (as_le_refl w _)). clear - RP BW. induction RP as [|t t' ts ts' H F IH]; constructor; inversion BW; subst; auto. left. eapply ruled_written; eauto. }
    eapply agree_bind; [apply (all_settled_same w (with_order w o) skip ts2 W W'); [eapply balsame_fresh, lsame_names; [exact W|apply AS2]|exact Pr|exact WR]|].
    intros [[ts3 b3] p3] [[ts3' b3'] p3'] [X1 X2]. cbn in X1, X2. subst ts3'. cbn. split; auto. apply asame_ledger; auto.
  - rewrite !to_ledger_phases, E, E'. reflexivity.
Qed.
Lemma combine_right {A B} (l : list A) (l' : list B) x : In x (combine l l') -> In (snd x) l'.
Proof. destruct x as [a b]. apply in_combine_r. Qed.
Lemma ledger_exact w o skip l c : world_ok w -> world_ok (with_order w o) -> journal_ok w l -> clear_names w l -> one_commodity w l c ->
  agree (fun lg lg' => same_ledger w lg lg' /\ lg_txns lg = lg_txns lg' /\ lg_prices lg = lg_prices lg' /\ Forall (fun t => Forall (p_only c) (t_postings t)) (lg_txns lg)) (to_ledger w skip l) (to_ledger (with_order w o) skip l).
Proof.
  intros W W' J C O. destruct (read_same w o l W W' J C) as (cs & al & pays & cs' & al' & pays' & N & N' & Sc & Sa & Sp & [(prices & raw & E & E' & RO)|(x & E & E')]).
  - rewrite !to_ledger_phases, E, E'. cbn [bind]. unfold balance_phase.
    pose proof (read_only w l cs al pays raw c N C (ro_raw _ _ _ _ _ _ _ RO) O) as HS. set (ts := sort_txns (flat_map (fun x : raw_result => fst (fst x)) raw)) in *.
    pose proof (all_exact c w (with_order w o) skip ts W W' 8%nat 8%nat _ _ (prices ++ flat_map snd raw) (balsame_fresh w al al' Sa) (fresh_only c al) HS) as A1.
    destruct (balance_all w 8 skip ts (fresh_balances al) (prices ++ flat_map snd raw)) as [[[ts1 b1] p1]| |], (balance_all (with_order w o) 8 skip ts (fresh_balances al') (prices ++ flat_map snd raw)) as [[[ts1' b1'] p1']| |];
      cbn in A1; try contradiction; cbn [bind]; try (cbn; congruence).
    destruct A1 as (<- & <- & P1). pose proof (asame_start w l _ _ _ _ _ _ N N' Sc Sa Sp) as AS.
    destruct (raw_parts _ _ _ _ _ _ (ro_raw _ _ _ _ _ _ _ RO)) as (_ & EA0 & _).
    destruct (flat_map (fun x : raw_result => snd (fst x)) raw) as [|a0 autos] eqn:EA; [cbn; split; auto; apply (asame_ledger w _ _ ts1 p1 p1 W AS (same_prices_refl _))|].
    rewrite (mapM_ext (fun a => build_root (with_order w o) (get_filter_query a)) (fun a => build_root w (get_filter_query a))) by (intros; apply build_root_order).
    eapply agree_bind; [apply agree_eq; reflexivity|]. intros nodes ? <-.
    pose proof (auto_all_same w o (combine nodes (a0 :: autos)) ts1 _ _ AS) as A2.
    pose proof (fun ts2 s2 => auto_all_spec w (combine nodes (a0 :: autos)) ts1 _ ts2 s2 (start_ok w l cs al pays N)) as SP.
    destruct (auto_all w _ ts1 {| as_accs := al; as_curs := cs; as_pays := pays |}) as [[ts2 s2]| |], (auto_all (with_order w o) _ ts1 {| as_accs := al'; as_curs := cs'; as_pays := pays' |}) as [[ts2' s2']| |];
      cbn in A2; try contradiction; cbn [bind]; try (cbn; congruence). destruct A2 as [<- AS2]. destruct (SP _ _ eq_refl) as (_ & (_ & GC & _) & _ & RP). clear SP.
    assert (LO : forall x ap, In x (combine nodes (a0 :: autos)) -> In ap (t_postings (snd x)) -> line_only w c (as_curs s2) ap).
    { intros x ap Hx Hap. apply combine_right in Hx. rewrite EA0 in Hx. pose proof (proj2 O (snd x) ap Hx Hap) as OA. unfold line_only. apply filter_In in Hx. destruct Hx as [Hx _].
      destruct (rp_money ap) as [[q n]|] eqn:Em; [|exact OA]. destruct n as [|k n]; auto. destruct OA as [OA|OA]; [discriminate|]. intros y Ey. rewrite <- OA.
      assert (In (k :: n) (commodity_names l)) as Hn by (apply commodity_names_iff; right; exists ap, q; split; [|auto]; unfold all_postings; apply in_flat_map; eauto).
      destruct (no_rcs _ _ _ _ _ N _ Hn) as (z & Ez & _). pose proof (proj1 GC _ _ Ez) as Ez'. cbn in Ez'. assert (z = y) by congruence. subst z.
      exact (found_commodity w l cs al pays (k :: n) y N C (mentioned_commodity l _ Hn) Ez). }
    assert (WR : Forall (fun t => Forall (p_only c) (t_postings t)) ts2).
    { specialize (RP _ _ (as_le_refl w _) (as_le_refl w _)). clear - RP P1 LO. induction RP as [|t t' ts ts' H F IH]; constructor; inversion P1; subst; auto. eapply ruled_only; eauto. }
    eapply agree_bind; [apply (all_exact c w (with_order w o) skip ts2 W W'); [eapply balsame_fresh, lsame_names; [exact W|apply AS2]|apply fresh_only|exact WR]|].
    intros [[ts3 b3] p3] [[ts3' b3'] p3'] (X1 & X2 & X3). cbn in X1, X2, X3. subst ts3' p3'. cbn. split; [apply asame_ledger; auto using same_prices_refl|auto].
  - rewrite !to_ledger_phases, E, E'. reflexivity.
Qed.
