(** C25: the tables of compiled patterns and of parsed queries change nothing. *)
From Verif Require Import Base BaseFacts Money Alist Comment Txn Peg Grammar Expr Filter Price Tokens Ledger Reports App Spec SpecLedger LedgerFacts4 PropLedger PropReports PropApp PropRules Memo.

(** ** The same outcome, and a table that holds nothing wrong *)
Section Memo.
Context (w : world).
Definition right (m : patterns) : Prop := forall k c, hget str_eqb k m = Some c -> c = k /\ w_rx_ok w k = true.
Definition sim {A} (r : res (A * patterns)) (r' : res A) : Prop :=
  match r, r' with
  | Ok (a, m), Ok a' => a = a' /\ right m
  | Err e, Err e' => e = e'
  | Panic x, Panic x' => x = x'
  | _, _ => False
  end.
Lemma right_new : right [].
Proof. intros k c H. discriminate. Qed.
Lemma sim_ok {A} (a : A) m : right m -> sim (Ok (a, m)) (Ok a).
Proof. split; auto. Qed.
Lemma sim_bind {A B} (r : res (A * patterns)) r' (f : A * patterns -> res (B * patterns)) (f' : A -> res B) :
  sim r r' -> (forall a m, right m -> sim (f (a, m)) (f' a)) -> sim (bind r f) (bind r' f').
Proof. destruct r as [[a m]|e|x], r' as [a'|e'|x']; cbn; try contradiction; intros H K; auto. destruct H as [<- H]. auto. Qed.
Lemma sim_same {A B} (r : res A) (f : A -> res (B * patterns)) f' : (forall a, sim (f a) (f' a)) -> sim (bind r f) (bind r f').
Proof. destruct r; cbn; auto. Qed.
Lemma sim_kept {A} (r : res A) m : right m -> sim (n <- r ;; Ok (n, m)) r.
Proof. intros R. destruct r; cbn; auto. Qed.
Lemma sim_compiled rx m : right m -> sim (compiled w rx m) (if w_rx_ok w rx then Ok (NRegex rx) else Panic PUnwrap).
Proof.
  intros R. unfold compiled. destruct (hget str_eqb rx m) as [c|] eqn:E.
  - destruct (R rx c E) as [-> X]. rewrite X. apply sim_ok. auto.
  - destruct (w_rx_ok w rx) eqn:X; [|reflexivity]. apply sim_ok. intros k c H. rewrite (hget_hset str_eqb str_eqb_spec) in H.
    destruct (str_eqb_spec k rx) as [->|]; [injection H as <-; auto|apply R; auto].
Qed.
Lemma sim_ast p : forall m, right m -> sim (build_ast_memo w p m) (build_ast w p).
Proof.
  induction p as [r txt kids K] using pair_ind_deep. intros m R.
  assert (B : forall r0, sim
    (match kids with
     | [] => Panic PUnwrap
     | lp :: rest => '(lhs, m1) <- build_ast_memo w lp m ;;
         match rest with
         | [] => Ok (lhs, m1)
         | x :: rest' => op <- binary_of r0 (p_text x) ;;
             match rest' with [] => Panic PUnwrap | rp :: _ => '(rhs, m2) <- build_ast_memo w rp m1 ;; Ok (NBinary op lhs rhs, m2) end
         end
     end)
    (match kids with
     | [] => Panic PUnwrap
     | lp :: rest => lhs <- build_ast w lp ;;
         match rest with
         | [] => Ok lhs
         | x :: rest' => op <- binary_of r0 (p_text x) ;;
             match rest' with [] => Panic PUnwrap | rp :: _ => rhs <- build_ast w rp ;; Ok (NBinary op lhs rhs) end
         end
     end)).
  { intros r0. destruct kids as [|lp rest]; [reflexivity|]. apply sim_bind; [apply K; [left; auto|auto]|]. intros a m1 R1.
    destruct rest as [|x rest']; [apply sim_ok; auto|]. apply sim_same. intros op. destruct rest' as [|rp rest']; [reflexivity|].
    apply sim_bind; [apply K; [right; right; left; auto|auto]|]. intros b m2 R2. apply sim_ok. auto. }
  destruct r; cbn [build_ast build_ast_memo]; try reflexivity; try apply B.
  - destruct kids as [|k kids]; [reflexivity|]. apply K; [left; auto|auto].
  - destruct kids as [|[fr ft fk] rest]; [reflexivity|]. destruct fr; try reflexivity.
    all: try (apply sim_kept; auto; fail).
    all: try (apply sim_same; intros; apply sim_ok; auto; fail).
    all: try (apply sim_ok; auto; fail).
    all: try (apply sim_compiled; auto).
    all: try (apply K; [left; auto|auto]; fail).
    all: try (apply sim_same; intros op; destruct rest as [|c rest]; [reflexivity|]; apply sim_bind; [apply K; [right; left; auto|auto]|]; intros a m1 R1; apply sim_ok; auto).
Qed.
Lemma sim_root e m : right m -> sim (build_root_memo w e m) (build_root w e).
Proof.
  intros R. unfold build_root_memo, build_root. apply sim_same. intros ps. apply sim_same. intros [top r1]. apply sim_same. intros [inner r2]. apply sim_ast. auto.
Qed.
Lemma sim_value e p t cs m : right m -> sim (eval_value_expression_memo w e p t cs m) (eval_value_expression w e p t cs).
Proof.
  intros R. unfold eval_value_expression_memo, eval_value_expression. apply sim_bind; [apply sim_root; auto|]. intros n m1 R1. apply sim_same. intros [v cs'].
  destruct v; try reflexivity; [|apply sim_ok; auto]. apply sim_same. intros x. apply sim_ok. auto.
Qed.
Lemma sim_posting t p s ap m : right m -> sim (auto_posting_memo w t p s ap m) (auto_posting w t p s ap).
Proof.
  intros R. unfold auto_posting_memo, auto_posting. apply sim_same. intros al. apply sim_same. intros [pay pl]. apply sim_same. intros acc.
  apply (sim_bind (A := money * alist currency)).
  - destruct (rp_money ap) as [[q [|c0 c]]|].
    + apply sim_same. intros a. apply sim_same. intros cur. apply sim_ok. auto.
    + apply sim_same. intros cs. apply sim_same. intros cur. apply sim_ok. auto.
    + apply sim_same. intros e. apply sim_value. auto.
  - intros [x cs] m1 R1. apply sim_ok. auto.
Qed.
Lemma sim_postings t p : forall aps s m, right m -> sim (auto_postings_memo w t p s aps m) (auto_postings w t p s aps).
Proof.
  induction aps as [|ap aps IH]; intros s m R; cbn [auto_postings_memo auto_postings]; [apply sim_ok; auto|].
  apply (sim_bind (A := posting * astate)); [apply sim_posting; auto|]. intros [x s1] m1 R1.
  apply (sim_bind (A := list posting * astate)); [apply IH; auto|]. intros [xs s2] m2 R2. apply sim_ok. auto.
Qed.
Lemma sim_scan t nodes n auto : hget str_eqb (get_filter_query auto) nodes = Some n -> forall todo s done extra m, right m ->
  sim (auto_scan_memo w t nodes auto s done todo extra m) (auto_scan w t n auto s done todo extra).
Proof.
  intros E. induction todo as [|p todo IH]; intros s done extra m R; cbn [auto_scan_memo auto_scan]; [apply sim_ok; auto|].
  destruct (negb (is_from_txn (p_origin p))); [apply IH; auto|]. rewrite E. cbn [unwrap bind]. apply sim_same. intros [b cs]. destruct b; [|apply IH; auto].
  apply (sim_bind (A := list posting * astate)); [apply sim_postings; auto|]. intros [new s2] m1 R1. apply IH. auto.
Qed.
Definition table_of (nodes : list (str * node)) (autos : list (txn rposting)) (ns : list node) : Prop :=
  Forall2 (fun a n => hget str_eqb (get_filter_query a) nodes = Some n) autos ns.
Lemma sim_one nodes autos ns : table_of nodes autos ns -> forall t s m, right m ->
  sim (foldM (auto_one_memo w nodes) (t, s, m) autos) (foldM (auto_one w) (t, s) (combine ns autos)).
Proof.
  induction 1 as [|a n autos ns E _ IH]; intros t s m R; cbn [foldM combine]; [apply sim_ok; auto|].
  apply (sim_bind (A := txn posting * astate)); [|intros [t' s'] m' R'; apply IH; auto]. unfold auto_one_memo, auto_one. cbn [fst snd].
  apply (sim_bind (A := list posting * list posting * astate)); [apply sim_scan; auto|]. intros [[ps extra] s'] m' R'. apply sim_ok. auto.
Qed.
Lemma sim_all nodes autos ns : table_of nodes autos ns -> forall ts s m, right m ->
  sim (auto_all_memo w nodes autos ts s m) (auto_all w (combine ns autos) ts s).
Proof.
  intros E. induction ts as [|t ts IH]; intros s m R; cbn [auto_all_memo auto_all]; [apply sim_ok; auto|].
  apply (sim_bind (A := txn posting * astate)); [apply sim_one; auto|]. intros [t' s1] m1 R1.
  apply (sim_bind (A := list (txn posting) * astate)); [apply IH; auto|]. intros [r' s2] m2 R2. apply sim_ok. auto.
Qed.
(** The table of parsed queries: what is found for the query of a rule is the query parsed. *)
Definition parsed_right (nodes : list (str * node)) : Prop := forall k n, hget str_eqb k nodes = Some n -> build_root w k = Ok n.
Lemma nodes_step autos : forall nodes m, parsed_right nodes -> right m ->
  match foldM (node_step w) (nodes, m) autos, mapM (fun a => build_root w (get_filter_query a)) autos with
  | Ok (nodes', m'), Ok ns => table_of nodes' autos ns /\ parsed_right nodes' /\ right m' /\ (forall k n, hget str_eqb k nodes = Some n -> hget str_eqb k nodes' = Some n)
  | Err e, Err e' => e = e'
  | Panic x, Panic x' => x = x'
  | _, _ => False
  end.
Proof.
  induction autos as [|a autos IH]; intros nodes m P R; cbn [foldM mapM]; [split; [constructor|auto]|].
  unfold node_step at 1. cbn [fst snd]. pose proof (sim_root (get_filter_query a) m R) as SR.
  destruct (build_root_memo w (get_filter_query a) m) as [[n m1]|e|x], (build_root w (get_filter_query a)) as [n'|e'|x'] eqn:EB; cbn in SR; try contradiction; cbn [bind]; auto.
  destruct SR as [<- R1].
  assert (P1 : parsed_right (hset str_eqb (get_filter_query a) n nodes)).
  { intros k n1 H. rewrite (hget_hset str_eqb str_eqb_spec) in H. destruct (str_eqb_spec k (get_filter_query a)) as [->|]; [congruence|apply P; auto]. }
  specialize (IH _ _ P1 R1). destruct (foldM (node_step w) (hset str_eqb (get_filter_query a) n nodes, m1) autos) as [[nodes' m']|e|x], (mapM _ autos) as [ns|e'|x']; cbn [bind]; try contradiction; auto.
  destruct IH as (T & P' & R' & X). split; [|split; [auto|split; [auto|]]].
  - constructor; auto. apply X. apply (hget_hset_same str_eqb str_eqb_spec).
  - intros k n1 H. apply X. rewrite (hget_hset str_eqb str_eqb_spec). destruct (str_eqb_spec k (get_filter_query a)) as [->|]; auto. apply P in H. congruence.
Qed.
End Memo.

(** * C25 *)
(** The tables that come about: from an empty one, by any sequence of expressions. *)
Inductive table_after (w : world) : patterns -> Prop :=
| ta_new : table_after w []
| ta_more m e n m' : table_after w m -> build_root_memo w e m = Ok (n, m') -> table_after w m'.
Lemma table_right w m : table_after w m -> right w m.
Proof.
  induction 1 as [|m e n m' _ IH E]; [apply right_new|]. pose proof (sim_root w e m IH) as X. rewrite E in X. unfold sim in X. destruct (build_root w e); try contradiction. apply X.
Qed.
(** Whatever expressions were parsed before, an expression is parsed as it is without a table. *)
Theorem C25_compiled_patterns : forall w m e, table_after w m ->
  (n <- build_root_memo w e m ;; Ok (fst n)) = build_root w e.
Proof.
  intros w m e H. apply table_right in H. pose proof (sim_root w e m H) as X. unfold sim in X.
  destruct (build_root_memo w e m) as [[n m']|x|x], (build_root w e) as [n'|x'|x']; cbn [bind fst]; try contradiction; try congruence. destruct X as [-> _]. auto.
Qed.
Print Assumptions C25_compiled_patterns.
(** With the tables the program makes the same ledger, or refuses the journal in the same way, and asks the same query. *)
Theorem C25_tables_transparent : forall w skip l o, to_ledger_memo w skip l = to_ledger w skip l /\ query_node_memo w o = query_node w o.
Proof.
  intros w skip l o. split.
  - unfold to_ledger_memo, to_ledger.
    destruct (foldM (ensure_cur w) _ _) as [cs|e|x]; cbn [bind]; auto. destruct (foldM (ensure_acc w) _ _) as [al|e|x]; cbn [bind]; auto.
    destruct (foldM (payee_step w _) _ _) as [pays|e|x]; cbn [bind]; auto. destruct (mapM (price_of w cs) _) as [prices1|e|x]; cbn [bind]; auto.
    destruct (mapM (txn_of_raw w _ al pays cs) _) as [raw|e|x]; cbn [bind]; auto. destruct (balance_all w 8 skip _ _ _) as [[[ts1 b1] prices3]|e|x]; cbn [bind]; auto.
    generalize (flat_map (fun x : list (txn posting) * list (txn rposting) * list price => snd (fst x)) raw). intros autos. destruct autos as [|a autos]; auto.
    generalize (a :: autos). clear a autos. intros autos. pose proof (nodes_step w autos [] [] ltac:(intros k n H; discriminate) (right_new w)) as NS.
    revert NS. match goal with |- match ?r with Ok _ => _ | Err _ => _ | Panic _ => _ end -> bind ?r1 _ = _ => change r1 with r; destruct r as [[nodes m]|e|x] end;
      destruct (mapM (fun a => build_root w (get_filter_query a)) autos) as [ns|e'|x']; cbn [bind]; intros NS; try contradiction; try congruence.
    destruct NS as (T & _ & R & _). pose proof (sim_all w nodes autos ns T ts1 {| as_accs := al; as_curs := cs; as_pays := pays |} m R) as SA. unfold sim in SA.
    destruct (auto_all_memo w nodes autos ts1 _ m) as [[[ts2 s] m2]|e|x], (auto_all w (combine ns autos) ts1 _) as [[ts2' s']|e'|x']; cbn [bind]; try contradiction; try congruence.
    destruct SA as [SA _]. injection SA as <- <-. auto.
  - unfold query_node_memo, query_node. destruct (Nat.ltb 2 _); auto. pose proof (C25_compiled_patterns w [] (preprocess_query (o_query o)) (ta_new w)) as X.
    rewrite <- X. destruct (build_root_memo w (preprocess_query (o_query o)) []) as [[n m]|e|x]; auto.
Qed.
Print Assumptions C25_tables_transparent.

(** Two rules with the same pattern, one of them twice in its query; the second time it is found in the table. *)
Definition t25 : list String.string :=
  ["= food"; "  (Budget)  -1"; "= food or food"; "  (Meals)  2"; "2021-01-01 Shop"; "  Food  10 EUR"; "  Cash"]%string.
Example C25_tables_case :
  (match build_root_memo (w84 t25) (L "(account =~ /(?i)food/ or account =~ /(?i)food/)") [] with Ok (_, m) => m | _ => [] end) = [(L "(?i)food", L "(?i)food")] /\
  (match to_ledger_memo (w84 t25) false (get pl_new (tokenize_file 2 (w84 t25) (L "book"))) with
   | Ok lg => map p_account (flat_map t_postings (lg_txns lg)) | _ => [] end) = map L ["Food"; "Cash"; "Budget"; "Meals"]%string /\
  exists m, table_after (w84 t25) m /\ m = [(L "(?i)food", L "(?i)food")].
Proof.
  split; [vm_compute; reflexivity|]. split; [vm_compute; reflexivity|]. exists [(L "(?i)food", L "(?i)food")]. split; auto.
  apply (ta_more _ [] (L "(account =~ /(?i)food/)") (get NAmount (build_root (w84 t25) (L "(account =~ /(?i)food/)")))); [constructor|vm_compute; reflexivity].
Qed.
