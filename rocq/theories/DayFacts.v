(** Facts for C109 and C110: reading a file and making a ledger do not depend on the day or the terminal,
    and on no file that can be missing. *)
From Verif Require Import Base BaseFacts Numerals Money Alist Comment Txn Peg Grammar Dates Expr Filter Tokens Price Ledger Reports App SpecLedger SpecBook LedgerFacts4 SpecDay.

Section Day.
  Context (w : world) (day : Z) (width : option nat) (read : str -> option str).
  Let w' := elsewhere day width read w.
  Lemma bind_ext {A B} (r : res A) (f g : A -> res B) : (forall a, f a = g a) -> bind r f = bind r g.
  Proof. destruct r; cbn; auto. Qed.
  (** ** Expressions *)
  Lemma build_ast_day p : build_ast w' p = build_ast w p.
  Proof.
    induction p as [r txt kids K] using pair_ind_deep.
    destruct r; cbn [build_ast]; try reflexivity;
      destruct kids as [|k0 [|k1 [|k2 ks]]]; try reflexivity; rewrite ?(K k0) by (cbn; auto); rewrite ?(K k1) by (cbn; auto); rewrite ?(K k2) by (cbn; auto); reflexivity.
  Qed.
  Lemma build_root_day e : build_root w' e = build_root w e.
  Proof. unfold build_root. apply bind_ext. intros. apply bind_ext. intros [? ?]. apply bind_ext. intros [? ?]. apply build_ast_day. Qed.
  Lemma query_node_day op : query_node w' op = query_node w op.
  Proof. unfold query_node. rewrite build_root_day. reflexivity. Qed.

  (** ** Files *)
  Lemma gstr_day rest : forall pre line col quote acc, gstr w' rest pre line col quote acc = gstr w rest pre line col quote acc.
  Proof. induction rest as [|c r IH]; intros; cbn [gstr]; [reflexivity|]. rewrite !IH. reflexivity. Qed.
  Lemma get_string_day t : get_string w' t = get_string w t.
  Proof. unfold get_string. rewrite gstr_day. reflexivity. Qed.
  Lemma gamount_day rest : forall pre line col num den dec, gamount w' rest pre line col num den dec = gamount w rest pre line col num den dec.
  Proof. induction rest as [|c r IH]; intros; cbn [gamount]; [reflexivity|]. rewrite !IH. reflexivity. Qed.
  Lemma parse_amount_day t : parse_amount w' t = parse_amount w t.
  Proof. unfold parse_amount. rewrite gamount_day. reflexivity. Qed.
  Ltac std := change (is_numeric w') with (is_numeric w); change (w_rx_ok w') with (w_rx_ok w); change (w_glob w') with (w_glob w).
  Tactic Notation "dig" tactic3(t) := repeat first
    [ t | reflexivity | apply bind_ext; intros
    | match goal with |- context [match ?x with _ => _ end] => lazymatch x with context [w'] => fail | _ => destruct x end end ].
  Lemma parse_money_day t : parse_money w' t = parse_money w t.
  Proof. unfold parse_money. destruct (get_char t); [|reflexivity]. rewrite !parse_amount_day, !get_string_day. std.
    destruct (_ || _); [destruct (parse_amount w t) as [[?|?] ?]; rewrite ?get_string_day; reflexivity|].
    destruct (get_string w t). rewrite parse_amount_day. reflexivity. Qed.
  Lemma posting_loop_day f : forall ty p t, posting_loop f w' ty p t = posting_loop f w ty p t.
  Proof.
    induction f as [|f IH]; intros; cbn [posting_loop]; [reflexivity|]. rewrite !parse_money_day. dig (first [rewrite parse_money_day | rewrite IH]).
  Qed.
  Lemma parse_posting_day ty pay t : parse_posting w' ty pay t = parse_posting w ty pay t.
  Proof. unfold parse_posting. dig (rewrite posting_loop_day). Qed.
  Lemma entries_day f : forall ty pay b cms ps t, entries f w' ty pay b cms ps t = entries f w ty pay b cms ps t.
  Proof. induction f as [|f IH]; intros; cbn [entries]; [reflexivity|]. std. dig (first [rewrite parse_posting_day | rewrite IH]). Qed.
  Lemma parse_transaction_day t : parse_transaction w' t = parse_transaction w t.
  Proof. unfold parse_transaction. dig (rewrite entries_day). Qed.
  Lemma parse_automated_day t : parse_automated w' t = parse_automated w t.
  Proof. unfold parse_automated. dig (rewrite entries_day). Qed.
  Lemma account_loop_day f : forall a t, account_loop f w' a t = account_loop f w a t.
  Proof. induction f as [|f IH]; intros; cbn [account_loop]; [reflexivity|]. std. dig (first [rewrite get_string_day | rewrite IH]). Qed.
  Lemma parse_account_day t : parse_account w' t = parse_account w t.
  Proof. unfold parse_account. dig (rewrite account_loop_day). Qed.
  Lemma commodity_loop_day f : forall a t, commodity_loop f w' a t = commodity_loop f w a t.
  Proof. induction f as [|f IH]; intros; cbn [commodity_loop]; [reflexivity|]. dig (first [rewrite get_string_day | rewrite IH]). Qed.
  Lemma parse_commodity_day t : parse_commodity w' t = parse_commodity w t.
  Proof. unfold parse_commodity. dig (rewrite commodity_loop_day). Qed.
  Lemma payee_loop_day f : forall a t, payee_loop f w' a t = payee_loop f w a t.
  Proof. induction f as [|f IH]; intros; cbn [payee_loop]; [reflexivity|]. dig (first [rewrite get_string_day | rewrite IH]). Qed.
  Lemma parse_payee_day t : parse_payee w' t = parse_payee w t.
  Proof. unfold parse_payee. std. dig (rewrite payee_loop_day). Qed.
  Lemma tag_loop_day f : forall a t, tag_loop f w' a t = tag_loop f w a t.
  Proof. induction f as [|f IH]; intros; cbn [tag_loop]; [reflexivity|]. dig (first [rewrite get_string_day | rewrite IH]). Qed.
  Lemma parse_tag_day t : parse_tag w' t = parse_tag w t.
  Proof. unfold parse_tag. dig (rewrite tag_loop_day). Qed.
  Lemma item_day inc inc' c l t : (forall t, inc' t = inc t) -> item inc' w' c l t = item inc w c l t.
  Proof.
    intros I. unfold item. std. rewrite I, parse_transaction_day, parse_automated_day, parse_commodity_day, parse_payee_day, parse_tag_day, parse_account_day. reflexivity.
  Qed.
  Lemma main_loop_day inc inc' f : (forall t, inc' t = inc t) -> forall l t, main_loop f inc' w' l t = main_loop f inc w l t.
  Proof. intros I. induction f as [|f IH]; intros; cbn [main_loop]; [reflexivity|]. dig (first [rewrite (item_day _ _ _ _ _ I) | rewrite IH]). Qed.
  Lemma foldM_ext {A B} (f g : A -> B -> res A) l : (forall a b, f a b = g a b) -> forall a, foldM f a l = foldM g a l.
  Proof. intros H. induction l as [|b l IH]; intros a; cbn [foldM]; [reflexivity|]. rewrite H. apply bind_ext. auto. Qed.
  (** Not in the code: [r'] is [r] unless that is a panic. *)
  Definition yields {A} (r r' : res A) : Prop := (forall e, r <> Panic e) -> r' = r.
  Lemma yields_bind {A B} (r r' : res A) (f f' : A -> res B) : yields r r' -> (forall a, yields (f a) (f' a)) -> yields (bind r f) (bind r' f').
  Proof. intros R F N. destruct r as [a|e|e]; [rewrite R by discriminate; apply F; exact N|rewrite R by discriminate; reflexivity|exfalso; apply (N e); reflexivity]. Qed.
  Lemma yields_refl {A} (r : res A) : yields r r.
  Proof. intros N. reflexivity. Qed.
  Lemma yields_eq {A} (r r' s : res A) : s = r' -> yields r r' -> yields r s.
  Proof. intros ->. auto. Qed.
  Lemma item_yields inc inc' c l t : (forall t, yields (inc t) (inc' t)) -> yields (item inc w c l t) (item inc' w' c l t).
  Proof.
    intros I. apply (yields_eq _ (item inc' w c l t)); [apply item_day; auto|]. unfold item.
    repeat match goal with |- yields (if ?b then _ else _) (if ?b then _ else _) => destruct b; [first [apply yields_refl|apply yields_bind; [apply I|intros; apply yields_refl]]|] | |- yields ?a ?a => apply yields_refl end.
  Qed.
  Lemma main_yields inc inc' f : (forall t, yields (inc t) (inc' t)) -> forall l t, yields (main_loop f inc w l t) (main_loop f inc' w' l t).
  Proof.
    intros I. induction f as [|f IH]; intros; cbn [main_loop]; [apply yields_refl|]. destruct (tk_rest t); [apply yields_refl|].
    destruct (consume_whitespaces_and_lines t) as [[|] t1]; [|apply yields_refl]. destruct (get_char t1); [|apply IH]. apply yields_bind; [apply item_yields; auto|]. intros [l' t2]. apply IH.
  Qed.
  Lemma foldM_yields {A B} (f g : A -> B -> res A) l : (forall a b, yields (f a b) (g a b)) -> forall a, yields (foldM f a l) (foldM g a l).
  Proof. intros H. induction l as [|b l IH]; intros a; cbn [foldM]; [apply yields_refl|]. apply yields_bind; auto. Qed.
  Lemma include_yields tk tk' file seen t : more_files w read -> (forall f s c, yields (tk f s c) (tk' f s c)) -> yields (include_parse tk w file seen t) (include_parse tk' w' file seen t).
  Proof.
    intros M T. unfold include_parse. std. apply yields_bind; [apply yields_refl|]. intros t1. destruct (get_line t1) as [ln t2]. apply yields_bind; [apply yields_refl|]. intros fs.
    destruct (find _ fs); [apply yields_refl|]. apply yields_bind; [|intros; apply yields_refl]. unfold include_files. apply foldM_yields. intros a b. change (w_read w' b) with (read b).
    destruct (w_read w b) as [s|] eqn:E; [|intros N; exfalso; eapply N; reflexivity]. rewrite (M b s E). apply yields_bind; [apply T|]. intros. apply yields_refl.
  Qed.
  Lemma tokenize_yields d : more_files w read -> forall file seen c, yields (tokenize d w file seen c) (tokenize d w' file seen c).
  Proof.
    intros M. induction d as [|d IH]; intros; cbn [tokenize]; [apply yields_refl|].
    match goal with |- yields (in_file _ ?a) (in_file _ ?b) => assert (Y : yields a b) by (apply main_yields; intros t; apply include_yields; auto) end.
    revert Y. generalize (main_loop (S (length c)) (include_parse (fun f seen' c => tokenize d w (Some f) seen' c) w file seen) w pl_new (tok_of c)). intros r Y N.
    rewrite Y; [reflexivity|]. intros e E. apply (N e). rewrite E. reflexivity.
  Qed.
  Lemma file_yields d file : more_files w read -> yields (tokenize_file d w file) (tokenize_file d w' file).
  Proof.
    intros M. unfold tokenize_file. change (w_read w' file) with (read file). destruct (w_read w file) as [s|] eqn:E; [|intros N; exfalso; eapply N; reflexivity]. rewrite (M file s E). apply tokenize_yields. auto.
  Qed.
  Lemma include_day tk tk' file seen t : (forall f, read f = w_read w f) -> (forall f s c, tk' f s c = tk f s c) -> include_parse tk' w' file seen t = include_parse tk w file seen t.
  Proof.
    intros RD T. unfold include_parse. std. apply bind_ext. intros t1. destruct (get_line t1) as [ln t2]. apply bind_ext. intros fs. destruct (find _ fs); [reflexivity|].
    replace (include_files tk' w' seen fs) with (include_files tk w seen fs); [reflexivity|]. unfold include_files. apply foldM_ext. intros a b. change (w_read w' b) with (read b). rewrite RD.
    destruct (w_read w b); [|reflexivity]. rewrite T. reflexivity.
  Qed.
  Lemma tokenize_day d : (forall f, read f = w_read w f) -> forall file seen c, tokenize d w' file seen c = tokenize d w file seen c.
  Proof. intros RD. induction d as [|d IH]; intros; cbn [tokenize]; [reflexivity|]. f_equal. apply main_loop_day. intros t. apply include_day; auto. Qed.
  Lemma tokenize_file_day d file : (forall f, read f = w_read w f) -> tokenize_file d w' file = tokenize_file d w file.
  Proof. intros RD. unfold tokenize_file. change (w_read w' file) with (read file). rewrite RD. destruct (w_read w file); [apply tokenize_day; auto|reflexivity]. Qed.
  (** ** Ledgers *)
  Lemma mapM_ext {A B} (f g : A -> res B) l : (forall x, f x = g x) -> mapM f l = mapM g l.
  Proof. intros H. induction l as [|x l IH]; cbn [mapM]; [reflexivity|]. rewrite H, IH. reflexivity. Qed.
  Lemma any_loop_ext f g ps : (forall p cs, f p cs = g p cs) -> forall cs, any_loop f ps cs = any_loop g ps cs.
  Proof. intros H. induction ps as [|p ps IH]; intros cs; cbn [any_loop]; [reflexivity|]. rewrite H. apply bind_ext. intros [v cs']. destruct v; try reflexivity. destruct b; auto. Qed.
  Lemma eval_day n : forall p t cs, eval w' n p t cs = eval w n p t cs.
  Proof.
    induction n; intros; cbn [eval]; try reflexivity.
    - rewrite IHn. apply bind_ext. intros [v cs1]. destruct op; try reflexivity. rewrite (any_loop_ext _ (fun p' cs' => eval w n p' t cs')) by auto. reflexivity.
    - rewrite IHn1. apply bind_ext. intros [v cs1]. rewrite IHn2. reflexivity.
  Qed.
  Lemma value_day e p t cs : eval_value_expression w' e p t cs = eval_value_expression w e p t cs.
  Proof. unfold eval_value_expression. rewrite build_root_day. apply bind_ext. intros n. rewrite eval_day. reflexivity. Qed.
  Lemma filter_day n p t cs : filter_expression w' n p t cs = filter_expression w n p t cs.
  Proof. unfold filter_expression. rewrite eval_day. reflexivity. Qed.
  Lemma filter_posting_day o n t p cs : filter_posting w' o n t p cs = filter_posting w o n t p cs.
  Proof. unfold filter_posting. destruct n as [n|]; [rewrite filter_day|]; reflexivity. Qed.
  Lemma balance_all_day skip ts : forall site b ps, balance_all w' site skip ts b ps = balance_all w site skip ts b ps.
  Proof.
    induction ts as [|t ts IH]; intros; cbn [balance_all]; [reflexivity|]. apply bind_ext. intros d. apply bind_ext. intros [[x t'] b']. apply bind_ext. intros prs. rewrite IH. reflexivity.
  Qed.
  Lemma auto_posting_day t p s ap : auto_posting w' t p s ap = auto_posting w t p s ap.
  Proof.
    unfold auto_posting. apply bind_ext. intros al. apply bind_ext. intros [pay pl]. apply bind_ext. intros acc. destruct (rp_money ap) as [[q c]|]; [reflexivity|].
    f_equal. apply bind_ext. intros e. apply value_day.
  Qed.
  Lemma auto_postings_day aps : forall t p s, auto_postings w' t p s aps = auto_postings w t p s aps.
  Proof. induction aps as [|ap aps IH]; intros; cbn [auto_postings]; [reflexivity|]. rewrite auto_posting_day. apply bind_ext. intros [x s1]. rewrite IH. reflexivity. Qed.
  Lemma auto_scan_day node auto t todo : forall s done extra, auto_scan w' t node auto s done todo extra = auto_scan w t node auto s done todo extra.
  Proof.
    induction todo as [|p r IH]; intros; cbn [auto_scan]; [reflexivity|]. destruct (negb _); [apply IH|]. rewrite filter_day. apply bind_ext. intros [b cs]. destruct b; [|apply IH].
    rewrite auto_postings_day. apply bind_ext. intros [new s2]. apply IH.
  Qed.
  Lemma auto_all_day autos ts : forall s, auto_all w' autos ts s = auto_all w autos ts s.
  Proof.
    induction ts as [|t ts IH]; intros; cbn [auto_all]; [reflexivity|]. rewrite (foldM_ext (auto_one w') (auto_one w)); [apply bind_ext; intros [t' s1]; rewrite IH; reflexivity|].
    intros [u v] na. unfold auto_one. rewrite auto_scan_day. reflexivity.
  Qed.
  Lemma to_ledger_day skip l : to_ledger w' skip l = to_ledger w skip l.
  Proof.
    unfold to_ledger. apply bind_ext. intros cs. apply bind_ext. intros al. apply bind_ext. intros pays. apply bind_ext. intros p1. apply bind_ext. intros raw.
    rewrite balance_all_day. apply bind_ext. intros [[ts1 b] p3]. destruct (flat_map _ raw) as [|a autos]; [reflexivity|].
    rewrite (mapM_ext _ (fun a => build_root w (get_filter_query a))) by (intros; apply build_root_day). apply bind_ext. intros ns. rewrite auto_all_day.
    apply bind_ext. intros [ts2 s]. rewrite balance_all_day. reflexivity.
  Qed.
  (** ** Reports *)
  Lemma select_postings_day o n t ps : forall cs, select_postings w' o n t ps cs = select_postings w o n t ps cs.
  Proof. induction ps as [|p ps IH]; intros; cbn [select_postings]; [reflexivity|]. rewrite filter_posting_day. apply bind_ext. intros [b cs1]. rewrite IH. reflexivity. Qed.
  Lemma select_txns_day o n ts : forall cs, select_txns w' o n ts cs = select_txns w o n ts cs.
  Proof. induction ts as [|t ts IH]; intros; cbn [select_txns]; [reflexivity|]. rewrite select_postings_day. apply bind_ext. intros [b cs1]. rewrite IH. reflexivity. Qed.
  Lemma roll_up_day accs : forall site nb, roll_up w' site accs nb = roll_up w site accs nb.
  Proof. induction accs as [|a accs IH]; intros; cbn [roll_up]; [reflexivity|]. apply IH. Qed.
  Lemma tree_day site b : tree_balances w' site b = tree_balances w site b.
  Proof. unfold tree_balances. cbv zeta. rewrite roll_up_day. reflexivity. Qed.
  Lemma print_rows_day flat depth f : forall site l, print_rows f w' site flat depth l = print_rows f w site flat depth l.
  Proof.
    induction f as [|f IH]; intros; cbn [print_rows]; [reflexivity|]. destruct l as [|[a b] r]; [reflexivity|]. rewrite !IH. destruct (match depth with Some _ => _ | None => _ end); [reflexivity|].
    destruct (bal_is_zero b); [reflexivity|]. destruct flat; [reflexivity|]. destruct (collapse _ _ _ _). rewrite IH. reflexivity.
  Qed.
  Lemma balance_day site o flat tot lg : o_exchange o = None \/ day = w_now w -> balance_report w' site o flat tot lg = balance_report w site o flat tot lg.
  Proof.
    intros X. unfold balance_report. rewrite query_node_day. apply bind_ext. intros n. rewrite select_txns_day. apply bind_ext. intros [sel cs]. apply bind_ext. intros b.
    rewrite tree_day. apply bind_ext. intros vb.
    match goal with |- bind ?a _ = bind ?b _ => assert (E : a = b) end.
    { destruct (o_exchange o) as [x|]; [|reflexivity]. destruct X as [X|X]; [discriminate|]. assert (D : w_now w' = w_now w) by exact X. rewrite D. reflexivity. }
    rewrite E. apply bind_ext. intros [mults vb1]. rewrite print_rows_day. reflexivity.
  Qed.
  Lemma register_postings_day t ps : forall site first b pays, register_postings w' site t first ps b pays = register_postings w site t first ps b pays.
  Proof.
    induction ps as [|p ps IH]; intros; cbn [register_postings]; [reflexivity|]. apply bind_ext. intros [h pays1]. apply bind_ext. intros m. rewrite IH. reflexivity.
  Qed.
  Lemma register_txns_day sel : forall site b pays, register_txns w' site sel b pays = register_txns w site sel b pays.
  Proof. induction sel as [|[t ps] sel IH]; intros; cbn [register_txns]; [reflexivity|]. rewrite register_postings_day. apply bind_ext. intros [[r b1] pays1]. rewrite IH. reflexivity. Qed.
  Lemma register_day site o lg : register_report w' site o lg = register_report w site o lg.
  Proof. unfold register_report. rewrite query_node_day. apply bind_ext. intros n. rewrite select_txns_day. apply bind_ext. intros [sel cs]. apply register_txns_day. Qed.
End Day.
