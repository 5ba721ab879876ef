(** Facts for C79: reading does not depend on the order of hash tables. *)
From Verif Require Import Base BaseFacts Numerals Money Alist Comment Txn Peg Grammar Dates Expr Filter Tokens Price Ledger Reports App SpecLedger SpecBook SpecSame LedgerFacts4.

Section Order.
  Context (w : world) (o : nat -> forall A, list A -> list A).
  Let w' := with_order w o.
  Lemma bind_ext {A B} (r : res A) (f g : A -> res B) : (forall a, f a = g a) -> bind r f = bind r g.
  Proof. destruct r; cbn; auto. Qed.
  (** ** Expressions *)
  Lemma build_ast_order p : build_ast w' p = build_ast w p.
  Proof.
    induction p as [r txt kids K] using pair_ind_deep.
    destruct r; cbn [build_ast]; try reflexivity;
      destruct kids as [|k0 [|k1 [|k2 ks]]]; try reflexivity; rewrite ?(K k0) by (cbn; auto); rewrite ?(K k1) by (cbn; auto); rewrite ?(K k2) by (cbn; auto); reflexivity.
  Qed.
  Lemma build_root_order e : build_root w' e = build_root w e.
  Proof. unfold build_root. apply bind_ext. intros. apply bind_ext. intros [? ?]. apply bind_ext. intros [? ?]. apply build_ast_order. Qed.
  Lemma query_node_order op : query_node w' op = query_node w op.
  Proof. unfold query_node. rewrite build_root_order. reflexivity. Qed.

  (** ** Files *)
  Lemma gstr_order rest : forall pre line col quote acc, gstr w' rest pre line col quote acc = gstr w rest pre line col quote acc.
  Proof. induction rest as [|c r IH]; intros; cbn [gstr]; [reflexivity|]. rewrite !IH. reflexivity. Qed.
  Lemma get_string_order t : get_string w' t = get_string w t.
  Proof. unfold get_string. rewrite gstr_order. reflexivity. Qed.
  Lemma gamount_order rest : forall pre line col num den dec, gamount w' rest pre line col num den dec = gamount w rest pre line col num den dec.
  Proof. induction rest as [|c r IH]; intros; cbn [gamount]; [reflexivity|]. rewrite !IH. reflexivity. Qed.
  Lemma parse_amount_order t : parse_amount w' t = parse_amount w t.
  Proof. unfold parse_amount. rewrite gamount_order. reflexivity. Qed.
  Ltac std := change (is_numeric w') with (is_numeric w); change (w_rx_ok w') with (w_rx_ok w); change (w_read w') with (w_read w); change (w_glob w') with (w_glob w).
  Tactic Notation "dig" tactic3(t) := repeat first
    [ t | reflexivity | apply bind_ext; intros
    | match goal with |- context [match ?x with _ => _ end] => lazymatch x with context [w'] => fail | _ => destruct x end end ].
  Lemma parse_money_order t : parse_money w' t = parse_money w t.
  Proof. unfold parse_money. destruct (get_char t); [|reflexivity]. rewrite !parse_amount_order, !get_string_order. std.
    destruct (_ || _); [destruct (parse_amount w t) as [[?|?] ?]; rewrite ?get_string_order; reflexivity|].
    destruct (get_string w t). rewrite parse_amount_order. reflexivity. Qed.
  Lemma posting_loop_order f : forall ty p t, posting_loop f w' ty p t = posting_loop f w ty p t.
  Proof.
    induction f as [|f IH]; intros; cbn [posting_loop]; [reflexivity|]. rewrite !parse_money_order. dig (first [rewrite parse_money_order | rewrite IH]).
  Qed.
  Lemma parse_posting_order ty pay t : parse_posting w' ty pay t = parse_posting w ty pay t.
  Proof. unfold parse_posting. dig (rewrite posting_loop_order). Qed.
  Lemma entries_order f : forall ty pay b cms ps t, entries f w' ty pay b cms ps t = entries f w ty pay b cms ps t.
  Proof. induction f as [|f IH]; intros; cbn [entries]; [reflexivity|]. std. dig (first [rewrite parse_posting_order | rewrite IH]). Qed.
  Lemma parse_transaction_order t : parse_transaction w' t = parse_transaction w t.
  Proof. unfold parse_transaction. dig (rewrite entries_order). Qed.
  Lemma parse_automated_order t : parse_automated w' t = parse_automated w t.
  Proof. unfold parse_automated. dig (rewrite entries_order). Qed.
  Lemma account_loop_order f : forall a t, account_loop f w' a t = account_loop f w a t.
  Proof. induction f as [|f IH]; intros; cbn [account_loop]; [reflexivity|]. std. dig (first [rewrite get_string_order | rewrite IH]). Qed.
  Lemma parse_account_order t : parse_account w' t = parse_account w t.
  Proof. unfold parse_account. dig (rewrite account_loop_order). Qed.
  Lemma commodity_loop_order f : forall a t, commodity_loop f w' a t = commodity_loop f w a t.
  Proof. induction f as [|f IH]; intros; cbn [commodity_loop]; [reflexivity|]. dig (first [rewrite get_string_order | rewrite IH]). Qed.
  Lemma parse_commodity_order t : parse_commodity w' t = parse_commodity w t.
  Proof. unfold parse_commodity. dig (rewrite commodity_loop_order). Qed.
  Lemma payee_loop_order f : forall a t, payee_loop f w' a t = payee_loop f w a t.
  Proof. induction f as [|f IH]; intros; cbn [payee_loop]; [reflexivity|]. dig (first [rewrite get_string_order | rewrite IH]). Qed.
  Lemma parse_payee_order t : parse_payee w' t = parse_payee w t.
  Proof. unfold parse_payee. std. dig (rewrite payee_loop_order). Qed.
  Lemma tag_loop_order f : forall a t, tag_loop f w' a t = tag_loop f w a t.
  Proof. induction f as [|f IH]; intros; cbn [tag_loop]; [reflexivity|]. dig (first [rewrite get_string_order | rewrite IH]). Qed.
  Lemma parse_tag_order t : parse_tag w' t = parse_tag w t.
  Proof. unfold parse_tag. dig (rewrite tag_loop_order). Qed.
  Lemma item_order inc inc' c l t : (forall t, inc' t = inc t) -> item inc' w' c l t = item inc w c l t.
  Proof.
    intros I. unfold item. std. rewrite I, parse_transaction_order, parse_automated_order, parse_commodity_order, parse_payee_order, parse_tag_order, parse_account_order. reflexivity.
  Qed.
  Lemma main_loop_order inc inc' f : (forall t, inc' t = inc t) -> forall l t, main_loop f inc' w' l t = main_loop f inc w l t.
  Proof. intros I. induction f as [|f IH]; intros; cbn [main_loop]; [reflexivity|]. dig (first [rewrite (item_order _ _ _ _ _ I) | rewrite IH]). Qed.
  Lemma foldM_ext {A B} (f g : A -> B -> res A) l : (forall a b, f a b = g a b) -> forall a, foldM f a l = foldM g a l.
  Proof. intros H. induction l as [|b l IH]; intros a; cbn [foldM]; [reflexivity|]. rewrite H. apply bind_ext. auto. Qed.
  Lemma include_order tk tk' file seen t : (forall f s c, tk' f s c = tk f s c) -> include_parse tk' w' file seen t = include_parse tk w file seen t.
  Proof.
    intros T. unfold include_parse. std. apply bind_ext. intros t1. destruct (get_line t1) as [ln t2]. apply bind_ext. intros fs. destruct (find _ fs); [reflexivity|].
    replace (include_files tk' w' seen fs) with (include_files tk w seen fs); [reflexivity|]. unfold include_files. std. apply foldM_ext. intros a b. destruct (w_read w b); [|reflexivity]. rewrite T. reflexivity.
  Qed.
  Lemma tokenize_order d : forall file seen c, tokenize d w' file seen c = tokenize d w file seen c.
  Proof. induction d as [|d IH]; intros; cbn [tokenize]; [reflexivity|]. f_equal. apply main_loop_order. intros t. apply include_order. intros. apply IH. Qed.
  Lemma tokenize_file_order d file : tokenize_file d w' file = tokenize_file d w file.
  Proof. unfold tokenize_file. std. destruct (w_read w file); [apply tokenize_order|reflexivity]. Qed.
End Order.
