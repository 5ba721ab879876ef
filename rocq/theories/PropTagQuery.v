(** Property C68: what [tag] and [has_tag] find in an expression. *)
From Verif Require Import Base BaseFacts Money Alist Comment Txn Dates Expr Filter Tokens Ledger Spec SpecText SpecExpr SpecLedger
  ExprFacts LedgerFacts LedgerFacts2 LedgerFacts3 PropTxn PropLedger PropExpr.

(** The answer [v] is the value of the first of the tags whose name is wanted, and none if there is
    no such tag (a tag without a value answers none too). *)
Definition first_value (wanted : str -> Prop) (tags : list tag) (v : option str) : Prop :=
  (exists pre g post, tags = pre ++ g :: post /\ wanted (tag_name g) /\ v = tag_value g /\
     forall h, In h pre -> ~ wanted (tag_name h)) \/
  ((forall h, In h tags -> ~ wanted (tag_name h)) /\ v = None).

Lemma find_first (f : tag -> bool) l :
  match find f l with
  | Some g => exists pre post, l = pre ++ g :: post /\ f g = true /\ forall h, In h pre -> f h = false
  | None => forall h, In h l -> f h = false
  end.
Proof.
  induction l as [|x l IH]; cbn; [intros h []|]. destruct (f x) eqn:E.
  - exists [], l. repeat split; auto. intros h [].
  - destruct (find f l) as [g|].
    + destruct IH as (pre & post & -> & Hg & Hp). exists (x :: pre), post. repeat split; auto.
      intros h [<-|H]; auto.
    + intros h [<-|H]; auto.
Qed.
Lemma first_value_find (wanted : str -> Prop) (f : str -> bool) tags :
  (forall n, f n = true <-> wanted n) ->
  first_value wanted tags match find (fun t => f (tag_name t)) tags with Some t => tag_value t | None => None end.
Proof.
  intros Hf. pose proof (find_first (fun t => f (tag_name t)) tags) as H.
  assert (No : forall h, f (tag_name h) = false -> ~ wanted (tag_name h)).
  { intros h E X. apply Hf in X. congruence. }
  destruct (find _ tags) as [g|].
  - destruct H as (pre & post & -> & Hg & Hp). left. exists pre, g, post. repeat split; auto. apply Hf. auto.
  - right. split; auto.
Qed.
Lemma first_value_unique wanted tags v v' : first_value wanted tags v -> first_value wanted tags v' -> v = v'.
Proof.
  intros [(pre & g & post & E & W & -> & N)|(N & ->)] [(pre' & g' & post' & E' & W' & -> & N')|(N' & ->)]; auto.
  - subst tags. revert pre' E' N'. induction pre as [|x pre IH]; intros [|x' pre'] E' N'; cbn in E'; injection E' as E1 E2.
    + congruence.
    + exfalso. apply (N' x'); [left; auto|congruence].
    + exfalso. apply (N x); [left; auto|congruence].
    + apply (IH (fun h Hh => N h (or_intror Hh)) pre'); auto. intros h Hh. apply N'. right. auto.
  - exfalso. apply (N' g); auto. subst tags. apply in_app_iff. right. left. auto.
  - exfalso. apply (N g'); auto. subst tags. apply in_app_iff. right. left. auto.
Qed.

(** tag(/rx/) *)
Theorem C68_tag_by_pattern : forall w rx x p t cs, ~ In c_slash rx -> w_rx_ok w rx = true ->
  exists n v, build_root w (L "(tag(/" ++ rx ++ L "/))" ++ x) = Ok n /\ eval w n p t cs = Ok (VString v, cs) /\
    first_value (fun name => w_rx w rx name = true) (p_tags p) v.
Proof.
  intros w rx x p t cs H1 H2. pose proof (C46_parsed_as_written_partial w (CFun FTag (CRegex rx)) x (conj H1 H2)) as B.
  exists (NUnary UTag (NRegex rx)), (get_tag w rx p). split.
  { cbn [denotes fun_op] in B. rewrite <- B. f_equal. cbn [text_of fun_text]. rewrite <- !app_assoc. reflexivity. }
  split; [reflexivity|]. unfold get_tag. apply first_value_find. tauto.
Qed.
Print Assumptions C68_tag_by_pattern.
(** tag("name"), tag('name') *)
Theorem C68_tag_by_name : forall w q name x p t cs, q = c_dq \/ q = c_sq -> in_quotes q name ->
  exists n v, build_root w (L "(tag(" ++ [q] ++ name ++ [q] ++ L "))" ++ x) = Ok n /\
    eval w n p t cs = Ok (VString v, cs) /\ first_value (eq name) (p_tags p) v.
Proof.
  intros w q name x p t cs H1 H2. pose proof (C46_parsed_as_written_partial w (CFun FTag (CString q name)) x (conj H1 H2)) as B.
  exists (NUnary UTag (NString name)), (get_exact_tag name p). split.
  { cbn [denotes fun_op] in B. rewrite <- B. f_equal. cbn [text_of fun_text]. rewrite <- !app_assoc. reflexivity. }
  split; [reflexivity|]. unfold get_exact_tag. apply first_value_find. intros n. destruct (str_eqb_spec name n); intuition congruence.
Qed.
Print Assumptions C68_tag_by_name.
(** has_tag(/rx/) *)
Theorem C68_has_tag : forall w rx x p t cs, ~ In c_slash rx -> w_rx_ok w rx = true ->
  exists n b, build_root w (L "(has_tag(/" ++ rx ++ L "/))" ++ x) = Ok n /\ eval w n p t cs = Ok (VBool b, cs) /\
    (b = true <-> exists g, In g (p_tags p) /\ w_rx w rx (tag_name g) = true).
Proof.
  intros w rx x p t cs H1 H2. pose proof (C46_parsed_as_written_partial w (CFun FHasTag (CRegex rx)) x (conj H1 H2)) as B.
  exists (NUnary UHasTag (NRegex rx)), (has_tag w rx p). split.
  { cbn [denotes fun_op] in B. rewrite <- B. f_equal. cbn [text_of fun_text]. rewrite <- !app_assoc. reflexivity. }
  split; [reflexivity|]. unfold has_tag. rewrite existsb_exists. reflexivity.
Qed.
Print Assumptions C68_has_tag.

(** ** In the ledger *)
(** A tag written in the comments of a transaction or of one of its postings is what a query on that
    posting of the ledger finds under its name, the earlier one if the name is written twice,
    whether or not rules have added tags. *)
Theorem C68_written_tags_found : forall w skip l lg, world_ok w -> parsed w l -> to_ledger w skip l = Ok lg ->
  exists order, Permutation (journal_txns l) order /\
    Forall2 (fun t t' => includes (fun p q =>
      forall pre name value post, flat_map get_tags (t_comments t ++ rp_comments p) = pre ++ {| tag_name := name; tag_value := value |} :: post ->
      (forall h, In h pre -> tag_name h <> name) -> forall quote, quote = c_dq \/ quote = c_sq -> in_quotes quote name ->
      forall cs, exists n, build_root w (L "(tag(" ++ [quote] ++ name ++ [quote] ++ L "))") = Ok n /\
        eval w n q t' cs = Ok (VString value, cs)) (filter (states skip) (t_postings t)) (t_postings t')) order (lg_txns lg).
Proof.
  intros w skip l lg Hw HP H. destruct (C66_postings_kept w skip l lg Hw HP H) as (nma & nmc & nmp & order & _ & _ & _ & HPe & F).
  exists order. split; auto. eapply Forall2_impl_in; [exact F|]. cbn. intros t t' _ (_ & k & r & P & G). exists k, r. split; auto.
  eapply Forall2_impl_in; [exact G|]. intros p q _ C pre name value post E N quote Q1 Q2 cs.
  destruct C as (_ & _ & _ & _ & _ & _ & _ & more & T).
  destruct (C68_tag_by_name w quote name [] q t' cs Q1 Q2) as (n & v & B & Ev & V). rewrite app_nil_r in B. exists n. split; auto.
  replace value with v; auto. eapply first_value_unique; [exact V|]. left. unfold written_tags in T. rewrite E in T.
  exists pre, {| tag_name := name; tag_value := value |}, (post ++ more). rewrite T, <- app_assoc. repeat split; auto.
  intros h Hh X. apply (N h Hh). auto.
Qed.
Print Assumptions C68_written_tags_found.
(** A case: a transaction with a comment with tags, a posting with tags of its own. *)
Definition tags_text : str := text
  ["2021-01-03 shop"; "  ; :trip:"; "  ; city: Rome"; "  Expenses:E  7 EUR ; city: Paris"; "  Assets:A  -7 EUR ; kind: card"]%string.
Definition tags_journal : pledger := get pl_new (tokenize_string 1 w1 tags_text).
Definition tags_ledger : ledger := get lg_new (to_ledger w1 false tags_journal).
Example C68_case : parsed w1 tags_journal /\ to_ledger w1 false tags_journal = Ok tags_ledger /\
  map (fun t => map (fun p => flat_map get_tags (t_comments t ++ rp_comments p)) (filter (states false) (t_postings t))) (journal_txns tags_journal) =
    [[[{| tag_name := L "trip"; tag_value := None |}; {| tag_name := L "city"; tag_value := Some (L "Rome") |}; {| tag_name := L "city"; tag_value := Some (L "Paris") |}];
      [{| tag_name := L "trip"; tag_value := None |}; {| tag_name := L "city"; tag_value := Some (L "Rome") |}; {| tag_name := L "kind"; tag_value := Some (L "card") |}]]] /\
  match lg_txns tags_ledger with
  | [t] => map (fun p => eval w1 (NUnary UTag (NString (L "city"))) p t l_new) (t_postings t) =
           [Ok (VString (Some (L "Rome")), l_new); Ok (VString (Some (L "Rome")), l_new)]
  | _ => False
  end.
Proof.
  split; [exists 1%nat, None, [], tags_text; vm_compute; reflexivity|].
  split; [vm_compute; reflexivity|]. split; vm_compute; reflexivity.
Qed.
