(** C85: the tags a word beginning with % looks at are those that are written in the comments. *)
From Coq Require Import List NArith Bool.
Import ListNotations.
From Verif Require Import Base Money Alist Comment Txn Filter Tokens Ledger Reports Spec SpecTxn SpecLedger SpecQuery SpecReports SpecExpr SpecBook SpecAsk SpecAssert SpecFind PropTags.

(** The names a comment gives: those between colons at its end; the one before a single colon; none without a colon. *)
Inductive comment_names : str -> list str -> Prop :=
| cn_flags pre names n : no_colon pre -> names <> [] -> (forall x, In x names -> x <> [] /\ no_colon x /\ one_line x) ->
    comment_names (pre ++ L ":" ++ join (L ":") names ++ L ":" ++ spaces n) names
| cn_value n name m value : name <> [] -> match name with c :: _ => c <> c_sp | [] => True end -> match value with c :: _ => c <> c_sp | [] => True end ->
    no_colon name -> no_colon value -> one_line name -> one_line value -> comment_names (spaces n ++ name ++ L ":" ++ spaces m ++ value) [name]
| cn_none s : no_colon s -> comment_names s [].

Lemma names_read s names : comment_names s names -> map tag_name (get_tags s) = names.
Proof.
  intros [pre ns n H1 H2 H3|n name m value H1 H2 H3 H4 H5 H6 H7|t H].
  - rewrite C45_flags by auto. rewrite map_map. apply map_id.
  - rewrite C45_name_value_partial by auto. reflexivity.
  - rewrite C45_no_colon_no_tags by auto. reflexivity.
Qed.
Lemma all_names_read ss nss : Forall2 comment_names ss nss -> map tag_name (flat_map get_tags ss) = concat nss.
Proof. induction 1; auto. cbn. rewrite map_app, IHForall2, (names_read _ _ H). auto. Qed.
Lemma existsb_names (f : str -> bool) ts : existsb (fun g => f (tag_name g)) ts = existsb f (map tag_name ts).
Proof. induction ts; cbn; congruence. Qed.

(** A word beginning with % finds a posting exactly if it matches a name in the comments of its transaction or, unless its
    amount is left open, in its own. *)
Theorem C85_tag_words : forall w l skip x y pay u p n tnames pnames, trim x = L "%" ++ y -> pattern_ok w (L "(?i)" ++ y) -> rp_payee p = Some n ->
  Forall2 comment_names (t_comments u) tnames -> Forall2 comment_names (rp_comments p) pnames ->
  exists F, found_word w x F /\
    (finds w l skip F pay u p = true <->
     exists name, In name (concat tnames ++ if blank skip p then [] else concat pnames) /\ w_rx w (L "(?i)" ++ y) name = true).
Proof.
  intros w l skip x y pay u p n tn pn T OK PY HT HP. eexists. split; [apply fw_tag; eauto|]. unfold finds, line_tags. rewrite PY, existsb_names, map_app, (all_names_read _ _ HT).
  replace (map tag_name (if blank skip p then [] else flat_map get_tags (rp_comments p))) with (if blank skip p then [] else concat pn) by (destruct (blank skip p); [reflexivity|rewrite (all_names_read _ _ HP); reflexivity]).
  rewrite existsb_exists. reflexivity.
Qed.
Print Assumptions C85_tag_words.
Example C85_tag_words_case : comment_names (L "bought :food:two words: ") [L "food"; L "two words"] /\ comment_names (L "due date: 2021-03-01") [L "due date"] /\ comment_names (L "just a remark") [].
Proof.
  split; [|split].
  - apply (cn_flags (L "bought ") [L "food"; L "two words"] 1); [vm_compute; intuition discriminate|discriminate|].
    intros z [<-|[<-|[]]]; (split; [discriminate|]); split; vm_compute; intuition discriminate.
  - apply (cn_value 0 (L "due date") 1 (L "2021-03-01")); try discriminate; vm_compute; intuition discriminate.
  - apply cn_none. vm_compute. intuition discriminate.
Qed.
