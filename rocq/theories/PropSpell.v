(** Declared accounts and commodities may be called by any of their names (C90). *)
From Coq Require Import Lia Permutation.
From Verif Require Import Base BaseFacts Numerals Money Alist Comment Txn Expr Filter Price Tokens Ledger Reports App Spec SpecTokens SpecJournal PropJournal
  JournalFacts SpecLedger LedgerFacts3 SpecSpell SpellFacts PropLedger PropTokens PropReports PropApp PropAsk PropBook PropTxn.

(** ** C90.  Two files with the same contents up to which name of a declared account or commodity is written. *)
Theorem C90_reports : forall depth w f f' fa fc l l' o, world_ok w -> file_parses depth w f l -> file_parses depth w f' l' -> respelled w fa fc l l' ->
  (forall c, c <> CCheck -> run_cmd depth w c o f = run_cmd depth w c o f') /\
  ((exists out, run_cmd depth w CCheck o f = Ok out) <-> (exists out, run_cmd depth w CCheck o f' = Ok out)) /\
  exit_status (run_cmd depth w CCheck o f) = exit_status (run_cmd depth w CCheck o f').
Proof.
  intros depth w f f' fa fc l l' o W P P' R. pose proof P as P0. apply file_parses_iff in P, P'. unfold run_cmd. rewrite P, P'. cbn [bind].
  assert (JO : journal_ok w l) by (apply parsed_ok; destruct P0 as (c & _ & E); exists depth, (Some f), [f], c; exact E).
  assert (A : forall skip, to_ledger w skip l = to_ledger w skip l') by (intros skip; eapply spelled_ledger; eauto).
  split; [|split].
  - intros c Hc. destruct c; unfold run_on; rewrite ?A; auto. destruct Hc. auto.
  - cbn [run_on]. rewrite A. destruct (to_ledger w false l'); cbn [bind]; split; intros (out & X); eauto; discriminate X.
  - cbn [run_on]. rewrite A. destruct (to_ledger w false l'); cbn [bind]; auto.
Qed.
Print Assumptions C90_reports.

(** The same from the texts. *)
Theorem C90_texts : forall depth w f f' s s' fa fc l l' o, world_ok w -> blanks_not_numeric w ->
  w_read w f = Some s -> w_read w f' = Some s' -> journal_written w pl_new l s -> journal_written w pl_new l' s' -> respelled w fa fc l l' ->
  forall c, c <> CCheck -> run_cmd (S depth) w c o f = run_cmd (S depth) w c o f'.
Proof.
  intros depth w f f' s s' fa fc l l' o W B Rd Rd' J J' R. apply (C90_reports (S depth) w f f' fa fc l l' o); auto; apply file_parses_iff; eapply C67_file_read_as_written; eauto.
Qed.
Print Assumptions C90_texts.

(** *** Cases *)
Definition dirs90 : list Coq.Strings.String.string := ["account Assets:Bank"; "  alias bank"; "  alias money-unknown"; "account Expenses:Food"; "  alias food"; "  payee Shop"; "account Budget"; "commodity EUR"; "  alias euro"; "commodity USD"; "  alias dollar"]%string.
Definition long90 : str := text (dirs90 ++ ["P 2021/01/01 USD 0.8 EUR"; "2021/01/05 Shop"; "  Expenses:Food  5 EUR"; "  Assets:Bank"; "= Food"; "  (Budget)  -1"; "  (Budget)  1 USD"]%string)%list.
Definition short90 : str := text (dirs90 ++ ["P 2021/01/01 dollar 0.8 Euro"; "2021/01/05 Shop"; "  FOOD  5 euro"; "  bank"; "= Food"; "  (budget)  -1"; "  (BUDGET)  1 Dollar"]%string)%list.
Definition unknown90 : str := text (dirs90 ++ ["P 2021/01/01 USD 0.8 EUR"; "2021/01/05 Shop"; "  Expenses:Food  5 EUR"; "  money-unknown"; "= Food"; "  (Budget)  -1"; "  (Budget)  1 USD"]%string)%list.
Definition w90 : world :=
  {| w_lower := ascii_lower; w_numeric := fun _ => false;
     w_rx := fun rx s => if starts_with (L "(?i)") rx then occurs (ascii_lower (skipn 4 rx)) (ascii_lower s) else occurs rx s;
     w_rx_ok := fun _ => true; w_width := None;
     w_read := fun p => if str_eqb p (L "long") then Some long90 else if str_eqb p (L "short") then Some short90 else if str_eqb p (L "unknown") then Some unknown90 else None;
     w_glob := fun _ => None; w_two_timer := fun _ => None; w_now := 0%Z; w_ord := fun _ _ l => l |}.
Definition l90 : pledger := get pl_new (tokenize_file 2 w90 (L "long")).
Definition l90' : pledger := get pl_new (tokenize_file 2 w90 (L "short")).
Definition u90 : pledger := get pl_new (tokenize_file 2 w90 (L "unknown")).
Ltac same_name := eexists; split; vm_compute; reflexivity.
Ltac spell := repeat match goal with
  | |- Forall2 _ _ _ => constructor
  | |- account_spelled _ _ true _ _ => split; [same_name|vm_compute; reflexivity]
  | |- commodity_spelled _ _ true (_ :: _) _ => right; split; [discriminate|split; [discriminate|same_name]]
  | |- commodity_spelled _ _ true [] [] => left; split; reflexivity
  | |- money_spelled _ _ _ None None => exact I
  | |- money_spelled _ _ _ (Some (_, _)) (Some (_, _)) => split; [reflexivity|]
  | |- price_spelled _ _ _ _ _ => split; [reflexivity|split; [reflexivity|split; cbn [pp_commodity pp_other]]]
  | |- posting_spelled _ _ _ _ _ _ => split; [cbn [rp_account]|split; [cbn [rp_money]|split; [cbn [rp_cost]|split; [cbn [rp_balance]|repeat split]]]]
  | |- txn_spelled _ _ _ _ _ _ => do 9 (split; [reflexivity|]); cbn [t_postings]
  end.
Ltac spelled l l' := split; [vm_compute; reflexivity|split; [vm_compute; reflexivity|split; [vm_compute; reflexivity|split]]];
  [let x := eval vm_compute in (pl_prices l) in let y := eval vm_compute in (pl_prices l') in change (pl_prices l) with x; change (pl_prices l') with y|
   let x := eval vm_compute in (pl_txns l) in let y := eval vm_compute in (pl_txns l') in change (pl_txns l) with x; change (pl_txns l') with y]; spell.
Example C90_case : world_ok w90 /\ file_parses 2 w90 (L "long") l90 /\ file_parses 2 w90 (L "short") l90' /\ respelled w90 true true l90 l90' /\ l90 <> l90' /\
  run_cmd 2 w90 CRegister plain_opts (L "long") = Ok (map L
    ["2021-01-05 Shop                                      Expenses:Food                              5.00 EUR         5.00 EUR";
     "                                                     Assets:Bank                               -5.00 EUR                0";
     "                                                     (Budget)                                  -5.00 EUR        -5.00 EUR";
     "                                                     (Budget)                                   1.00 USD        -5.00 EUR";
     "                                                                                                                 1.00 USD"]%string) /\
  run_cmd 2 w90 CRegister plain_opts (L "long") = run_cmd 2 w90 CRegister plain_opts (L "short").
Proof.
  split; [split; [intros; apply Permutation_refl|exact ascii_lower_idem]|]. split; [apply file_parses_iff; vm_compute; reflexivity|]. split; [apply file_parses_iff; vm_compute; reflexivity|].
  split; [spelled l90 l90'|]. split; [intros E; apply (f_equal (fun x => map pp_other (pl_prices x))) in E; vm_compute in E; discriminate E|]. split; vm_compute; reflexivity.
Qed.

(** An alias that ends in "unknown" is not just another name: the directives of the other accounts are asked for the payee. *)
Example C90_unknown_matters :
  (forall p p', In p (all_postings (pl_txns l90)) -> In p' (all_postings (pl_txns u90)) -> rp_account p' = L "money-unknown" -> rp_account p = L "Assets:Bank" ->
     one_directive w90 (pl_accounts l90) (rp_account p) (rp_account p')) /\
  run_cmd 2 w90 CRegister plain_opts (L "long") <> run_cmd 2 w90 CRegister plain_opts (L "unknown").
Proof.
  split; [|vm_compute; discriminate]. intros p p' _ _ -> ->. same_name.
Qed.
