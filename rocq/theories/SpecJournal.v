(** Vocabulary for "a journal is read as it was written": the written form of the parts of a journal, as
    relations between contents and text.  Nothing here refers to how the text is read; the contents are the
    records the parser returns. *)
From Verif Require Import Base Money Alist Comment Txn Tokens Spec SpecText SpecDates SpecTokens.

(** The separators (general category Z) and the white space of Unicode. *)
Definition unicode_separators : list N :=
  [32; 160; 5760; 8192; 8193; 8194; 8195; 8196; 8197; 8198; 8199; 8200; 8201; 8202; 8232; 8233; 8239; 8287; 12288]%N.
Definition unicode_white_space : list N := [9; 10; 11; 12; 13; 133]%N ++ unicode_separators.
(** Blanks within a line; lines with nothing on them. *)
Definition blanks (s : str) : Prop := forall c, In c s -> is_ws c = true /\ c <> c_nl.
Definition indent (s : str) : Prop := blanks s /\ s <> [].
Inductive blank_lines : str -> Prop :=
| bl_nil : blank_lines []
| bl_line b r : blanks b -> blank_lines r -> blank_lines (b ++ c_nl :: r).
Definition one_line (s : str) : Prop := ~ In c_nl s.
Definition first_is (f : N -> Prop) (s : str) : Prop := exists c r, s = c :: r /\ f c.
(** No blank is a digit in the reader's classification of characters. *)
Definition blanks_not_numeric (w : world) : Prop := forall c, is_ws c = true -> is_numeric w c = false.

(** ** Amounts *)
(** A commodity: a word without digits, points, signs, quotes and semicolons (and not beginning with a sign that
    has a meaning of its own in a posting), or anything on the line in double quotes. *)
Inductive commodity_written (w : world) (c : str) : str -> Prop :=
| cw_word : first_is (fun x => ~ In x (L "(=@")) c ->
    (forall x, In x c -> is_ws x = false /\ is_numeric w x = false /\ ~ In x (L ".-;""")) -> commodity_written w c c
| cw_quoted : c <> [] -> one_line c -> ~ In c_dq c -> commodity_written w c (L """" ++ c ++ L """").
(** A number and a commodity, in any order, with or without blanks between. *)
Inductive money_written (w : world) (q : Qc) (c : str) : str -> Prop :=
| mw_after num b ct : literal num q -> blanks b -> commodity_written w c ct -> money_written w q c (num ++ b ++ ct)
| mw_before num b ct : literal num q -> blanks b -> commodity_written w c ct -> money_written w q c (ct ++ b ++ num).

(** ** Postings *)
(** The parts of a posting line after the account: amount, cost, balance assertion, each absent or written. *)
Definition amount_part (w : world) (m : option (Qc * str)) (l : list str) : Prop :=
  match m with
  | None => l = []
  | Some (q, c) => exists s, money_written w q c s /\ l = [s]
  end.
Definition cost_part (w : world) (ty : option price_type) (m : option (Qc * str)) (l : list str) : Prop :=
  match ty, m with
  | None, None => l = []
  | Some ty, Some (q, c) => exists b s, blanks b /\ money_written w q c s /\
      l = [match ty with PTotal => L "@@" | PPerUnit => L "@" end ++ b ++ s]
  | _, _ => False
  end.
Definition balance_part (w : world) (m : option (Qc * str)) (l : list str) : Prop :=
  match m with
  | None => l = []
  | Some (q, c) => exists b s, blanks b /\ money_written w q c s /\ l = [L "=" ++ b ++ s]
  end.
(** Parts with blanks between them. *)
Inductive spaced : list str -> str -> Prop :=
| sp_one x : spaced [x] x
| sp_more x b l s : indent b -> spaced l s -> spaced (x :: l) (x ++ b ++ s).
(** A comment: a semicolon, blanks, and the text of the comment. *)
Definition comment_text (c s : str) : Prop :=
  exists b, s = L ";" ++ b ++ c /\ blanks b /\ one_line c /\ ~ first_is (fun x => is_ws x = true) c.
Definition comment_part (cs : list str) (l : list str) : Prop :=
  (cs = [] /\ l = []) \/ exists c s, cs = [c] /\ comment_text c s /\ l = [s].
(** An expression in parentheses, up to the end of the line. *)
Definition expression_written (e : str) : Prop :=
  first_is (fun x => x = c_lp) e /\ one_line e /\ ~ In c_semi e /\ closed e.
(** A posting with nothing but its account. *)
Definition bare_posting (p : rposting) : Prop :=
  rp_money p = None /\ rp_cost_type p = None /\ rp_cost p = None /\ rp_balance p = None /\ rp_expr p = None.
(** What follows the account on the line of a posting: the parts, or a number without commodity, or an expression,
    each possibly with a comment behind. *)
Inductive details (w : world) (p : rposting) (cs : list str) : str -> Prop :=
| de_parts am co ba cm s tail :
    rp_expr p = None -> amount_part w (rp_money p) am -> cost_part w (rp_cost_type p) (rp_cost p) co ->
    balance_part w (rp_balance p) ba -> comment_part cs cm ->
    (rp_money p = None -> rp_cost p = None) ->
    spaced (am ++ co ++ ba ++ cm) s -> blanks tail -> (cs <> [] -> tail = []) -> details w p cs (s ++ tail)
| de_number q num cm s tail :
    rp_money p = Some (q, []) -> rp_cost_type p = None -> rp_cost p = None -> rp_balance p = None -> rp_expr p = None ->
    literal num q -> comment_part cs cm -> spaced (num :: cm) s -> blanks tail -> (cs <> [] -> tail = []) ->
    details w p cs (s ++ tail)
| de_expression e cm :
    rp_expr p = Some e -> rp_money p = None -> rp_cost_type p = None -> rp_cost p = None -> rp_balance p = None ->
    expression_written e -> comment_part cs cm -> details w p cs (e ++ concat cm).
(** The line of a posting, without what precedes the account and without the newline. *)
Definition posting_line (w : world) (p : rposting) (cs : list str) (s : str) : Prop :=
  exists acc, plain_name (rp_account p) /\ account_form (rp_account p) acc (rp_kind p) /\
    first_is (fun x => x <> c_semi /\ is_numeric w x = false) acc /\
    ((s = acc /\ bare_posting p /\ cs = []) \/
     exists sep b d, s = acc ++ sep ++ b ++ d /\ account_separator sep /\ one_line sep /\ blanks b /\
       ((d = [] /\ bare_posting p /\ cs = []) \/ details w p cs d)).
(** Lines of comments, each indented, with blank lines allowed between. *)
Inductive comment_lines : list str -> str -> Prop :=
| cl_nil : comment_lines [] []
| cl_line g b c s cs r : blank_lines g -> indent b -> comment_text c s -> comment_lines cs r ->
    comment_lines (c :: cs) (g ++ b ++ s ++ c_nl :: r).
(** A posting with the comment on its line and those on the following lines; the postings of a transaction. *)
Inductive posting_lines (w : world) (pay : option str) : list rposting -> str -> Prop :=
| pl_nil : posting_lines w pay [] []
| pl_line g b p cs1 cs2 s t ps r :
    blank_lines g -> indent b -> posting_line w p cs1 s -> comment_lines cs2 t ->
    rp_comments p = cs1 ++ cs2 -> rp_payee p = pay -> posting_lines w pay ps r ->
    posting_lines w pay (p :: ps) (g ++ b ++ s ++ c_nl :: t ++ r).

(** ** The first line of a transaction *)
Definition spaces (s : str) : Prop := forall c, In c s -> c = c_sp.
Definition spaces1 (s : str) : Prop := spaces s /\ s <> [].
(** A description or a payee: no bar, semicolon or end of line in it, no blanks around it. *)
Definition free_text (s : str) : Prop :=
  (forall c, In c s -> ~ In c (L "|;") /\ c <> c_nl /\ c <> c_cr) /\ trim s = s.
Definition day_written (n : Z) (s : str) : Prop :=
  exists y m d, journal_date y m d s /\ calendar_day y m d /\ in_range y /\ day_count y m d n.
Definition effective_written (e : option Z) (s : str) : Prop :=
  match e with None => s = [] | Some n => exists d, day_written n d /\ s = L "=" ++ d end.
(** A mark that the transaction is cleared or pending, and a code in parentheses; neither is kept. *)
Definition status_written (s : str) : Prop :=
  s = [] \/ exists m b, In m (L "*!") /\ spaces b /\ s = m :: b.
Definition code_written (s : str) : Prop :=
  s = [] \/ exists x b, one_line x /\ ~ In c_dq x /\ ~ In 92%N x /\ spaces b /\ s = L "(""" ++ x ++ L """)" ++ b.
(** A description is not mistaken for a status, a code, a quoted text or a time of day. *)
Definition description_written (d : str) : Prop :=
  free_text d /\ ~ first_is (fun x => In x (L "*!'""")) d /\ (forall r, d <> L "(""" ++ r /\ d <> L "('" ++ r) /\
  (forall ds r, only_digits ds -> d <> ds ++ L ":" ++ r).
Definition payee_written (p : option str) (s : str) : Prop :=
  match p with
  | None => s = []
  | Some x => exists b b', free_text x /\ ~ first_is (fun c => In c (L "'""")) x /\ spaces b /\ spaces b' /\
                           s = L "|" ++ b ++ x ++ b'
  end.
Definition header_comment (c : option str) (s : str) : Prop :=
  match c with None => s = [] | Some x => one_line x /\ s = x /\ first_is (fun c => c = c_semi) x end.
(** The date, the effective date, status, code, description, payee and comment. *)
Definition header_written (date : Z) (edate : option Z) (desc : str) (pay cm : option str) (s : str) : Prop :=
  exists d e b st co b2 pa ct,
    s = d ++ e ++ b ++ st ++ co ++ desc ++ b2 ++ pa ++ ct /\
    day_written date d /\ effective_written edate e /\ spaces1 b /\ status_written st /\ code_written co /\
    description_written desc /\ spaces b2 /\ payee_written pay pa /\ header_comment cm ct.
(** The payee of the postings: the one written, else the description, else a fixed text. *)
Definition payee_of (desc : str) (pay : option str) : str :=
  match pay with
  | Some p => p
  | None => match desc with [] => L "[Unspecified payee]" | _ => desc end
  end.

(** ** Items of a journal *)
Definition opt_list {A} (o : option A) : list A := match o with Some x => [x] | None => [] end.
Inductive transaction_written (w : world) : txn rposting -> str -> Prop :=
| tw date edate desc pay cm cs ps h c p :
    header_written date edate desc pay cm h -> comment_lines cs c ->
    posting_lines w (Some (payee_of desc pay)) ps p ->
    transaction_written w
      {| t_date := Some date; t_edate := edate; t_cleared := CUnknown; t_code := None; t_desc := desc;
         t_payee := Some (payee_of desc pay); t_postings := ps; t_comments := opt_list cm ++ cs;
         t_type := TReal; t_tags := [] |} (h ++ c_nl :: c ++ p).
(** An automated transaction: an equals sign, the query, and postings. *)
Inductive automated_written (w : world) : txn rposting -> str -> Prop :=
| aw query cs ps c p :
    one_line query -> comment_lines cs c -> posting_lines w None ps p ->
    automated_written w
      {| t_date := None; t_edate := None; t_cleared := CUnknown; t_code := None; t_desc := query;
         t_payee := None; t_postings := ps; t_comments := cs; t_type := TAutomated; t_tags := [] |}
      (L "=" ++ query ++ c_nl :: c ++ p).
(** A price: the day, a commodity, a number with at least one digit on each side of its point, and the
    commodity it is expressed in. *)
Inductive price_commodity (c : str) : str -> Prop :=
| pc_word : first_is (fun x => ~ In x (L "=-&0123456789")) c ->
    (forall x, In x c -> is_sep x = false /\ ~ In x (L "+*/\|%<>:?();""'") /\ x <> c_nl) -> price_commodity c c
| pc_quoted : one_line c -> ~ In c_dq c -> ~ In 92%N c -> price_commodity c (L """" ++ c ++ L """").
Definition plain_number (s : str) (q : Qc) : Prop :=
  literal s q /\ exists neg ip fp, s = (if neg : bool then L "-" else []) ++ ip ++ fp /\ only_digits ip /\ ip <> [] /\
    (fp = [] \/ exists r, fp = L "." ++ r /\ only_digits r /\ r <> []).
Inductive price_written : parsed_price -> str -> Prop :=
| pw p b1 d b2 c b3 n b4 o b5 cm :
    spaces b1 -> day_written (pp_date p) d -> spaces1 b2 -> price_commodity (pp_commodity p) c -> spaces1 b3 ->
    plain_number n (pp_quantity p) -> spaces1 b4 -> price_commodity (pp_other p) o -> spaces b5 ->
    (cm = [] \/ first_is (fun x => x = c_semi) cm) -> one_line cm ->
    price_written p (L "P" ++ b1 ++ d ++ b2 ++ c ++ b3 ++ n ++ b4 ++ o ++ b5 ++ cm ++ [c_nl]).
(** A line of a directive: a keyword and its argument. *)
Definition setting (key value s : str) : Prop :=
  exists g b1 b2 b3, blank_lines g /\ indent b1 /\ indent b2 /\ blanks b3 /\ one_line value /\ trim value = value /\
    value <> [] /\ s = g ++ b1 ++ key ++ b2 ++ value ++ b3 ++ [c_nl].
Definition flag_setting (key s : str) : Prop :=
  exists g b1 b2, blank_lines g /\ indent b1 /\ blanks b2 /\ s = g ++ b1 ++ key ++ b2 ++ [c_nl].
(** A line of a directive that says nothing. *)
Definition remark (s : str) : Prop := exists c, comment_lines [c] s.

(** The settings of an account, one after the other. *)
Inductive account_setting (w : world) (a : account) : account -> str -> Prop :=
| as_note v s : setting (L "note") v s -> account_setting w a {| ac_name := ac_name a; ac_aliases := ac_aliases a;
    ac_note := Some v; ac_isin := ac_isin a; ac_check := ac_check a; ac_assert := ac_assert a;
    ac_payees := ac_payees a; ac_default := ac_default a; ac_directive := true |} s
| as_isin v s : setting (L "isin") v s -> account_setting w a {| ac_name := ac_name a; ac_aliases := ac_aliases a;
    ac_note := ac_note a; ac_isin := Some v; ac_check := ac_check a; ac_assert := ac_assert a;
    ac_payees := ac_payees a; ac_default := ac_default a; ac_directive := true |} s
| as_alias v s : setting (L "alias") v s -> ~ In v (ac_aliases a) -> account_setting w a {| ac_name := ac_name a;
    ac_aliases := ac_aliases a ++ [v];
    ac_note := ac_note a; ac_isin := ac_isin a; ac_check := ac_check a; ac_assert := ac_assert a;
    ac_payees := ac_payees a; ac_default := ac_default a; ac_directive := true |} s
| as_check v s : setting (L "check") v s -> account_setting w a {| ac_name := ac_name a; ac_aliases := ac_aliases a;
    ac_note := ac_note a; ac_isin := ac_isin a; ac_check := ac_check a ++ [v]; ac_assert := ac_assert a;
    ac_payees := ac_payees a; ac_default := ac_default a; ac_directive := true |} s
| as_assert v s : setting (L "assert") v s -> account_setting w a {| ac_name := ac_name a; ac_aliases := ac_aliases a;
    ac_note := ac_note a; ac_isin := ac_isin a; ac_check := ac_check a; ac_assert := ac_assert a ++ [v];
    ac_payees := ac_payees a; ac_default := ac_default a; ac_directive := true |} s
| as_payee v s : setting (L "payee") v s -> w_rx_ok w v = true -> account_setting w a {| ac_name := ac_name a;
    ac_aliases := ac_aliases a;
    ac_note := ac_note a; ac_isin := ac_isin a; ac_check := ac_check a; ac_assert := ac_assert a;
    ac_payees := ac_payees a ++ [v]; ac_default := ac_default a; ac_directive := true |} s
| as_default s : flag_setting (L "default") s -> account_setting w a {| ac_name := ac_name a; ac_aliases := ac_aliases a;
    ac_note := ac_note a; ac_isin := ac_isin a; ac_check := ac_check a; ac_assert := ac_assert a;
    ac_payees := ac_payees a; ac_default := true; ac_directive := true |} s
| as_remark s : remark s -> account_setting w a a s.
Inductive commodity_setting (a : currency) : currency -> str -> Prop :=
| cs_note v s : setting (L "note") v s -> commodity_setting a {| cu_name := cu_name a; cu_aliases := cu_aliases a;
    cu_note := Some v; cu_format := cu_format a; cu_default := cu_default a; cu_directive := true; cu_precision := None |} s
| cs_alias v s : setting (L "alias") v s -> ~ In v (cu_aliases a) -> commodity_setting a {| cu_name := cu_name a;
    cu_aliases := cu_aliases a ++ [v];
    cu_note := cu_note a; cu_format := cu_format a; cu_default := cu_default a; cu_directive := true; cu_precision := None |} s
| cs_format v s : setting (L "format") v s -> commodity_setting a {| cu_name := cu_name a; cu_aliases := cu_aliases a;
    cu_note := cu_note a; cu_format := Some v; cu_default := cu_default a; cu_directive := true; cu_precision := None |} s
| cs_default s : flag_setting (L "default") s -> commodity_setting a {| cu_name := cu_name a; cu_aliases := cu_aliases a;
    cu_note := cu_note a; cu_format := cu_format a; cu_default := true; cu_directive := true; cu_precision := None |} s
| cs_remark s : remark s -> commodity_setting a a s.
Inductive payee_setting (w : world) (al : list str) : list str -> str -> Prop :=
| ps_alias v s : setting (L "alias") v s -> ~ In v al -> w_rx_ok w v = true -> payee_setting w al (al ++ [v]) s
| ps_remark s : remark s -> payee_setting w al al s.
Inductive tag_setting (a : tagdir) : tagdir -> str -> Prop :=
| ts_check v s : setting (L "check") v s ->
    tag_setting a {| td_name := td_name a; td_check := td_check a ++ [v]; td_assert := td_assert a |} s
| ts_assert v s : setting (L "assert") v s ->
    tag_setting a {| td_name := td_name a; td_check := td_check a; td_assert := td_assert a ++ [v] |} s.
(** A sequence of settings, from an initial state. *)
Inductive settings {A} (step : A -> A -> str -> Prop) : A -> A -> str -> Prop :=
| se_nil a : settings step a a []
| se_cons a b c s r : step a b s -> settings step b c r -> settings step a c (s ++ r).

(** A name without blanks around it; what a directive says before any setting. *)
Definition bare_name (n : str) : Prop := n <> [] /\ one_line n /\ trim n = n.
Definition account_named (n : str) : account :=
  {| ac_name := n; ac_aliases := []; ac_note := None; ac_isin := None; ac_check := []; ac_assert := [];
     ac_payees := []; ac_default := false; ac_directive := true |}.
Definition commodity_named (n : str) : currency :=
  {| cu_name := n; cu_aliases := []; cu_note := None; cu_format := None; cu_default := false;
     cu_directive := true; cu_precision := None |}.
Definition payee_named (n : str) (al : list str) : payee :=
  {| py_name := n; py_aliases := al; py_regexes := al; py_note := None; py_directive := true |}.
Definition tag_named (n : str) : tagdir := {| td_name := n; td_check := []; td_assert := [] |}.

Inductive item_written (w : world) (l : pledger) : pledger -> str -> Prop :=
| iw_transaction x s : transaction_written w x s -> item_written w l (add_txn x l) s
| iw_automated x s : automated_written w x s -> item_written w l (add_txn x l) s
| iw_price x s : price_written x s -> item_written w l (add_price x l) s
| iw_comment m b c : In m (L ";!*%#") -> blanks b -> one_line c -> ~ first_is (fun x => is_ws x = true) c ->
    item_written w l (add_lcomment c l) ([m] ++ b ++ c ++ [c_nl])
| iw_account n a b1 b2 s : bare_name n -> spaces1 b1 -> blanks b2 -> settings (account_setting w) (account_named n) a s ->
    item_written w l (add_acc w a l) (L "account" ++ b1 ++ n ++ b2 ++ c_nl :: s)
| iw_commodity n nt a b1 b2 cm s : price_commodity n nt -> trim n = n -> spaces1 b1 -> spaces b2 ->
    (cm = [] \/ first_is (fun x => x = c_semi) cm) -> one_line cm ->
    settings commodity_setting (commodity_named n) a s ->
    item_written w l (add_cur w a l) (L "commodity" ++ b1 ++ nt ++ b2 ++ cm ++ c_nl :: s)
| iw_payee n al b1 s : bare_name n -> spaces1 b1 -> settings (payee_setting w) [] al s ->
    item_written w l (add_pay w (payee_named n al) l) (L "payee" ++ b1 ++ n ++ c_nl :: s)
| iw_tag n a b1 b2 s : bare_name n -> spaces1 b1 -> blanks b2 -> settings tag_setting (tag_named n) a s ->
    item_written w l (add_tag a l) (L "tag" ++ b1 ++ n ++ b2 ++ c_nl :: s).

(** A journal: items, with blank lines before, between and after them. *)
Inductive journal_written (w : world) : pledger -> pledger -> str -> Prop :=
| jw_end l g b : blank_lines g -> blanks b -> journal_written w l l (g ++ b)
| jw_item l g l1 s l2 r : blank_lines g -> item_written w l l1 s -> journal_written w l1 l2 r ->
    journal_written w l l2 (g ++ s ++ r).
