(** Base vocabulary of the model: text, results, hash maps, the oracles of the outside world. *)
From Coq Require Export List NArith ZArith QArith Qcanon Bool Permutation.
From Coq Require Import String Ascii.
Export (notations) Coq.Strings.String.
Export ListNotations.
Open Scope list_scope.

(** std; the content of a Tokenizer is a Vec<char>, parser/mod.rs:80: A Rust [String]/[&str] is the
    list of its Unicode code points. *)
Definition str := list N.

(** ASCII literals. *)
(** Rust string literals, e.g. chars.rs:10-27, filter.rs:81-135. *)
Definition L (s : string) : str := map N_of_ascii (list_ascii_of_string s).
Arguments L s%string_scope.

(** [==] on strings (std), e.g. list.rs:72-84, account.rs:85-89. *)
Fixpoint str_eqb (a b : str) : bool :=
  match a, b with
  | [], [] => true
  | x :: a', y :: b' => (x =? y)%N && str_eqb a' b'
  | _, _ => false
  end.

(** std; [sort_by] at commands/balance.rs:156: Rust compares strings bytewise; on UTF-8 this is the
    lexicographic order of code points. *)
Fixpoint str_cmp (a b : str) : comparison :=
  match a, b with
  | [], [] => Eq
  | [], _ => Lt
  | _, [] => Gt
  | x :: a', y :: b' => match (x ?= y)%N with Eq => str_cmp a' b' | c => c end
  end.
(** [<=] on strings (std), used to sort names: commands/accounts.rs:8-22, balance.rs:156. *)
Definition str_leb (a b : str) : bool := match str_cmp a b with Gt => false | _ => true end.
(** [<] on strings (std): price.rs:191-196. *)
Definition str_ltb (a b : str) : bool := match str_cmp a b with Lt => true | _ => false end.

(** std; register.rs:131: Number of bytes of a character / a string in UTF-8 ([str::len]). *)
Definition utf8_clen (c : N) : nat :=
  if (c <? 128)%N then 1 else if (c <? 2048)%N then 2 else if (c <? 65536)%N then 3 else 4.
(** [str::len] (std), bytes: register.rs:130-144, filter.rs:76-137. *)
Fixpoint utf8_len (s : str) : nat :=
  match s with [] => 0 | c :: r => utf8_clen c + utf8_len r end.

(** std; commands/balance.rs:83, 209: [str::starts_with], [ends_with], [contains(char)],
    [split(":")], [join]. *)
Fixpoint starts_with (p s : str) : bool :=
  match p, s with
  | [], _ => true
  | x :: p', y :: s' => (x =? y)%N && starts_with p' s'
  | _ :: _, [] => false
  end.
(** [str::ends_with] (std): tokenizers/transaction.rs:224-251. *)
Definition ends_with (p s : str) : bool := starts_with (rev p) (rev s).
(** [str::contains] (std): comment.rs:53. *)
Definition contains_char (c : N) (s : str) : bool := existsb (N.eqb c) s.
(** [str::split(":")] (std): commands/balance.rs:64, comment.rs:31. *)
Fixpoint split_char (c : N) (s : str) : list str :=
  match s with
  | [] => [[]]
  | x :: r => if (x =? c)%N then [] :: split_char c r
              else match split_char c r with
                   | [] => [[x]]
                   | p :: ps => (x :: p) :: ps
                   end
  end.
(** [join(":")] (std): commands/balance.rs:100-107. *)
Fixpoint join (sep : str) (l : list str) : str :=
  match l with
  | [] => []
  | [x] => x
  | x :: r => x ++ sep ++ join sep r
  end.

(** std and pest; grammar.pest:70: [char::is_whitespace] (Unicode White_Space) and pest's SEPARATOR
    (general category Z). *)
Definition is_sep (c : N) : bool :=
  ((c =? 32) || (c =? 160) || (c =? 5760) || ((8192 <=? c) && (c <=? 8202)) ||
   (c =? 8232) || (c =? 8233) || (c =? 8239) || (c =? 8287) || (c =? 12288))%N.
(** [char::is_whitespace] (std): chars.rs:29-40. *)
Definition is_ws (c : N) : bool :=
  (((9 <=? c) && (c <=? 13)) || (c =? 133))%N || is_sep c.
(** ASCII_DIGIT of pest, grammar.pest:31-37, 97. *)
Definition is_digit (c : N) : bool := ((48 <=? c) && (c <=? 57))%N.

(** [str::trim_start] (std): tokenizers/account.rs:9-96. *)
Fixpoint trim_start (s : str) : str :=
  match s with
  | c :: r => if is_ws c then trim_start r else s
  | [] => []
  end.
(** std; app.rs:167: [str::trim_end] (std), the right half of [trim]. *)
Definition trim_end (s : str) : str := rev (trim_start (rev s)).
(** [str::trim] (std): app.rs:155-169, tokenizers/commodity.rs:12-58. *)
Definition trim (s : str) : str := trim_end (trim_start s).

(** Character literals of the code, e.g. chars.rs:12, 71-81, 112-120: Frequently used characters. *)
Definition c_nl : N := 10.   Definition c_tab : N := 9.    Definition c_cr : N := 13.
Definition c_sp : N := 32.   Definition c_dq : N := 34.    Definition c_sq : N := 39.
Definition c_lp : N := 40.   Definition c_rp : N := 41.    Definition c_lb : N := 91.
Definition c_rb : N := 93.   Definition c_minus : N := 45. Definition c_dot : N := 46.
Definition c_slash : N := 47. Definition c_colon : N := 58. Definition c_semi : N := 59.
Definition c_eq : N := 61.   Definition c_at : N := 64.    Definition c_0 : N := 48.

(** Results.  [Err] is a Rust [Err(..)]; [Panic] is any abort: [panic!], [unwrap] on nothing, an
    index out of bounds, [unreachable!].  [OutOfFuel] is not a behaviour of the program: it says
    that the loop was still running when the fuel given to the model ran out. *)
Inductive ledger_error :=  (* error.rs:12-18 *)
| TransactionIsNotBalanced
| EmptyPostingShouldBeLast
| AliasNotInList (s : str)
| TooManyEmptyPostings (n : nat).
(** error.rs:5-10. *)
Inductive parser_error :=  (* error.rs:5-10 *)
| CannotReadFile (s : str)
| UnexpectedInput (s : option str)
| IncludeLoop (s : str).
(** What [Tokenizer::error] (parser/mod.rs:199-254) tells about the place of a parse error: file, line and
    column (counted from zero) and the text of the file. *)
Record place := { at_file : option str; at_line : Z; at_col : nat; at_text : str }.
(** The error types that reach [run_app], app.rs:183-231: error.rs:5-18 and filter.rs:55-60.  A parse error
    comes with the place unless it was converted by error.rs:33-50. *)
Inductive error :=
| ELedger (e : ledger_error)
| EParser (e : parser_error) (pos : option place)
| ENotBoolean.             (* filter.rs:55-60 *)
(** The ways a Rust thread stops: [panic!] and [unwrap]/[expect] (e.g. transaction.rs:231, 107),
    slice indexing (e.g. tokenizers/transaction.rs:224-251), division (money.rs:197-203); and
    running for ever (tokenizers/tag.rs:9-72). *)
Inductive panic :=
| PUnwrap        (* Option::unwrap / Result::unwrap / expect *)
| PExplicit      (* panic!("...") / unreachable! / assert! *)
| PIndex         (* out of bounds, or not on a character boundary *)
| PDivZero       (* division by zero *)
| PArith         (* integer overflow *)
| OutOfFuel.
(** [Result] (std) together with panics, e.g. the return type at transaction.rs:285. *)
Inductive res (A : Type) := Ok (a : A) | Err (e : error) | Panic (p : panic).
Arguments Ok {A} _.  Arguments Err {A} _.  Arguments Panic {A} _.

(** The [?] operator, e.g. models/mod.rs:161, and the propagation of panics. *)
Definition bind {A B} (m : res A) (f : A -> res B) : res B :=
  match m with Ok a => f a | Err e => Err e | Panic p => Panic p end.
Notation "x <- m ;; k" := (bind m (fun x => k)) (at level 61, m at next level, right associativity).
Notation "' p <- m ;; k" := (bind m (fun p => k))
  (at level 61, p pattern, m at next level, right associativity).
(** [Option::unwrap] (std), e.g. balance.rs:111. *)
Definition unwrap {A} (o : option A) : res A := match o with Some a => Ok a | None => Panic PUnwrap end.

(** A loop that pushes one result per element, stopped by the first failure, e.g.
    models/mod.rs:136-152. *)
Fixpoint mapM {A B} (f : A -> res B) (l : list A) : res (list B) :=
  match l with
  | [] => Ok []
  | x :: r => y <- f x ;; ys <- mapM f r ;; Ok (y :: ys)
  end.
(** A loop with state stopped by the first failure, e.g. transaction.rs:300-400. *)
Fixpoint foldM {A S} (f : S -> A -> res S) (s : S) (l : list A) : res S :=
  match l with
  | [] => Ok s
  | x :: r => s' <- f s x ;; foldM f s' r
  end.

(** [HashMap]: an association list in iteration order.  [insert] keeps the place of a key that is
    already there and puts a new key at the end; iteration order in Rust is arbitrary, so theorems
    about functions that iterate either quantify over permutations or use the order oracle. *)
Section HMap.
  Context {K V : Type} (eqb : K -> K -> bool).
  (** std [HashMap::get], e.g. transaction.rs:306. *)
  Fixpoint hget (k : K) (m : list (K * V)) : option V :=
    match m with
    | [] => None
    | (k', v) :: r => if eqb k k' then Some v else hget k r
    end.
  (** std [HashMap::insert], e.g. transaction.rs:323. *)
  Fixpoint hset (k : K) (v : V) (m : list (K * V)) : list (K * V) :=
    match m with
    | [] => [(k, v)]
    | (k', v') :: r => if eqb k k' then (k', v) :: r else (k', v') :: hset k v r
    end.
  (** std [HashMap::keys], e.g. list.rs:118-123. *)
  Definition hkeys (m : list (K * V)) : list K := map fst m.
End HMap.

(** models/mod.rs:66-84: [HashSet] insertion. *)
Definition sadd {K} (eqb : K -> K -> bool) (k : K) (l : list K) : list K :=
  if existsb (eqb k) l then l else l ++ [k].

(** [==] on [Option] (std), used for the keys of balance.rs:11-13. *)
Definition opt_eqb {A} (eqb : A -> A -> bool) (a b : option A) : bool :=
  match a, b with Some x, Some y => eqb x y | None, None => true | _, _ => false end.

(** Stable insertion sort, the model of Rust's stable [sort_by] for a total preorder [le]. *)
Section Sort.
  Context {A : Type} (le : A -> A -> bool).
  (** std [sort_by], which is stable: models/mod.rs:168. *)
  Fixpoint insert_sorted (x : A) (l : list A) : list A :=
    match l with
    | [] => [x]
    | y :: r => if le x y then x :: l else y :: insert_sorted x r
    end.
  (** std [sort_by], which is stable: models/mod.rs:168. *)
  Definition stable_sort (l : list A) : list A := fold_right insert_sorted [] l.
End Sort.

(** Files (parser/mod.rs:91, app.rs:137), globbing (include.rs:22), regexes (value_expr.rs:481),
    clock (balance.rs:142), two_timer (app.rs:254), Unicode tables (list.rs:41), hash orders (e.g.
    transaction.rs:432): The outside world: everything the program consults that the model does not
    compute. *)
Record world := {
  w_lower : str -> str;                       (* str::to_lowercase *)
  w_numeric : N -> bool;                      (* char::is_numeric on non-ASCII characters *)
  w_rx : str -> str -> bool;                  (* Regex::is_match, pattern first *)
  w_rx_ok : str -> bool;                      (* Regex::new succeeds *)
  w_read : str -> option str;                 (* fs::read_to_string *)
  w_glob : str -> option (list str);          (* glob: paths matching a pattern *)
  w_two_timer : str -> option Z;              (* two_timer::parse, natural language dates *)
  w_now : Z;                                  (* today *)
  w_ord : nat -> forall A, list A -> list A;  (* iteration order of the n-th hash traversal *)
  w_width : option nat;                       (* terminal_size: columns of the terminal *)
}.

(** parser/mod.rs:139, chars.rs:120: [char::is_numeric]. *)
Definition is_numeric (w : world) (c : N) : bool :=
  if (c <? 128)%N then is_digit c else w_numeric w c.

(** Not in the code; std's guarantees for list.rs:40-136: What is assumed of the world where a
    theorem needs it: hash maps iterate over all their
    entries, each once; lower-casing is idempotent. *)
Definition world_ok (w : world) : Prop :=
  (forall n A (l : list A), Permutation (w_ord w n A l) l) /\
  (forall s, w_lower w (w_lower w s) = w_lower w s).

(** ASCII lower-casing, used by examples. *)
(** [str::to_lowercase] (list.rs:46, 73) on ASCII text, for examples only. *)
Definition ascii_lower (s : str) : str :=
  map (fun c => if ((65 <=? c) && (c <=? 90))%N then (c + 32)%N else c) s.
