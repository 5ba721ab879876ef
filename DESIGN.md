# A formal model of dinero-rs in Rocq (Coq 8.16.1)

The code in /repo is read as text; it is never built or run here.  Everything proved is about an
executable Gallina model written function by function from that source.  Every definition of the
model cites the file and lines it stands for, and says where it simplifies.

## 1. Trusted base

* **Coq's kernel** (and `vm_compute`, which is part of it, used in examples, in the conformance runs
  and in some refutation witnesses).  No kernel check is switched off, no plugin is loaded.
* **Axioms.**  Every property theorem is followed by `Print Assumptions` and prints
  `Closed under the global context`: none of them uses an axiom.  The development adds none: no
  Axiom, Parameter, section-less Variable or Hypothesis, Admitted, functor or module type.
  `coqchk -o` on the library lists, besides, seven constants `Coq.ssr.ssrunder.Under_rel.*`: they
  belong to a sealed module of Coq's own standard library that gets loaded with it; no theorem here
  depends on them (they do not appear in any `Print Assumptions`).
* **The reading of the code**: that each definition says what the cited Rust lines do.  Two things
  support it: `Conformance.v` runs the model on the example journals of /repo (the journals and
  expectations of `examples/` and `tests/`, copied into the file by `tools/gen_conformance.py`) and
  checks the outcomes the repository's own tests assert; and the wrong-program experiments of
  seeded/LOG.jsonl show that theorems react to changes of the model.
* **The oracles** (record `world`, Base.v): regular expressions given by the user, lower-casing,
  `char::is_numeric` above ASCII, the file system (`read_to_string`, `glob`, `exists`), today's date,
  the natural-language dates of the crate two_timer, and the iteration order of every hash map.
  Theorems quantify over all of them.  Where something is assumed of them the hypothesis says so:
  `world_ok w` (a hash map iterates over each of its entries once; lower-casing is idempotent).
* **The library code the program calls** is modelled by what it does, not by its source: std
  collections and strings, stable sorting, `num`'s rationals, chrono's calendar (checked
  against an independent day-by-day calendar, C63), pest's parsing rules, the `regex` crate on the
  program's own fixed patterns.

## 2. Modelling decisions

* **Text.**  A `String` is the list of its code points (`str := list N`).  `len()` and byte slices
  go through `utf8_len`.  `char::is_whitespace` is the whole Unicode table.
* **Numbers.**  `BigRational` is `Qc`, canonical rationals; Leibniz equality is Rust's `==` on reduced
  ratios.  Division by zero is a panic.  Machine integers: the digits of a printed amount go through
  `u64` and `i32` as in the code (C07_large_precision_overflows); line counters are unbounded.
* **Errors and panics.**  `res A := Ok a | Err e | Panic p`.  `unwrap`, indexing, slices,
  `panic!`, `unreachable!` give `Panic`.  Parse errors carry their place; the message made from it
  is a separate function (Message.v), with a flag for builds that check arithmetic for overflow.  The
  exit statuses of C65 and C73 are those of a build without such checks, for errors on the first line
  of a file (C75_first_line_refuted).  A loop that need not end has fuel and the explicit outcome
  `OutOfFuel`; termination theorems exclude it (C37, C47, C49, and the grammar interpreter, PegFacts).
* **Hash maps** are association lists; each traversal goes through `w_ord w site`, an arbitrary
  function per traversal.  A theorem either holds for every order or exhibits two orders with
  different results.
* **Identity.**  `Eq` and `Hash` of accounts, payees and commodities look at the name only, so
  postings and amounts refer to them by name.
* **Regexes** are identified with their pattern.  The fixed regexes of the code (tags, directives,
  dates) are modelled concretely.
* **pest.**  grammar.pest is transcribed as data (Grammar.v) and run by an interpreter of parsing
  expression grammars (Peg.v).  The fuel of the interpreter is proved to be always enough.
* **Output.**  Reports are modelled as the computed rows and, separately, as the printed lines without
  colours, for a terminal of any width or none (C69).  The width is a field of the world.

### Not modelled

The escape sequences of the colours, when the library leaves them out, and the colours of error
messages (the colours of the reports are modelled as styled pieces, C82); structopt's own parsing of arguments (the command and its
options are inputs); the text of the error for a query that is not a condition, and the text of panics;
`Transaction.status`; `Account.check/assert`, `Tag.check/assert`
(kept as text, never used by the code); periodic transactions (the parser never makes one);
performance; read errors other than a missing file; `Transaction::get_payee_inmutable` (not used at all).

## 3. Files

| layer | files |
|-------|-------|
| model | Base, Numerals, Money (money.rs, balance.rs), Alist (list.rs, account.rs, payee.rs, currency.rs), Comment (comment.rs), Txn (transaction.rs), Peg, Grammar (grammar.pest), Dates, Expr (value_expr.rs, utils.rs), Filter (filter.rs), Tokens (parser/mod.rs, chars.rs, include.rs, tokenizers/), Price (price.rs), Ledger (models/mod.rs), Memo (the tables of compiled patterns and parsed queries of value_expr.rs and models/mod.rs), Reports (commands/), App (app.rs, main.rs), Message (error.rs, Tokenizer::error), Diag (what a refused journal prints: Display of transactions and balances, check.rs), Colour (styles of the pieces of what the commands print), Count (the functions that count) |
| specifications | Spec, SpecTxn, SpecText, SpecList, SpecLedger, SpecPrice, SpecQuery, SpecExpr, SpecTokens, SpecDates, SpecReports, SpecApp, SpecJournal, SpecLayout, SpecBook, SpecErrors, SpecUtf8, SpecDiag, SpecBad, SpecAsk, SpecSame, SpecWorth, SpecExchange, SpecExchange2, SpecColour, SpecWords, SpecAssert, SpecRules, SpecFind, SpecAgree, SpecLists, SpecSplit, SpecJoin, SpecRemark, SpecSpell, SpecCombine, SpecCondition, SpecPeriod, SpecTree, SpecMeans, SpecScale, SpecCount, SpecScale2, SpecRename, SpecCarry, SpecLeave, SpecJoin2, SpecReverse, SpecWays, SpecChecks, SpecReal, SpecUnchecked, SpecNoEffect, SpecSingle, SpecSame, SpecNews, SpecDay: vocabulary of the statements, written without the model's helpers |
| lemmas | *Facts.v, JournalSim, JournalRead, JournalHeader, JournalPrice, JournalItems, JournalLoop, JournalBad |
| theorems | Prop*.v: one theorem `Cnn_...` per part of a property, its `Print Assumptions`, and an example whose hypotheses hold |
| conformance | Conformance.v: the model run on the repository's example journals |

Names ending in `_partial` prove a property under an extra hypothesis stated in the theorem; names
ending in `_refuted` give a journal or value on which the property fails.  Properties that are false
of the code keep their natural statement, with status "partial", the witness and the largest part
that could be proved.  tools/ regenerates properties.jsonl, MANIFEST.json and Conformance.v.

## 4. Properties: what is modelled and how it is proved

| id | model | proof |
|----|-------|-------|
| C01-C05 | Money: operators of money and balances | value of a balance at a commodity; induction over entry lists; permutation invariance |
| C06 | Money: ordering and equality | case analysis and order lemmas on `Qc` |
| C07 | Money: `money_display` with its string truncation and padding | digit-string lemmas and division; closed form of the printed text; sign errors refuted |
| C08 | Tokens, Expr: amounts and grammar numbers | induction over digit strings; converse (what is accepted is a literal) |
| C10-C19 | Txn: `total_balance`, `txn_balance` as a fold with the loop's state | invariant relating the state to sums per commodity; verdict iff; idempotence; whole ledger by induction over transactions, for journals as written and the total of the report (PropEntry) |
| C21-C25 | Alist: names, aliases and memo table; Memo: tables of patterns and queries | representation invariant kept by every operation; lookups characterised; simulation between the program with and without the tables |
| C26-C32 | Ledger: `to_ledger` phase by phase | relational description (SpecLedger) of names, postings, prices and rules, proved sound and complete against the code; stable sorting |
| C33-C38 | Price: graph, Dijkstra, multipliers | Dijkstra invariant, path soundness, reachability; two orders with two results refute C38 |
| C40, C44 | Filter, Expr | decision lemmas |
| C41 | Filter, Txn, Grammar, Expr: queries and rules | closed form of the translation; parsing of the result by the grammar theorem C46 |
| C42, C43, C46 | Grammar, Peg, Expr | printing/parsing round trip by mutual induction on written expressions; typing soundness |
| C45, C68 | Comment, Expr | uniqueness of the regex matches; tag lookups |
| C47-C54 | Tokens: tokenizer, directives, includes | progress measures; simulation between two texts with different continuations (SimFacts); include graph; for the reports of a journal in several files, lists of parts that declare different things are put one after the other, and the reader succeeds by induction on the least nesting (SplitFacts); every file with an indented comment under a tag directive is never read to the end (PropHang) |
| C53, C63 | Dates, Expr, Grammar | calendar by days; parsing of all date forms; printing |
| C55-C61 | Reports | sums over postings; permutation invariance; rows of tree, flat list and register; collapsing refuted, and described exactly by a relation between the listed accounts and the rows (SpecTree) |
| C62, C65 | App | induction over configuration lines; outcomes of `check` iff |
| C64 | Reports, App | sorting, permutation |
| C66, C72 | Ledger, Txn | provenance: every written posting is in the ledger with its contents, and every posting of the ledger comes from a written posting, a fill or a rule |
| C67 | Tokens | written form of a whole journal (SpecJournal), read back exactly |
| C69, C70 | Reports, Tokens | printed lines determine the rows; price list is read back as price statements |
| C71 | Ledger, Alist | which element an undeclared name stands for; dependence on hash order exhibited |
| C73 | everything | end to end: totals read off the journal as written (SpecBook) equal the amounts of the printed report; composition of C67, C28, C12, C56, C55, C57 and C69 |
| C74 | everything | end to end: the lines of the register read off the journal as written (SpecBook) are the printed rows; composition of C67, C28, C12, C59 and C69 |
| C75 | Tokens, Message | every error carries a place reached by the reader (PlaceFacts); simulation of C54 for the first bad line; `str::lines` and the marks |
| C76 | Diag, Ledger, Txn | the simulation of C12 up to the posting whose assertion fails; the run of C26 up to the refused transaction |
| C77 | Tokens | the lines before are read as in C67 with exact columns (JournalBad); each kind of malformed line refused by computation on its written form |
| C78 | everything | as C73 and C74, with the words of the command line read by the model of the query preprocessor: the accounts they ask for (SpecAsk) are those whose postings the filter keeps |
| C79 | everything | two worlds that differ in the orders of hash tables only: each phase relates the two runs (transactions up to the order of the lines that fill one posting, rates up to direction, lists up to order), by induction over the same loops; registers transaction by transaction, with the same lines and the same total after each; reading does not depend on the orders at all (SameRead); with one commodity the relation is equality and so are the printed texts; rules are applied to equal transactions in both runs, with lists that give the same names, and what they add always has an amount, so the second balancing leaves nothing open (SameRules); converted reports: prices in either direction are used on the same days and connect the same commodities, and where they agree with one value of each commodity every chain of prices gives the same rate (SameExchange) |
| C80 | Expr: parser and evaluator | big-step rules for written expressions (SpecWorth), proved equivalent to the evaluator by induction over the expression; C46 for the text; C41 and C31 for the uses |
| C81 | Price, Ledger, Reports, App | prices of a journal read off its text (SpecExchange) shown to be those of the ledger; rates by C34-C36; conversion is linear, so rows are the converted sums of C78; outcome by C37; for journals with stated balances or rules the prices are read off the walk of C83 and the lines of C84 (SpecExchange2) |
| C82 | Colour (commands/balance.rs, register.rs, check.rs) | dropping the styles commutes with printing, command by command; balances of reports hold no zero, so the test for a sign is the one for below zero; the red zero by computation |
| C83 | Ledger, Txn, Reports, App (to_ledger with assertions and assignments) | one posting after the other: what the accounts hold in the reading of the journal is what the program keeps while it balances (induction over postings, then over the transactions by date); then the rows as in C73/C74, and as in C78 for some accounts or a depth |
| C84 | Ledger, Txn, Reports, App (to_ledger with automated transactions) | the lines of each transaction in the journal (open amounts filled) are those the first pass leaves; each rule adds its postings for the lines its query accepts (induction over rules, transactions and postings, the added ones being out of reach of later rules); the second balancing reads the same lines again, so the verdict is the order of the lines; then the rows of any ledger whose postings are those lines (ShownFacts) |
| C85 | Filter, Expr, Comment, Ledger, Reports, App | the words become an expression (as in C78) whose value on a posting is a function of account, payee and tags; every posting of the ledger is traced to the posting of the journal it comes from (kept, filled or virtual), with its payee and its tags; then the selected rows and sums, by induction over the transactions; what the tags are is tied to the text of the comments by the theorems of C45 (PropFindTags) |
| C86 | Filter, Ledger, Reports, App | both runs read the same ledger and select by the same predicate (a selection is determined by its predicate); sums over rows are sums over groups of the selected postings, each account in one group; the predicates of two adjacent periods are disjoint and cover the whole one; the transactions of the ledger are in date order |
| C87 | Ledger, Reports, App | the lists of a ledger extend those of the directives by the names in use (C71); applying rules finds every name of its lines, so it adds no account and no payee; the keys of a list are the names in lower case, so a name is listed in one spelling; the prices of the ledger are those of C81, and a line is the date, the commodity and the amount text of C69. |
| C88 | Ledger, Filter, Reports, App | balances are sums over the transactions of what C73 and C78 read off each one with the directives alone; a sum does not depend on the order and splits at a division; the rows are in ascending order and there exactly for the non-zero sums, which determines them; the lines of a transaction in the register are determined up to the order of the lines of an open amount |
| C89 | Ledger, Expr, Txn, Filter, Reports, App | simulation between the two runs, phase by phase: lists with the same names and aliases answer alike, comments with the same tags give the same tags, postings equal up to comments balance alike, an expression without `note` has the same value; the texts by C67 |
| C90 | Ledger, Alist, App | names of declared directives are looked up to the same entry in the lists of the directives, hence in every list that extends them; a name that is found adds nothing, so both journals have the same lists; then reading, rules and balancing do the same step by step, and the ledgers are equal |
| C91 | Filter, Expr, Ledger, Reports, App | every posting of a ledger has a payee (kept by balancing and by rules), so a query of at most two words answers yes or no for every posting and changes nothing; equal answers select the same postings; by induction on the ledger the postings selected by either and by both are together those of the two queries, and sums and lines follow |
| C92 | Filter, Expr, Dates, Reports, App | the query of a condition is its tree (C46), whose value is what C80 says in every list of commodities met during the run; a report that is made has a yes or no for every posting; opposite, disjunction and conjunction are the rules of C80, once literals of one condition stand for the same commodity inside the other; by induction on the ledger the selections add up; for dates and words the decision is computed and equal for every posting, hence the outputs are equal |
| C93 | Filter, Ledger, Reports, App | the amounts of both reports are sums over transactions of what each adds (C73, C78), and a transaction outside the period adds nothing; check decides transaction by transaction; lines are those of the transactions of the period, by induction |
| C94 | Alist, Ledger, Txn, Expr, Filter, Reports, App | two lists are related when each name used resolves to the same name in both; the relation is kept by adding a name used; every phase (reading, balancing, rules, selection, report) gives equal results on related lists, by induction over transactions and postings; balances are compared on the accounts posted to |
| C95 | Money, Txn, Ledger, Filter, Reports, App | the value of the postings of a kind, what a posting adds and every total asked for are multiplied by the factor, by induction over postings and transactions; a positive factor keeps zero and sign, so it keeps the verdict and the rows; then C73 and C78; with --exchange: prices, chains of prices and rates in the new units are those of the old journal multiplied by the factor of one end and divided by that of the other, and back; then C81 |
| C96 | Count, Alist, Tokens, Txn | the keys of the list are without repetition and are the lower-cased names inserted, by induction over the history; merging by C23; the parts of a name by induction; postings by C13's account of what balancing returns |
| C97 | Tokens, Ledger, Txn, Reports, App | the reading of C83 is carried over posting by posting: what the accounts hold corresponds as long as no two become one (induction over postings, then over the transactions by date); then C83 for both journals |
| C98 | Tokens, Ledger, Txn, Filter, Reports, App | the reading of C83 for both journals; what accounts hold and what reports add up splits at the cut of the transactions by date, and depends only on what the accounts hold at the cut |
| C99 | Tokens, Ledger, Txn, Filter, Reports, App | the reading of C84 for the journal with rules and of C83 for the one without; the lines of a transaction add up to what it adds, the lines of the rules to their share |
| C100 | Tokens, Ledger, Txn, Filter, Reports, App | the reading of C84 for each file; its totals are sums over transactions of their lines and those the rules add, which do not depend on the order; without stated balances each transaction is judged by itself |
| C101 | Tokens, Ledger, Txn, Filter, Reports, App | the reading of C73, C78 for each file; the value of a reversed posting is the opposite, so is what it leaves to an open amount, and the sums over the pairs cancel |
| C102 | Tokens, Ledger, Txn, Filter, Reports, App | the reading of C73, C78 for each file; by induction over the changes: each keeps the value of the real and of the bracketed postings, or makes it nothing where an amount is written out, and keeps what each account gets |
| C103 | Tokens, Ledger, Txn, Filter, Reports, App | the reading of C83 for each file, one posting after the other: each pair of postings moves and counts the same from the same holdings, so the two readings go on with the same holdings |
| C104 | Tokens, Ledger, Txn, Filter, Reports, App | the reading of C83 for each file, one posting after the other: a virtual posting leaves the holdings, the values that must cancel and the open amounts as they are |
| C105 | Tokens, Ledger, Txn, Filter, Reports, App | any file: each step of balancing gives the same result in both modes, and what it requires of the postings is kept by balancing and by automated transactions; journals of C83: the two readings are followed posting by posting, and the amount missing to the balance is what the others leave |
| C106 | Tokens, Ledger, Txn, Filter, Reports, App | dates, kinds and accounts of the ledger's postings are followed from the file through balancing and automated transactions; the selection is then the same posting by posting, cutting names to d levels gives the names back, and merging and sorting distinct names gives the list back |
| C107 | Tokens, Ledger, Txn, Price, Reports, App | every posting of the ledger is in the commodity, through balancing and automated transactions; the rates never contain the commodity asked for; so each balance of the report and the total is at most one amount, without a rate, and conversion gives it back |
| C108 | Tokens, Ledger, Price, Reports, App | the names of the journal and so its lists are the same; balancing only adds to the list of prices; a price that says nothing new leaves the table of the newest price of each pair as it is, and conversion uses that table only |
| C109 | Tokens, Expr, Filter, Ledger, Reports, App | function by function, by induction on what each recurses on: reading, the ledger and the reports give the same in two worlds that differ in the day and the width only; conversion is the only use of the day, the columns of the register the only use of the width |
| C110 | Tokens, Ledger, Reports, App | by induction on the nesting of includes, then on the items of a file: a reading that succeeds stays the same when more files can be read, as an unreadable file ends the reading; nothing after the reading looks at files (the lemmas of C109) |

## 5. Findings

Behaviours of the code that the faithful model shows and a theorem witnesses:

* amounts between -1 and 0 print without sign; a carry from an integer part 0 prints -1 (C07);
* `.-5` is accepted as an amount (C08); a bare zero equals any balance in assertions (C05);
* a per-unit cost on a negative amount has the wrong sign in the test of bracketed postings (C18);
* the regex cache of a list keeps a negative answer after an insertion (C24);
* a total cost on a zero amount aborts (C28);
* implied prices are recorded twice when the journal has an automated transaction (C32);
* conversion, the payee of a description matched by several patterns, and the account standing for an
  `...unknown` account depend on hash order (C38, C71);
* operands after the second of a chain are dropped; a product of three factors aborts; `!` and `!=`
  abort; a number before `and` is read as money (C42, C46), so the third term of a query is ignored (C41);
* a tag value with a colon loses the tag (C45);
* an automated transaction at the end of a text without newline, and a comment under a `tag`
  directive, loop for ever (C47); positions can be off by a line (C48);
* an account name followed by one blank, or an open parenthesis, swallows the next line (C51);
  a journal ending in an account name without newline aborts (C50);
* real accounts that begin with a non-ASCII letter abort (C52); prices timed 20:00-23:59 are refused (C53);
* accounts beginning with a colon are not rolled up (C55); `--flat --depth 0` aborts (C56);
* collapsed rows of the tree report show the parent's amount and can swallow unrelated accounts (C61);
* a description is clipped by bytes but cut by characters (C60);
* an indented option line in the configuration file, or `--init-file` as the last argument, abort (C62);
* a rule with a line that takes a share of the amount (a number without a commodity) makes `commodities`
  print an empty line (C87);
* an account, payee or commodity declared both in a file and in one it includes keeps the later declaration
  and the aliases of both, but keeps the earlier one alone when both are in one file (C54);
* with `--no-balance-check` a posting that states only a balance counts as left open, so that a journal
  accepted with the check can be refused without it (C105);
* `check` ignores `--no-balance-check` (C65); postings without amount that are virtual abort both
  reports (C57, C59 hypotheses);
* an error on the first line of a file shows no line, and aborts in a build with overflow checks; the
  column of an error can be that of the beginning of the line; an include loop is reported on the line
  after the directive; a misspelt `include` gives an empty message (C75);
* the amounts of a balance of several commodities are printed without anything between them (C76);
* the `format` line of a commodity and effective dates are read and have no effect on any report (C89);
* the comment of a header keeps its `;`, the status and the code of a transaction are read and dropped, the
  name of a `payee` directive is not trimmed (C67); an alias added to an element that is not there dangles (C22).

## 6. Wrong programs

seeded/LOG.jsonl has one line per edited program: the definition, the edit, the claim it should break,
the theorems that failed and, where none did, the theorems added or tightened since.
