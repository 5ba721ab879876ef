# Generates /verif/properties.jsonl.  One tuple per property.
import json, os
P = []
def p(id, title, statement, quantifier, why, *anchors):
    P.append(dict(id=id, title=title, statement=statement, quantifier=quantifier,
                  why_tests_cant=why, anchors=list(anchors)))

# ---------------------------------------------------------------- money and balances
p("C01", "Balance arithmetic is exact, commodity by commodity",
  "Adding, subtracting or negating balances gives, in every commodity, exactly the sum, difference or opposite of the operands' amounts: nothing is rounded, lost, or moved to another commodity; addition is commutative and associative in this sense and subtracting a balance from itself leaves nothing.",
  "all balances that can be built with the public constructors and operators, all commodities, all rational amounts",
  "amounts are arbitrary-precision rationals and a balance holds any number of commodities; the tests add two or three literals",
  "src/models/balance.rs: Add, Sub, Neg for Balance, From<Money>", "src/models/money.rs: Add, Sub, Neg for Money")
p("C02", "A balance never holds a zero entry, a duplicate or a misfiled commodity after a sum, whatever the hash order",
  "The result of a sum of balances has at most one entry per commodity, no entry with a zero amount, and each entry is filed under its own commodity; up to the order of its entries the result does not depend on the iteration order of the hash maps being added.",
  "all pairs of balances built with the public API and all iteration orders of their hash maps",
  "the iteration order of std HashMap is random per process, so a test run sees one order out of factorially many",
  "src/models/balance.rs: Add for Balance, Balance::len, Balance::iter")
p("C03", "Meaning of the zero tests used to accept transactions",
  "is_zero holds exactly when every commodity's amount is zero; can_be_zero on a sum holds exactly when every amount is zero or some commodity is strictly positive and some commodity is strictly negative.",
  "all balances produced by sums, all iteration orders",
  "the answer is computed by an early-exit scan over a hash map in random order",
  "src/models/balance.rs: is_zero, can_be_zero")
p("C04", "Collapsing a balance to one amount",
  "to_money succeeds exactly when at most one commodity has a non-zero amount, and then returns that amount (or zero); with two or more it returns the not-balanced error.",
  "all balances built with the public API",
  "depends on how many commodities are non-zero among any number",
  "src/models/balance.rs: to_money")
p("C05", "What a balance assertion comparison decides",
  "Comparing an asserted amount with an account's running balance succeeds exactly when the running balance in the asserted commodity equals the asserted amount; other commodities are ignored. As a relation between arbitrary balances, == is reflexive but it is neither symmetric nor an equality of amounts.",
  "all amounts, commodities and balances",
  "== scans only the left operand's entries, which no finite set of examples characterises",
  "src/models/balance.rs: PartialEq for Balance", "src/models/transaction.rs: Transaction::balance")
p("C06", "Ordering and equality of amounts of money",
  "Within one commodity money is totally ordered by amount and the ordering agrees with equality; comparing amounts of two different commodities aborts; the currency-less zero compares with everything. Equality of money is reflexive and symmetric but not transitive (0 EUR == zero == 0 USD although 0 EUR != 0 USD).",
  "all pairs and triples of money values",
  "algebraic laws over an infinite domain",
  "src/models/money.rs: Ord, PartialEq for Money")
p("C07", "A printed amount is the exact amount rounded half away from zero at the commodity's precision",
  "The text printed for an amount of money denotes the amount rounded, half away from zero, to the commodity's number of decimals, with the right sign, followed by the commodity name.",
  "all rational amounts, all commodities, all precisions from 1 to 7",
  "the code goes through string truncation, u64 parsing and digit counting; errors appear only at particular fractional parts",
  "src/models/money.rs: Display for Money", "src/models/currency.rs: get_precision, set_precision")
p("C08", "Amount literals are read exactly",
  "Reading a decimal literal (optional minus sign, digits, optional point and digits) yields exactly the rational it denotes, however many digits it has; two points or a misplaced minus sign are rejected, never misread.",
  "all literals of any length",
  "arbitrary-length literals", "src/parser/tokenizers/transaction.rs: parse_amount", "src/parser/utils.rs: parse_rational")
# ---------------------------------------------------------------- transactions
p("C10", "An accepted transaction balances",
  "If a transaction with no elided amount is accepted, its real postings, valued at cost, sum to zero in every commodity, or leave one commodity strictly positive and another strictly negative (an implicit exchange); in particular if all its values are in one commodity the sum is exactly zero.",
  "all transactions: any number of postings, kinds, costs, amounts, assertions, and any running balances",
  "any number of postings and commodities", "src/models/transaction.rs: Transaction::balance, total_balance")
p("C11", "An elided amount is filled so that the transaction sums to zero",
  "If exactly one real posting has no amount, acceptance replaces it by one posting per commodity that is not yet balanced, on the elided posting's account and payee, and the real postings valued at cost then sum to zero in every commodity; if everything is already balanced the elided posting disappears.",
  "all transactions with one elided posting, all iteration orders",
  "any number of commodities must be filled", "src/models/transaction.rs: Transaction::balance")
p("C12", "Exactly the unbalanced transactions are rejected",
  "Balancing a transaction returns: the too-many-elided error exactly when two or more real postings are elided (and no earlier check fails); the not-balanced error exactly when a must-balance virtual group or the real group cannot be zero, an assertion fails, or an assignment would need several commodities; otherwise it succeeds. It never aborts when every posting's account is known.",
  "all transactions and running balances",
  "a decision procedure over unbounded postings", "src/models/transaction.rs: Transaction::balance", "src/error.rs: LedgerError")
p("C13", "Balancing never alters what the user wrote",
  "Every real posting with an amount keeps its account, amount, assertion, cost, payee, comments and tags, and their relative order; every virtual posting is kept unchanged (after the real ones); nothing else is added except the filled postings.",
  "all accepted transactions",
  "frame condition over every field of every posting", "src/models/transaction.rs: Transaction::balance")
p("C14", "Balance assertions are enforced, and only when asked",
  "With checks on, an accepted posting that states both an amount and an assertion leaves its account, in the asserted commodity, at exactly the asserted amount; with checks off no transaction is rejected because of an assertion.",
  "all transactions, all prior running balances",
  "depends on the running balances left by any history", "src/models/transaction.rs: Transaction::balance", "src/app.rs: --no-balance-check")
p("C15", "Balance assignment",
  "With checks on, a posting that states an assertion but no amount gets as amount exactly the asserted balance minus the account's running balance, and afterwards the account's running balance is exactly the asserted one; if that difference spans several commodities the transaction is rejected.",
  "all transactions, all prior running balances",
  "depends on any history", "src/models/transaction.rs: Transaction::balance")
p("C16", "Running balances equal the sum of the postings",
  "After any sequence of accepted transactions, the running balance of each account equals, in every commodity, the sum of the amounts of the real postings made to it; accounts not touched are unchanged.",
  "all sequences of transactions of any length",
  "an invariant over histories", "src/models/transaction.rs: Transaction::balance", "src/models/mod.rs: to_ledger")
p("C17", "Balancing twice is the same as balancing once",
  "Balancing an already balanced transaction again from the same running balances succeeds with the same postings and the same running balances (the ledger relies on this when automated transactions trigger a second pass).",
  "all accepted transactions, running balances and both settings of the checks flag",
  "a law over all transactions", "src/models/transaction.rs: Transaction::balance", "src/models/mod.rs: to_ledger")
p("C18", "Virtual postings",
  "Bracketed virtual postings must balance among themselves, or be an exchange (something left in plus and something in minus), or the transaction is rejected; parenthesised virtual postings never influence acceptance, the filled amounts or the running balances. A group of bracketed postings is judged by the same valuation at cost as real postings.",
  "all transactions",
  "non-interference over any number of postings", "src/models/transaction.rs: total_balance, Transaction::balance")
p("C19", "Double entry holds for the whole ledger",
  "If in an accepted ledger no posting has a cost and every transaction is in a single commodity or has an elided amount, then the sum over all accounts of the real balances is zero in every commodity; and for a journal of this kind the total of a balance report of the real postings is nothing, for every period and depth.",
  "all ledgers", "an invariant over all histories", "src/models/mod.rs: to_ledger", "src/models/transaction.rs: Transaction::balance")
# ---------------------------------------------------------------- List
p("C21", "Names and aliases are found regardless of case, first definition wins",
  "After inserting elements into a list of accounts, commodities or payees, looking up any spelling (any letter case) of a name or alias returns the element: a name always takes precedence over an alias, the first insertion of a name wins, and lookups of other names are unaffected.",
  "all sequences of insertions and alias additions, all lookup strings",
  "an invariant over operation sequences", "src/list.rs: List::insert, get, add_alias")
p("C22", "Lookups never hit a dangling alias",
  "For a list built by insertions, merges and alias additions for elements that are in the list, a lookup never aborts: it returns an element or the alias-not-found error.",
  "all operation sequences", "an invariant over operation sequences", "src/list.rs: get, append, add_alias, insert")
p("C23", "Merging the lists of an included file",
  "Merging adds every name and alias of the other list; for names and aliases defined in both, the merged-in definition wins (but a name of the first list goes before an alias of the other, as in C21); everything else is unchanged, except that an alias of an element that is redefined now means the new element.",
  "all pairs of lists", "universally quantified law", "src/list.rs: append", "src/parser/mod.rs: ParsedLedger::append")
p("C24", "Regex lookup returns a matching element, and its cache is transparent",
  "A regex lookup returns an element whose name or alias matches, or nothing if none matches; repeating it gives the same answer as a fresh lookup.",
  "all histories of lookups and insertions", "the memo table is only wrong after particular histories", "src/list.rs: get_regex")
p("C25", "Memoised matches, compiled patterns and parsed queries are transparent",
  "Whatever matches were asked before, asking whether an account or payee matches a pattern gives the same answer as evaluating the pattern on its name. Whatever expressions were parsed before, an expression is parsed as it would be without the table of compiled patterns; with that table and the table of the parsed queries of the automated transactions the program makes the same ledger, or refuses the journal in the same way, as without them.",
  "all call histories, expressions and journals", "history dependent", "src/models/account.rs: is_match", "src/models/payee.rs: is_match", "src/parser/value_expr.rs: build_ast_from_expr, build_root_node_from_expression", "src/models/mod.rs: ParsedLedger::to_ledger")
# ---------------------------------------------------------------- ledger construction
p("C26", "Transactions end up in date order, ties in file order, none lost",
  "The ledger's transactions are exactly the dated transactions of the journal, sorted by date, and transactions of the same date keep their order of appearance.",
  "all journals", "any length, any tie pattern", "src/models/mod.rs: to_ledger (sort_by)")
p("C27", "The order of files does not matter when dates differ",
  "If no two transactions share a date, permuting the transactions of the journal does not change the resulting transaction order (hence balances and assertions); with shared dates it can.",
  "all journals and permutations", "factorially many orders", "src/models/mod.rs: to_ledger", "docs/differences_with_ledger.md: Balance assertions")
p("C28", "Every name used in a journal resolves",
  "Building the ledger never fails or aborts because a commodity, account or payee mentioned by a posting or price is unknown: each is registered, and resolves to an element whose name or alias equals the spelling used up to case.",
  "all parsed journals", "any set of names and aliases, in any hash order", "src/models/mod.rs: to_ledger, _transaction_to_ledger")
p("C29", "The same commodity or account is one identity however it is spelled",
  "Two spellings of a commodity (or account) that differ in case only, or that are aliases of one directive, resolve to the same identity, so their amounts add up together.",
  "all journals and spellings", "any spelling", "src/models/mod.rs: to_ledger", "src/list.rs: get", "src/models/currency.rs: PartialEq")
p("C30", "Prices recorded by a ledger",
  "The price list contains every price directive unchanged, then for every posting with a cost the unit price it implies (the cost itself for per-unit, cost divided by quantity for total), in order.",
  "all journals", "any number of prices and costs", "src/models/mod.rs: to_ledger, _transaction_to_ledger")
p("C31", "Automated transactions add exactly the postings they describe",
  "For each automated rule, each transaction and each of its original postings satisfying the rule's query, exactly the rule's postings are added (amount as given, or the matching amount times the given factor or expression), tagged as automated and not themselves matched by later rules; existing postings change only by receiving the rule's tags.",
  "all ledgers and rules", "any number of rules, transactions and postings", "src/models/mod.rs: to_ledger (step 5)")
p("C32", "Implicit exchange rates",
  "A transaction accepted with exactly two unbalanced commodities records one price, which is strictly positive and converts the first commodity's amount exactly to minus the second's.",
  "all accepted transactions, all hash orders", "hash order picks the direction", "src/models/mod.rs: to_ledger")
# ---------------------------------------------------------------- prices
p("C33", "Conversion uses only the latest known prices",
  "Prices dated after the conversion date are ignored, and for each pair of commodities only a price of the latest remaining date is used (the first recorded one among equals).",
  "all price lists and dates", "any price history", "src/models/price.rs: conversion, Graph::from_prices")
p("C34", "Every conversion rate is the product of a chain of known prices",
  "Each multiplier returned for a commodity is the product of recorded prices (or inverses, when used backwards) along a chain of commodities leading from it to the requested commodity.",
  "all price lists, dates and target commodities, all hash orders", "shortest-path search over arbitrary graphs", "src/models/price.rs: conversion")
p("C35", "A commodity is convertible exactly when it is connected by prices",
  "A commodity other than the target gets a multiplier if and only if a chain of usable prices connects it to the target; the target itself gets none (its amounts are left alone).",
  "all price lists, dates and targets", "graph reachability", "src/models/price.rs: conversion")
p("C36", "Conversion follows the shortest chain in time",
  "The chain followed to each (commodity, date) point has the least total time distance from the conversion date among all chains of usable prices and waiting steps.",
  "all price graphs", "optimality over all paths", "src/models/price.rs: conversion")
p("C37", "Conversion terminates and aborts only on a zero price",
  "conversion always terminates; it can abort only by dividing by a recorded price equal to zero.",
  "all price lists", "termination and absence of panics for all inputs", "src/models/price.rs: conversion")
p("C38", "Conversion is deterministic",
  "The rates returned depend only on the price list, the date and the target, not on hash iteration order.",
  "all price lists and all hash orders", "one run sees one order", "src/models/price.rs: conversion", "tests/test_commands.rs: exchange")
# ---------------------------------------------------------------- filters, expressions
p("C40", "Report filters",
  "A posting is reported exactly when: its transaction's date is on or after the begin date and strictly before the end date (when given), it is a real posting if only real ones were asked for, and the query (if any) holds for it.",
  "all postings and options", "all combinations and boundary dates", "src/filter.rs: filter")
p("C41", "Command line terms translate to the documented query",
  "A list of query terms translates to the parenthesised disjunction/conjunction of their documented meanings: plain term = case-insensitive account match, @ = payee, % = tag, /re/ = account regex, expr = verbatim; terms are joined by or unless preceded by and; no terms means no filter. The query of an automated transaction is translated the same way from the words on its line, where a regex or a quoted text is one word, whatever blanks are in it.",
  "all lists of terms", "unbounded lists", "src/filter.rs: preprocess_query", "src/models/transaction.rs: get_filter_query")
p("C42", "All operands of a chained expression take part",
  "An expression a op b op c ... of any length evaluates all its operands (1+2+3 is 6, x or y or z holds when z does).",
  "all expressions", "unbounded chains", "src/parser/value_expr.rs: build_ast_from_expr", "src/grammar/grammar.pest")
p("C43", "Well-typed expressions never abort",
  "Evaluating an expression that is well typed (numbers, money, booleans, regexes, strings, dates used where expected) does not abort, provided it does not divide by zero, mix commodities in a sum or comparison, use a missing amount, payee, date or tag text, or read as a date a text that is none; and it yields a value of the expected type.",
  "all expressions, postings and transactions", "induction over expressions", "src/parser/value_expr.rs: eval")
p("C44", "Comparison and logic operators",
  "On comparable values exactly one of <, ==, > holds and <=, >= are their unions; on values of different kinds all four orderings are false; and/or/not are the boolean connectives; a number and money compare by amount.",
  "all values", "all pairs of values", "src/parser/value_expr.rs: PartialOrd, PartialEq for EvalResult, eval")
p("C45", "Tags written in comments are read back",
  "A comment :a:b:c: (any number of non-empty names without colons) yields exactly the tags a, b, c in order; a comment name: value yields exactly that tag with that value; a comment without a colon yields none.",
  "all tag names and values", "arbitrary strings", "src/models/comment.rs: get_tags")
p("C46", "Value expressions are parsed as written",
  "Every expression written with explicit parentheses is parsed to the expression tree it denotes.",
  "all expression trees", "induction over expressions", "src/parser/value_expr.rs", "src/grammar/grammar.pest")
# ---------------------------------------------------------------- tokenizer
p("C47", "Reading a journal always terminates",
  "Parsing any text ends: with a parsed journal, an error or an abort, in a number of steps bounded by its length.",
  "all texts", "termination on all inputs", "src/parser/mod.rs: Tokenizer::tokenize", "src/parser/tokenizers/*.rs", "src/parser/chars.rs")
p("C48", "Every directive consumes input and nothing is skipped silently",
  "Each step of the tokenizer moves strictly forward and the reported line number is the number of newlines consumed.",
  "all texts", "all inputs", "src/parser/chars.rs", "src/parser/mod.rs")
p("C49", "Include cycles are reported and includes terminate",
  "A file that (directly or through other files) includes itself under the same path makes parsing fail with an include-loop error instead of recursing; if the set of reachable paths is finite then reading terminates.",
  "all file systems", "any include graph", "src/parser/include.rs: parse", "src/parser/mod.rs: seen_files")
p("C50", "A final newline is optional",
  "Removing the final newline of a journal does not change the result of parsing it.",
  "all journals", "all inputs", "docs/differences_with_ledger.md", "src/parser/tokenizers/transaction.rs: parse_posting", "src/parser/mod.rs: Tokenizer::next")
p("C51", "A posting never swallows the next line",
  "The text of a posting line determines the posting: what follows on later lines is parsed separately, whatever trailing white space the line has.",
  "all journals", "all inputs", "src/parser/tokenizers/transaction.rs: parse_posting")
p("C52", "Account names may start with any letter",
  "A posting whose account starts with any non-space character, ASCII or not, parses without aborting.",
  "all account names", "all code points", "src/parser/tokenizers/transaction.rs: parse_posting")
p("C53", "Times of day",
  "Any time of day HH:MM:SS is accepted after the date of a price directive and ignored.",
  "all times", "all times of day", "src/grammar/grammar.pest: time, hour", "src/parser/tokenizers/price.rs: parse")
p("C54", "Including a file equals inlining it",
  "The transactions, prices and comments read from a file with includes are, in order, those of the text with each include replaced by the included content, and every command prints for the one what it prints for the other.",
  "all file systems", "any include tree", "src/parser/include.rs", "src/parser/mod.rs: ParsedLedger::append")
# ---------------------------------------------------------------- reports
p("C55", "Tree balance report sums sub-accounts",
  "In the tree report the amount computed for an account is, in every commodity, the sum over all reported postings to it and to its sub-accounts (name followed by a colon), and accounts whose amount is zero are omitted.",
  "all ledgers, all hash orders", "any account tree", "src/commands/balance.rs: execute")
p("C56", "Flat report and depth",
  "In the flat report each account's row is the sum of its reported postings; with a depth, each row is the sum of the rows of the accounts sharing the truncated name, and rows are in name order without duplicates.",
  "all ledgers, all depths", "any account set", "src/commands/balance.rs: execute")
p("C57", "The total of the balance report",
  "The total is, in every commodity, the sum of all reported postings, so it equals the sum of the flat rows.",
  "all ledgers", "any number of accounts", "src/commands/balance.rs: execute")
p("C58", "Currency conversion of a report is linear",
  "Converting a balance multiplies each convertible commodity by its rate into the target and leaves the others; converting a sum equals the sum of the conversions, so the converted total matches the converted rows.",
  "all balances and rates", "any number of commodities", "src/commands/balance.rs: convert_balance")
p("C59", "Register running total",
  "Each line of the register shows the sum, in every commodity, of the reported postings up to and including that line, and one line group is printed per reported posting in ledger order.",
  "all ledgers and filters", "invariant over the report loop", "src/commands/register.rs: execute")
p("C60", "Clipped descriptions fit their column",
  "A clipped text is the original text or a prefix of it followed by two dots, and never exceeds the column width minus one character.",
  "all strings and widths of at least three", "arbitrary unicode strings", "src/commands/register.rs: clip")
p("C61", "The tree report prints every account with its own amount",
  "Every account of the tree report with a non-zero amount (within the requested depth) is printed, on a line showing its own amount.",
  "all sets of rows", "line collapsing depends on the neighbouring rows", "src/commands/balance.rs: execute (printing loop)")
# ---------------------------------------------------------------- app
p("C62", "Command line options override the configuration file",
  "Options of the configuration file are appended after the user's arguments, at most once each, and only if the user did not give them; the user's arguments are never changed; -f counts as --file.",
  "all argument lists and configuration files", "all files", "src/app.rs: run_app")
p("C63", "Dates on the command line and in journals",
  "A well-formed year-month-day or year-month text denotes exactly that calendar day (first of the month if no day), order of dates is calendar order, and an impossible day is refused.",
  "all years, months and days", "calendar arithmetic over all dates", "src/app.rs: date_parser", "src/parser/utils.rs: parse_date")
p("C64", "Listing commands print every element once, in order",
  "The accounts, payees and commodities commands print each element of the ledger exactly once, in ascending name order, independently of hash order.",
  "all ledgers and hash orders", "one run sees one order", "src/commands/accounts.rs", "src/commands/payees.rs", "src/commands/commodities.rs")
p("C65", "The check command and the exit status",
  "check succeeds exactly when the journal parses and every transaction and assertion checks; any error makes the program exit with a failure status. It prints that the file is OK exactly if it succeeds, and that it is KO exactly if the journal parses and is refused.",
  "all journals", "all inputs", "src/commands/check.rs", "src/app.rs: run_app", "src/main.rs")

extra = os.path.join(os.path.dirname(__file__), "extra_props.py")
if os.path.exists(extra): exec(open(extra).read())
P.sort(key=lambda d: (int(d["id"][1:])))
assert len({d["id"] for d in P}) == len(P)
with open("/verif/properties.jsonl", "w") as f:
    for d in P: f.write(json.dumps(d, ensure_ascii=False) + "\n")
print(len(P))
