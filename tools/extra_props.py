p("C66", "Postings reach the ledger with the contents they were written with",
  "Every posting of the journal that is virtual, has an amount or has an assertion that is looked at appears in the ledger, in a transaction with the same header, with the same amount, assertion, cost, kind, account, payee and tags (rules may add tags; names resolved through one identity each); the ledger has no other transactions.",
  "all journals, hash orders and both balance-check modes", "loss or mix-up of postings shows on particular journals only",
  "src/models/mod.rs: ParsedLedger::to_ledger", "src/models/transaction.rs: Transaction::balance")
p("C67", "A journal is read as it was written",
  "Whatever transactions, automated transactions, prices, comments and account, commodity, payee and tag directives are written down in the documented layout, with any amount of blank lines, indentation, blanks and comments between the parts, the program reads exactly those: the same items in the same order with the same dates, descriptions, payees, amounts, costs, assertions, expressions, comments and settings. In particular a text is the written form of at most one journal.",
  "all journals of any length, and all layouts (spacing, blank lines, comments, quoting, place of the commodity) they can be written in", "tests cover a few journals in one layout each; the reader works character by character and may go astray on particular combinations of parts and blanks only",
  "src/parser/mod.rs: Tokenizer::tokenize", "src/parser/tokenizers/transaction.rs: parse_generic, parse_posting", "src/parser/tokenizers/account.rs: parse", "src/parser/tokenizers/commodity.rs: parse", "src/parser/tokenizers/payee.rs: parse", "src/parser/tokenizers/tag.rs: parse", "src/parser/tokenizers/price.rs: parse", "src/parser/chars.rs")
p("C68", "Queries find the tags that were written",
  "In an expression, has_tag(/rx/) is true exactly if the posting has a tag whose name matches, tag(/rx/) and tag(\"name\") give the value of the first tag, in the order the tags were written, whose name matches (is the given name), and no value if there is none. The tags of a posting of the ledger are the tags of the comments of its transaction, then those of its own comments, then whatever rules added, so that a tag written in the journal is what a query by its name finds.",
  "all postings, all lists of tags, all patterns and names, all journals", "with a few tags per posting in the tests, looking from the wrong end, at values, or at the tags of the transaction only, is not noticed",
  "src/models/transaction.rs: Posting::has_tag, get_tag, get_exact_tag", "src/parser/value_expr.rs: eval", "src/models/mod.rs: ParsedLedger::to_ledger")
p("C69", "The balance and register reports print what was computed",
  "The balance report prints for each account its amounts in the order of its commodities, with two decimals and the commodity at the right of a field of twenty columns, one line each, and the account on the line of the last one, two columns further to the right for each level; then, unless it is left out, a rule and the total. The register prints for each posting the date and payee of its transaction on the first of its lines, the account, the amount and the running total with one line per commodity, in fields whose widths the width of the terminal determines and which fill it when it is wide enough. Printing never fails. If account and commodity names are words with single blanks between, the text of a balance report determines its accounts, levels, amounts to the second decimal up to their sign and commodities.",
  "all journals, files, options, hash orders and terminal widths", "columns, long names and many commodities meet only in some reports; the tests compare a few texts",
  "src/commands/balance.rs: execute", "src/commands/register.rs: execute", "src/models/money.rs: Display for Money")
p("C70", "The list of prices is a list of price statements",
  "Each line that the prices command prints, with a P before it, is a price statement of the journal syntax. Read back, they state for each price of the ledger, in the same order, the same day, the same two commodities and the same amount to the second decimal (with the sign that C07 tells); and the prices command prints the same text again for that journal. This is for commodities whose names need no quotes and differ by more than letter case, and days of the years 0 to 9999.",
  "all journals, options and hash orders", "prices come from statements, costs and exchanges, and only some of them show a mix-up of commodities, a lost digit or a changed day",
  "src/commands/prices.rs: execute", "src/models/price.rs: Display for Price", "src/parser/tokenizers/price.rs: parse")
p("C71", "What a name that no directive declares stands for",
  "In the ledger, a name of an account or commodity that appears in the journal stands for what the directives say if a directive declares it (by name or alias, in any letter case); otherwise for a new account or commodity without settings, named as the name was written somewhere in the journal. A payee that no directive declares is the payee of a directive one of whose alias patterns matches the name, and a new payee of that name only if no pattern matches. If patterns of several directives match, which one is taken is not determined by the journal.",
  "all journals, hash orders and patterns", "the tests declare few names, and the order in which a hash table is gone through changes from run to run",
  "src/models/mod.rs: ParsedLedger::to_ledger", "src/list.rs: List::get, insert, add_alias", "src/models/payee.rs: Payee")
p("C72", "The ledger has no postings of its own",
  "Each posting of a transaction of the ledger is a posting of the journal transaction with the same header, with its kind, payee, account and, if it was given, its amount; or it is what a line of a rule adds, with the kind, account, payee and commodity of that line. A posting to an account whose name ends with \"unknown\" is on an account that a directive gives a pattern for that the payee matches if there is one, and on the account as written otherwise.",
  "all journals, with rules or not, hash orders and both balance-check modes", "duplicated or misplaced postings show on particular journals only",
  "src/models/mod.rs: ParsedLedger::to_ledger, automatic_transaction", "src/models/transaction.rs: Transaction::balance")
p("C73", "The balance report adds up what the journal says",
  "For a journal without rules, assertions and expressions (costs, virtual postings with amounts, aliases and postings without an amount are allowed): if in each transaction the bracketed postings cancel at cost or are an exchange, and the real ones do too or exactly one of them has no amount, then check accepts the file and the flat balance report has exactly one row for each account in which the journal leaves something, in order of the names, which shows for each commodity the sum of the amounts written for the account (under its name or an alias), a posting without an amount counting for minus the value of the others of its transaction; with sub-accounts, the row of an account shows this sum for it and the accounts below it; the total shows the sum over all accounts. With --begin, --end or --real only the transactions of the period or the real postings count. If some transaction is not in order, every command fails with status 1.",
  "all texts of such journals, both report forms, all periods, hash orders and both balance-check modes", "it is the composition of parsing, name resolution, balancing, sorting, filtering, summation and printing; tests see single journals",
  "src/commands/balance.rs: execute", "src/commands/check.rs: execute", "src/models/mod.rs: ParsedLedger::to_ledger", "src/models/transaction.rs: Transaction::balance", "src/parser/mod.rs: Tokenizer::tokenize", "src/filter.rs: filter")
p("C74", "The register lists what the journal says",
  "For the journals of C73: the register shows the transactions by date, those of one day in the order written; for each the date and what its description stands for as a payee, then a line for each real posting with an amount, in the order written, with the account its name stands for and that amount; then, for the posting without an amount, a line for each commodity in which the value of the others does not cancel, with minus that value; then the virtual postings, in parentheses or brackets; and beside each line the sum of all the amounts listed so far, per commodity, zero ones left out. With --begin, --end or --real only the transactions of the period or the real postings are listed and counted.",
  "all texts of such journals, all periods, hash orders and both balance-check modes", "it is the composition of parsing, name resolution, balancing, sorting, filtering, running totals and printing; tests see single journals",
  "src/commands/register.rs: execute", "src/models/mod.rs: ParsedLedger::to_ledger", "src/models/transaction.rs: Transaction::balance, get_payee", "src/parser/mod.rs: Tokenizer::tokenize", "src/filter.rs: filter")
p("C75", "Errors name the place",
  "When a journal cannot be read, the error names a file that was being read and a line of it, and the message shows that line, the line before it, both with their numbers, and a mark under the column. If everything before it is in order, a line that begins with a character that nothing begins with is the line named, in column 1. An unexpected indentation is reported at the first character of an indented line. An include loop is reported only if there is one, at the end of an include directive that names a file on a cycle.",
  "all trees of files and all texts, all lengths of files and lines", "positions are counted character by character by every part of the reader, so a miscount shows only after particular parts; the tests look at no message",
  "src/parser/mod.rs: Tokenizer::error, tokenize", "src/error.rs: Display for Error", "src/parser/chars.rs", "src/parser/include.rs: parse")
p("C76", "A refused journal: the transaction at fault is shown",
  "When a journal that can be read is refused because a transaction does not balance, has several postings without an amount or fails an assertion, the program prints the date, description, accounts and given amounts of a transaction of the journal: the first one by date that is refused (as it is written or, if all are accepted so, as the rules have changed it), all transactions before it being accepted; then the reason, with the number of postings without an amount if that is the reason. If it is an assertion that fails, it is preceded by the amount asserted, the amounts that the account has then and the differences, for the first assertion of the transaction that fails. A journal that is accepted is accepted without any such message.",
  "all journals that can be read, with rules or not, both balance-check modes, hash orders", "the tests look at exit statuses only; which transaction is shown depends on dates, running balances and rules",
  "src/models/mod.rs: ParsedLedger::to_ledger", "src/models/transaction.rs: Transaction::balance, Display for Transaction", "src/models/balance.rs: Display for Balance", "src/error.rs: From<LedgerError> for Error")
p("C77", "A malformed line is refused and named",
  "If a journal begins with complete items (or nothing), then a transaction, automated transaction or directive whose first lines are written properly, and then an indented line that is malformed - a posting that begins with a number, an account whose parenthesis or bracket is not closed, a cost without an amount before it, a number with two decimal points, a word where the amount should be, or a word that a line of this directive cannot begin with - then the journal is refused, whatever follows, with the reason for this kind of mistake, the words offered instead if it is an account or commodity directive, and the file, the line and the column up to which the line is in order.",
  "all texts before and after, all layouts (blank lines, indentation, comments), names, numbers and words", "the tests contain a handful of malformed lines and look at no message; line and column are counted by each part of the reader",
  "src/parser/tokenizers/transaction.rs: parse_with_grammar, parse_automated_transaction, parse_posting, parse_money, parse_amount", "src/parser/tokenizers/account.rs: parse", "src/parser/tokenizers/commodity.rs: parse", "src/parser/tokenizers/payee.rs: parse", "src/parser/tokenizers/tag.rs: parse", "src/parser/chars.rs")
p("C78", "The reports of some accounts show what the journal says about them",
  "For the journals of C73, and one or two words on the command line that ask for accounts (those in whose name a text is found regardless of letter case, or a pattern between slashes as it is written; two words, or words joined by or, ask for the accounts of either, and asks for those of both): the balance report has, for each of the accounts asked for, shortened to the depth asked for, the sum of what the journal puts into those accounts, and no other row; the total is the sum over the accounts asked for only; the register lists the lines of those accounts only, each beside the sum of the amounts listed so far. --begin, --end and --real restrict this further.",
  "all texts of such journals, words, depths, periods, hash orders and both balance-check modes", "it is the composition of query parsing, parsing, balancing, filtering, shortening, summation and printing; tests see single journals and words",
  "src/commands/balance.rs: execute", "src/commands/register.rs: execute", "src/filter.rs: filter, preprocess_query", "src/parser/value_expr.rs: eval")
p("C79", "Two runs on the same files print the same",
  "Running a command twice on the same files with the same options, on the same day and terminal, gives the same outcome: the journal is accepted both times or refused both times with the same error; an accepted journal gives the same transactions, rates, accounts, commodities and payees; every command prints the same text.",
  "all journals, commands, options, and all pairs of orders in which the hash tables are gone through in the two runs", "the order of a hash table changes from run to run, so a test passes or fails by chance",
  "src/models/mod.rs: ParsedLedger::to_ledger", "src/models/balance.rs: Balance", "src/commands/balance.rs: execute", "src/commands/register.rs: execute", "src/commands/accounts.rs: execute", "src/commands/prices.rs: execute")
p("C80", "An expression has the value it denotes",
  "An expression written with its operations in parentheses - variables, numbers, amounts, patterns, texts, abs, any, has_tag, tag, to_date, not, minus, + - * /, and, or, =~, == and the comparisons - has for a posting of a transaction exactly the value that the usual rules give it (exact arithmetic; amounts of one commodity add up, commodities being known by any spelling or alias; any tries the postings of the transaction; a pattern is compared with the account, payee, text or notes), and no value if the rules give it none. So a condition on the command line selects the postings for which it is true, and an expression in a rule adds the amount it is worth, or so many times the amount of the posting.",
  "all expressions so written, of any depth, all postings, transactions and lists of commodities", "the tests evaluate a few expressions on one posting each",
  "src/parser/value_expr.rs: eval, eval_value_expression, build_root_node_from_expression", "src/filter.rs: filter", "src/models/mod.rs: automatic_transaction")
p("C81", "A report in another currency shows what the accounts are worth at the journal's prices",
  "For the journals of C73 and the accounts asked for as in C78, with --exchange and the name of a commodity of the journal, in any letter case: the journal states prices in its price directives, by the costs of postings (a total cost divided by the amount), and by transactions that exchange one commodity for another; there is one rate for each commodity that these prices, the latest of each pair up to today, link to the commodity asked for, along a chain of prices that is the shortest in time. Each row of the balance report shows what its accounts hold of the commodity asked for, plus what they hold of each commodity that has a rate times the rate, and beside it what they hold of the commodities without one; so does the total; an account of the flat report is left out only if all this is zero. Without --exchange, or for a commodity the journal does not have, amounts are shown as they are. The program stops with an error only if a price that counts is zero. The same holds for the journals of C83 and of C84 without a price of zero: what a transaction exchanges is then what it leaves with the balances stated before it; and with rules each transaction gives its price without the lines of the rules and once more with them.",
  "all texts of such journals, commodities asked for, words, depths, periods, days, hash orders and both balance-check modes", "it is the composition of parsing, price collection, the search for rates, summation and conversion; tests see single journals and one target",
  "src/commands/balance.rs: execute, convert_balance", "src/models/price.rs: conversion", "src/models/mod.rs: ParsedLedger::to_ledger", "src/models/transaction.rs: Transaction::balance", "src/app.rs: execute")
p("C82", "Colours tell what is below zero and change no character",
  "The colours of the output change no character of it. In the balance report an amount is red exactly if it is below zero and the name of an account is blue; in the register the account is blue and an amount, or a running total, is red exactly if it is below zero; check shows the path in bold and its verdict in bold green or red; nothing else is coloured.",
  "all journals, commands and options", "tests compare the text of a few reports, mostly without colours",
  "src/commands/balance.rs: execute", "src/commands/register.rs: execute", "src/commands/check.rs: execute", "src/models/money.rs: Money::is_negative, Money::is_positive")
p("C83", "Balances stated in the journal hold in the reports",
  "Take a journal of dated transactions whose postings may state the balance of their account, with an amount (an assertion) or without (an assignment). Read the transactions by date, those of one day as written, and keep for each account what the real postings put into it: an assertion is true if the account then holds the amount stated of that commodity, an assignment moves what is missing to the balance stated (which must be of one commodity), and an open amount takes what the other postings leave. check accepts the journal exactly if every transaction is in order in this reading; otherwise every command ends with status 1. If it is accepted, balance (flat and tree) and register show exactly the amounts of this reading, row by row and in total; and an account whose last posting states a balance is shown with that balance. The same holds for the reports of some accounts only (words and patterns for accounts joined by or, and, not) and for reports cut to a depth. With --no-balance-check nothing is compared and a balance without an amount is an open amount.",
  "all texts of such journals, orders of the dates, periods, --real, hash orders and both balance-check modes", "whether a balance is true depends on the whole history of the account; tests see single short journals",
  "src/models/mod.rs: ParsedLedger::to_ledger", "src/models/transaction.rs: Transaction::balance", "src/commands/balance.rs: execute", "src/commands/register.rs: execute", "src/commands/check.rs: execute")
p("C84", "Automated transactions add their postings, once, to what they match",
  "Take a journal of dated transactions (assertions included) with automated transactions whose first line is a query for accounts and whose postings have amounts. The report of such a journal is that of the same journal in which each transaction also has, rule after rule, the postings of the rule for each of its own lines (also the lines of an open amount) in an account the query accepts: a number without commodity multiplies the amount of that line, an amount is taken as it is. No rule is applied to what rules have added. check accepts the journal exactly if it is in order without the rules and with them (the added real postings cancel and count for the balances stated); otherwise every command ends with status 1. If accepted, balance (flat and tree, also of some accounts or to a depth) and register show exactly these lines, in this order, row by row and in total. Rules with postings in parentheses only never make a journal refused.",
  "all texts of such journals, sets of rules, queries, orders of the dates, options, hash orders and both balance-check modes", "the added postings depend on every rule and every posting together; the tests have one rule over a few transactions",
  "src/models/mod.rs: ParsedLedger::to_ledger", "src/models/transaction.rs: Transaction::balance", "src/filter.rs: preprocess_query", "src/parser/value_expr.rs: eval_expression", "src/commands/balance.rs: execute", "src/commands/register.rs: execute")
p("C85", "Words for accounts, payees and tags select exactly the postings they describe",
  "Take a journal as in C83 (dated transactions, balances, open amounts) that is in order. A word of the command line asks for the postings to the accounts it matches, a word beginning with @ for those made with a payee whose name it matches (the part after | in the header, otherwise the description; a declared alias counts as the payee), a word beginning with % for those with a tag whose name it matches; two words are joined by and, by or, or by nothing, which means or. A posting has the tags in the comments of its transaction and in its own; a posting whose amount is left open has those of its transaction only. The tags in a comment are the names between colons at its end (:a:b:), or the name before its only colon (name: value). balance (flat and tree, also cut to a depth) adds up and register lists exactly the lines of the postings asked for, in the period asked for, row by row and in total; a journal that is not in order makes every command end with status 1.",
  "all texts of such journals, words, regular expressions, periods, --real, depths, hash orders and both balance-check modes", "which postings are selected depends on names, aliases, comments and patterns together; the tests ask a few words of one file",
  "src/filter.rs: preprocess_query, filter", "src/parser/value_expr.rs: eval", "src/models/comment.rs: Comment::get_tags", "src/models/mod.rs: ParsedLedger::to_ledger", "src/commands/balance.rs: execute", "src/commands/register.rs: execute")
p("C86", "The reports of one file agree with each other",
  "For every file, query, period and --real, without --exchange, whenever the commands succeed: the last running total of register is, commodity by commodity, what the rows of balance --flat add up to and what the total line shows; the lines of register for an account add up to its row; a row of the tree is what the flat rows of the account and of its sub-accounts add up to, and the rows of the first level add up to the total (accounts whose names begin with a colon excepted); a row of a flat report with --depth is what the uncut rows it stands for add up to; and if a period is divided at a day, the balances of the two parts add up to those of the whole, account by account, and the register of the whole is that of the first part followed by that of the second, with running totals that go on where the first one ends.",
  "all files, queries, periods, days at which they are divided, depths, hash orders", "relates several runs of the program to each other over arbitrary journals; a test compares one run with one expected output",
  "src/commands/balance.rs: execute", "src/commands/register.rs: execute", "src/filter.rs: filter", "src/models/balance.rs: Balance")
p("C87", "The lists of accounts, payees, commodities and prices say what the journal mentions",
  "accounts prints, each on a line of its own and in ascending order, the accounts that directives declare and, of the account names in use that no directive knows by name or alias in any letter case, one spelling each, and nothing else; so does commodities for a journal without rules (with rules none is missing). payees does the same, except that a name that an alias pattern of a declared payee matches needs no line of its own. For the journals of C73, prices prints a line for each price the journal states: those of the price directives, those paid in the order of the file, and those of the transactions that exchange one commodity for another by date, each with its day, commodity and unit price to the second decimal.",
  "all files, directives, spellings, alias patterns, hash orders", "which names are in use depends on every posting, cost, price and directive of the journal and on their letter case; the tests look for a few names of one file",
  "src/commands/accounts.rs: execute", "src/commands/payees.rs: execute", "src/commands/commodities.rs: execute", "src/commands/prices.rs: execute", "src/models/mod.rs: ParsedLedger::to_ledger")
p("C88", "The order and the division of a journal do not matter for its balances",
  "Take journals without rules and without stated balances or expressions, with the same directives for accounts and commodities. If two files have the same transactions in another order, check accepts both or neither; balance --flat then prints the same rows with the same amounts and the same total for both, and register the same lines (account and amount) with the same last running total. If the transactions of a file are those of two others together, in any order, check accepts it exactly if it accepts both of them; a row of balance --flat is then the sum of the rows of the two, an account has a row exactly if that sum is not zero in every commodity, a row of the tree is the sum over the account and its sub-accounts, the total is the sum of all rows, and register has the lines of both, with the sum of their last running totals. So adding transactions to a journal changes its balances by what they say and by nothing else.",
  "all such files, orders and divisions of their transactions, queries for accounts, periods, --real, depths, hash orders", "relates runs on different files with arbitrary permutations of arbitrary transactions; a test has one file in one order",
  "src/models/mod.rs: ParsedLedger::to_ledger", "src/commands/balance.rs: execute", "src/commands/register.rs: execute", "src/models/transaction.rs: Transaction::balance")
p("C89", "Remarks change no report",
  "Take two files that can be read and that say the same but for: comment lines of the journal; comments of transactions and postings that contain no colon (so no tag); blank lines and blanks, the status mark and the code of a transaction, its effective date; the note, isin, check, assert and default lines of accounts, the note, format and default lines of commodities; tag directives. Then balance, register, accounts, payees, commodities and prices print the same for both files, character by character, or fail in the same way, with every query, period, depth, conversion and set of automated transactions that does not ask for notes (if the comments of transactions are the same, also with those that do), and check accepts both or neither, with the same exit status.",
  "all such pairs of files, commands, options, automated transactions, hash orders", "relates runs on two arbitrary files; a test has one file and one expected output, and would need every place where a remark can be written",
  "src/parser/mod.rs: Tokenizer::tokenize", "src/models/mod.rs: ParsedLedger::to_ledger", "src/models/comment.rs: Comment::get_tags", "src/models/transaction.rs: Transaction::balance", "src/parser/value_expr.rs: eval", "src/commands/balance.rs: execute", "src/commands/register.rs: execute")
p("C90", "A declared account or commodity may be called by any of its names",
  "Take two files that can be read, with the same directives for accounts, commodities and payees, and the same contents but for the names that postings (also of automated transactions), costs, stated balances and price directives use for accounts and commodities. If every such name in the first file is the name or an alias, in whatever letter case, of a directive, and the name in the same place of the second file is a name of the same directive, then every command but check prints the same for both files, character by character, or fails in the same way, with every option, and check accepts both or neither with the same exit status. The one exception are account names that end in unknown, which both files have to use in the same places. The same holds if only the accounts, or only the commodities, are called by other names.",
  "all such pairs of files, names, aliases, letter cases, commands, options, rules, hash orders", "relates runs on two files that differ in arbitrarily many places; a test checks that one alias of one account is found",
  "src/models/mod.rs: ParsedLedger::to_ledger", "src/list.rs: List::get", "src/models/account.rs: Account", "src/models/currency.rs: Currency")
p("C91", "Queries combine like the sets of postings they ask for",
  "Take any readable file (with rules, stated balances, conversion, or not) and queries of no, one or two words, each word asking by account, payee or tag. Two queries that ask for the same postings give the same output for every command, so the order of two words and repeating a word do not matter, and two words that are joined by nothing are joined by or. For any two queries, what flat balance reports without conversion show for any accounts and commodity under the query for either and under the query for both add up to what they show under the two queries; the registers of either and both have together exactly the lines (account and amount) of the two registers, and their last running totals add up alike. A query that asks for no more than another leaves out lines of the register and neither changes nor reorders those that remain.",
  "all files, words, periods, depths, --real, hash orders", "relates up to four runs with different queries on an arbitrary file; a test looks at one query",
  "src/filter.rs: preprocess_query", "src/filter.rs: filter", "src/parser/value_expr.rs: eval", "src/commands/balance.rs: execute", "src/commands/register.rs: execute")
p("C92", "A condition selects exactly the postings it is true of",
  "A query of the form expr (condition), with any well-written condition on amount, account, payee, note, date and tags, makes register list, and balance add up, exactly those postings of the period and kind asked for of which the condition is true, in ledger order; no report is made unless the condition is true or false of each of them. The reports of a condition and of its opposite add up to the report without a query, and those of two conditions to the reports of their disjunction and conjunction (as lines, as last running totals and as rows of flat balance reports); so any number of things can be asked for in one nested condition, where words on the command line stop at two. date >= to_date('D') prints, for every command, the same as --begin D, date < to_date('D') the same as --end D, and both together as both options; one or two words print the same as the condition account =~, payee =~ or has_tag they stand for.",
  "all files, conditions, options, dates, hash orders", "ranges over all conditions, which are arbitrarily nested, and relates several runs on an arbitrary file; tests have a handful of conditions on one file",
  "src/filter.rs: preprocess_query", "src/filter.rs: filter", "src/parser/value_expr.rs: eval", "src/commands/balance.rs: execute", "src/commands/register.rs: execute", "src/app.rs: date_parser")
p("C93", "A report for a period is the report of the journal of that period",
  "For a journal of plain transactions that check accepts, the file with the same directives and only the transactions of a period, in any order, is accepted too, and prints without a period what the whole file prints with --begin and --end: balance has the same rows with the same amounts and the same total (at any depth, and as a tree), register has the same lines and the same last running total, for every list of words asked for. So a ledger kept in one file per year can be read as one file, and the other way round.",
  "all pairs of files related in this way, periods, accounts asked for, depths, hash orders", "relates the outputs of two runs on two arbitrary files; tests compare a run with a fixed text",
  "src/filter.rs: filter", "src/commands/balance.rs: execute", "src/commands/register.rs: execute", "src/app.rs: execute_command")
p("C94", "Reports depend only on the transactions and on what their names stand for",
  "If two files have the same transactions and rules, and every account, commodity, payee and description used in them or in the query stands for the same thing in both, then check gives the same verdict on both, register prints the same text, and balance prints the same text, flat or as a tree, for every query, period and depth. Price lines, notes, declarations that nothing uses, further aliases, and the order of the declarations therefore change no such report. With --exchange to a commodity that is posted, balance prints the same text when the price lines are the same too. (A name written in two letter cases must be declared, in both files; without that the claim fails, and a case shows it.)",
  "all pairs of files related in this way, with rules or without, all queries, options, hash orders", "relates the outputs of two runs on two arbitrary files; tests compare a run with a fixed text",
  "src/models/mod.rs: ParsedLedger::to_ledger", "src/list.rs: List::get, List::insert", "src/commands/balance.rs: execute", "src/commands/register.rs: execute", "src/filter.rs: filter", "src/parser/value_expr.rs: eval")
p("C95", "The same journal in other units",
  "Choose a positive factor for each commodity (cents for euros, a share split) and rewrite a journal without rules, assertions and expressions in the new units: each amount and each total cost is multiplied by the factor of its commodity, and each unit price by the factor of the commodity it is in, divided by the factor of what is bought. Then check gives the same verdict; balance has the same rows and a total in the same cases, and each amount shown is multiplied by the factor of its commodity, flat or as a tree, for every period, query and depth; register has the same lines with the amounts multiplied in the same way (up to the order of lines that hashing leaves open), and so is its last running total. With --exchange, and with the price lines rewritten like unit prices, balance shows for each account the amounts it is worth at rates of the old journal, multiplied by the factor of the commodity they are shown in.",
  "all such journals, all positive factors, all queries over accounts, periods, depths and hash orders", "relates the outputs of two runs on two arbitrary files for all factors; a test compares a run with a fixed text",
  "src/models/transaction.rs: Transaction::balance", "src/models/balance.rs: Balance", "src/models/money.rs: Money", "src/models/mod.rs: ParsedLedger::to_ledger", "src/commands/balance.rs: execute", "src/commands/register.rs: execute")
p("C96", "Numbers of elements, aliases, levels and postings left out",
  "The length of a list of accounts, commodities or payees is the number of different names that were inserted, up to letter case; aliases do not change it, and the length with aliases is larger by the number of different aliases that stand for something. Merging two lists counts a name they share once, so the length of a journal with an included one is the number of different names of each kind, and of all transactions, price lines and comments (the tags of the included journal are not counted: they are dropped). The depth of an account is the number of parts of its name. The number of empty postings of a transaction is the number of postings with neither amount nor balance; if balancing accepts the transaction, at most one of them is real, and afterwards exactly the virtual ones are left.",
  "all histories of insertions and aliases, all lists that can be built, all names, all transactions and running balances", "tests count a few literals; the claim is about every history of a list and every transaction",
  "src/list.rs: List::len, List::len_alias, List::append", "src/parser/mod.rs: ParsedLedger::len, ParsedLedger::append", "src/models/account.rs: Account::depth", "src/models/transaction.rs: Transaction::num_empty_postings, Transaction::balance")
p("C97", "The same bookings to other accounts",
  "Take two journals (stated balances allowed) that differ only in this: what the first books to an account the second books to another, given by a function of the account; amounts, costs, kinds of postings, stated balances and dates are the same, in the same order. Payees and notes may differ. If no two accounts become one, or if no balance is stated, then check accepts the second exactly if it accepts the first. If so, each row of the flat balance of the second shows the sum of the rows of the accounts that became it, there is a row for every such sum that is not zero, and the total is the same; if no two accounts become one, the two reports have the same rows up to names and order. The tree of the second shows at each account the sum over the accounts now inside it. The register of the second has the lines of the first with the accounts renamed. The queries may differ, as long as they ask for corresponding accounts.",
  "all pairs of such journals, functions on account names (also ones that merge accounts), queries, periods, --real, both balance-check modes and hash orders", "the claim relates two whole journals under an arbitrary renaming; tests have single journals",
  "src/models/mod.rs: ParsedLedger::to_ledger", "src/models/transaction.rs: Transaction::balance", "src/commands/balance.rs: execute", "src/commands/register.rs: execute", "src/commands/check.rs: execute")
p("C98", "A journal can be cut at a day, and balances carried forward",
  "For journals with stated balances. (1) If check accepts a journal it accepts the journal without the transactions from some day on. The flat balance of that shorter journal has the rows and the total that the whole journal shows with --end for that day, and the register shows the lines of the same transactions. (2) Let a second journal have other transactions instead of those before a day, after which the accounts hold the same in real postings. Then check accepts the second exactly if it accepts the first; the flat balance for a period that begins on that day or later is the same, and so is the flat balance of real postings over everything. (3) Let a transaction be added at the end that moves nothing and states what an account holds. It is accepted exactly if the stated amount is what balance --flat --real shows for that account.",
  "all such journals (in any order of dates in the file), days, opening transactions, queries, depths and periods as stated, both balance-check modes and hash orders", "the claims relate whole journals to parts of them and to each other at every cut; tests have single journals",
  "src/models/mod.rs: ParsedLedger::to_ledger", "src/models/transaction.rs: Transaction::balance", "src/filter.rs: filter, filter_predicate", "src/commands/balance.rs: execute", "src/commands/register.rs: execute", "src/commands/check.rs: execute")
p("C99", "What automated transactions leave alone, and what they add",
  "Compare a journal with automated transactions with the same journal without them. (1) If check accepts the first it accepts the second. (2) If no posting of a rule is among what a flat balance report asks for (other accounts are asked for, or the postings are virtual and --real is given), the report with the rules has the same rows and total as without them. (3) If all postings of rules are in parentheses, check accepts either both or neither, and a flat balance with --real is the same. (4) If the postings of the rules are numbers without commodity, every account shown with the rules has what it has without them, plus for each rule the sum of its numbers for that account times what the accounts the rule is for hold without rules.",
  "all journals with automated transactions as in C84, both balance-check modes, queries, periods, depths for (2) and (3), and hash orders", "the claims relate the reports of two whole journals for every set of rules and every query; a test has single examples",
  "src/models/mod.rs: ParsedLedger::to_ledger", "src/models/transaction.rs: Transaction::balance", "src/filter.rs: filter, filter_predicate", "src/commands/balance.rs: execute", "src/commands/check.rs: execute")
p("C100", "The order and the division of a journal with automated transactions do not matter for its balances",
  "For journals with automated transactions as in C84. If two files have the same transactions and the same rules, each in any order, and no posting states a balance, check accepts both or neither; whenever the flat balance report is made for both, stated balances or not, it has the same rows, amounts and total. If the transactions of a file are those of two others together and each of the three has all the rules (in any order), then without stated balances check accepts the file exactly if it accepts both others; whenever the flat reports of the three are made, the one of the file is the sum of the other two: an account has a row exactly if the sum is not nothing.",
  "all such files, orders of transactions and of rules, divisions, queries for accounts, periods, --real, depths, both balance-check modes, hash orders", "the claim relates the reports of whole files for every rearrangement and division, with rules applied anew in each; tests have fixed files",
  "src/models/mod.rs: ParsedLedger::to_ledger", "src/models/transaction.rs: Transaction::balance", "src/filter.rs: filter, filter_predicate", "src/commands/balance.rs: execute", "src/commands/check.rs: execute")
p("C101", "A booking and its reversal cancel",
  "For the journals of C73. Take transactions of the journal and add, on any days, transactions that have the same postings with the opposite amounts (prices and total costs written the same, open amounts left open). Then check accepts the longer journal exactly if it accepts the shorter one (bookings with a bracketed posting that has a price for each unit excepted). If it is accepted, the flat balance report is the same as that of the journal without both, row by row and in total, if the period asked for has both or neither of each pair; the tree shows for each account what the flat report without both adds up to below it; the register has, besides the lines without both, lines each of which has a counterpart with the opposite amount, and ends with the same running total.",
  "all such journals, any number of bookings and reversals at any places, queries for accounts, periods, --real, depths, hash orders", "the claim relates the reports of any two files that differ by such pairs; tests have fixed files",
  "src/models/transaction.rs: Transaction::balance", "src/models/balance.rs: Balance", "src/commands/balance.rs: execute", "src/commands/register.rs: execute", "src/commands/check.rs: execute")
p("C102", "A transaction may be written in several ways",
  "For the journals of C73. Write transactions in another way: the postings in another order; a posting divided into two to the same account (without a cost, or outside brackets at the same price for each unit), or two put together; the amount that is left open written out, or one that makes the transaction balance left open; an account or a commodity by another of its names, a total cost for a price for each unit that comes to the same, other payees, codes and comments; and the transactions in another order. Then check accepts the one journal exactly if it accepts the other. If so, the flat balance report is the same, row by row and in total; the tree of the one shows for each account what the flat report of the other adds up to below it; and the lines of the register add up to the same amounts for each account, and end with the same running total.",
  "all such journals, any number of such changes in any of the transactions, queries for accounts, periods, --real, depths, hash orders", "the claim relates the reports of any two files that say the same thing in different ways; tests have fixed files",
  "src/models/transaction.rs: Transaction::balance", "src/models/balance.rs: Balance", "src/parser/tokenizers/transaction.rs: parse_posting", "src/commands/balance.rs: execute", "src/commands/register.rs: execute", "src/commands/check.rs: execute")
p("C103", "Stated balances are checks and nothing else",
  "For the journals of C83. Take a journal and leave out balances that postings state beside their amounts, or write out the amount where a posting states only a balance (keeping the balance or not). Then check accepts the second journal if it accepts the first, and if the balances left out are true in the reading of C83, the other way round: so a true balance may be added anywhere, and leaving balances out never makes a journal refused. If the first is accepted (or the second, when those left out are true), the flat balance report is the same for both, row by row and in total; the tree of the second shows for each account what the flat report of the first adds up to below it; the lines of the register add up to the same amounts for each account and end with the same running total. With --no-balance-check the same holds for leaving out balances beside amounts, whether they are true or not.",
  "all such journals, any number of balances left out or written out, queries for accounts, periods, --real, depths, both balance-check modes, hash orders", "the claim relates the reports of any two files that differ by stated balances; whether a balance is true depends on everything before it; tests have fixed files",
  "src/models/transaction.rs: Transaction::balance", "src/models/mod.rs: ParsedLedger::to_ledger", "src/models/balance.rs: Balance::can_be_zero", "src/commands/balance.rs: execute", "src/commands/register.rs: execute", "src/commands/check.rs: execute")
p("C104", "Virtual postings do not touch what --real shows",
  "For the journals of C83. Leave out all postings in parentheses and brackets, and possibly the transactions that have no others. Then check accepts the journal exactly if it accepts what is left and the bracketed postings of every transaction cancel or exchange one commodity for another. With --real, if the journal is accepted, the flat balance report is the same for both, row by row and in total; the tree of what is left shows for each account what the flat report of the journal adds up to below it; the lines of the register add up to the same amounts for each account and end with the same running total. So virtual postings change neither the open amounts nor the stated balances of real ones.",
  "all such journals, any number of virtual postings anywhere among the real ones, queries for accounts, periods, depths, both balance-check modes, hash orders", "the claim relates the reports of any two files that differ by virtual postings; tests have fixed files",
  "src/models/transaction.rs: Transaction::balance", "src/models/mod.rs: ParsedLedger::to_ledger", "src/filter.rs: filter", "src/commands/balance.rs: execute", "src/commands/register.rs: execute", "src/commands/check.rs: execute")
p("C105", "What --no-balance-check changes",
  "If no real posting of a journal states a balance, every command gives exactly the same result with and without --no-balance-check, whether the journal is accepted or refused, with automated transactions or not. If balances are stated only beside amounts, every output that is given with the check is given, line by line, without it. For the journals of C83 with postings that state a balance only: if each such posting is the only one in its transaction, no amount is left open there and the real postings cancel (without exchanging commodities), then a journal accepted with the check is accepted without it, the flat balance report is the same row by row and in total, the tree without the check shows for every account what the flat report with the check shows for the accounts inside it, and the lines of the register add up to the same amounts for each account and end with the same running total. The option does not only accept more: there is a journal, with a posting that states only a balance beside one whose amount is left open, that is accepted with the check and refused without.",
  "all readable files, commands and options for the first two statements; all journals of C83, queries for accounts, periods, --real and depths for the third; hash orders", "the claim relates two runs on any file; what a balance stands for depends on everything before it; tests have fixed files",
  "src/app.rs: --no-balance-check", "src/models/transaction.rs: Transaction::balance", "src/models/mod.rs: ParsedLedger::to_ledger", "src/commands/balance.rs: execute", "src/commands/register.rs: execute")
p("C106", "Options that change nothing",
  "For every readable file, with automated transactions or not: if all its transactions are in the period given by --begin and --end, every command gives exactly the same result, output or refusal, as without the period. If none of its postings, also of automated transactions, is virtual, every command gives the same result with and without --real. If no account it declares or mentions has more than d levels, the balance report with --depth d is the same as without, as a tree also in another currency, and as a flat list without --exchange (d at least 1, account names not empty).",
  "all readable files, commands, queries and other options; periods, depths and hash orders", "the claim relates two runs on any file; a boundary off by one day or level is seen only by a file that has a transaction or account there",
  "src/filter.rs: filter", "src/commands/balance.rs: execute", "src/commands/register.rs: execute", "src/models/mod.rs: ParsedLedger::to_ledger", "src/models/transaction.rs: Transaction::balance")
p("C107", "A report in the commodity everything is in",
  "For every readable file, with automated transactions or not, whose amounts, costs and stated balances are all in one commodity: the balance report asked for in that commodity, by its name or an alias the file uses, is exactly the report without --exchange, tree or flat, for any query, period and depth, whatever prices the file gives. The one exception is a file with a price of zero, which may end the command with a division by zero. A commodity that a file without automated transactions does not know, in a query that names no commodity, gives the report without --exchange too, in any commodities. For every file, all the other commands give the same result with and without --exchange.",
  "all readable files in one commodity, all prices, options, queries and hash orders; for the other commands all files", "the claim relates two runs on any file with any prices; a conversion that touches the target commodity itself shows only where prices form a way back to it",
  "src/commands/balance.rs: execute, convert_balance", "src/models/price.rs: conversion", "src/commands/register.rs: execute", "src/models/mod.rs: ParsedLedger::to_ledger")
p("C108", "Price lines that say nothing new",
  "Let price lines be added after those of a readable file, between commodities the file already names. If each added line is for a day after today, or is not newer than a line of the file, not after today, for the same two commodities in either direction, then check accepts the file exactly as before, and every command but prices gives exactly the same result, output or refusal, in any commodity, for every query and option, with automated transactions or not. In particular this holds for a journal written as in C67 and for the same text with such price lines written after it.",
  "all readable files, added price lines, commands but prices, options and hash orders", "the claim relates two runs over any list of prices; a wrong tie or a wrong day shows only when two prices of a pair fall on it",
  "src/models/price.rs: conversion, Graph::from_prices", "src/models/mod.rs: ParsedLedger::to_ledger", "src/commands/balance.rs: execute")
p("C109", "The day and the terminal",
  "For every file and all options, whatever is in the file: run on another day, with dates such as \"yesterday\" in the query or the options standing for the same days, every command gives exactly the same output or refusal, except the balance report with --exchange. On another terminal, or on none, every command but register gives exactly the same output or refusal, with --exchange too. register ends with the same exit status on any day and terminal.",
  "all files and trees of includes, readable or not, all commands, options, days, terminal widths and hash orders", "no test runs the same file on every day; a use of the clock anywhere on the way from the text to the report would show only on some days",
  "src/commands/balance.rs: execute", "src/commands/register.rs: execute", "src/parser/mod.rs: Tokenizer::tokenize", "src/models/mod.rs: ParsedLedger::to_ledger")
p("C110", "Files that are not needed",
  "If a journal can be read, with all it includes, when only some files are readable, then it is read the same and every command gives exactly the same output or refusal, for all options, whatever the contents of all other files, as long as the include patterns name the same paths. The same holds for a command that ends with an error: only a panic can be due to an unreadable file. So two collections of files that agree on the files needed cannot be told apart.",
  "all files and trees of includes, all contents of the other files, commands, options and hash orders", "the claim is about every content of every other file, and about trees of includes of any shape",
  "src/parser/include.rs: parse", "src/parser/mod.rs: Tokenizer::tokenize", "src/app.rs: run_app")
