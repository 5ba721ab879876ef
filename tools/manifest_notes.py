NOTES = {
'C07': ('partial', 'True for a non-zero integer part or an amount that is not negative and not carried; the sign is lost for -1 < amount < 0 and invented when a carry starts from an integer part of zero, both refuted with witnesses; C07_display_exact characterises the printed text in all cases.'),
'C18': ('partial', 'The last sentence (same valuation at cost) is false for a negative amount at a per-unit cost (C18_same_valuation_refuted); C18_same_valuation_partial proves it otherwise. The rest is proved in full.'),
'C08': ('partial', 'Literals of any length are read exactly (C08_amounts_exact, C08_grammar_numbers_exact), two points are rejected, and only literals are accepted except texts of the form .-digits, which are accepted and misread (C08_minus_after_point_refuted); the converse is therefore C08_only_literals_partial.'),
'C24': ('partial', 'First answers are correct and the cache is transparent as long as nothing is inserted; a negative answer is remembered across an insertion that makes it wrong (C24_cache_goes_stale_refuted), a positive one survives (C24_found_stays_found_partial).'),
'C32': ('partial', 'Without automated transactions the prices recorded are exactly as claimed (C32_exchange_rates_partial). With automated transactions every transaction is balanced twice and the price is recorded twice (C32_with_rules, C32_recorded_once_refuted).'),
'C38': ('partial', 'False in general: two chains of the same length in time give different rates in different hash orders (C38_deterministic_refuted). Proved when the usable prices are consistent with one value per commodity (C38_consistent_prices_partial); in general the possible results depend only on the usable prices (C33_only_latest).'),
'C45': ('partial', 'Flags (C45_flags) and comments without colon (C45_no_colon_no_tags) in full; name and value are kept when the value contains no colon (C45_name_value_partial); a value with a colon makes the tag disappear (C45_value_with_colon_lost, C45_colon_in_value_refuted).'),
'C41': ('partial', 'The translation to the text of the query is proved in full for every list of terms (C41_every_query, C41_translation, C41_translation_unique, C41_no_terms_no_filter, C41_filter_is_translation). The effect of the query is proved for one term and for two terms (C41_one_term, C41_two_terms); from the third term on, terms joined in the same way are ignored because chains drop operands (C41_two_terms_decide, C41_third_term_refuted).'),
'C42': ('partial', 'False: only the first two operands of a chain are used (C42_only_the_first_two, for every length; C42_all_operands_refuted) and a chain of three factors aborts (C42_long_product_aborts). With two operands both are used (C42_two_operands_partial).'),
'C46': ('partial', 'Proved for all expressions except a bare number just before the words and/or, which is read as money (C46_number_before_and_refuted), and the operators != and !, which abort (C46_not_equal_refuted, C46_bang_refuted).'),
'C47': ('partial', 'Proved for all texts that end with a newline or have no automated transaction, and have no indented comment under a tag directive (C47_reading_ends_partial). On the excluded texts the program can loop forever (C47_automated_at_the_end_refuted, C47_tag_comment_refuted), and every file in which something readable is followed by a tag directive with an indented comment does (C47_tag_comment_never_ends).'),
'C48': ('partial', 'Proved for all texts that end with a newline or have no automated transaction (C48_positions_partial); otherwise the line number can be off (C48_line_number_refuted).'),
'C50': ('partial', 'Proved up to an abort when the last line is an account name alone (C50_newline_removed_partial, C50_account_at_the_end_refuted, C50_account_without_newline), for texts without automated transactions and without unclosed parentheses in amounts; the other direction without the abort (C50_newline_added_partial).'),
'C51': ('partial', 'Proved except for lines that are an account name followed by exactly one blank, and unclosed parentheses (C51_posting_line_partial); both of these swallow the next line (C51_trailing_blank_refuted, C51_open_parenthesis_refuted).'),
'C52': ('partial', 'Proved for names that begin with an ASCII character and for virtual accounts with any name (C52_account_alone_partial, C52_account_and_amount_partial); every real account beginning with any other character makes the program abort (C52_not_ascii_refuted).'),
'C53': ('partial', 'Proved for all times before 20:00:00 (C53_times_ignored_partial); every price with an hour from 20 to 23 is refused (C53_evening_refuted).'),
'C54': ('partial', 'Proved when the texts between include lines begin at the left margin and do not end in a blank before the final newline (C54_inlining_partial); with such a blank the result differs (C54_trailing_blank_refuted). Every report is the same when moreover nothing is declared in two of the texts (C54_reports_partial); with an account declared in two files they differ (C54_declared_twice_refuted).'),

'C55': ('partial', 'Proved for all accounts whose name does not begin with a colon, at the level of the computed amounts (C55_tree_amounts_partial) and of the printed rows (C55_tree_rows_partial); an account beginning with a colon is not given the amounts of its sub-accounts (C55_leading_colon_refuted).'),
'C56': ('partial', 'Every flat report that is printed is as claimed (C56_flat_rows_partial), and one is printed for every depth of at least one without names beginning with a colon (C56_depth_succeeds_partial); depth zero stops the program (C56_depth_zero_refuted).'),
'C61': ('partial', 'False: collapsing prints an account in the row of its parent or of an unrelated account, with the amount of the latter (C61_own_amount_refuted, C61_unrelated_account_refuted). Proved: every account is named in some row (C61_every_account_named_partial), and has its own row when every listed parent has two listed children and no name has a character below the colon (C61_own_rows_partial). In general the rows are exactly those that C61_layout describes, for which there is one possibility only (C61_layout_unique).'),
'C75': ('partial', 'The file and the line are right for all files that end with a newline or have no automated transaction (C75_place_partial), and the message shows the line (C75_message, C75_message_at_end); the first bad line is named and shown exactly (C75_bad_line_named, C75_bad_line_shown). False on the first line of a file: no line is shown, and a build with overflow checks aborts (C75_first_line_refuted); the column can be that of the beginning of the line (C75_column_refuted).'),
'C79': ('partial', 'False: amounts of several commodities in one line come in either order, the rate of an exchange is listed in either direction, and of two accounts that differ in letter case only either one is listed (C79_same_text_refuted); with prices that contradict each other even the converted amounts differ (C79_exchange_refuted). Proved for journals with clear names, without rules or with rules and settled (no posting without an amount has to be filled in several commodities), any() queries for settled journals only: accepted or refused alike, with the same ledger up to those orders (C79_ledger_partial); the lists and check print the same text (C79_lists_partial); balance and register have the same rows with the same amounts (C79_balance_partial, also converted when the prices agree with one value of each commodity and the currency asked for is in use or the journal settled, C79_register_partial for settled journals with any query, C79_register_open_partial else, up to the order of the lines of one transaction), and so have the texts balance and register print (C79_printed_partial); with one commodity, rules included, every command prints the same text (C79_one_commodity_partial). Missing: for transactions filled in several commodities, rules and any().'),
'C82': ('partial', 'False for one amount: a zero without a commodity (an assigned balance that is already there) is printed red in the register (C82_zero_red_refuted). Proved otherwise: no character changes (C82_same_text), balance (C82_balance), register with that exception stated exactly (C82_register) and without it for rows that have no such amount (C82_register_partial), check (C82_check) and the lists (C82_lists).'),
}
