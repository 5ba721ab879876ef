{
 "claims": [
  {
   "property": "C01",
   "status": "proved",
   "theorems": [
    "C01_operations_exact",
    "C01_money_operations_exact",
    "C01_commutative_associative",
    "C01_subtract_self",
    "C01_never_aborts"
   ],
   "note": ""
  },
  {
   "property": "C02",
   "status": "proved",
   "theorems": [
    "C02_sum_has_no_zero_no_duplicate",
    "C02_sum_independent_of_hash_order"
   ],
   "note": ""
  },
  {
   "property": "C03",
   "status": "proved",
   "theorems": [
    "C03_is_zero",
    "C03_can_be_zero"
   ],
   "note": ""
  },
  {
   "property": "C04",
   "status": "proved",
   "theorems": [
    "C04_to_money_single",
    "C04_to_money_several"
   ],
   "note": ""
  },
  {
   "property": "C05",
   "status": "proved",
   "theorems": [
    "C05_assertion_comparison",
    "C05_reflexive",
    "C05_bare_zero_equals_everything",
    "C05_not_symmetric_refuted",
    "C05_decides"
   ],
   "note": ""
  },
  {
   "property": "C06",
   "status": "proved",
   "theorems": [
    "C06_ordering",
    "C06_total_order",
    "C06_equality",
    "C06_equality_decides",
    "C06_not_transitive_refuted"
   ],
   "note": ""
  },
  {
   "property": "C07",
   "status": "partial",
   "theorems": [
    "C07_display_exact",
    "C07_display_partial",
    "C07_sign_lost_refuted",
    "C07_sign_invented_refuted",
    "C07_precision_zero_refuted",
    "C07_large_precision_overflows"
   ],
   "note": "True for a non-zero integer part or an amount that is not negative and not carried; the sign is lost for -1 < amount < 0 and invented when a carry starts from an integer part of zero, both refuted with witnesses; C07_display_exact characterises the printed text in all cases."
  },
  {
   "property": "C08",
   "status": "partial",
   "theorems": [
    "C08_amounts_exact",
    "C08_only_literals_partial",
    "C08_two_points_rejected",
    "C08_grammar_numbers_read",
    "C08_grammar_numbers_exact",
    "C08_grammar_accepts_only_literals",
    "C08_minus_after_point_refuted"
   ],
   "note": "Literals of any length are read exactly (C08_amounts_exact, C08_grammar_numbers_exact), two points are rejected, and only literals are accepted except texts of the form .-digits, which are accepted and misread (C08_minus_after_point_refuted); the converse is therefore C08_only_literals_partial."
  },
  {
   "property": "C10",
   "status": "proved",
   "theorems": [
    "C10_ledger",
    "C10_accepted_balances",
    "C10_as_written"
   ],
   "note": ""
  },
  {
   "property": "C11",
   "status": "proved",
   "theorems": [
    "C11_elided_filled"
   ],
   "note": ""
  },
  {
   "property": "C12",
   "status": "proved",
   "theorems": [
    "C12_verdict",
    "C12_always_a_verdict",
    "C12_never_aborts"
   ],
   "note": ""
  },
  {
   "property": "C13",
   "status": "proved",
   "theorems": [
    "C13_nothing_altered"
   ],
   "note": ""
  },
  {
   "property": "C14",
   "status": "proved",
   "theorems": [
    "C14_ledger",
    "C14_assertions_enforced",
    "C14_unchecked_assertions_are_ignored"
   ],
   "note": ""
  },
  {
   "property": "C15",
   "status": "proved",
   "theorems": [
    "C15_assignment",
    "C15_several_commodities_rejected"
   ],
   "note": ""
  },
  {
   "property": "C16",
   "status": "proved",
   "theorems": [
    "C16_one_transaction",
    "C16_running_balances"
   ],
   "note": ""
  },
  {
   "property": "C17",
   "status": "proved",
   "theorems": [
    "C17_idempotent"
   ],
   "note": ""
  },
  {
   "property": "C18",
   "status": "partial",
   "theorems": [
    "C18_bracketed_postings_must_balance",
    "C18_parenthesised_postings_are_irrelevant",
    "C18_same_valuation_partial",
    "C18_same_valuation_refuted"
   ],
   "note": "The last sentence (same valuation at cost) is false for a negative amount at a per-unit cost (C18_same_valuation_refuted); C18_same_valuation_partial proves it otherwise. The rest is proved in full."
  },
  {
   "property": "C19",
   "status": "proved",
   "theorems": [
    "C19_ledger",
    "C19_written",
    "C19_report",
    "C19_double_entry"
   ],
   "note": ""
  },
  {
   "property": "C21",
   "status": "proved",
   "theorems": [
    "C21_names_first",
    "C21_then_aliases",
    "C21_otherwise_not_found",
    "C21_other_lookups_unaffected",
    "C21_second_definition_ignored"
   ],
   "note": ""
  },
  {
   "property": "C22",
   "status": "proved",
   "theorems": [
    "C22_lookup_total",
    "C22_regex_lookup_total"
   ],
   "note": ""
  },
  {
   "property": "C23",
   "status": "proved",
   "theorems": [
    "C23_merged_in_wins",
    "C23_rest_unchanged",
    "C23_elements"
   ],
   "note": ""
  },
  {
   "property": "C24",
   "status": "partial",
   "theorems": [
    "C24_first_answer",
    "C24_cache_transparent_between_insertions",
    "C24_found_stays_found_partial",
    "C24_cache_goes_stale_refuted"
   ],
   "note": "First answers are correct and the cache is transparent as long as nothing is inserted; a negative answer is remembered across an insertion that makes it wrong (C24_cache_goes_stale_refuted), a positive one survives (C24_found_stays_found_partial)."
  },
  {
   "property": "C25",
   "status": "proved",
   "theorems": [
    "C25_memo_transparent",
    "C25_compiled_patterns",
    "C25_tables_transparent"
   ],
   "note": ""
  },
  {
   "property": "C26",
   "status": "proved",
   "theorems": [
    "C26_date_order"
   ],
   "note": ""
  },
  {
   "property": "C27",
   "status": "proved",
   "theorems": [
    "C27_file_order_irrelevant",
    "C27_transaction_order",
    "C27_shared_dates_matter"
   ],
   "note": ""
  },
  {
   "property": "C28",
   "status": "proved",
   "theorems": [
    "C28_names_resolve",
    "C28_outcomes",
    "C28_outcomes_with_rules",
    "C28_zero_quantity_aborts"
   ],
   "note": ""
  },
  {
   "property": "C29",
   "status": "proved",
   "theorems": [
    "C29_one_identity",
    "C29_directives_kept"
   ],
   "note": ""
  },
  {
   "property": "C30",
   "status": "proved",
   "theorems": [
    "C30_prices"
   ],
   "note": ""
  },
  {
   "property": "C31",
   "status": "proved",
   "theorems": [
    "C31_rules_apply",
    "C31_one_rule",
    "C31_added_not_matched"
   ],
   "note": ""
  },
  {
   "property": "C32",
   "status": "partial",
   "theorems": [
    "C32_exchange_rates_partial",
    "C32_with_rules",
    "C32_recorded_once_refuted"
   ],
   "note": "Without automated transactions the prices recorded are exactly as claimed (C32_exchange_rates_partial). With automated transactions every transaction is balanced twice and the price is recorded twice (C32_with_rules, C32_recorded_once_refuted)."
  },
  {
   "property": "C33",
   "status": "proved",
   "theorems": [
    "C33_later_ignored",
    "C33_only_latest"
   ],
   "note": ""
  },
  {
   "property": "C34",
   "status": "proved",
   "theorems": [
    "C34_chain_of_prices"
   ],
   "note": ""
  },
  {
   "property": "C35",
   "status": "proved",
   "theorems": [
    "C35_convertible_iff_connected",
    "C35_one_rate_each"
   ],
   "note": ""
  },
  {
   "property": "C36",
   "status": "proved",
   "theorems": [
    "C36_shortest_in_time"
   ],
   "note": ""
  },
  {
   "property": "C37",
   "status": "proved",
   "theorems": [
    "C37_outcomes",
    "C37_loop_ends"
   ],
   "note": ""
  },
  {
   "property": "C38",
   "status": "partial",
   "theorems": [
    "C38_deterministic_refuted",
    "C38_consistent_prices_partial"
   ],
   "note": "False in general: two chains of the same length in time give different rates in different hash orders (C38_deterministic_refuted). Proved when the usable prices are consistent with one value per commodity (C38_consistent_prices_partial); in general the possible results depend only on the usable prices (C33_only_latest)."
  },
  {
   "property": "C40",
   "status": "proved",
   "theorems": [
    "C40_filter",
    "C40_decision",
    "C40_report_selection",
    "C40_same_answer_again"
   ],
   "note": ""
  },
  {
   "property": "C41",
   "status": "partial",
   "theorems": [
    "C41_one_term",
    "C41_two_terms_decide",
    "C41_two_terms",
    "C41_third_term_refuted",
    "C41_every_query",
    "C41_translation",
    "C41_translation_unique",
    "C41_no_terms_no_filter",
    "C41_filter_is_translation",
    "C41_rule_translation"
   ],
   "note": "The translation to the text of the query is proved in full for every list of terms (C41_every_query, C41_translation, C41_translation_unique, C41_no_terms_no_filter, C41_filter_is_translation). The effect of the query is proved for one term and for two terms (C41_one_term, C41_two_terms); from the third term on, terms joined in the same way are ignored because chains drop operands (C41_two_terms_decide, C41_third_term_refuted)."
  },
  {
   "property": "C42",
   "status": "partial",
   "theorems": [
    "C42_only_the_first_two",
    "C42_long_product_aborts",
    "C42_two_operands_partial",
    "C42_all_operands_refuted"
   ],
   "note": "False: only the first two operands of a chain are used (C42_only_the_first_two, for every length; C42_all_operands_refuted) and a chain of three factors aborts (C42_long_product_aborts). With two operands both are used (C42_two_operands_partial)."
  },
  {
   "property": "C43",
   "status": "proved",
   "theorems": [
    "C43_well_typed",
    "C43_no_abort",
    "C43_type_unique"
   ],
   "note": ""
  },
  {
   "property": "C44",
   "status": "proved",
   "theorems": [
    "C44_order",
    "C44_trichotomy",
    "C44_different_kinds",
    "C44_different_commodities",
    "C44_logic"
   ],
   "note": ""
  },
  {
   "property": "C45",
   "status": "partial",
   "theorems": [
    "C45_flags",
    "C45_name_value_partial",
    "C45_value_with_colon_lost",
    "C45_colon_in_value_refuted",
    "C45_no_colon_no_tags"
   ],
   "note": "Flags (C45_flags) and comments without colon (C45_no_colon_no_tags) in full; name and value are kept when the value contains no colon (C45_name_value_partial); a value with a colon makes the tag disappear (C45_value_with_colon_lost, C45_colon_in_value_refuted)."
  },
  {
   "property": "C46",
   "status": "partial",
   "theorems": [
    "C46_parsed_as_written_partial",
    "C46_operations_partial",
    "C46_number_before_and_refuted",
    "C46_not_equal_refuted",
    "C46_bang_refuted"
   ],
   "note": "Proved for all expressions except a bare number just before the words and/or, which is read as money (C46_number_before_and_refuted), and the operators != and !, which abort (C46_not_equal_refuted, C46_bang_refuted)."
  },
  {
   "property": "C47",
   "status": "partial",
   "theorems": [
    "C47_tag_comment_never_ends",
    "C47_reading_ends_partial",
    "C47_single_text_partial",
    "C47_automated_at_the_end_refuted",
    "C47_tag_comment_refuted"
   ],
   "note": "Proved for all texts that end with a newline or have no automated transaction, and have no indented comment under a tag directive (C47_reading_ends_partial). On the excluded texts the program can loop forever (C47_automated_at_the_end_refuted, C47_tag_comment_refuted), and every file in which something readable is followed by a tag directive with an indented comment does (C47_tag_comment_never_ends)."
  },
  {
   "property": "C48",
   "status": "partial",
   "theorems": [
    "C48_positions_partial",
    "C48_line_number_refuted"
   ],
   "note": "Proved for all texts that end with a newline or have no automated transaction (C48_positions_partial); otherwise the line number can be off (C48_line_number_refuted)."
  },
  {
   "property": "C49",
   "status": "proved",
   "theorems": [
    "C49_report_true",
    "C49_no_cycle_accepted",
    "C49_cycle_reported",
    "C49_includes_end"
   ],
   "note": ""
  },
  {
   "property": "C50",
   "status": "partial",
   "theorems": [
    "C50_newline_added_partial",
    "C50_newline_removed_partial",
    "C50_account_at_the_end_refuted",
    "C50_account_without_newline"
   ],
   "note": "Proved up to an abort when the last line is an account name alone (C50_newline_removed_partial, C50_account_at_the_end_refuted, C50_account_without_newline), for texts without automated transactions and without unclosed parentheses in amounts; the other direction without the abort (C50_newline_added_partial)."
  },
  {
   "property": "C51",
   "status": "partial",
   "theorems": [
    "C51_posting_line_partial",
    "C51_trailing_blank_refuted",
    "C51_open_parenthesis_refuted"
   ],
   "note": "Proved except for lines that are an account name followed by exactly one blank, and unclosed parentheses (C51_posting_line_partial); both of these swallow the next line (C51_trailing_blank_refuted, C51_open_parenthesis_refuted)."
  },
  {
   "property": "C52",
   "status": "partial",
   "theorems": [
    "C52_account_alone_partial",
    "C52_account_and_amount_partial",
    "C52_not_ascii_refuted"
   ],
   "note": "Proved for names that begin with an ASCII character and for virtual accounts with any name (C52_account_alone_partial, C52_account_and_amount_partial); every real account beginning with any other character makes the program abort (C52_not_ascii_refuted)."
  },
  {
   "property": "C53",
   "status": "partial",
   "theorems": [
    "C53_times_ignored_partial",
    "C53_evening_refuted"
   ],
   "note": "Proved for all times before 20:00:00 (C53_times_ignored_partial); every price with an hour from 20 to 23 is refused (C53_evening_refuted)."
  },
  {
   "property": "C54",
   "status": "partial",
   "theorems": [
    "C54_one_journal_partial",
    "C54_reports_partial",
    "C54_declared_twice_refuted",
    "C54_inlining_partial",
    "C54_included_path",
    "C54_trailing_blank_refuted"
   ],
   "note": "Proved when the texts between include lines begin at the left margin and do not end in a blank before the final newline (C54_inlining_partial); with such a blank the result differs (C54_trailing_blank_refuted). Every report is the same when moreover nothing is declared in two of the texts (C54_reports_partial); with an account declared in two files they differ (C54_declared_twice_refuted)."
  },
  {
   "property": "C55",
   "status": "partial",
   "theorems": [
    "C55_tree_amounts_partial",
    "C55_tree_rows_partial",
    "C55_leading_colon_refuted"
   ],
   "note": "Proved for all accounts whose name does not begin with a colon, at the level of the computed amounts (C55_tree_amounts_partial) and of the printed rows (C55_tree_rows_partial); an account beginning with a colon is not given the amounts of its sub-accounts (C55_leading_colon_refuted)."
  },
  {
   "property": "C56",
   "status": "partial",
   "theorems": [
    "C56_flat_rows_partial",
    "C56_depth_succeeds_partial",
    "C56_depth_zero_refuted"
   ],
   "note": "Every flat report that is printed is as claimed (C56_flat_rows_partial), and one is printed for every depth of at least one without names beginning with a colon (C56_depth_succeeds_partial); depth zero stops the program (C56_depth_zero_refuted)."
  },
  {
   "property": "C57",
   "status": "proved",
   "theorems": [
    "C57_total",
    "C57_sum_of_flat_rows"
   ],
   "note": ""
  },
  {
   "property": "C58",
   "status": "proved",
   "theorems": [
    "C58_tree_converted",
    "C58_flat_converted",
    "C58_linear",
    "C58_converted_total"
   ],
   "note": ""
  },
  {
   "property": "C59",
   "status": "proved",
   "theorems": [
    "C59_register"
   ],
   "note": ""
  },
  {
   "property": "C60",
   "status": "proved",
   "theorems": [
    "C60_clip",
    "C60_short_text_unchanged",
    "C60_exactly"
   ],
   "note": ""
  },
  {
   "property": "C61",
   "status": "partial",
   "theorems": [
    "C61_own_amount_refuted",
    "C61_unrelated_account_refuted",
    "C61_every_account_named_partial",
    "C61_own_rows_partial",
    "C61_layout",
    "C61_layout_unique"
   ],
   "note": "False: collapsing prints an account in the row of its parent or of an unrelated account, with the amount of the latter (C61_own_amount_refuted, C61_unrelated_account_refuted). Proved: every account is named in some row (C61_every_account_named_partial), and has its own row when every listed parent has two listed children and no name has a character below the colon (C61_own_rows_partial). In general the rows are exactly those that C61_layout describes, for which there is one possibility only (C61_layout_unique)."
  },
  {
   "property": "C62",
   "status": "proved",
   "theorems": [
    "C62_config_file",
    "C62_accepted"
   ],
   "note": ""
  },
  {
   "property": "C63",
   "status": "proved",
   "theorems": [
    "C63_command_line_dates",
    "C63_command_line_months",
    "C63_order",
    "C63_days_counted",
    "C63_transaction_dates",
    "C63_price_dates",
    "C63_journal_dates_accepted",
    "C63_printed_dates"
   ],
   "note": ""
  },
  {
   "property": "C64",
   "status": "proved",
   "theorems": [
    "C64_listings",
    "C64_hash_order",
    "C64_mentioned_names_listed"
   ],
   "note": ""
  },
  {
   "property": "C65",
   "status": "proved",
   "theorems": [
    "C65_check_sound",
    "C65_check_verdict",
    "C65_failures",
    "C65_check_prints"
   ],
   "note": ""
  },
  {
   "property": "C66",
   "status": "proved",
   "theorems": [
    "C66_postings_kept"
   ],
   "note": ""
  },
  {
   "property": "C67",
   "status": "proved",
   "theorems": [
    "C67_blanks",
    "C67_journal_read_as_written",
    "C67_file_read_as_written",
    "C67_unambiguous"
   ],
   "note": ""
  },
  {
   "property": "C68",
   "status": "proved",
   "theorems": [
    "C68_tag_by_pattern",
    "C68_tag_by_name",
    "C68_has_tag",
    "C68_written_tags_found"
   ],
   "note": ""
  },
  {
   "property": "C69",
   "status": "proved",
   "theorems": [
    "C69_balance",
    "C69_register",
    "C69_as_wide_as_the_terminal",
    "C69_unambiguous",
    "C69_printed"
   ],
   "note": ""
  },
  {
   "property": "C70",
   "status": "proved",
   "theorems": [
    "C70_prices_read_back",
    "C70_prices_listed_again"
   ],
   "note": ""
  },
  {
   "property": "C71",
   "status": "proved",
   "theorems": [
    "C71_names",
    "C71_payees",
    "C71_choice_not_determined"
   ],
   "note": ""
  },
  {
   "property": "C72",
   "status": "proved",
   "theorems": [
    "C72_unknown",
    "C72_where_postings_come_from"
   ],
   "note": ""
  },
  {
   "property": "C73",
   "status": "proved",
   "theorems": [
    "C73_balance_adds_up",
    "C73_refused",
    "C73_check",
    "C73_from_the_text"
   ],
   "note": ""
  },
  {
   "property": "C74",
   "status": "proved",
   "theorems": [
    "C74_register_adds_up",
    "C74_from_the_text"
   ],
   "note": ""
  },
  {
   "property": "C75",
   "status": "partial",
   "theorems": [
    "C75_place_partial",
    "C75_bad_line_named",
    "C75_message",
    "C75_message_at_end",
    "C75_bad_line_shown",
    "C75_first_line_refuted",
    "C75_column_refuted"
   ],
   "note": "The file and the line are right for all files that end with a newline or have no automated transaction (C75_place_partial), and the message shows the line (C75_message, C75_message_at_end); the first bad line is named and shown exactly (C75_bad_line_named, C75_bad_line_shown). False on the first line of a file: no line is shown, and a build with overflow checks aborts (C75_first_line_refuted); the column can be that of the beginning of the line (C75_column_refuted)."
  },
  {
   "property": "C76",
   "status": "proved",
   "theorems": [
    "C76_culprit_shown",
    "C76_silent"
   ],
   "note": ""
  },
  {
   "property": "C77",
   "status": "proved",
   "theorems": [
    "C77_posting",
    "C77_automated",
    "C77_account",
    "C77_commodity",
    "C77_payee",
    "C77_tag"
   ],
   "note": ""
  },
  {
   "property": "C78",
   "status": "proved",
   "theorems": [
    "C78_balance",
    "C78_register",
    "C78_from_the_text"
   ],
   "note": ""
  },
  {
   "property": "C79",
   "status": "partial",
   "theorems": [
    "C79_ledger_partial",
    "C79_lists_partial",
    "C79_balance_partial",
    "C79_register_partial",
    "C79_register_open_partial",
    "C79_printed_partial",
    "C79_one_commodity_partial",
    "C79_same_text_refuted",
    "C79_exchange_refuted"
   ],
   "note": "False: amounts of several commodities in one line come in either order, the rate of an exchange is listed in either direction, and of two accounts that differ in letter case only either one is listed (C79_same_text_refuted); with prices that contradict each other even the converted amounts differ (C79_exchange_refuted). Proved for journals with clear names, without rules or with rules and settled (no posting without an amount has to be filled in several commodities), any() queries for settled journals only: accepted or refused alike, with the same ledger up to those orders (C79_ledger_partial); the lists and check print the same text (C79_lists_partial); balance and register have the same rows with the same amounts (C79_balance_partial, also converted when the prices agree with one value of each commodity and the currency asked for is in use or the journal settled, C79_register_partial for settled journals with any query, C79_register_open_partial else, up to the order of the lines of one transaction), and so have the texts balance and register print (C79_printed_partial); with one commodity, rules included, every command prints the same text (C79_one_commodity_partial). Missing: for transactions filled in several commodities, rules and any()."
  },
  {
   "property": "C80",
   "status": "proved",
   "theorems": [
    "C80_value",
    "C80_value_of_text",
    "C80_one_value",
    "C80_condition",
    "C80_rule_amount"
   ],
   "note": ""
  },
  {
   "property": "C81",
   "status": "proved",
   "theorems": [
    "C81_outcome",
    "C81_balance",
    "C81_from_the_text",
    "C81_stated_balances",
    "C81_rules"
   ],
   "note": ""
  },
  {
   "property": "C82",
   "status": "partial",
   "theorems": [
    "C82_same_text",
    "C82_check",
    "C82_balance",
    "C82_register",
    "C82_register_partial",
    "C82_lists",
    "C82_zero_red_refuted"
   ],
   "note": "False for one amount: a zero without a commodity (an assigned balance that is already there) is printed red in the register (C82_zero_red_refuted). Proved otherwise: no character changes (C82_same_text), balance (C82_balance), register with that exception stated exactly (C82_register) and without it for rows that have no such amount (C82_register_partial), check (C82_check) and the lists (C82_lists)."
  },
  {
   "property": "C83",
   "status": "proved",
   "theorems": [
    "C83_balance",
    "C83_refused",
    "C83_check",
    "C83_last_word",
    "C83_register",
    "C83_from_the_text",
    "C83_asked_balance",
    "C83_asked_register"
   ],
   "note": ""
  },
  {
   "property": "C84",
   "status": "proved",
   "theorems": [
    "C84_balance",
    "C84_register",
    "C84_refused",
    "C84_check",
    "C84_lines_exist",
    "C84_budget",
    "C84_from_the_text"
   ],
   "note": ""
  },
  {
   "property": "C85",
   "status": "proved",
   "theorems": [
    "C85_reports",
    "C85_from_the_text",
    "C85_tag_words"
   ],
   "note": ""
  },
  {
   "property": "C86",
   "status": "proved",
   "theorems": [
    "C86_register_and_balance",
    "C86_tree_and_flat",
    "C86_depth",
    "C86_top_of_tree",
    "C86_periods",
    "C86_register_periods"
   ],
   "note": ""
  },
  {
   "property": "C87",
   "status": "proved",
   "theorems": [
    "C87_accounts",
    "C87_payees",
    "C87_commodities",
    "C87_no_commodity_missing",
    "C87_prices",
    "C87_from_the_text"
   ],
   "note": ""
  },
  {
   "property": "C88",
   "status": "proved",
   "theorems": [
    "C88_check_rearranged",
    "C88_check_joined",
    "C88_balance_rearranged",
    "C88_balance_joined",
    "C88_tree_joined",
    "C88_register_joined",
    "C88_register_rearranged"
   ],
   "note": ""
  },
  {
   "property": "C89",
   "status": "proved",
   "theorems": [
    "C89_reports",
    "C89_texts"
   ],
   "note": ""
  },
  {
   "property": "C90",
   "status": "proved",
   "theorems": [
    "C90_reports",
    "C90_texts"
   ],
   "note": ""
  },
  {
   "property": "C91",
   "status": "proved",
   "theorems": [
    "C91_same_postings",
    "C91_words",
    "C91_balances",
    "C91_registers",
    "C91_narrower"
   ],
   "note": ""
  },
  {
   "property": "C92",
   "status": "proved",
   "theorems": [
    "C92_register",
    "C92_balance",
    "C92_not",
    "C92_and_or",
    "C92_from_day",
    "C92_before_day",
    "C92_period",
    "C92_words"
   ],
   "note": ""
  },
  {
   "property": "C93",
   "status": "proved",
   "theorems": [
    "C93_check",
    "C93_balance",
    "C93_tree",
    "C93_register"
   ],
   "note": ""
  },
  {
   "property": "C94",
   "status": "proved",
   "theorems": [
    "C94_ledger",
    "C94_check",
    "C94_register",
    "C94_balance",
    "C94_price_lines"
   ],
   "note": ""
  },
  {
   "property": "C95",
   "status": "proved",
   "theorems": [
    "C95_check",
    "C95_balance",
    "C95_tree",
    "C95_register",
    "C95_exchange"
   ],
   "note": ""
  },
  {
   "property": "C96",
   "status": "proved",
   "theorems": [
    "C96_elements",
    "C96_aliases",
    "C96_merged",
    "C96_included",
    "C96_depth",
    "C96_left_out",
    "C96_balanced"
   ],
   "note": ""
  },
  {
   "property": "C97",
   "status": "proved",
   "theorems": [
    "C97_check",
    "C97_balance",
    "C97_tree",
    "C97_register"
   ],
   "note": ""
  },
  {
   "property": "C98",
   "status": "proved",
   "theorems": [
    "C98_cut_check",
    "C98_cut_balance",
    "C98_cut_register",
    "C98_carried_check",
    "C98_carried_period",
    "C98_carried_real",
    "C98_stated_as_shown"
   ],
   "note": ""
  },
  {
   "property": "C99",
   "status": "proved",
   "theorems": [
    "C99_check",
    "C99_unaffected",
    "C99_budget",
    "C99_shares"
   ],
   "note": ""
  },
  {
   "property": "C100",
   "status": "proved",
   "theorems": [
    "C100_check_rearranged",
    "C100_check_joined",
    "C100_balance_rearranged",
    "C100_balance_joined"
   ],
   "note": ""
  },
  {
   "property": "C101",
   "status": "proved",
   "theorems": [
    "C101_check",
    "C101_balance",
    "C101_tree",
    "C101_register"
   ],
   "note": ""
  },
  {
   "property": "C102",
   "status": "proved",
   "theorems": [
    "C102_check",
    "C102_balance",
    "C102_tree",
    "C102_register"
   ],
   "note": ""
  },
  {
   "property": "C103",
   "status": "proved",
   "theorems": [
    "C103_check",
    "C103_balance",
    "C103_tree",
    "C103_register"
   ],
   "note": ""
  },
  {
   "property": "C104",
   "status": "proved",
   "theorems": [
    "C104_check",
    "C104_balance",
    "C104_tree",
    "C104_register"
   ],
   "note": ""
  },
  {
   "property": "C105",
   "status": "proved",
   "theorems": [
    "C105_no_balances",
    "C105_accepted",
    "C105_balance",
    "C105_tree",
    "C105_register",
    "C105_only_accepts_more_refuted"
   ],
   "note": ""
  },
  {
   "property": "C106",
   "status": "proved",
   "theorems": [
    "C106_window",
    "C106_depth"
   ],
   "note": ""
  },
  {
   "property": "C107",
   "status": "proved",
   "theorems": [
    "C107_own_commodity",
    "C107_only_balance",
    "C107_unknown_commodity"
   ],
   "note": ""
  },
  {
   "property": "C108",
   "status": "proved",
   "theorems": [
    "C108_no_news",
    "C108_check",
    "C108_text"
   ],
   "note": ""
  },
  {
   "property": "C109",
   "status": "proved",
   "theorems": [
    "C109_day",
    "C109_terminal",
    "C109_register"
   ],
   "note": ""
  },
  {
   "property": "C110",
   "status": "proved",
   "theorems": [
    "C110_more_files",
    "C110_same_files",
    "C110_any_outcome"
   ],
   "note": ""
  }
 ]
}