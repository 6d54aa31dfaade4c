{
 "claims": [
  {
   "property": "C01",
   "status": "proved",
   "theorems": [
    "C01_success",
    "C01_failure",
    "C01_unambiguous",
    "C01_unique"
   ],
   "note": ""
  },
  {
   "property": "C02",
   "status": "proved",
   "theorems": [
    "C02_newest_deepest",
    "C02_newest_deepest_unique"
   ],
   "note": ""
  },
  {
   "property": "C03",
   "status": "proved",
   "theorems": [
    "C03_tokens_kept",
    "C03_tokens_irrelevant",
    "C03_failure_restores_refuted"
   ],
   "note": "The vector keeps its old prefix; that a failed parse removes its tokens is refuted."
  },
  {
   "property": "C04",
   "status": "proved",
   "theorems": [
    "C04_nested"
   ],
   "note": ""
  },
  {
   "property": "C05",
   "status": "proved",
   "theorems": [
    "C05_placed",
    "C05_inside",
    "C05_ends_sorted"
   ],
   "note": ""
  },
  {
   "property": "C06",
   "status": "proved",
   "theorems": [
    "C06_values"
   ],
   "note": ""
  },
  {
   "property": "C07",
   "status": "proved",
   "theorems": [
    "C07_success_reads_all",
    "C07_early_end"
   ],
   "note": ""
  },
  {
   "property": "C08",
   "status": "proved",
   "theorems": [
    "C08_error_inside"
   ],
   "note": ""
  },
  {
   "property": "C09",
   "status": "proved",
   "theorems": [
    "C09_terminates",
    "C09_check",
    "C09_terminates_refuted",
    "C09_left_recursion_refuted"
   ],
   "note": "Proved for valid well-formed grammars and texts whose columns fit 32 bits; refuted without well-formedness (blind repeat, left recursion)."
  },
  {
   "property": "C10",
   "status": "proved",
   "theorems": [
    "C10_no_panic",
    "C10_index_refuted",
    "C10_tail_refuted",
    "C10_column_refuted"
   ],
   "note": "Proved for valid syntaxes and texts whose columns fit 32 bits; each condition is shown necessary by a panicking witness."
  },
  {
   "property": "C11",
   "status": "proved",
   "theorems": [
    "C11_optional",
    "C11_not",
    "C11_not_not",
    "C11_runs_unique"
   ],
   "note": ""
  },
  {
   "property": "C12",
   "status": "proved",
   "theorems": [
    "C12_repeat_yes",
    "C12_repeat_no"
   ],
   "note": ""
  },
  {
   "property": "C13",
   "status": "proved",
   "theorems": [
    "C13_separate_by"
   ],
   "note": ""
  },
  {
   "property": "C14",
   "status": "proved",
   "theorems": [
    "C14_lines",
    "C14_pieces"
   ],
   "note": ""
  },
  {
   "property": "C15",
   "status": "proved",
   "theorems": [
    "C15_columns",
    "C15_deeper",
    "C15_nested",
    "C15_never_lower"
   ],
   "note": ""
  },
  {
   "property": "C16",
   "status": "proved",
   "theorems": [
    "C16_indent_irrelevant"
   ],
   "note": ""
  },
  {
   "property": "C17",
   "status": "proved",
   "theorems": [
    "C17_failed_alternative",
    "C17_failed_alternative_refuted",
    "C17_acceptance_refuted"
   ],
   "note": "Proved without indented lines; refuted in general by a witness."
  },
  {
   "property": "C18",
   "status": "proved",
   "theorems": [
    "C18_ids_irrelevant",
    "C18_ids_irrelevant_panics"
   ],
   "note": ""
  },
  {
   "property": "C19",
   "status": "proved",
   "theorems": [
    "C19_update_refs",
    "C19_resolved_unique",
    "C19_idempotent",
    "C19_in_range",
    "C19_unresolved"
   ],
   "note": ""
  },
  {
   "property": "C20",
   "status": "proved",
   "theorems": [
    "C20_unique_byte"
   ],
   "note": ""
  },
  {
   "property": "C21",
   "status": "proved",
   "theorems": [
    "C21_table"
   ],
   "note": ""
  },
  {
   "property": "C22",
   "status": "proved",
   "theorems": [
    "C22_same_acceptance",
    "C22_same_depth",
    "C22_same_acceptance_refuted"
   ],
   "note": "Proved under the end-of-text proviso stated in the property; refuted without it. Texts consist of characters below 0x110000, which every Rust char is."
  },
  {
   "property": "C23",
   "status": "proved",
   "theorems": [
    "C23_optimize_terminates",
    "C23_keeps_valid",
    "C23_optimize_terminates_refuted"
   ],
   "note": "Proved for valid grammars without left recursion; refuted with left recursion."
  },
  {
   "property": "C24",
   "status": "proved",
   "theorems": [
    "C24_idempotent",
    "C24_unique"
   ],
   "note": ""
  },
  {
   "property": "C25",
   "status": "proved",
   "theorems": [
    "C25_returns",
    "C25_no_panic",
    "C25_unique",
    "C25_truncated_refuted",
    "C25_unopened_refuted"
   ],
   "note": "Proved for nested data with ids that do not overflow; looping and panicking witnesses for data that is not nested."
  },
  {
   "property": "C26",
   "status": "proved",
   "theorems": [
    "C26_written_read_back",
    "C26_every_rule_tree"
   ],
   "note": "Proved from a relation that describes the written data, and for every rule tree some data is shown to exist."
  },
  {
   "property": "C27",
   "status": "proved",
   "theorems": [
    "C27_undefined_string_refuted"
   ],
   "note": "Refuted by witness: the sub rule is dropped."
  },
  {
   "property": "C28",
   "status": "proved",
   "theorems": [
    "C28_numbered",
    "C28_identify",
    "C28_completion",
    "C28_gaps_refuted"
   ],
   "note": "Numbering, distinctness and identification proved for all nested data; absence of gaps proved for written data (C26) and refuted for duplicated sub items."
  },
  {
   "property": "C29",
   "status": "proved",
   "theorems": [
    "C29_converted_valid",
    "C29_syntax_valid",
    "C29_parse_no_panic"
   ],
   "note": ""
  },
  {
   "property": "C30",
   "status": "proved",
   "theorems": [
    "C30_reading_returns",
    "C30_syntax_returns",
    "C30_large_number_refuted",
    "C30_left_recursion_refuted"
   ],
   "note": "Proved up to optimisation for ids that do not overflow, and with optimisation for rules without left recursion; overflow and left recursion refuted by witness; the exact condition is C62."
  },
  {
   "property": "C31",
   "status": "proved",
   "theorems": [
    "C31_self_syntax",
    "C31_self_syntax_unoptimized"
   ],
   "note": "Optimised and unoptimised rules; the self syntax is read with the standard instance of the external primitives, the texts parsed afterwards with any."
  },
  {
   "property": "C32",
   "status": "proved",
   "theorems": [
    "C32_bootstrap"
   ],
   "note": ""
  },
  {
   "property": "C33",
   "status": "proved",
   "theorems": [
    "C33_no_trailing_refuted",
    "C33_always_trailing"
   ],
   "note": "Refuted by witness; moreover no text in the meta language yields a list that forbids a trailing separator."
  },
  {
   "property": "C34",
   "status": "proved",
   "theorems": [
    "C34_reads_back",
    "C34_literals",
    "C34_distinct"
   ],
   "note": ""
  },
  {
   "property": "C35",
   "status": "proved",
   "theorems": [
    "C35_reader",
    "C35_unambiguous",
    "C35_valid",
    "C35_distinct"
   ],
   "note": ""
  },
  {
   "property": "C36",
   "status": "proved",
   "theorems": [
    "C36_panics",
    "C36_returns",
    "C36_indented",
    "C36_nested"
   ],
   "note": ""
  },
  {
   "property": "C37",
   "status": "proved",
   "theorems": [
    "C37_valid",
    "C37_only_writable",
    "C37_valid_refuted",
    "C37_infinity_refuted"
   ],
   "note": ""
  },
  {
   "property": "C38",
   "status": "proved",
   "theorems": [
    "C38_location",
    "C38_line_exists",
    "C38_caret",
    "C38_outside",
    "C38_no_panic",
    "C38_message_no_panic"
   ],
   "note": ""
  },
  {
   "property": "C39",
   "status": "proved",
   "theorems": [
    "C39_bytes",
    "C39_location_refuted"
   ],
   "note": ""
  },
  {
   "property": "C40",
   "status": "proved",
   "theorems": [
    "C40_first_match",
    "C40_no_match"
   ],
   "note": ""
  },
  {
   "property": "C41",
   "status": "proved",
   "theorems": [
    "C41_bool",
    "C41_f64",
    "C41_string",
    "C41_node",
    "C41_end_node",
    "C41_unique"
   ],
   "note": ""
  },
  {
   "property": "C42",
   "status": "proved",
   "theorems": [
    "C42_ignore",
    "C42_ignore_item",
    "C42_readers",
    "C42_update",
    "C42_update_returns",
    "C42_update_panics",
    "C42_source",
    "C42_source_nothing"
   ],
   "note": ""
  },
  {
   "property": "C43",
   "status": "proved",
   "theorems": [
    "C43_ok",
    "C43_err",
    "C43_message",
    "C43_panic",
    "C43_default"
   ],
   "note": ""
  },
  {
   "property": "C44",
   "status": "proved",
   "theorems": [
    "C44_text_read",
    "C44_every_rule_tree"
   ],
   "note": "Expressible rule trees are described by a grammar of their own (TextSpec); for them a text exists, and any text in that grammar is read as the rules it writes. Number literals are those the external number reader takes to their end in front of white space."
  },
  {
   "property": "C45",
   "status": "proved",
   "theorems": [
    "C45_comment_between",
    "C45_layout",
    "C45_comment_line",
    "C45_comment_line_refuted"
   ],
   "note": "Proved for all accepted texts without /*/, whether or not the strings they name are defined; for the texts of the documented grammar also without that proviso. Refuted with /*/."
  },
  {
   "property": "C46",
   "status": "proved",
   "theorems": [
    "C46_syntax_origin",
    "C46_convert_origin"
   ],
   "note": ""
  },
  {
   "property": "C47",
   "status": "proved",
   "theorems": [
    "C47_properties",
    "C47_properties_optimized"
   ],
   "note": ""
  },
  {
   "property": "C48",
   "status": "proved",
   "theorems": [
    "C48_numbering",
    "C48_optimized"
   ],
   "note": ""
  },
  {
   "property": "C49",
   "status": "proved",
   "theorems": [
    "C49_definitions",
    "C49_definitions_optimized"
   ],
   "note": ""
  },
  {
   "property": "C50",
   "status": "proved",
   "theorems": [
    "C50_rules",
    "C50_syntaxes",
    "C50_data",
    "C50_reflexive_refuted"
   ],
   "note": "Equality characterised exactly; reflexivity refuted by witness."
  },
  {
   "property": "C51",
   "status": "proved",
   "theorems": [
    "C51_ok",
    "C51_err",
    "C51_message",
    "C51_panic"
   ],
   "note": ""
  },
  {
   "property": "C52",
   "status": "proved",
   "theorems": [
    "C52_returned",
    "C52_aborted"
   ],
   "note": ""
  },
  {
   "property": "C53",
   "status": "proved",
   "theorems": [
    "C53_position",
    "C53_prefix"
   ],
   "note": ""
  },
  {
   "property": "C54",
   "status": "proved",
   "theorems": [
    "C54_rule",
    "C54_rewritten",
    "C54_equivalent",
    "C54_equivalent_refuted"
   ],
   "note": "Proved with the laws of both tables; with the laws of the old table only, the rewritten syntax gives no other results but may not terminate (refuted)."
  },
  {
   "property": "C55",
   "status": "proved",
   "theorems": [
    "C55_accepted_form",
    "C55_strings_first",
    "C55_accepted_form_refuted"
   ],
   "note": "Proved for readers of literals that do not look past the end of a literal; texts with /*/ are excluded, where the claim is refuted."
  },
  {
   "property": "C56",
   "status": "proved",
   "theorems": [
    "C56_every_text",
    "C56_meaning",
    "C56_unambiguous"
   ],
   "note": "Proved for readers of literals that do not look past the end of a literal, and node numbers that leave room for the debug ids; totality excludes texts with /*/ (C55)."
  },
  {
   "property": "C57",
   "status": "proved",
   "theorems": [
    "C57_linear_depth",
    "C57_same_results",
    "C57_depth_needed"
   ],
   "note": "The stack is counted in calls of Rule::parse, in a second model (DepthModel) proved to return what the first returns. No constant depth suffices for the built-in rules."
  },
  {
   "property": "C58",
   "status": "proved",
   "theorems": [
    "C58_counted",
    "C58_unique",
    "C58_tree",
    "C58_polynomial",
    "C58_exponential",
    "C58_polynomial_refuted",
    "C58_doubling"
   ],
   "note": "Work is counted in calls of Rule::parse, in an instrumented model (CostModel) proved to return what the plain one returns. Polynomial without recursion; refuted for the built-in rules, which need exponentially many calls for unclosed comments."
  },
  {
   "property": "C59",
   "status": "proved",
   "theorems": [
    "C59_json",
    "C59_json_panic",
    "C59_report",
    "C59_message",
    "C59_unwrap",
    "C59_print",
    "C59_print_panic",
    "C59_error",
    "C59_counted",
    "C59_vector",
    "C59_utf8",
    "C59_errstr"
   ],
   "note": "For any destination of the bytes: a type, and a function that takes a piece and may report an error. The text is that of the models JsonModel and HandlerModel, to which C34 to C39 apply."
  },
  {
   "property": "C60",
   "status": "proved",
   "theorems": [
    "C60_self",
    "C60_old",
    "C60_old_equal_refuted"
   ],
   "note": "The files are read with the standard instance of the external primitives, the texts parsed afterwards with any. The assertion of examples/bootstrap_old.rs is refuted; the equality holds up to optimisation."
  },
  {
   "property": "C61",
   "status": "proved",
   "theorems": [
    "C61_line",
    "C61_first_line",
    "C61_columns",
    "C61_block_read",
    "C61_same_indentation",
    "C61_exact_column",
    "C61_not_swallowed",
    "C61_siblings_refuted",
    "C61_tab_is_spaces_refuted",
    "C61_same_indentation_refuted",
    "C61_deeper_tab_refuted"
   ],
   "note": "Lines and blocks characterised for all blanks; the four expectations that fail are refuted by witnesses through syntax() and parse()."
  },
  {
   "property": "C62",
   "status": "proved",
   "theorems": [
    "C62_optimize_hangs",
    "C62_optimize_returns",
    "C62_optimize_no_panic",
    "C62_syntax_hangs",
    "C62_syntax_returns"
   ],
   "note": "Equivalence, proved in both directions; recursion without end stands for a stack overflow."
  },
  {
   "property": "C63",
   "status": "proved",
   "theorems": [
    "C63_hangs",
    "C63_returns",
    "C63_either",
    "C63_well_formed"
   ],
   "note": "Equivalence, proved in both directions; running forever covers recursion without end (a stack overflow) and loops without end."
  },
  {
   "property": "C64",
   "status": "proved",
   "theorems": [
    "C64_same",
    "C64_calls",
    "C64_at_least",
    "C64_at_most",
    "C64_proportional_refuted"
   ],
   "note": "Exact count, both bounds, and a family of texts with exponential work; calls of unique_byte are not counted."
  },
  {
   "property": "C65",
   "status": "proved",
   "theorems": [
    "C65_errors"
   ],
   "note": "For every kind of error; for negated rules the witness is an accepting run of the specification."
  },
  {
   "property": "C66",
   "status": "proved",
   "theorems": [
    "C66_names",
    "C66_ignored",
    "C66_error",
    "C66_reported_refuted"
   ],
   "note": "Acceptance and data; the error may be another one once the reference is gone. The expectation that undefined names are reported is refuted."
  },
  {
   "property": "C67",
   "status": "proved",
   "theorems": [
    "C67_version_10",
    "C67_new_self_syntax",
    "C67_syntax"
   ],
   "note": "Acceptance and data, with the default indent settings that syntax() uses; errors may differ. Numbers must not start with a slash (true of read_token as documented)."
  },
  {
   "property": "C68",
   "status": "proved",
   "theorems": [
    "C68_trees",
    "C68_meaning",
    "C68_accepted",
    "C68_positions",
    "C68_rearranged",
    "C68_unknown_items_refuted"
   ],
   "note": "Names, rules and references; debug ids are free (they are C28). Totality is C25. That unknown items are passed over everywhere is refuted."
  },
  {
   "property": "C69",
   "status": "proved",
   "theorems": [
    "C69_shape",
    "C69_optimized",
    "C69_nodes"
   ],
   "note": "One direction: data has a shape; not every shape comes from a text. Optimised syntaxes are covered without side conditions. The trees of the data are unique."
  },
  {
   "property": "C70",
   "status": "proved",
   "theorems": [
    "C70_linear",
    "C70_once"
   ],
   "note": "For accepted texts. The constant depends on the syntax only. Well-formedness is that of C09."
  },
  {
   "property": "C71",
   "status": "proved",
   "theorems": [
    "C71_exact",
    "C71_items",
    "C71_undefined"
   ],
   "note": "For data whose tags are balanced (which parse gives, C04). A text node may hold several references, of which only the last counts; C71_undefined is about that one."
  },
  {
   "property": "C72",
   "status": "proved",
   "theorems": [
    "C72_guarded",
    "C72_guarded_unique",
    "C72_same_acceptance",
    "C72_same_depth",
    "C72_only_fewer_refuted"
   ],
   "note": "C22 without its proviso. The reported message of a rejection may differ, the place does not."
  },
  {
   "property": "C73",
   "status": "proved",
   "theorems": [
    "C73_exact",
    "C73_parsed",
    "C73_plain",
    "C73_printable_refuted",
    "C73_unique_keys_refuted"
   ],
   "note": "Numbers are assumed to print without punctuation of JSON (they print as digits, sign, point, inf or NaN in Rust). string literals without backslash stand for the characters between the quotes (plain_literals, met by std_ext)."
  },
  {
   "property": "C74",
   "status": "proved",
   "theorems": [
    "C74_read",
    "C74_only",
    "C74_one_tree",
    "C74_indent_example",
    "C74_page_columns_refuted",
    "C74_glued_refuted",
    "C74_separated_refuted"
   ],
   "note": "Spaces only; tabs are the subject of C61. The item rule may be any rule that reads a fixed set of texts without white space at their ends when white space or nothing follows; shown of the numbers of examples/indent.rs with the stand-in number reader."
  },
  {
   "property": "C75",
   "status": "proved",
   "theorems": [
    "C75_places",
    "C75_located",
    "C75_leave",
    "C75_leave_refuted"
   ],
   "note": "The closure of a search is modelled by the search it is given (C40 says that its result is passed on). Wording of errors is not modelled."
  },
  {
   "property": "C76",
   "status": "proved",
   "theorems": [
    "C76_sound",
    "C76_exact",
    "C76_one_meaning",
    "C76_optimized",
    "C76_order",
    "C76_check",
    "C76_exact_refuted",
    "C76_greedy_refuted",
    "C76_placed",
    "C76_placed_optimized",
    "C76_one_placing"
   ],
   "note": "The converse for syntaxes in which the next character does not decide is refuted with two witnesses. Exactness assumes that the end of a string literal does not depend on what follows it, and for numbers that literals stop in front of the characters that may follow; both are proved of the stand-in."
  },
  {
   "property": "C77",
   "status": "proved",
   "theorems": [
    "C77_linear",
    "C77_returns",
    "C77_lookahead_refuted"
   ],
   "note": "The hypothesis on negated rules cannot be dropped: C77_lookahead_refuted. For optimised syntaxes see C78."
  },
  {
   "property": "C78",
   "status": "proved",
   "theorems": [
    "C78_no_more_calls",
    "C78_built_in",
    "C78_linear",
    "C78_no_more_calls_refuted"
   ],
   "note": "Without the proviso of C22 the statement is false: C78_no_more_calls_refuted."
  },
  {
   "property": "C79",
   "status": "proved",
   "theorems": [
    "C79_keeps",
    "C79_optimized",
    "C79_keeps_refuted"
   ],
   "note": "The hypothesis that the extended syntax is clear cannot be dropped: C79_keeps_refuted."
  },
  {
   "property": "C80",
   "status": "proved",
   "theorems": [
    "C80_grammar",
    "C80_completed",
    "C80_check",
    "C80_completed_refuted",
    "C80_grammar_refuted"
   ],
   "note": "C80_completed needs a clear syntax (C80_completed_refuted), both need that every rule generates some text (C80_grammar_refuted)."
  },
  {
   "property": "C81",
   "status": "proved",
   "theorems": [
    "C81_grammar",
    "C81_accepted",
    "C81_tag",
    "C81_end",
    "C81_check",
    "C81_tag_refuted"
   ],
   "note": "C81_accepted, C81_tag and C81_end need a clear syntax (C81_tag_refuted)."
  },
  {
   "property": "C82",
   "status": "proved",
   "theorems": [
    "C82_read",
    "C82_meant",
    "C82_grammar",
    "C82_places",
    "C82_hello_world",
    "C82_negative_match"
   ],
   "note": "The proviso about tails is that of C22. The two example programs are stated for std_ext."
  },
  {
   "property": "C83",
   "status": "proved",
   "theorems": [
    "C83_parse",
    "C83_valid",
    "C83_never_panics",
    "C83_columns_refuted",
    "C83_convert",
    "C83_convert_total",
    "C83_numbers",
    "C83_ids_refuted",
    "C83_unopened_refuted",
    "C83_reading",
    "C83_syntax_same",
    "C83_loads",
    "C83_json"
   ],
   "note": "The second model repeats only what counts or calls what counts; the report of an error (C38) and the search API do not overflow. Refuted beyond the conditions: columns over 32 bits, debug ids, data that is not nested."
  },
  {
   "property": "C84",
   "status": "proved",
   "theorems": [
    "C84_resolve",
    "C84_built",
    "C84_order_refuted"
   ],
   "note": "`optimize_returns` is about the call with enough stack: left-recursive rules make both sides undefined (C23)."
  },
  {
   "property": "C85",
   "status": "proved",
   "theorems": [
    "C85_place",
    "C85_node",
    "C85_report",
    "C85_thousand_refuted"
   ],
   "note": "For texts in which all names of strings are defined; rules that are lost (C56) do not count."
  },
  {
   "property": "C86",
   "status": "proved",
   "theorems": [
    "C86_beginning",
    "C86_front",
    "C86_json",
    "C86_deepest_refuted"
   ],
   "note": ""
  },
  {
   "property": "C87",
   "status": "proved",
   "theorems": [
    "C87_parse",
    "C87_optimised",
    "C87_meta",
    "C87_line_refuted",
    "C87_tag_refuted",
    "C87_message_refuted",
    "C87_mark_refuted"
   ],
   "note": "Simulation by induction on the reading relation. Readers of strings and numbers are assumed not to tell line breaks apart (breaks_ok), which is proved of the readers of the examples."
  },
  {
   "property": "C88",
   "status": "proved",
   "theorems": [
    "C88_accepts",
    "C88_rejects",
    "C88_optimised",
    "C88_readers",
    "C88_escape_refuted"
   ],
   "note": "The readers of strings and numbers are assumed to see the same in both texts (recoding); C88_readers proves it of the readers of the examples for every replacement that keeps ASCII and white space."
  },
  {
   "property": "C89",
   "status": "proved",
   "theorems": [
    "C89_files",
    "C89_optimised",
    "C89_one_meaning",
    "C89_written",
    "C89_strings",
    "C89_numbers",
    "C89_literals",
    "C89_words_refuted",
    "C89_quote_refuted",
    "C89_missing_refuted",
    "C89_comment_refuted"
   ],
   "note": "Literals are assumed not to start or end with white space (solid_literals), proved of the readers of the examples."
  },
  {
   "property": "C90",
   "status": "proved",
   "theorems": [
    "C90_lines",
    "C90_no_breaks",
    "C90_length",
    "C90_linear_refuted"
   ],
   "note": "Without line breaks inside items if no number is printed with one (one_line_numbers). Linear growth is refuted (finding 49)."
  },
  {
   "property": "C91",
   "status": "proved",
   "theorems": [
    "C91_hello",
    "C91_hello_printed",
    "C91_not",
    "C91_not_printed",
    "C91_double"
   ],
   "note": "With the rules as syntax() returns them, which includes optimisation."
  },
  {
   "property": "C92",
   "status": "proved",
   "theorems": [
    "C92_number",
    "C92_no_number",
    "C92_message",
    "C92_std",
    "C92_report",
    "C92_parse"
   ],
   "note": "How much of the text the error covers is not told by a report. Different messages for different errors of string literals are assumed of read_token, and proved for its model."
  },
  {
   "property": "C93",
   "status": "proved",
   "theorems": [
    "C93_never",
    "C93_parse",
    "C93_same",
    "C93_error_refuted",
    "C93_indented_refuted"
   ],
   "note": "The covering rules are given by a sufficient condition, not all alternatives that are never chosen are covered. For indented lines the property is refuted, as is equality of the reported errors."
  },
  {
   "property": "C94",
   "status": "proved",
   "theorems": [
    "C94_rule",
    "C94_parse",
    "C94_alike_refuted",
    "C94_error_refuted"
   ],
   "note": "How numbers begin is a condition on the number reader, proved for its model. The converse, that other swaps change something, holds only for examples (C94_alike_refuted)."
  },
  {
   "property": "C95",
   "status": "proved",
   "theorems": [
    "C95_unrepaired",
    "C95_front",
    "C95_edit",
    "C95_numbers",
    "C95_text_refuted",
    "C95_lines_refuted",
    "C95_not_refuted"
   ],
   "note": "How far the number reader and the line reader look are conditions on them, proved for their models. Rules inside a negation may be tokens, sequences, selects, optionals, references and negations."
  },
  {
   "property": "C96",
   "status": "proved",
   "theorems": [
    "C96_joined",
    "C96_joined_optimized",
    "C96_cut",
    "C96_lists",
    "C96_joined_refuted"
   ],
   "note": "Rests on C76, which is extended here from the data to the data with their ranges (C76_placed)."
  },
  {
   "property": "C97",
   "status": "proved",
   "theorems": [
    "C97_replaced",
    "C97_pasted",
    "C97_optimized",
    "C97_pasted_refuted"
   ],
   "note": "Rests on C76_placed. The replaced text must keep columns and characters in the range the model needs (columns_fit)."
  },
  {
   "property": "C98",
   "status": "proved",
   "theorems": [
    "C98_reformatted",
    "C98_optimized",
    "C98_unclear_refuted",
    "C98_token_refuted"
   ],
   "note": "Rests on C01 and C76_placed. Deleting white space altogether is not covered: the data do not tell whether it was optional."
  },
  {
   "property": "C99",
   "status": "proved",
   "theorems": [
    "C99_read",
    "C99_reparsed",
    "C99_optimized",
    "C99_read_refuted",
    "C99_reparsed_refuted"
   ],
   "note": "Rests on C76 and C97. The syntax with the additional rule is shown to be valid, well formed and clear."
  },
  {
   "property": "C100",
   "status": "proved",
   "theorems": [
    "C100_replaced",
    "C100_inserted",
    "C100_separated",
    "C100_removed",
    "C100_optimized",
    "C100_inserted_refuted"
   ],
   "note": "Rests on C76 with ranges and on C97."
  },
  {
   "property": "C101",
   "status": "proved",
   "theorems": [
    "C101_exchanged",
    "C101_optimized",
    "C101_exchanged_refuted"
   ],
   "note": "Rests on C76 with ranges and on C97."
  },
  {
   "property": "C102",
   "status": "proved",
   "theorems": [
    "C102_sorted",
    "C102_optimized",
    "C102_sorted_refuted"
   ],
   "note": "Rests on the exchange of two nodes (C101)."
  },
  {
   "property": "C103",
   "status": "proved",
   "theorems": [
    "C103_changed",
    "C103_number",
    "C103_literal",
    "C103_any_string",
    "C103_optimized",
    "C103_alternative",
    "C103_alternative_optimized",
    "C103_changed_refuted"
   ],
   "note": "Rests on C76 with ranges, like C97."
  }
 ]
}
