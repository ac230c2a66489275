{
 "claims": [
  {
   "property": "C01",
   "status": "proved",
   "theorems": [
    "C01_no_panic",
    "C01_only_defaults_panic",
    "C01_any_default_refuted"
   ],
   "note": ""
  },
  {
   "property": "C02",
   "status": "proved",
   "theorems": [
    "C02_refines",
    "C02_refines_any_names"
   ],
   "note": ""
  },
  {
   "property": "C03",
   "status": "proved",
   "theorems": [
    "C03_missing_argv0",
    "C03_argv0_irrelevant"
   ],
   "note": ""
  },
  {
   "property": "C04",
   "status": "proved",
   "theorems": [
    "C04_verbatim",
    "C04_fields",
    "C04_reads",
    "C04_extra"
   ],
   "note": ""
  },
  {
   "property": "C05",
   "status": "proved",
   "theorems": [
    "C05_inline_or_next"
   ],
   "note": ""
  },
  {
   "property": "C06",
   "status": "proved",
   "theorems": [
    "C06_separate",
    "C06_attached"
   ],
   "note": ""
  },
  {
   "property": "C07",
   "status": "proved",
   "theorems": [
    "C07_bundle",
    "C07_bundle_names"
   ],
   "note": ""
  },
  {
   "property": "C08",
   "status": "proved",
   "theorems": [
    "C08_bare",
    "C08_with_value",
    "C08_long",
    "C08_short",
    "C08_names_denote"
   ],
   "note": ""
  },
  {
   "property": "C09",
   "status": "proved",
   "theorems": [
    "C09_duplicate",
    "C09_at_most_once"
   ],
   "note": ""
  },
  {
   "property": "C10",
   "status": "proved",
   "theorems": [
    "C10_vec",
    "C10_option_vec",
    "C10_appended"
   ],
   "note": ""
  },
  {
   "property": "C11",
   "status": "proved",
   "theorems": [
    "C11_field",
    "C11_unique"
   ],
   "note": ""
  },
  {
   "property": "C12",
   "status": "proved",
   "theorems": [
    "C12_order",
    "C12_next_word",
    "C12_single_value",
    "C12_single_field"
   ],
   "note": ""
  },
  {
   "property": "C13",
   "status": "proved",
   "theorems": [
    "C13_variadic",
    "C13_field",
    "C13_extra"
   ],
   "note": ""
  },
  {
   "property": "C14",
   "status": "proved",
   "theorems": [
    "C14_trailing",
    "C14_field"
   ],
   "note": ""
  },
  {
   "property": "C15",
   "status": "proved",
   "theorems": [
    "C15_absent",
    "C15_absent_field",
    "C15_exact"
   ],
   "note": ""
  },
  {
   "property": "C16",
   "status": "proved",
   "theorems": [
    "C16_enters",
    "C16_takes_rest",
    "C16_fields"
   ],
   "note": ""
  },
  {
   "property": "C17",
   "status": "proved",
   "theorems": [
    "C17_only_global",
    "C17_not_recognised",
    "C17_not_recognised_error",
    "C17_recognised",
    "C17_sets_field"
   ],
   "note": ""
  },
  {
   "property": "C18",
   "status": "proved",
   "theorems": [
    "C18_chosen",
    "C18_receives",
    "C18_order"
   ],
   "note": ""
  },
  {
   "property": "C19",
   "status": "proved",
   "theorems": [
    "C19_declared",
    "C19_required",
    "C19_missing_fails",
    "C19_required_subcommand",
    "C19_missing_subcommand_fails"
   ],
   "note": ""
  },
  {
   "property": "C20",
   "status": "proved",
   "theorems": [
    "C20_declared",
    "C20_conflicts",
    "C20_fails"
   ],
   "note": ""
  },
  {
   "property": "C21",
   "status": "proved",
   "theorems": [
    "C21_declared",
    "C21_requires",
    "C21_fails"
   ],
   "note": ""
  },
  {
   "property": "C22",
   "status": "proved",
   "theorems": [
    "C22_declared",
    "C22_exclusive",
    "C22_fails"
   ],
   "note": ""
  },
  {
   "property": "C23",
   "status": "proved",
   "theorems": [
    "C23_given",
    "C23_absent",
    "C23_text_default"
   ],
   "note": ""
  },
  {
   "property": "C24",
   "status": "proved",
   "theorems": [
    "C24_missing_eq",
    "C24_missing_eq_attached",
    "C24_with_eq"
   ],
   "note": ""
  },
  {
   "property": "C25",
   "status": "proved",
   "theorems": [
    "C25_bare_takes_nothing",
    "C25_field"
   ],
   "note": ""
  },
  {
   "property": "C26",
   "status": "proved",
   "theorems": [
    "C26_next_token",
    "C26_not_swallowed",
    "C26_no_token"
   ],
   "note": ""
  },
  {
   "property": "C27",
   "status": "proved",
   "theorems": [
    "C27_parse",
    "C27_display",
    "C27_roundtrip"
   ],
   "note": ""
  },
  {
   "property": "C28",
   "status": "proved",
   "theorems": [
    "C28_accepted",
    "C28_lists",
    "C28_message"
   ],
   "note": ""
  },
  {
   "property": "C29",
   "status": "proved",
   "theorems": [
    "C29_same",
    "C29_accepted",
    "C29_rejected",
    "C29_taken",
    "C29_lower"
   ],
   "note": ""
  },
  {
   "property": "C30",
   "status": "proved",
   "theorems": [
    "C30_os_bytes",
    "C30_str_bytes",
    "C30_taken",
    "C30_not_utf8",
    "C30_where"
   ],
   "note": ""
  },
  {
   "property": "C31",
   "status": "proved",
   "theorems": [
    "C31_accounted",
    "C31_success_iff",
    "C31_one_way",
    "C31_extra_word"
   ],
   "note": ""
  },
  {
   "property": "C32",
   "status": "proved",
   "theorems": [
    "C32_exact",
    "C32_unknown_long",
    "C32_unknown_short",
    "C32_not_utf8"
   ],
   "note": ""
  },
  {
   "property": "C33",
   "status": "proved",
   "theorems": [
    "C33_options",
    "C33_subcommand",
    "C33_only_subcommands"
   ],
   "note": ""
  },
  {
   "property": "C34",
   "status": "proved",
   "theorems": [
    "C34_option",
    "C34_positional"
   ],
   "note": ""
  },
  {
   "property": "C35",
   "status": "proved",
   "theorems": [
    "C35_errors",
    "C35_wrong",
    "C35_described",
    "C35_one_description",
    "C35_positional_refuted"
   ],
   "note": "Proved; C35_positional_refuted: an invalid value of a positional argument is reported without the argument's description."
  },
  {
   "property": "C36",
   "status": "proved",
   "theorems": [
    "C36_help_long",
    "C36_help_short"
   ],
   "note": ""
  },
  {
   "property": "C37",
   "status": "proved",
   "theorems": [
    "C37_render",
    "C37_own_help",
    "C37_every_declaration_refuted"
   ],
   "note": "Proved with the condition; without it refuted (C37_every_declaration_refuted)."
  },
  {
   "property": "C38",
   "status": "proved",
   "theorems": [
    "C38_page",
    "C38_page_unique",
    "C38_listed",
    "C38_entry",
    "C38_one_entry",
    "C38_about",
    "C38_after",
    "C38_command",
    "C38_hidden",
    "C38_render_hidden"
   ],
   "note": ""
  },
  {
   "property": "C39",
   "status": "proved",
   "theorems": [
    "C39_exchange",
    "C39_past_word",
    "C39_past_subcommand"
   ],
   "note": ""
  },
  {
   "property": "C40",
   "status": "proved",
   "theorems": [
    "C40_enters",
    "C40_refuted"
   ],
   "note": "Proved for declarations with distinct names; C40_refuted: the macros accept two variants of the same name, and one is then out of reach."
  },
  {
   "property": "C41",
   "status": "proved",
   "theorems": [
    "C41_option_value",
    "C41_positional",
    "C41_positional_reads"
   ],
   "note": ""
  },
  {
   "property": "C42",
   "status": "proved",
   "theorems": [
    "C42_field_alone"
   ],
   "note": ""
  },
  {
   "property": "C43",
   "status": "proved",
   "theorems": [
    "C43_dash_and_empty",
    "C43_no_dash_subcommand"
   ],
   "note": ""
  },
  {
   "property": "C44",
   "status": "proved",
   "theorems": [
    "C44_rules",
    "C44_unambiguous"
   ],
   "note": ""
  },
  {
   "property": "C45",
   "status": "proved",
   "theorems": [
    "C45_help_only",
    "C45_never_custom",
    "C45_input",
    "C45_quoted",
    "C45_no_control",
    "C45_verbatim",
    "C45_byte",
    "C45_argument",
    "C45_phrase",
    "C45_source",
    "C45_context",
    "C45_help",
    "C45_debug"
   ],
   "note": ""
  },
  {
   "property": "C46",
   "status": "proved",
   "theorems": [
    "C46_paragraphs",
    "C46_lines",
    "C46_end",
    "C46_leading_blank",
    "C46_any_first_line_refuted"
   ],
   "note": "A blank first line gives a leading newline (C46_leading_blank, C46_any_first_line_refuted)."
  },
  {
   "property": "C47",
   "status": "proved",
   "theorems": [
    "C47_prefix",
    "C47_valid",
    "C47_unique",
    "C47_lossy",
    "C47_lossy_text",
    "C47_replaced"
   ],
   "note": ""
  },
  {
   "property": "C48",
   "status": "proved",
   "theorems": [
    "C48_replay",
    "C48_every_choice"
   ],
   "note": ""
  },
  {
   "property": "C49",
   "status": "proved",
   "theorems": [
    "C49_success_iff",
    "C49_success_value"
   ],
   "note": ""
  },
  {
   "property": "C50",
   "status": "proved",
   "theorems": [
    "C50_short_value_rejected",
    "C50_like_long_refuted"
   ],
   "note": "C50_like_long_refuted: the short form does not do what the long form does."
  },
  {
   "property": "C51",
   "status": "proved",
   "theorems": [
    "C51_any_long",
    "C51_any_value_name",
    "C51_any_subcommand",
    "C51_any_rename",
    "C51_long",
    "C51_short",
    "C51_value_name",
    "C51_subcommand",
    "C51_rename_all"
   ],
   "note": ""
  },
  {
   "property": "C52",
   "status": "proved",
   "theorems": [
    "C52_first_mistake"
   ],
   "note": ""
  },
  {
   "property": "C53",
   "status": "proved",
   "theorems": [
    "C53_compiles",
    "C53_wrong_item",
    "C53_repeated_item"
   ],
   "note": ""
  },
  {
   "property": "C54",
   "status": "proved",
   "theorems": [
    "C54_means",
    "C54_arguments",
    "C54_names"
   ],
   "note": ""
  },
  {
   "property": "C55",
   "status": "proved",
   "theorems": [
    "C55_order",
    "C55_synonym"
   ],
   "note": ""
  },
  {
   "property": "C56",
   "status": "proved",
   "theorems": [
    "C56_field",
    "C56_command",
    "C56_help_is_shown_refuted"
   ],
   "note": "Proved; C56_help_is_shown_refuted: `help` does not reach the help page."
  },
  {
   "property": "C57",
   "status": "proved",
   "theorems": [
    "C57_types",
    "C57_any_path_refuted",
    "C57_alias_refuted"
   ],
   "note": "Proved; C57_any_path_refuted, C57_alias_refuted: the same type written otherwise is another argument."
  },
  {
   "property": "C58",
   "status": "proved",
   "theorems": [
    "C58_compiles",
    "C58_parse"
   ],
   "note": ""
  },
  {
   "property": "C59",
   "status": "proved",
   "theorems": [
    "C59_enum_attributes",
    "C59_enum_attributes_checked_refuted",
    "C59_after_long_about_refuted",
    "C59_tuple_variant_refuted"
   ],
   "note": "Proved; the refuted theorems are the three expectations in parentheses."
  },
  {
   "property": "C60",
   "status": "proved",
   "theorems": [
    "C60_continues",
    "C60_exits",
    "C60_help",
    "C60_help_short",
    "C60_help_status_refuted"
   ],
   "note": "Proved; C60_help_status_refuted: asking for help exits with status 1."
  },
  {
   "property": "C61",
   "status": "proved",
   "theorems": [
    "C61_flattened"
   ],
   "note": ""
  },
  {
   "property": "C62",
   "status": "proved",
   "theorems": [
    "C62_documentation",
    "C62_wording"
   ],
   "note": ""
  },
  {
   "property": "C63",
   "status": "proved",
   "theorems": [
    "C63_tuple_variants"
   ],
   "note": ""
  },
  {
   "property": "C64",
   "status": "proved",
   "theorems": [
    "C64_same",
    "C64_asked",
    "C64_no_page"
   ],
   "note": ""
  },
  {
   "property": "C65",
   "status": "proved",
   "theorems": [
    "C65_order"
   ],
   "note": ""
  },
  {
   "property": "C66",
   "status": "proved",
   "theorems": [
    "C66_standalone"
   ],
   "note": ""
  },
  {
   "property": "C67",
   "status": "proved",
   "theorems": [
    "C67_compatible",
    "C67_variant_refuted"
   ],
   "note": "Proved; C67_variant_refuted: not for command lines that contain the name of a new subcommand."
  },
  {
   "property": "C68",
   "status": "proved",
   "theorems": [
    "C68_flatten"
   ],
   "note": "Proved; C68_exclusive and C68_twice show why the hypotheses are there."
  },
  {
   "property": "C69",
   "status": "proved",
   "theorems": [
    "C69_versions",
    "C69_named"
   ],
   "note": "Proved; C67_variant_refuted shows why the name must not occur on the command line."
  },
  {
   "property": "C70",
   "status": "proved",
   "theorems": [
    "C70_relaxed"
   ],
   "note": "Proved; C70_optional_value, C70_known_global and C70_known_name show that Option<Option<T>> and names known from outside must be excluded."
  },
  {
   "property": "C71",
   "status": "proved",
   "theorems": [
    "C71_said",
    "C71_freely",
    "C71_default"
   ],
   "note": "Proved for any value that means what the field has anyway; C71_default for the text of default_value."
  },
  {
   "property": "C72",
   "status": "proved",
   "theorems": [
    "C72_shown",
    "C72_none",
    "C72_variant",
    "C72_value"
   ],
   "note": "Proved; C72_value for types other than enums needs that the type reads the text as the default."
  },
  {
   "property": "C73",
   "status": "proved",
   "theorems": [
    "C73"
   ],
   "note": ""
  },
  {
   "property": "C74",
   "status": "proved",
   "theorems": [
    "C74_enough",
    "C74_needed",
    "C74_line",
    "C74_shown",
    "C74_optional_first_refuted",
    "C74_inner_line_refuted"
   ],
   "note": "Proved; the refuted theorems are the two expectations in parentheses."
  },
  {
   "property": "C75",
   "status": "proved",
   "theorems": [
    "C75_meaning",
    "C75_no_error",
    "C75_success"
   ],
   "note": "Proved; the success criterion is for declarations with readable defaults."
  },
  {
   "property": "C76",
   "status": "proved",
   "theorems": [
    "C76_message",
    "C76_source",
    "C76_debug",
    "C76_help_refuted"
   ],
   "note": "Proved; the refuted theorem is the exception for help pages in parentheses. C1 control characters above ASCII depend on the escaping of the standard library, which is a parameter."
  },
  {
   "property": "C77",
   "status": "proved",
   "theorems": [
    "C77_nothing_new"
   ],
   "note": ""
  },
  {
   "property": "C78",
   "status": "proved",
   "theorems": [
    "C78_words",
    "C78_end",
    "C78_last_refuted"
   ],
   "note": "Proved; the refuted theorem is the exception in parentheses."
  },
  {
   "property": "C79",
   "status": "proved",
   "theorems": [
    "C79_cut_short"
   ],
   "note": ""
  },
  {
   "property": "C80",
   "status": "proved",
   "theorems": [
    "C80_left_out"
   ],
   "note": ""
  },
  {
   "property": "C81",
   "status": "proved",
   "theorems": [
    "C81_option",
    "C81_word"
   ],
   "note": ""
  },
  {
   "property": "C82",
   "status": "proved",
   "theorems": [
    "C82_option",
    "C82_word",
    "C82_capital_delimiter_refuted"
   ],
   "note": "Proved; C82_capital_delimiter_refuted: not if the delimiter is a capital letter and case is ignored."
  }
 ]
}