{
 "claims": [
  {
   "property": "C01",
   "status": "proved",
   "theorems": [
    "C01_round_trip"
   ],
   "note": ""
  },
  {
   "property": "C02",
   "status": "proved",
   "theorems": [
    "C02_well_formed",
    "C02_complete"
   ],
   "note": ""
  },
  {
   "property": "C03",
   "status": "proved",
   "theorems": [
    "C03_reformat"
   ],
   "note": ""
  },
  {
   "property": "C04",
   "status": "proved",
   "theorems": [
    "C04_exact",
    "C04_refuted"
   ],
   "note": "The unrestricted round trip is false: C04_refuted gives a configuration of 8 levels whose printed form is rejected; C04_exact says that a well-formed configuration survives the round trip exactly when no line is indented more than 7 levels."
  },
  {
   "property": "C05",
   "status": "proved",
   "theorems": [
    "C05_terminates"
   ],
   "note": "Repetitions and recursion run on fuel in the model; the theorem says that length+1 rounds always suffice."
  },
  {
   "property": "C06",
   "status": "proved",
   "theorems": [
    "C06_faithful"
   ],
   "note": ""
  },
  {
   "property": "C07",
   "status": "proved",
   "theorems": [
    "C07_blank_lines",
    "C07_leading",
    "C07_white_lines_refuted"
   ],
   "note": "Blank means empty: C07_white_lines_refuted shows that a line of white space is not accepted as a blank line."
  },
  {
   "property": "C08",
   "status": "proved",
   "theorems": [
    "C08_crlf"
   ],
   "note": ""
  },
  {
   "property": "C09",
   "status": "proved",
   "theorems": [
    "C09_verbs",
    "C09_rejects",
    "C09_display"
   ],
   "note": ""
  },
  {
   "property": "C10",
   "status": "proved",
   "theorems": [
    "C10_mount",
    "C10_mount_table"
   ],
   "note": ""
  },
  {
   "property": "C11",
   "status": "proved",
   "theorems": [
    "C11_mount_headers",
    "C11_mount_twice",
    "C11_disjoint"
   ],
   "note": ""
  },
  {
   "property": "C12",
   "status": "proved",
   "theorems": [
    "C12_make"
   ],
   "note": ""
  },
  {
   "property": "C13",
   "status": "proved",
   "theorems": [
    "C13_add_succeeds_iff",
    "C13_add_holds",
    "C13_holds_functional",
    "C13_build_iff",
    "C13_build_holds"
   ],
   "note": ""
  },
  {
   "property": "C14",
   "status": "proved",
   "theorems": [
    "C14_nodes"
   ],
   "note": ""
  },
  {
   "property": "C15",
   "status": "proved",
   "theorems": [
    "C15_old_trie_refuted",
    "C15_failed_add"
   ],
   "note": "The documented behaviour is false (C15_old_trie_refuted); C15_failed_add states what holds."
  },
  {
   "property": "C16",
   "status": "proved",
   "theorems": [
    "C16_order",
    "C16_canonical"
   ],
   "note": ""
  },
  {
   "property": "C17",
   "status": "proved",
   "theorems": [
    "C17_flattened_table",
    "C17_blocks_complete"
   ],
   "note": ""
  },
  {
   "property": "C18",
   "status": "proved",
   "theorems": [
    "C18_module_tree",
    "C18_structs"
   ],
   "note": ""
  },
  {
   "property": "C19",
   "status": "proved",
   "theorems": [
    "C19_any_order"
   ],
   "note": ""
  },
  {
   "property": "C20",
   "status": "proved",
   "theorems": [
    "C20_codegen",
    "C20_panics",
    "C20_which"
   ],
   "note": ""
  },
  {
   "property": "C21",
   "status": "proved",
   "theorems": [
    "C21_writer",
    "C21_good_writer",
    "C21_failing"
   ],
   "note": ""
  },
  {
   "property": "C22",
   "status": "proved",
   "theorems": [
    "C22_text"
   ],
   "note": ""
  },
  {
   "property": "C23",
   "status": "proved",
   "theorems": [
    "C23_snake",
    "C23_caps",
    "C23_injective_refuted"
   ],
   "note": ""
  },
  {
   "property": "C24",
   "status": "proved",
   "theorems": [
    "C24_below",
    "C24_match_route"
   ],
   "note": "Two conditions besides compiling: no path parameter of type usize is named like a position variable of the matcher (C48_refuted and C48_start_refuted show that it is needed), and redirects give path parameters the types they have in the target (C71_refuted shows that it is needed; C71_inferred says what holds without it)."
  },
  {
   "property": "C25",
   "status": "proved",
   "theorems": [
    "C25_sound"
   ],
   "note": ""
  },
  {
   "property": "C26",
   "status": "proved",
   "theorems": [
    "C26_ideal",
    "C26_complete"
   ],
   "note": ""
  },
  {
   "property": "C27",
   "status": "proved",
   "theorems": [
    "C27_static_at",
    "C27_dynamic_at",
    "C27_static_wins",
    "C27_dynamic_otherwise",
    "C27_request"
   ],
   "note": ""
  },
  {
   "property": "C28",
   "status": "proved",
   "theorems": [
    "C28_captured_at",
    "C28_refuted",
    "C28_captured"
   ],
   "note": "The property is false: C28_refuted gives the request, C28_captured (at the root) and C28_captured_at (in any block) say that it happens for every segment that properly begins with the static sibling's name."
  },
  {
   "property": "C29",
   "status": "proved",
   "theorems": [
    "C29_shadowed_at",
    "C29_refuted",
    "C29_shadowed"
   ],
   "note": "The property is false: C29_refuted gives the request, C29_shadowed (at the root) and C29_shadowed_at (in any block) say that next to two or more static children every segment goes to the dynamic child."
  },
  {
   "property": "C30",
   "status": "proved",
   "theorems": [
    "C30_exact",
    "C30_prefix",
    "C30_refuted"
   ],
   "note": "The property is false: C30_refuted, and C30_prefix for every such configuration. C30_exact is the characterisation, for configurations none of whose path parameters is named like a variable of the matcher (`separate`; C48 is about the others); C30_prefix and C31_letters also hold without this if redirects give parameters the types of their targets."
  },
  {
   "property": "C31",
   "status": "proved",
   "theorems": [
    "C31_letters",
    "C31_refuted"
   ],
   "note": "The property is false: C31_refuted, and C31_letters for every such configuration."
  },
  {
   "property": "C32",
   "status": "proved",
   "theorems": [
    "C32_not_allowed",
    "C32_not_found",
    "C32_known_path",
    "C32_method_independent",
    "C32_not_allowed_exact",
    "C32_not_found_exact"
   ],
   "note": ""
  },
  {
   "property": "C33",
   "status": "proved",
   "theorems": [
    "C33_method_bytes",
    "C33_root"
   ],
   "note": ""
  },
  {
   "property": "C34",
   "status": "proved",
   "theorems": [
    "C34_raw_segments"
   ],
   "note": ""
  },
  {
   "property": "C35",
   "status": "proved",
   "theorems": [
    "C35_error",
    "C35_error_first",
    "C35_exact"
   ],
   "note": ""
  },
  {
   "property": "C36",
   "status": "proved",
   "theorems": [
    "C36_no_panic",
    "C36_exact"
   ],
   "note": ""
  },
  {
   "property": "C37",
   "status": "proved",
   "theorems": [
    "C37_refuted"
   ],
   "note": "The property is false: C37_refuted; C36 states what holds for UTF-8 paths, C36_exact which paths panic."
  },
  {
   "property": "C38",
   "status": "proved",
   "theorems": [
    "C38_refuted",
    "C38_panics"
   ],
   "note": "The property is false: C38_refuted, C38_panics; C36_exact for all such requests."
  },
  {
   "property": "C39",
   "status": "proved",
   "theorems": [
    "C39_leading_slash"
   ],
   "note": ""
  },
  {
   "property": "C40",
   "status": "proved",
   "theorems": [
    "C40_trailing_slash",
    "C40_unconditional_refuted"
   ],
   "note": ""
  },
  {
   "property": "C41",
   "status": "proved",
   "theorems": [
    "C41_query_none"
   ],
   "note": ""
  },
  {
   "property": "C42",
   "status": "proved",
   "theorems": [
    "C42_redirect"
   ],
   "note": ""
  },
  {
   "property": "C43",
   "status": "proved",
   "theorems": [
    "C43_order",
    "C43_mounts",
    "C43_text"
   ],
   "note": ""
  },
  {
   "property": "C44",
   "status": "proved",
   "theorems": [
    "C44_linear",
    "C44_deterministic"
   ],
   "note": "Steps are those of a fuel-free counting semantics (SpecCost.v); C44_deterministic shows the count is determined by the program."
  },
  {
   "property": "C45",
   "status": "proved",
   "theorems": [
    "C45_mounted",
    "C45_mounted_root",
    "C45_unmounted",
    "C45_unconditional_refuted"
   ],
   "note": "The mounted part holds when the host's root does not mix static and dynamic segments; C45_unconditional_refuted shows that the second part fails without its condition."
  },
  {
   "property": "C46",
   "status": "proved",
   "theorems": [
    "C46_round_trip",
    "C46_exact"
   ],
   "note": "'Not captured by a static sibling' is the predicate uncaptured (SpecPath.v). C46_exact: for values that print to slash-free UTF-8 text that parses back, the round trip holds exactly when the path is not captured, the resource is the first of its method, and an empty last segment has an open end."
  },
  {
   "property": "C47",
   "status": "proved",
   "theorems": [
    "C47_to_path"
   ],
   "note": ""
  },
  {
   "property": "C48",
   "status": "proved",
   "theorems": [
    "C48_reserved",
    "C48_refuted",
    "C48_start_refuted"
   ],
   "note": "The property is false: C48_refuted and C48_start_refuted. The positive part is C24_match_route, whose only condition on names is `hygienic`: no path parameter of type usize is named i, len or start. C48_reserved: the names i, path and method (and len with another type) never compile where the matcher reaches the parameter."
  },
  {
   "property": "C49",
   "status": "proved",
   "theorems": [
    "C49_finished",
    "C49_otherwise",
    "C49_output",
    "C49_from_env"
   ],
   "note": "A panic of code generation (duplicate names, empty configuration) ends the process with status 101 as well; the operating system's answers are parameters that do not change during the run."
  },
  {
   "property": "C50",
   "status": "proved",
   "theorems": [
    "C50_untouched"
   ],
   "note": ""
  },
  {
   "property": "C51",
   "status": "proved",
   "theorems": [
    "C51_rerun",
    "C51_silent",
    "C51_flag"
   ],
   "note": ""
  },
  {
   "property": "C52",
   "status": "proved",
   "theorems": [
    "C52_lookup",
    "C52_registered",
    "C52_codes",
    "C52_once",
    "C52_progress"
   ],
   "note": ""
  },
  {
   "property": "C53",
   "status": "proved",
   "theorems": [
    "C53_show_error",
    "C53_located",
    "C53_caret",
    "C53_caret_late_refuted",
    "C53_show_errors",
    "C53_unlisted",
    "C53_message"
   ],
   "note": "The caret is aligned with the line's text for line numbers up to 9999, the width of the number field; C53_caret_late_refuted shows that it is not from line 10000 on."
  },
  {
   "property": "C54",
   "status": "proved",
   "theorems": [
    "C54_doc"
   ],
   "note": ""
  },
  {
   "property": "C55",
   "status": "proved",
   "theorems": [
    "C55_refuted",
    "C55_only_target"
   ],
   "note": "The property is false: C55_refuted; C55_only_target says what holds."
  },
  {
   "property": "C56",
   "status": "proved",
   "theorems": [
    "C56_cmd",
    "C56_status",
    "C56_exact",
    "C56_only",
    "C56_usage"
   ],
   "note": ""
  },
  {
   "property": "C57",
   "status": "proved",
   "theorems": [
    "C57_refuted",
    "C57_names",
    "C57_taken",
    "C57_constructor"
   ],
   "note": "The property is false: C57_refuted. C57_names says which conditions on names every compiling configuration satisfies; C30_exact that they suffice."
  },
  {
   "property": "C58",
   "status": "proved",
   "theorems": [
    "C58_text",
    "C58_structs",
    "C58_enums",
    "C58_check",
    "C58_format"
   ],
   "note": ""
  },
  {
   "property": "C59",
   "status": "proved",
   "theorems": [
    "C59_calls",
    "C59_file",
    "C59_file_redirect",
    "C59_redirect_query_refuted"
   ],
   "note": "The converse is false: C59_redirect_query_refuted."
  },
  {
   "property": "C60",
   "status": "proved",
   "theorems": [
    "C60_converts",
    "C60_panics",
    "C60_total_refuted"
   ],
   "note": "The second half is false: C60_total_refuted; C60_panics says when the conversion panics. Http methods are modelled as the standard ones and extension names."
  },
  {
   "property": "C61",
   "status": "proved",
   "theorems": [
    "C61_patch",
    "C61_chunks",
    "C61_text",
    "C61_assert"
   ],
   "note": ""
  },
  {
   "property": "C62",
   "status": "proved",
   "theorems": [
    "C62_route",
    "C62_same",
    "C62_redirect"
   ],
   "note": ""
  },
  {
   "property": "C63",
   "status": "proved",
   "theorems": [
    "C63_exact",
    "C63_reached",
    "C63_dropped",
    "C63_refuted"
   ],
   "note": "The property is false: C63_refuted; C63_exact and C63_reached say which requests and resources are matched, C63_dropped which resources never are."
  },
  {
   "property": "C64",
   "status": "proved",
   "theorems": [
    "C64_follow",
    "C64_refuted"
   ],
   "note": "Without its conditions the property is false: C64_refuted; C64_follow says exactly when it holds."
  },
  {
   "property": "C65",
   "status": "proved",
   "theorems": [
    "C65_build",
    "C65_parsed"
   ],
   "note": ""
  },
  {
   "property": "C66",
   "status": "proved",
   "theorems": [
    "C66_grammar",
    "C66_rejected",
    "C66_unambiguous"
   ],
   "note": ""
  },
  {
   "property": "C67",
   "status": "proved",
   "theorems": [
    "C67_report",
    "C67_content",
    "C67_messages",
    "C67_build",
    "C67_place_refuted"
   ],
   "note": "The last claim is false: C67_place_refuted. What nom's many1! does with a failure of its first round is a parameter (keep); the theorems hold for both possibilities. The texts of nom's own kinds (Debug) are parameters too."
  },
  {
   "property": "C68",
   "status": "proved",
   "theorems": [
    "C68_debug",
    "C68_usage",
    "C68_route",
    "C68_redirect",
    "C68_others",
    "C68_finishes",
    "C68_again",
    "C68_again_refuted"
   ],
   "note": "The last claim is false in general: C68_again_refuted; C68_again says that it holds for requests that do not end in two slashes."
  },
  {
   "property": "C69",
   "status": "proved",
   "theorems": [
    "C69_main",
    "C69_tests",
    "C69_compiles",
    "C69_passes",
    "C69_fails",
    "C69_command",
    "C69_compiles_refuted"
   ],
   "note": "The last claim is false: C69_compiles_refuted; C69_compiles says when the tests compile. The body of a test is run as the fixed text that write_cases prints (run_case)."
  },
  {
   "property": "C70",
   "status": "proved",
   "theorems": [
    "C70_same",
    "C70_file",
    "C70_printed",
    "C70_refuted"
   ],
   "note": "The last claim is false: C70_refuted; C02_complete says exactly which configurations have a file."
  },
  {
   "property": "C71",
   "status": "proved",
   "theorems": [
    "C71_refuted",
    "C71_inferred",
    "C71_own",
    "C71_exactly"
   ],
   "note": "The property is false: C71_refuted; C71_inferred says what holds, C71_exactly when the written types are the ones used."
  },
  {
   "property": "C72",
   "status": "proved",
   "theorems": [
    "C72_text",
    "C72_preamble",
    "C72_check",
    "C72_start",
    "C72_runs",
    "C72_match",
    "C72_error"
   ],
   "note": ""
  },
  {
   "property": "C73",
   "status": "proved",
   "theorems": [
    "C73_route",
    "C73_answers",
    "C73_requests",
    "C73_refuted"
   ],
   "note": "The last claim is false: C73_refuted; C73_requests has the condition under which it holds."
  },
  {
   "property": "C74",
   "status": "proved",
   "theorems": [
    "C74_modules",
    "C74_text",
    "C74_generates",
    "C74_file",
    "C74_slash",
    "C74_any_refuted"
   ],
   "note": "'Any Rust code' is false: C74_any_refuted; C74_file and C74_slash say exactly which lines can be in a header."
  },
  {
   "property": "C75",
   "status": "proved",
   "theorems": [
    "C75_says",
    "C75_panics",
    "C75_done",
    "C75_ends",
    "C75_env"
   ],
   "note": ""
  },
  {
   "property": "C76",
   "status": "proved",
   "theorems": [
    "C76_refuted",
    "C76_param",
    "C76_not_found"
   ],
   "note": "The property is false: C76_refuted; C76_param and C76_not_found say what holds."
  },
  {
   "property": "C77",
   "status": "proved",
   "theorems": [
    "C77_bytes"
   ],
   "note": ""
  },
  {
   "property": "C78",
   "status": "proved",
   "theorems": [
    "C78_file",
    "C78_config"
   ],
   "note": ""
  },
  {
   "property": "C79",
   "status": "proved",
   "theorems": [
    "C79_valid",
    "C79_unique",
    "C79_encoded",
    "C79_segments",
    "C79_match",
    "C79_no_panic"
   ],
   "note": ""
  },
  {
   "property": "C80",
   "status": "proved",
   "theorems": [
    "C80_answers"
   ],
   "note": ""
  },
  {
   "property": "C81",
   "status": "proved",
   "theorems": [
    "C81_reads",
    "C81_compiles",
    "C81_runs",
    "C81_match",
    "C81_exact"
   ],
   "note": "Headers are made of use declarations (use_headers) and the types of parameters are names (ident_types), since other headers and types are text of the user's that the reader does not parse. The grammar (RLex.v, RRead.v) is written from the Rust Reference. C81_exact asks for names that are identifiers, static text of plain ASCII and no carriage return in any of them (plain_config)."
  },
  {
   "property": "C82",
   "status": "proved",
   "theorems": [
    "C82_goal",
    "C82_items"
   ],
   "note": "The file's text is part of the model (GoalText.v); Uuid's parser is a parameter."
  },
  {
   "property": "C83",
   "status": "proved",
   "theorems": [
    "C83_command",
    "C83_build"
   ],
   "note": ""
  },
  {
   "property": "C84",
   "status": "proved",
   "theorems": [
    "C84_lines",
    "C84_unique",
    "C84_block",
    "C84_accepted",
    "C84_order",
    "C84_levels"
   ],
   "note": ""
  },
  {
   "property": "C85",
   "status": "proved",
   "theorems": [
    "C85_outside",
    "C85_resource",
    "C85_route",
    "C85_beside",
    "C85_parameter",
    "C85_captured_refuted",
    "C85_shadowed_refuted",
    "C85_parameter_refuted"
   ],
   "note": "The claim about nested routes is false: C85_captured_refuted, C85_shadowed_refuted and C85_parameter_refuted; C85_route, C85_beside and C85_parameter say when it holds."
  },
  {
   "property": "C86",
   "status": "proved",
   "theorems": [
    "C86_params",
    "C86_redirect",
    "C86_unseen",
    "C86_noticed_refuted"
   ],
   "note": "That code generation notices is false: C86_noticed_refuted; C86_unseen says what it does not depend on. C86_redirect is for configurations none of whose path parameters is named like a variable of the matcher, or whose redirects give parameters the types of their targets."
  },
  {
   "property": "C87",
   "status": "proved",
   "theorems": [
    "C87_structs",
    "C87_text",
    "C87_request",
    "C87_unique",
    "C87_request_refuted",
    "C87_enums"
   ],
   "note": "That the documented request is always answered with the struct is false: C87_request_refuted; C87_request says when it is, C87_unique that resources of one block for one verb are the only case of equal documentation."
  },
  {
   "property": "C88",
   "status": "proved",
   "theorems": [
    "C88_asked",
    "C88_declared",
    "C88_otherwise_refuted"
   ],
   "note": "The claim about requests that match no route otherwise is false: C88_otherwise_refuted."
  },
  {
   "property": "C89",
   "status": "proved",
   "theorems": [
    "C89_cut",
    "C89_whole",
    "C89_every",
    "C89_blocks",
    "C89_noticed_refuted",
    "C89_handlers_refuted"
   ],
   "note": "The claims that a missing end is noticed and that handlers are handlers of the whole file are false: C89_noticed_refuted, C89_handlers_refuted; C89_cut and C89_whole say what holds."
  },
  {
   "property": "C90",
   "status": "proved",
   "theorems": [
    "C90_empty",
    "C90_refused",
    "C90_one_refuted"
   ],
   "note": "That repeated slashes count as one is false: C90_one_refuted."
  },
  {
   "property": "C91",
   "status": "proved",
   "theorems": [
    "C91_exact",
    "C91_static",
    "C91_stays",
    "C91_refuted"
   ],
   "note": "That redirects always stay on the site is false: C91_refuted; C91_exact says which paths leave it."
  },
  {
   "property": "C92",
   "status": "proved",
   "theorems": [
    "C92_first",
    "C92_order",
    "C92_generated",
    "C92_compiles",
    "C92_refuted"
   ],
   "note": "That the order never matters is false: C92_refuted. C92_compiles and C92_order are for configurations none of whose path parameters is named like a variable of the matcher."
  },
  {
   "property": "C93",
   "status": "proved",
   "theorems": [
    "C93_kind",
    "C93_refuted"
   ],
   "note": "That the paths alone decide is false: C93_refuted."
  },
  {
   "property": "C94",
   "status": "proved",
   "theorems": [
    "C94_answers",
    "C94_generated",
    "C94_refuted",
    "C94_compiles_refuted"
   ],
   "note": "That names never matter is false with two path parameters in one block (C94_refuted), and for compilation (C94_compiles_refuted)."
  },
  {
   "property": "C95",
   "status": "proved",
   "theorems": [
    "C95_files",
    "C95_skipped",
    "C95_twice",
    "C95_never_routes",
    "C95_onto",
    "C95_refuted"
   ],
   "note": "That a build can always be repeated is false: C95_refuted, C95_onto. Files are told apart by their paths (SpecDisk.v)."
  },
  {
   "property": "C96",
   "status": "proved",
   "theorems": [
    "C96_characters",
    "C96_lines",
    "C96_slash",
    "C96_others"
   ],
   "note": ""
  },
  {
   "property": "C97",
   "status": "proved",
   "theorems": [
    "C97_segments",
    "C97_elsewhere",
    "C97_leading",
    "C97_trailing",
    "C97_leading_refuted"
   ],
   "note": "That a mount point may be written with a slash in front is false: C97_leading_refuted, C97_leading. How requests below a mount point are answered: C45_mounted, for any text."
  },
  {
   "property": "C98",
   "status": "proved",
   "theorems": [
    "C98_related",
    "C98_split",
    "C98_parse",
    "C98_split_refuted"
   ],
   "note": "C98_related is parametricity of match_route in FromStr; C98_split and C98_parse take texts for values; C98_split_refuted is the witness for texts that do not parse where the path or the method is not served."
  },
  {
   "property": "C99",
   "status": "proved",
   "theorems": [
    "C99_mounts",
    "C99_mount",
    "C99_twice",
    "C99_itself",
    "C99_over",
    "C99_compiles",
    "C99_served",
    "C99_refuted",
    "C99_compiles_refuted"
   ],
   "note": "C99_refuted: two files with an action of the same name, without a module, panic at an unwrap when one is mounted in the other."
  },
  {
   "property": "C100",
   "status": "proved",
   "theorems": [
    "C100_answers",
    "C100_generated",
    "C100_compiles_refuted"
   ],
   "note": "C100_compiles_refuted: an action string, and two actions whose names differ only in case."
  },
  {
   "property": "C101",
   "status": "proved",
   "theorems": [
    "C101_last",
    "C101_known",
    "C101_same",
    "C101_missing"
   ],
   "note": ""
  }
 ]
}