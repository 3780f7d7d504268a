{
 "C15": "The documented behaviour is false (C15_old_trie_refuted); C15_failed_add states what holds.",
 "C24": "Two conditions besides compiling: no path parameter of type usize is named like a position variable of the matcher (C48_refuted and C48_start_refuted show that it is needed), and redirects give path parameters the types they have in the target (C71_refuted shows that it is needed; C71_inferred says what holds without it).",
 "C28": "The property is false: C28_refuted gives the request, C28_captured (at the root) and C28_captured_at (in any block) say that it happens for every segment that properly begins with the static sibling's name.",
 "C29": "The property is false: C29_refuted gives the request, C29_shadowed (at the root) and C29_shadowed_at (in any block) say that next to two or more static children every segment goes to the dynamic child.",
 "C31": "The property is false: C31_refuted, and C31_letters for every such configuration.",
 "C37": "The property is false: C37_refuted; C36 states what holds for UTF-8 paths, C36_exact which paths panic.",
 "C38": "The property is false: C38_refuted, C38_panics; C36_exact for all such requests.",
 "C48": "The property is false: C48_refuted and C48_start_refuted. The positive part is C24_match_route, whose only condition on names is `hygienic`: no path parameter of type usize is named i, len or start. C48_reserved: the names i, path and method (and len with another type) never compile where the matcher reaches the parameter.",
 "C44": "Steps are those of a fuel-free counting semantics (SpecCost.v); C44_deterministic shows the count is determined by the program.",
 "C63": "The property is false: C63_refuted; C63_exact and C63_reached say which requests and resources are matched, C63_dropped which resources never are.",
 "C64": "Without its conditions the property is false: C64_refuted; C64_follow says exactly when it holds.",
 "C45": "The mounted part holds when the host's root does not mix static and dynamic segments; C45_unconditional_refuted shows that the second part fails without its condition.",
 "C46": "'Not captured by a static sibling' is the predicate uncaptured (SpecPath.v). C46_exact: for values that print to slash-free UTF-8 text that parses back, the round trip holds exactly when the path is not captured, the resource is the first of its method, and an empty last segment has an open end.",
 "C04": "The unrestricted round trip is false: C04_refuted gives a configuration of 8 levels whose printed form is rejected; C04_exact says that a well-formed configuration survives the round trip exactly when no line is indented more than 7 levels.",
 "C05": "Repetitions and recursion run on fuel in the model; the theorem says that length+1 rounds always suffice.",
 "C07": "Blank means empty: C07_white_lines_refuted shows that a line of white space is not accepted as a blank line.",
 "C49": "A panic of code generation (duplicate names, empty configuration) ends the process with status 101 as well; the operating system's answers are parameters that do not change during the run.",
 "C53": "The caret is aligned with the line's text for line numbers up to 9999, the width of the number field; C53_caret_late_refuted shows that it is not from line 10000 on.",
 "C55": "The property is false: C55_refuted; C55_only_target says what holds.",
 "C30": "The property is false: C30_refuted, and C30_prefix for every such configuration. C30_exact is the characterisation, for configurations none of whose path parameters is named like a variable of the matcher (`separate`; C48 is about the others); C30_prefix and C31_letters also hold without this if redirects give parameters the types of their targets.",
 "C57": "The property is false: C57_refuted. C57_names says which conditions on names every compiling configuration satisfies; C30_exact that they suffice.",
 "C59": "The converse is false: C59_redirect_query_refuted.",
 "C60": "The second half is false: C60_total_refuted; C60_panics says when the conversion panics. Http methods are modelled as the standard ones and extension names.",
 "C67": "The last claim is false: C67_place_refuted. What nom's many1! does with a failure of its first round is a parameter (keep); the theorems hold for both possibilities. The texts of nom's own kinds (Debug) are parameters too.",
 "C68": "The last claim is false in general: C68_again_refuted; C68_again says that it holds for requests that do not end in two slashes.",
 "C69": "The last claim is false: C69_compiles_refuted; C69_compiles says when the tests compile. The body of a test is run as the fixed text that write_cases prints (run_case).",
 "C70": "The last claim is false: C70_refuted; C02_complete says exactly which configurations have a file.",
 "C71": "The property is false: C71_refuted; C71_inferred says what holds, C71_exactly when the written types are the ones used.",
 "C73": "The last claim is false: C73_refuted; C73_requests has the condition under which it holds.",
 "C74": "'Any Rust code' is false: C74_any_refuted; C74_file and C74_slash say exactly which lines can be in a header.",
 "C76": "The property is false: C76_refuted; C76_param and C76_not_found say what holds.",
 "C81": "Headers are made of use declarations (use_headers) and the types of parameters are names (ident_types), since other headers and types are text of the user's that the reader does not parse. The grammar (RLex.v, RRead.v) is written from the Rust Reference. C81_exact asks for names that are identifiers, static text of plain ASCII and no carriage return in any of them (plain_config).",
 "C82": "The file's text is part of the model (GoalText.v); Uuid's parser is a parameter.",
 "C85": "The claim about nested routes is false: C85_captured_refuted, C85_shadowed_refuted and C85_parameter_refuted; C85_route, C85_beside and C85_parameter say when it holds.",
 "C86": "That code generation notices is false: C86_noticed_refuted; C86_unseen says what it does not depend on. C86_redirect is for configurations none of whose path parameters is named like a variable of the matcher, or whose redirects give parameters the types of their targets.",
 "C87": "That the documented request is always answered with the struct is false: C87_request_refuted; C87_request says when it is, C87_unique that resources of one block for one verb are the only case of equal documentation.",
 "C88": "The claim about requests that match no route otherwise is false: C88_otherwise_refuted.",
 "C89": "The claims that a missing end is noticed and that handlers are handlers of the whole file are false: C89_noticed_refuted, C89_handlers_refuted; C89_cut and C89_whole say what holds.",
 "C90": "That repeated slashes count as one is false: C90_one_refuted.",
 "C91": "That redirects always stay on the site is false: C91_refuted; C91_exact says which paths leave it.",
 "C92": "That the order never matters is false: C92_refuted. C92_compiles and C92_order are for configurations none of whose path parameters is named like a variable of the matcher.",
 "C93": "That the paths alone decide is false: C93_refuted.",
 "C94": "That names never matter is false with two path parameters in one block (C94_refuted), and for compilation (C94_compiles_refuted).",
 "C95": "That a build can always be repeated is false: C95_refuted, C95_onto. Files are told apart by their paths (SpecDisk.v).",
 "C97": "That a mount point may be written with a slash in front is false: C97_leading_refuted, C97_leading. How requests below a mount point are answered: C45_mounted, for any text.",
 "C98": "C98_related is parametricity of match_route in FromStr; C98_split and C98_parse take texts for values; C98_split_refuted is the witness for texts that do not parse where the path or the method is not served.",
 "C99": "C99_refuted: two files with an action of the same name, without a module, panic at an unwrap when one is mounted in the other.",
 "C100": "C100_compiles_refuted: an action string, and two actions whose names differ only in case."
}
