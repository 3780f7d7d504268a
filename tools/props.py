#!/usr/bin/env python3
"""Source of properties.jsonl: run `python3 tools/props.py > properties.jsonl` in /verif."""
import json
P=[]
def p(title, statement, quantifier, why, anchors):
    P.append(dict(id="C%02d"%(len(P)+1), title=title, statement=statement, quantifier=quantifier,
                  why_tests_cant=why, anchors=anchors))
PARSE="wayfinder/src/parse/mod.rs"; CORE="wayfinder/src/core/mod.rs"; GEN="wayfinder/src/gen/gen.rs"
FLAT="wayfinder/src/gen/flat.rs"; TRIE="wayfinder/src/gen/trie.rs"; ERR="wayfinder/src/parse/errors.rs"
BUILD="wayfinder/src/build/mod.rs"

# ---- route files -------------------------------------------------------------------------------
p("Stringify then parse gives the same configuration",
  "For a well-formed RouteConfig c whose lines are nested at most 7 levels deep, parse::route_config(c.stringify()) succeeds, consumes the whole text and returns exactly c (headers, query parameters, resources, redirects, nesting, order).",
  "every well-formed RouteConfig, of any width, up to the indentation depth the printer supports",
  "tests round-trip three literals; the property is about every tree, identifier and ordering",
  [PARSE+": route_config, routes, nested_routes, resource", CORE+": RouteConfig::stringify, Routes::stringify, Resource::stringify, NestedRoutes::stringify"])
p("Whatever the parser accepts is well-formed",
  "If parse::route_config accepts a text then every name, type, module and static segment of the result is a non-empty identifier, every block holds at least one resource or nested route, and every header is one non-empty line not starting with '/'.",
  "every input text",
  "needs all inputs, including every malformed one",
  [PARSE+": route_config, resources_and_routes, header, is_identifier_char"])
p("Accepted files are stable under reformatting",
  "If parse::route_config accepts a text with result c and c is at most 7 levels deep, then parsing c.stringify() gives c again: the printed form of an accepted file means the same as the file.",
  "every accepted text",
  "combines the parser on arbitrary text with the printer; tests use canonical text only",
  [PARSE+": route_config", CORE+": RouteConfig::stringify"])
p("Stringify loses deep nesting",
  "The unrestricted round trip (no depth bound) is false: a well-formed configuration nested 8 levels deep prints with '--' in its indentation and is rejected by the parser. The bound 7 in C01 is exact.",
  "every nesting depth; a witness for the failure",
  "no test in the repository nests deeper than 4 levels",
  [CORE+": indent", PARSE+": route_config"])
p("The parser always terminates with accept or reject",
  "For every input text parse::route_config returns after finitely many combinator steps, bounded by the length of the text; no repetition loops without consuming.",
  "every input text",
  "non-termination on some input cannot be excluded by running examples",
  [PARSE+": route_config, many0/many1 uses"])
p("Nothing in an accepted file is ignored",
  "If a text is accepted then its non-whitespace characters are exactly, in order, those of the headers, '/', and the pre-order listing of the configuration's query parameters, resources and nested routes (method keywords up to letter case). No line or token is silently dropped or reordered.",
  "every accepted text",
  "silently dropped input is only visible for the inputs one thought of",
  [PARSE+": route_config"])
p("Blank lines can be added anywhere",
  "Adding blank lines after any line break (README: 'Blank lines can be added anywhere') does not change the result: if u ++ \"\\n\" ++ v is accepted with c then so is u ++ \"\\n\\n\" ++ v, with the same c.",
  "every accepted text and every position of a line break in it",
  "positions times texts is unbounded",
  [PARSE+": require_newline, many1!(line_ending)", "README.markdown: language reference"])
p("CRLF files mean the same as LF files",
  "Replacing every LF of an accepted text without CR characters by CRLF gives an accepted text with the same result.",
  "every accepted text",
  "every text, not only the sample files",
  [PARSE+": header, require_newline, line_ending uses"])
p("HTTP verbs",
  "The method parser recognises exactly GET, POST, PUT and DELETE, in any letter case, and consumes exactly those letters; parsing the Display form of a Method gives that Method back. A verb that is not one of the four is rejected.",
  "every input text, every method",
  "all letter-case variants and all continuations",
  [PARSE+": method", CORE+": impl Display for Method"])
# ---- core --------------------------------------------------------------------------------------
p("mount keeps the host configuration and appends the guest",
  "c.mount(at, d) leaves c's own resources, query parameters and nested routes unchanged and in order, and adds exactly one nested route block, last, with static segment `at` and d's routes.",
  "every pair of configurations and every mount point",
  "structural claim over all trees",
  [CORE+": RouteConfig::mount"])
p("mount merges headers without duplicates",
  "The headers of c.mount(at, d) are the headers of c followed by those of d, each distinct header kept exactly once at its first position: no duplicates, none lost, order preserved. Mounting d twice adds no header the second time.",
  "every pair of header lists",
  "all lists with all duplicate patterns",
  [CORE+": RouteConfig::mount"])
p("Resource::make splits the handler path",
  "Resource::make(method, handler, r, q) panics exactly when handler is empty; otherwise modules ++ [name] == handler and the other fields are passed through.",
  "every handler vector",
  "all lengths",
  [CORE+": Resource::make"])
# ---- trie ----------------------------------------------------------------------------------------
p("The trie is a map from paths to data",
  "Trie::add of a fresh path makes a lookup of that path return the new element and changes no other path; add of a path that already has data fails and only then. Building from a list of distinct paths never fails and holds exactly those entries.",
  "every trie reachable by additions, every key path",
  "all insertion sequences",
  [TRIE+": Trie::add"])
p("Trie children stay sorted and leaves have data",
  "In every trie built by additions the children of each node are strictly increasing by key (no duplicates), and every leaf other than the empty root holds data.",
  "every reachable trie",
  "invariant over all insertion sequences; binary search silently misbehaves without it",
  [TRIE+": Trie, Trie::add (children.binary_search_by_key)"])
p("A failed add returns the old trie and the element",
  "The documentation of Trie::add says a failing add returns the old trie and the element. This is false below the root: the returned trie is the sub-trie at the end of the path, the rest of the old trie is lost. What does hold: the element comes back unchanged and the returned trie is the sub-trie found at the full path.",
  "every trie and path already present",
  "the repository's test only covers a successful add",
  [TRIE+": Trie::add"])
p("The trie does not depend on insertion order",
  "Adding the same set of distinct paths in any order gives the same trie.",
  "every permutation of every list of entries",
  "factorially many orders",
  [TRIE+": Trie::add", FLAT+": FlattenedRoutes::to_trie"])
# ---- flattening / modules ---------------------------------------------------------------------------
p("Flattening lists every block once with inherited query parameters",
  "The flattened route table has exactly one entry per block of the configuration, in pre-order, with the full path of that block, its resources, and the query parameters of all enclosing blocks outermost first (README: query parameters apply to every resource on that route and every nested route).",
  "every configuration tree",
  "all trees",
  [FLAT+": FlattenedRoutes::flatten"])
p("Generated types: one per non-redirect resource",
  "The generated module tree contains, for every non-redirect resource, exactly one action struct at that resource's module path, with one field per dynamic segment of its path followed by one optional field per query parameter in scope, and nothing else. Redirects generate no struct.",
  "every configuration for which generation does not panic",
  "all configurations",
  [FLAT+": FlattenedModules::flatten, helper::Module", GEN+": codegen_module"])
p("Generated code does not depend on hash-map iteration order",
  "Modules and actions are collected in HashMaps and sorted by name before printing: for every order in which the maps are drained and every correct sort the resulting module tree, hence the generated text, is the same.",
  "every iteration order of every map",
  "a test run sees one random order",
  [FLAT+": helper::Module::finalize"])
p("When code generation panics",
  "codegen panics exactly when (a) two non-redirect resources have the same module path and name, (b) two blocks have the same path, or (c) the configuration prints to the empty text (no query parameter, resource or nested route). In all other cases it returns Ok on a writer that does not fail; the InvalidInput error, the assertion and the unreachable!() arms are dead code.",
  "every RouteConfig value constructible through the public API",
  "dead-code and never-panics claims range over all configurations",
  [GEN+": codegen, codegen_trie, write_dynamic", FLAT+": to_trie, FlattenedModules::flatten"])
p("A failing writer gets a prefix and the failure is reported",
  "If the writer fails at any point, codegen returns the error (never Ok) and what was written is a prefix of the complete output; if the writer never fails, exactly the complete output is written.",
  "every writer behaviour, every failure point",
  "failure points are as many as writes",
  [GEN+": codegen, codegen_module, codegen_trie"])
p("Generated text is the rendering of a program",
  "The text printed for match_route is exactly the pretty-printed form, at the right indentation, of a structured program (statements, matches, returns); there is no configuration whose text deviates from it. So statements about the program are statements about the emitted text.",
  "every configuration and indentation",
  "golden files compare three texts",
  [GEN+": codegen_trie, write_methods, write_dynamic", "wayfinder-tests/cases/*/routes.rs"])
p("Case conversion of names",
  "to_snake_case never outputs an ASCII upper-case letter, is idempotent and keeps names without upper-case letters; the result of to_caps_case never starts with an ASCII lower-case letter. Distinct names can collide: 'update' and 'Update' give the same struct name (refuted injectivity).",
  "every string",
  "all strings",
  [GEN+": to_caps_case, to_snake_case"])
# ---- matching ------------------------------------------------------------------------------------------
p("match_route computes the routing function of the configuration",
  "For every configuration whose generated code compiles, and every request path and method, match_route returns exactly what a direct recursive search of the configuration tree specifies (including its lack of backtracking): same outcome, same route, same parameters, same error.",
  "every compiling configuration, every byte path, every method bytes, every FromStr behaviour",
  "configurations times requests is unbounded in both directions",
  [GEN+": codegen_trie, write_methods, write_dynamic", FLAT+": FlattenedRoutes"])
p("match_route is sound",
  "If match_route returns Route or Redirect for a resource, then that resource is declared in a block whose path pattern matches the request path segment by segment, its method is the request method, its kind (redirect or not) is as declared, and the i-th dynamic parameter is the parse of the i-th dynamic segment's bytes.",
  "every compiling configuration and request",
  "no wrong handler for any request",
  [GEN+": codegen_trie, write_methods"])
p("match_route finds declared routes",
  "If in every block with a dynamic child there is no static sibling, and every block with a dynamic child declares a resource, then match_route agrees with the ideal segment-wise matcher on every request: every request path that matches a declared pattern reaches that block.",
  "every such configuration and request",
  "completeness over all requests",
  [GEN+": codegen_trie"])
p("Exact static segments win over a dynamic sibling",
  "In a block with one static child s (longer than one character) and a dynamic child, a request segment equal to s goes to the static child and a request segment that does not start with s goes to the dynamic child.",
  "every such configuration and request",
  "all segments",
  [GEN+": codegen_trie (unambiguous branch)"])
p("A dynamic segment may start with a static sibling's name",
  "A request such as /people/newton must reach {id} when only 'new' is a static sibling. This is false: the generated code commits to the static branch after the prefix and returns NotFound.",
  "every value of the dynamic segment",
  "tests only try Uuid values",
  [GEN+": codegen_trie (unambiguous branch, no fall-through)", "examples/cli/src/main.rs: test_cases"])
p("Static siblings with a common prefix next to a dynamic segment are reachable",
  "With static siblings sharing a proper prefix (foobar, fomo, foosh) and a dynamic sibling, /foobar must reach foobar's resources. This is false: the generated guard compares a slice one byte longer than the literal, the static routes are unreachable and every request goes to the dynamic route.",
  "every request",
  "the golden file of the repository records the wrong code as expected output",
  [GEN+": codegen_trie (l counts one past the unambiguous prefix)", "wayfinder-tests/cases/commons/routes.rs"])
p("One static name may be a prefix of a sibling",
  "Configurations with static siblings where one name is a prefix of another (user, users) should generate compiling code. This is false: the generated match contains an ill-typed `Some('/')` arm. Exactly which configurations (without a path parameter named like a variable of the matcher) compile is characterised.",
  "every configuration",
  "quantifies over all sibling sets",
  [GEN+": codegen_trie (ambiguous branch, Separator arm)"])
p("A dynamic segment may have several static siblings",
  "Configurations with a dynamic segment next to two static names with different first letters should generate compiling code. This is false: statements are printed between match arms.",
  "every configuration",
  "quantifies over all sibling sets",
  [GEN+": codegen_trie (ambiguous branch, Dynamic arm)"])
p("404 and 405 are told apart",
  "NotAllowed is returned exactly when the path reaches a block that declares at least one resource but none for the request method; NotFound exactly when the path reaches no block with resources. An unknown path never gives NotAllowed.",
  "every compiling configuration and request",
  "all requests",
  [GEN+": write_methods"])
p("Methods are compared exactly",
  "A resource is selected only for the upper-case bytes of its verb: no prefix, no other letter case, no surrounding space. If a block declares the same method twice the first declaration wins.",
  "every method byte string",
  "all byte strings",
  [GEN+": write_methods", CORE+": Method::byte_str"])
p("Parameters are the raw segments",
  "The text passed to FromStr for a dynamic parameter is exactly the bytes between two slashes (or the end): it never contains '/', nothing is decoded, trimmed or dropped; static and separator bytes never leak into it.",
  "every request",
  "all byte strings",
  [GEN+": write_dynamic"])
p("Parse errors name the first failing parameter",
  "match_route returns Err exactly when the search reaches a dynamic segment whose text does not parse, before looking at anything to its right or at the method; the error names the leftmost such parameter. Consequently a bad parameter gives Err even for an unknown continuation or an unsupported method.",
  "every request, every FromStr behaviour",
  "all combinations of failing parameters",
  [GEN+": write_dynamic (map_err ... ?)"])
p("match_route never panics on string paths",
  "For UTF-8 request paths the generated matcher never panics (no slice out of bounds, no failing unwrap), provided no block without resources has both a dynamic child and a single one-character static child. Exactly which requests panic is characterised.",
  "every compiling configuration meeting the proviso and every UTF-8 path",
  "absence of panics over all requests",
  [GEN+": codegen_trie, write_dynamic"])
p("match_route never panics on byte paths",
  "match_route accepts any byte slice, so it must not panic on any. This is false: a non-UTF-8 byte in a dynamic segment panics in from_utf8().unwrap().",
  "every byte path",
  "tests use str paths",
  [GEN+": write_dynamic (std::str::from_utf8(..).unwrap())"])
p("One-character static next to a dynamic segment",
  "A block without resources with children `a` and `{x}` must answer '/' without panicking. This is false: the generated guard is `i <= len` before `path[i..i+1]`, so '/' and '' panic.",
  "every request",
  "no test has a one-character segment",
  [GEN+": codegen_trie (`if i <= len`)"])
p("The leading slash is optional",
  "match_route(\"/\" + p) equals match_route(p) for every p that does not itself start with '/'.",
  "every compiling configuration, every p, every method",
  "all paths",
  [GEN+": codegen (initial i)"])
p("The trailing slash is optional",
  "match_route(p + \"/\") equals match_route(p) for every path p not ending in '/', provided every block with a dynamic child declares resources. Without the proviso it is false: /people/ reaches {id} with an empty id while /people is NotFound.",
  "every compiling configuration, path and method",
  "all paths",
  [GEN+": codegen_trie (Separator branch)"])
p("Query parameters are always None",
  "Every query parameter field of a returned route is None, and every one declared for the resource or an enclosing block is present.",
  "every request",
  "all configurations",
  [GEN+": write_methods", "README.markdown: status"])
p("Redirects are reported as redirects",
  "A matched resource declared with '->' is returned as Match::Redirect, any other as Match::Route; the carried route is the declared target (module path and name).",
  "every request",
  "all configurations",
  [GEN+": write_methods"])
p("Declaration order of sibling routes does not matter",
  "Reordering the nested routes of any block (at any depth) changes neither whether code is generated nor the result of match_route on any request. In particular configurations can be mounted in any order.",
  "every configuration, every permutation of siblings at every level",
  "factorially many permutations times requests",
  [FLAT+": to_trie", TRIE+": Trie::add"])
p("match_route terminates in linear time",
  "Every run of the generated matcher executes at most one step per generated statement on the taken branch plus one loop iteration per byte of the path: no request makes it loop.",
  "every request",
  "termination over all inputs",
  [GEN+": write_dynamic (while loop)"])
p("Mounted routes are served under the mount point",
  "If d is mounted at a segment `at`, a request for /at/ followed by p is routed in the combined configuration as p is routed in d alone, with the host's query parameters added; requests whose first segment is not `at` are routed as before.",
  "every pair of configurations, every request",
  "all pairs of configurations",
  [CORE+": RouteConfig::mount", GEN+": codegen_trie"])
p("to_path is inverse to match_route",
  "For a route value whose parameter values print to slash-free text that parses back, and whose path is not captured by a static sibling, match_route(route.to_path(), method) returns that route again (with None query parameters).",
  "every compiling configuration, every route value meeting the conditions",
  "all parameter values",
  [GEN+": codegen_module (to_path), codegen_trie"])
p("to_path prints the declared path",
  "to_path of a route struct is '/' followed by the segments of its block joined by '/', each dynamic segment replaced by the Display form of the field declared for it; query parameters do not appear.",
  "every route struct and field values",
  "all values",
  [GEN+": codegen_module (to_path)"])
p("Parameter names cannot capture the matcher's variables",
  "Route parameters may have any identifier as name. This is false: a parameter named `len` of type usize shadows the matcher's own variable, compiles, and makes a well-formed request panic; one named `start` of type usize gets a position in the path as its value when another parameter follows. In a module that compiles, and with every redirect giving its parameters the types of its target, no other names matter: only parameters of type usize named i, len or start can change an answer. Some names rustc refuses: in such a configuration, no module compiles with a reachable parameter named i, path or method, or named len with a type other than usize.",
  "every choice of parameter names",
  "tests use id and a",
  [GEN+": write_dynamic (let {name} = text.parse())"])
# ---- build / errors ------------------------------------------------------------------------------------
p("Builder::build either succeeds completely or exits with status 101",
  "build() exits with status 101 exactly when the source or target is not configured, the input file cannot be read or does not parse, the output file cannot be created, or code generation reports an error; otherwise the output is exactly the generated code of the configuration.",
  "every builder configuration, environment and file system",
  "all environments and failure combinations",
  [BUILD+": Builder::build, from_env"])
p("The output file is not touched when the input is bad",
  "If the source is missing, unreadable or does not parse, build() creates or truncates no file.",
  "every builder configuration and file system",
  "failure injection at every step",
  [BUILD+": Builder::build"])
p("Cargo is told to re-run on input changes",
  "With from_env() and an input file, the line cargo:rerun-if-changed=<that file> is printed before the file is read, so also when reading or parsing fails; it is not printed for new() or for an in-memory configuration.",
  "every builder configuration",
  "all combinations including failing ones",
  [BUILD+": Builder::build"])
p("Error codes map to their own message under every initialisation order",
  "Each err_str! site registers its message once, on first use, under a mutex: for every interleaving of first uses from any number of threads, looking up the code handed out to a site returns that site's message, for ever after.",
  "every schedule of registrations and look-ups",
  "a test run sees one schedule",
  [ERR+": def_error, get_error, err_str!"])
p("Parse errors are shown at the right place",
  "For every position inside the text show_error does not panic and prints the 1-based number and the full text of the line containing the position, with the caret in the column of that position.",
  "every text and every character position in it",
  "all texts and positions",
  [ERR+": show_error, what_line"])
p("Generated module documentation shows the route table",
  "The doc comment of the generated module, with the comment prefix removed, contains exactly the printed form of the configuration's routes.",
  "every non-empty configuration",
  "all configurations",
  [GEN+": codegen (stringified_config)"])
p("A failed build leaves the previous output file alone",
  "When build() exits with status 101 the output file is as it was before. This is false: the file is truncated before code generation, so a route file that parses but cannot be generated (an action named twice, say) destroys it. What holds: only the configured output file is ever created, and only when the input could be read and parsed.",
  "every builder configuration and file system",
  "needs failure injection between opening and generating",
  [BUILD+": Builder::build", GEN+": codegen"])
p("The command line tool prints the generated code",
  "wayfinder ROUTE_FILE reads that file and nothing else, writes exactly the generated code to standard output and ends with status 0, or with 101 when anything fails; without an argument it prints its usage and ends with status 0.",
  "every argument list, file system and output",
  "all files and failures",
  ["wayfinder-cmd/src/main.rs: main", BUILD+": Builder::build"])
p("Ordinary names give a module that compiles",
  "If every name in a route file is an ordinary lower-case identifier and code is generated, then the generated module compiles. This is false: resources called string, result, as_ref, error, ok, option, none, p or route, and modules called std or fmt, take the place of names that the generated code uses. Exactly which names are safe is characterised.",
  "every configuration",
  "quantifies over all names",
  [GEN+": codegen, codegen_module, codegen_trie"])
p("The generated module is the right set of Rust items",
  "When code generation succeeds, its output is the printed form of a list of Rust items (structs, impl blocks, modules, enums) around the matcher: one struct per resource in the module of that resource, with a field per path parameter and an optional one per query parameter in scope; in each module an enum Route with one variant per struct and per sub-module; to_path for every struct and enum. The module compiles exactly when rustc's rules accept these items, the doc comments and the matcher.",
  "every configuration",
  "all configurations; the golden files are three",
  [GEN+": codegen, codegen_module"])
p("Macros and route files build the same resources",
  "get!, post!, put! and delete! accept exactly a ::-separated path with optional parameters, or -> and a path; such a call never panics and gives the resource that the parser reads from the corresponding lines of a route file. The converse, that every resource of a route file can be written as a call, is false: a redirect with a query parameter cannot.",
  "every list of argument tokens",
  "all argument lists, of any length",
  ["wayfinder/src/core/macros.rs: get!, post!, put!, delete!", PARSE+": resource"])
p("HTTP methods convert to the method of the same name",
  "Method::from(&http::Method) gives the method with the same name, and gives one for every HTTP method. The second half is false: it panics exactly on the methods other than GET, POST, PUT and DELETE, among them HEAD and OPTIONS.",
  "every HTTP method, including extension methods",
  "extension methods are unbounded",
  ["wayfinder/src/core/mod.rs: From<&http::Method> for Method"])
p("The test suite's differences are patches",
  "The chunks that wayfinder-tests prints when two texts differ, applied at the line numbers and with the counts in their headers, turn the expected text into the actual one; there is one chunk per change; nothing is printed exactly when the texts are equal.",
  "every list of difference operations, every pair of texts",
  "all texts",
  ["wayfinder-tests/src/diff.rs: TestResult::assert, DiffChunk, TestDiff"])
p("A matched route gives back its path",
  "to_path of the route that match_route returns is the pattern the request matched with the values printed; if Display inverts FromStr it is the path of the request, up to a leading and a trailing slash. For a redirect it is the path of the resource redirected to, with the values of the parameters of the same name and type.",
  "every configuration that compiles, every request",
  "all requests and all configurations",
  [GEN+": codegen_module (to_path), codegen_trie"])
p("Every declared resource can be matched",
  "For every resource of a configuration whose generated module compiles there is a request that match_route answers with it. This is false: of several sibling parameters only the one with the least name is in the generated code, and several static siblings of a parameter are never tried. Which requests are answered with a route, and which resources some request is matched with, is characterised exactly.",
  "every configuration that compiles, every resource, every request",
  "all requests; a test can only try some",
  [GEN+": codegen_trie"])
p("Redirects can be followed",
  "Requesting the path that a redirect's route prints gives the resource redirected to, with the same values. This is false with the method of the request, because the resource redirected to may have another method; it holds exactly for its own method if it is the first resource of that method in its block and its path is not captured by a sibling.",
  "every configuration that compiles, every request answered with a redirect",
  "all requests and all configurations",
  [GEN+": codegen_trie, codegen_module"])
p("From the route file to the answers",
  "A build that finishes has written, as its last action and once, the printed form of Rust items and of a matcher program, and this program, run on any request, gives the answer of the search in the tree of the configuration that was read, whenever that configuration compiles, has no parameter of type usize named i, len or start and its redirects agree with their targets about types. Every configuration that is read from a file has non-empty static segments without slashes and no carriage returns.",
  "every state of the file system and environment, every builder, every request",
  "all route files and all requests; composes parsing, code generation and execution",
  ["wayfinder/src/build/mod.rs: Builder::build", PARSE+": route_config", GEN+": codegen"])
p("The route file language, exactly",
  "A text is accepted, with a configuration as the result, exactly if the grammar gives it that configuration: header lines, a line with /, then a block two spaces in: lines [name: type], lines VERB path or VERB -> path with their [name: type] lines two spaces further in, then words or {name: type} followed by a block two spaces further in; white space (also line breaks) is free around colons, inside brackets, around :: and ->, nowhere else; every line ends in at least one line break. Every other text is rejected with an error; no text has two meanings.",
  "every text, every configuration",
  "all texts, of any length and depth of nesting",
  [PARSE+": route_config"])
p("Every rejected file gets a report, at the right place",
  "A text that is not a route file makes the build print a report that is not empty and exit with status 101, never panic; a route file gets no report. The report is either a single line about the first line of the file (only when the slash or its line break is missing, or when text follows a complete route file), or a list from the top of the file downwards that begins with one of the messages of parse/mod.rs and in which every 'Expected ...' about a colon, a closing bracket or a newline stands where the text does not have it. The list ends with nom's own kind of the innermost error, after the message it belongs to and at its place, and the messages before these two are about the content of a block and about the routes it belongs to, by turns. That every report stands at the place of the error is false: text after a complete route file is reported at the start of line 1.",
  "every text, every content of the registry of messages",
  "all texts",
  [PARSE+": route_config", "wayfinder/src/parse/errors.rs: show_errors", "wayfinder/src/build/mod.rs: Builder::build"])
p("The command line example prints what was matched",
  "The example program prints the result of match_route for its argument and the method GET, with the fields of the matched struct in the order path parameters, then query parameters (all None), and then a line with the path of the route; it prints the usage if there is no argument, and panics only if match_route does or an argument is not Unicode. Asking again for the printed path gives the same output if Display inverts FromStr. The last claim is false if the request ends in two slashes.",
  "every configuration that compiles, every argument list, every type with Debug and Display",
  "all requests and all configurations",
  ["examples/cli/src/main.rs: main", GEN+": codegen, codegen_module (derived Debug, Error, Match)"])
p("One test per case directory",
  "The build script of wayfinder-tests writes a file with one test for each entry of its directory of cases, in order, with the paths of its routes.routes and routes.rs. A test passes exactly if the route file is one, code can be generated for it, and this is the expected code; that is, if the command line tool prints the expected code. A failing test says what differs, or what is wrong with the file. That every directory with the two files gives a test is false: the tests compile exactly if every name consists of letters, digits and underscores and every entry has both files.",
  "every state of the file system and environment, every pair of files",
  "all directories and all files",
  ["wayfinder-tests/build.rs: main, write_cases", "wayfinder-tests/src/diff.rs: TestResult::assert"])
p("A route file or a configuration in the build script",
  "Building from a file announces and reads it, and then does what building from the configuration that it says does; every well-formed configuration can be put into a file, and its printed form is one if it has at most seven levels. That every configuration can be put into a file is false: a static segment with a hyphen can be built and matched, but not be written in a route file.",
  "every state of the file system and environment, every builder, every configuration",
  "all configurations and all files",
  ["wayfinder/src/build/mod.rs: Builder::input_file, Builder::input_config, Builder::build", "wayfinder/src/lib.rs: crate documentation"])
p("The type written for a path parameter is the type it is parsed as",
  "The text of a path parameter is parsed as the type written for it in the configuration. This is false: the generated matcher does not mention types, and below a parameter with redirects only, it is parsed as the type that the parameter of the same name has in the struct redirected to. With these types in place of the written ones the answers are those of C24; they are the written ones exactly if redirects agree with their targets about types.",
  "every configuration that compiles and has at most one parameter among siblings, every request",
  "all configurations and all requests",
  [GEN+": write_dynamic, write_methods"])
p("The code that every generated module contains",
  "The part of the generated text that does not depend on the configuration is the types Match and Error with their implementations and the first statements of match_route; everything before it is documentation and attributes. The statements skip one leading slash and never panic, also for the empty path; the matcher is checked and runs from there, and no resource of a configuration whose other items are accepted gets in the way of its variables. Debug and Display of Match and Error print the fixed templates.",
  "every configuration, every request, every type with Debug",
  "all configurations and all requests; ties the text of the boilerplate to the behaviour that the other properties start from",
  [GEN+": codegen"])
p("Comparing answers",
  "Two answers of match_route compare equal exactly if they are the same variant of Match and the same route with equal parameters. Requests answered with equal routes have the same method and the same segments. The last claim is false if two texts are parsed as the same value, such as 7 and 007.",
  "every configuration that compiles, every pair of requests, every type with Eq",
  "all configurations and all pairs of requests",
  [GEN+": codegen_module, codegen (derived PartialEq)"])
p("Header code is passed through to every module",
  "README: 'The header can be any Rust code to be passed through to the generated module.' Any lines that do not begin with a slash can be put before the line '/' of a route file; the non-empty ones are copied, in order and unchanged apart from the indentation, to the beginning of the module for the root and of every module in it, followed by an empty line; nothing else of the generated text depends on them. 'Any Rust code' is false: a line that begins with a slash, such as a comment, makes the file be rejected.",
  "every list of header lines, every routes section",
  "all texts of header lines and all configurations, modules nested to any depth",
  [PARSE+": header", GEN+": codegen_module", "README.markdown: language reference"])
p("A failed build says why",
  "A build ends in one of three ways. It succeeds and prints nothing but what Cargo is to know. It exits with status 101 after exactly one message: source or target not configured, the input file cannot be read, it is not a route file (with the report of its errors), the output file cannot be created, or the code cannot be written; the message has the path and the error of the system, and which one it is follows from the first step that fails. Or code generation panics. from_env exits with a message that names the first environment variable that is missing or not Unicode.",
  "every answer of the operating system, every builder",
  "all worlds and builders; the complete sequence of reads, creations, writes and messages is determined",
  [BUILD+": Builder::build, Builder::from_env, fail!"])
p("A query string does not change the route",
  "A request path with a query string, such as /people?lang=en, gets the route of the path without it. This is false (the README lists handling query strings as not done): the question mark and what follows are a part of the last segment. What holds, for '?' and for every other ASCII character that names cannot contain: a segment with such a character is matched only by a path parameter, which is parsed from the whole segment; a configuration without path parameters answers every such request with not found.",
  "every route file, every request, every such character",
  "all configurations that parse and compile and all requests",
  [GEN+": codegen_trie, write_dynamic", "README.markdown: status"])
p("The time for a request does not depend on the configuration",
  "A request is answered within twenty-three steps (statements and tests of conditions of the generated function) and twenty-three more for each byte of its path, however many routes there are and however long their paths are.",
  "every configuration that compiles, every request",
  "all configurations, of any size",
  [GEN+": codegen_trie, write_dynamic"])
p("The size of the generated matcher",
  "The generated match_route has at most twenty-four statements and arms for each character of the route file. For a configuration that was not read from a file: at most twenty-four for each character, parameter and slash in the tree of segments, where a segment counts once however many routes are below it, and four for each resource.",
  "every route file and every configuration for which code is generated",
  "all files and all configurations",
  [GEN+": codegen_trie, write_dynamic, write_methods", TRIE+": Trie::add"])
p("Requests that are texts",
  "The bytes that std::str::from_utf8 accepts are exactly the encodings of texts by RFC 3629 (no overlong forms, no surrogates, nothing above U+10FFFF), each of one text only. Cutting a request at slashes gives the same segments before and after encoding, so a request that is a text is matched segment by segment of the text, each path parameter is parsed from the text of its segment, and from_utf8 never fails.",
  "every byte sequence, every text, every configuration that compiles, every request that is a text",
  "all texts with characters of one to four bytes, all configurations",
  [GEN+": write_dynamic"])
p("A matcher that compiles answers every request",
  "If the generated module compiles, then every call of match_route ends, with a panic or with a value of its type: a declared struct inside the variants of the modules that lead to it, with a value of the declared type for every field. This needs no condition on the names of parameters or on redirects, other than C24.",
  "every configuration that compiles, every request, every meaning of the types of parameters",
  "all configurations and all requests; the checker that the model uses for rustc accepts no program that could go wrong at run time",
  [GEN+": codegen_trie, write_dynamic, write_methods"])
p("The generated text, read as Rust, is the program",
  "If the generated module compiles, then the text of it, cut into tokens and parsed by the grammar of the part of Rust that it is written in (comments, literals, items, statements, expressions), is one module with exactly the declared structs, enums and to_path functions, the fixed types Match and Error, and one function match_route, whose body is the program of the other properties. Checked and run from the text alone it answers every request as the configuration says; no printed line is read as something else. For configurations of names and plain text, the text of a finished generation is accepted exactly if the configuration compiles in the sense of C48.",
  "every configuration that compiles, has headers made of use declarations and types that are names; every request",
  "all configurations and all requests; the other properties speak of a syntax tree next to the printed text, this one of the text alone",
  [GEN+": codegen, codegen_trie, write_dynamic, write_methods, codegen_modules"])
p("The hand-written goal is the example",
  "wayfinder-goal/src/routes.rs, a module written by hand and laid out differently from generated code, declares what the module generated for wayfinder-tests/cases/example declares, and its match_route answers every request as that configuration says.",
  "every request, every meaning of the types of parameters",
  "all requests; the text of the file is read by the reader of C81",
  ["wayfinder-goal/src/routes.rs: match_route", "wayfinder-goal/src/lib.rs: test_people, test_people2"])
p("From a route file to the answers of the written code",
  "If a file is a route file by the grammar of C66 whose configuration compiles (with the conditions of C24 and C81), then what the command line tool prints, and what a finished build writes last, is Rust text that, read and run as in C81, answers every request as the segments of the route file say.",
  "every file, every state of the file system and the environment, every builder, every request",
  "all route files and all requests, from the characters of the file to the value that match_route returns",
  [BUILD+": build", "wayfinder-cmd/src/main.rs: main", PARSE+": route_config", GEN+": codegen"])
p("Indentation is nesting, and children come in order",
  "README: 'It is whitespace-sensitive, with indentation level corresponding to nesting level', and: 'Each route segment can have three types of children: query parameters, resources, and nested routes. They must be specified in that order.' A text is a route file exactly if it is a list of lines, each indented by two spaces per level, which are those of a configuration without empty blocks, nested blocks one level deeper than their segment and the query parameters of a resource one level deeper than it. A text can be cut into such lines in one way only, and the lines determine the configuration. Given the lines, the file is accepted exactly if they are in order, which one pass over them decides; lines of the same block are query parameters, then resources, then nested routes.",
  "every text, every list of lines",
  "all route files, blocks nested to any depth; ties the two sentences of the README to the parser",
  [PARSE+": route_config, routes, nested_routes, resources_and_routes, resource, query_param", "README.markdown: language reference"])
p("A change of the routes concerns only the requests below it",
  "If one block of a configuration, at any depth, is replaced by another one, then requests whose segments do not begin with the path of the block are answered as before. Adding a resource to a block that has resources changes only requests for its verb that end in the block. Adding a nested route to a block changes only the requests whose segments begin with its path; this is false beside path parameters: the new route takes requests for the parameter that begin with its name, and makes an earlier static route beside it unreachable. It holds for static segments in blocks without parameters; for the first static segment beside parameters it holds with 'begin with its name'. The first parameter of a block with resources and at most one static segment changes only requests with a segment that does not begin with the name of the static one; beside two static segments it can take the requests of both.",
  "every pair of configurations that compile and differ in one block, every request",
  "all configurations, blocks at any depth, all requests",
  [GEN+": codegen_trie, write_dynamic, write_methods", TRIE+": Trie::add"])
p("Mistakes that only the compiler finds",
  "The README lists 'Some simple static checks (uniqueness of params, existence of redirect)' as not done. If two parameters in scope of a resource have the same name, or a redirect has no target or its target does not have the same parameters, then the generated module does not compile. That code generation notices such mistakes is false: it succeeds or fails whatever the query parameters, the targets of redirects, the types of parameters and the verbs are.",
  "every configuration",
  "all configurations; redirects in every block of the generated matcher",
  [GEN+": codegen", FLAT+": FlattenedModules, FlattenedRoutes::to_trie", "README.markdown: status"])
p("The documentation of the generated types",
  "Each generated request struct is documented with the verb and the path of its resource, parameters by name in braces, on the line before it; each Route enum with the name of its module. The documented path, with texts that parse in place of the names in braces, is a request that is answered with this struct, under the conditions of C46. Two structs have the same documentation only if they are resources of one block for one verb. That the documented request is always answered with the struct is false: of two such resources the first one answers.",
  "every configuration for which code is generated; every text for the parameters",
  "all configurations, modules and blocks at any depth, all texts",
  [GEN+": codegen_module", "wayfinder/src/gen/gen.rs:79-105"])
p("What a matcher asks the types of the parameters",
  "For each request there is one path from the root of the configuration to a block, whose static segments are those of the request, such that the answer, for every method, depends on FromStr only through the parameters of this path and the segments at their places: each segment is parsed as at most one type. So what FromStr says about types that are not declared, or about texts that are not segments of the request, does not matter. That a segment is only parsed if the request matches a route otherwise (the README lists 'Only try parsing if route actually matches otherwise' as not done) is false.",
  "every configuration that compiles, every request",
  "all configurations, all requests, all behaviours of FromStr",
  [GEN+": write_dynamic, codegen_trie", "README.markdown: To Do"])
p("Files that are cut off",
  "If a route file is accepted, and a beginning of it, cut off at any character, is accepted as well, then the beginning says a beginning of what the file says: the same header, and the routes up to a place in one of the resources. Handlers are whole unless the rest goes on with a colon. Conversely every such beginning of the routes is what some beginning of the file says, and each of its blocks is a block of the whole or the beginning of one. That a file without its end is noticed is false, and also that each handler of an accepted beginning is a handler of the whole file.",
  "every accepted file, every place in it",
  "all texts, all places",
  [PARSE+": route_config, routes, resource, line_ending"])
p("Repeated slashes",
  "A request with two slashes in a row has an empty segment, which no static segment matches: it is answered with a route or a redirect only if the type of a path parameter parses the empty text. If no type does, no such request is matched. That repeated slashes count as one is false.",
  "every configuration that compiles with plain static segments, every request with repeated slashes",
  "all configurations, all requests, all behaviours of FromStr",
  [GEN+": codegen_trie, write_dynamic", "README.markdown: language reference"])
p("Redirects stay on the site",
  "README: a redirect is for a route that 'should redirect to that resource rather than directly serving it', and the example programs print the to_path of its value as the place where it leads. A path that begins with two slashes names a host (RFC 3986, 4.2). to_path gives such a path exactly if the path of the resource begins with a parameter that is printed as nothing and followed by more segments, or printed with a slash in front. So redirects stay on the site if no path of the configuration begins with a parameter, or if types print what they parsed and have no empty values. That redirects always stay on the site is false: with String parameters, the request can name the host.",
  "every configuration that compiles, every request, every value",
  "all configurations, all requests, all behaviours of FromStr and Display",
  [GEN+": codegen_module", "examples/cli/src/main.rs: main"])
p("The order of the resources of a block",
  "The answers to requests depend, of the resources of each block, only on the first one for each verb. So resources for different verbs can be written in any order, and a second resource for a verb is never the answer. Whether code is generated, and whether it compiles, does not depend on the order of resources. That the order never changes an answer is false: of two resources for one verb the first one answers.",
  "every pair of configurations with the same blocks, every request",
  "all configurations, blocks at any depth, all requests",
  [GEN+": write_methods", FLAT+": FlattenedRoutes"])
p("What 404, 405 and parse errors depend on",
  "Whether a request is answered with 404, with 405, with a parse error (and which one) or with a match, and the values of the path parameters of a match, depend only on the paths of the blocks and on the verbs for which they have resources: not on the handlers, on which resources are redirects, on query parameters, headers or the order of resources. That the paths alone decide about 404 is false: the resources of a block do as well.",
  "every pair of configurations that compile and have the same blocks and verbs, every request",
  "all configurations, blocks at any depth, all requests, all behaviours of FromStr",
  [GEN+": write_methods, write_dynamic, codegen_trie"])
p("The names of parameters",
  "If the parameters of a configuration, in paths and query parameters, are given other names, and the module still compiles, then the answers to all requests are the same, with the new names as names of the fields and in parse errors. Whether code is generated does not depend on the names. Both for configurations with at most one path parameter beside others in each block: with two, that names never matter is false, as the first one in the alphabet takes the requests. That a module with other names always compiles is false as well.",
  "every pair of configurations that are the same but for the names of parameters, every request",
  "all configurations, blocks at any depth, all changes of names, all requests, all behaviours of FromStr",
  [GEN+": codegen_trie, write_dynamic, write_methods", TRIE+": Trie::add"])
p("Building again",
  "After a build that finishes, the target file contains the generated code and nothing else, whatever it contained before, and all other files are as they were. If then the route file has not changed and the target is as the build left it, another build changes nothing: so Cargo, which is told to watch the route file, can skip it, and two builds in a row do what one does. That a build can always be repeated is false: if the target is the route file itself, the routes are overwritten with the code, which is never a route file, and the next build fails.",
  "every build that finishes, every content of the files before it and in between",
  "all builders, all file systems, all route files",
  [BUILD+": Builder::build"])
p("Comments",
  "In an accepted file one line begins with a slash, and nothing follows the slash in it. After it, there are only characters of names, white space, brackets, colons and arrows: there is no way to write a comment between the routes. A line that begins with a slash and goes on, such as a comment, makes any file be rejected, wherever it is. Slashes within lines, and all characters that routes do not have, are accepted only in lines before that line, and are part of the header then, which is copied to the generated module.",
  "every text",
  "all texts, all characters, all places",
  [PARSE+": route_config, header, routes", "README.markdown"])
p("Any text as a mount point",
  "mount takes any text as the place of the mounted routes. If it is several segments with slashes between them, this is the same as mounting the routes at the last one, and the result at the others. Requests that do not begin with the text, followed by a slash or the end, are answered as by the host, if that has no path parameters at its root. So that it may be written with a slash in front, as a path, is false: then no request with one slash in front is served by the mounted routes; the same with a slash behind.",
  "every pair of configurations that compile together, every text, every request",
  "all configurations, all mount points, all requests",
  [CORE+": RouteConfig::mount", GEN+": codegen_trie"])
p("Values are passed on as they are parsed",
  "match_route does nothing with the values of parameters but pass them on. If what two sets of types make of each text corresponds, so do the answers of the code generated from the same file: the same route with corresponding values, or the same outcome. Unless the answer is that a parameter does not parse, matching is splitting the path into the texts of its parameters, whatever they are, and parsing these; and if all texts of the path so split parse, the answer is the route with their values. That this is so for all requests is false: a text that does not parse is reported even if the path or the method is not served.",
  "every runnable configuration, every pair of corresponding sets of types, every request",
  "all configurations, all implementations of FromStr, all relations, all requests",
  [GEN+": codegen_trie, codegen_match_route"])
p("Which configurations can be mounted",
  "Code can be generated for a configuration with others mounted exactly if it can be generated for each of them alone (or there is nothing in it), no two of them declare a resource with the same modules and name, the mount points differ, and none is a static segment that the root of the host has already. So a configuration that declares a resource can be mounted at one place only, and not in itself, and routes mounted at a segment that the host has are not merged with those; code generation panics then. If the modules generated for the host and the guest compile, and the structs of the guest are all in a module that the host does not have, the module generated for both together compiles, given that the mount point does not begin with a static segment of the host or the other way round and the root of the host has no parameters; requests below the mount point are then answered as by the guest, and all others as by the host. That any two configurations for which code can be generated can be mounted is false, and so is that what compiles alone compiles together.",
  "every configuration, every list of guests and mount points",
  "all configurations, all lists of guests, all mount points",
  [CORE+": RouteConfig::mount", FLAT+": FlattenedModule, flattened_modules", GEN+": codegen"])
p("The names of actions",
  "If the resources of a configuration are given other names and modules, redirects to them alike, and the module still compiles, every request is answered as before, with the new modules and name in place of the old ones and the same values. Whether code is generated does not depend on the names, as long as different structs get different ones. That a module with other names always compiles is false.",
  "every configuration that compiles, every function from names to names, every request",
  "all configurations, all functions, all requests",
  [GEN+": codegen_trie, codegen", FLAT+": flattened_modules"])
p("The last call of each kind counts",
  "After any sequence of calls of input_file, input_config, output_file and output_stdout on a builder from new or from_env, build() takes its input as the last input call says and its output as the last output call says; earlier calls, and the order of inputs and outputs, make no difference. Without an input call or without an output call it says one thing, reads and creates nothing, and exits with status 101.",
  "every sequence of calls, every file system",
  "all sequences of calls",
  ["wayfinder/src/build/mod.rs: Builder::input_file, input_config, output_file, output_stdout, build"])
for x in P: print(json.dumps(x, ensure_ascii=False))
