# A Rocq model of couchand/wayfinder

wayfinder reads a route file (or a `RouteConfig` value), and prints the Rust source of a module with a
`match_route` function. The model has three parts:

1. the library itself, function by function: data types and printing (`core/mod.rs`), the nom parser
   (`parse/mod.rs`), error display (`parse/errors.rs`), the trie (`gen/trie.rs`), flattening
   (`gen/flat.rs`), code generation as *text* (`gen/gen.rs`), and the builder (`build/mod.rs`);
2. the *generated* program: a small Rust subset (`MiniRust.v`) with a pretty-printer, a static check
   (the part of rustc that decides whether generated code compiles) and an interpreter with panics;
   and likewise the items around it (`Items.v`); the text printed by the generator is proved equal to the
   pretty-printed items and program (C58), so that statements about them are statements about the emitted text;
3. specifications written without the model's helpers (`Spec.v`): segment-wise matching on the
   configuration tree, well-formedness of configurations, and so on.

## Files (rocq/theories)

Model (definitions only):

| file | models |
|---|---|
| Base.v | characters, strings, UTF-8, result types |
| Core.v | wayfinder/src/core/mod.rs |
| Nom.v | the nom 4.1 combinators that parse/mod.rs uses, on `CompleteStr` |
| Parse.v | wayfinder/src/parse/mod.rs |
| Errors.v | wayfinder/src/parse/errors.rs, with the registry as a concurrent system |
| NomErr.v, ParseErr.v | the same combinators and parser with the errors that nom collects; proved to agree with Nom.v and Parse.v |
| Trie.v | wayfinder/src/gen/trie.rs |
| Flat.v | wayfinder/src/gen/flat.rs |
| MiniRust.v | the language of generated matchers: syntax, printer, static check, semantics |
| Gen.v | wayfinder/src/gen/gen.rs: the text generator, and the program it prints |
| Items.v | the rest of the generated module (structs, enums, modules, `impl` blocks) as Rust items: printer, static check, running `to_path` |
| ToPath.v | the generated `to_path` methods |
| Build.v | wayfinder/src/build/mod.rs and wayfinder-cmd/src/main.rs |
| Macros.v | wayfinder/src/core/macros.rs (on lists of tokens), the `From` instances of core/mod.rs |
| Diff.v | wayfinder-tests/src/diff.rs |
| Cli.v | examples/cli/src/main.rs, examples/structured/src/main.rs, and `Debug` of the generated types |
| Cases.v | wayfinder-tests/build.rs, and the tests it writes |
| Fixed.v | the code of a generated module that does not depend on the configuration: printer, check, semantics |
| Equal.v | the derived `==` of generated types |
| RLex.v, RRead.v | a lexer and a parser for the Rust that generated modules are written in |

Specifications (definitions only, written without the model's helpers where the property allows):
Spec.v, SpecTrie.v, SpecMatch.v, SpecCore.v, SpecGen.v, SpecPath.v, SpecMount.v, SpecCost.v, SpecParse.v,
SpecErrors.v, SpecBuild.v, SpecCompile.v, SpecItems.v, SpecMacros.v, SpecDiff.v,
SpecBack.v, SpecReach.v, SpecGrammar.v, SpecOutline.v, SpecChange.v, SpecUnseen.v, SpecReport.v, SpecCli.v, SpecCases.v, SpecTypes.v,
SpecEqual.v, SpecHeader.v, SpecFailure.v, SpecQuestion.v, SpecSize.v, SpecText.v, SpecTyped.v, SpecRead.v, SpecDocs.v, SpecAsk.v, SpecCut.v, SpecSite.v, SpecVerbs.v, SpecShape.v, SpecRename.v, SpecDisk.v, SpecComment.v, SpecMountPoint.v, SpecPass.v, SpecMounts.v, SpecAction.v, SpecCalls.v.

Proofs: `*Facts.v`, `*Props.v`, `*Thms.v`.

Property theorems, each closed by a lemma and followed by `Print Assumptions` and an `Example` that meets its
hypotheses: PropParse (C01-C09), PropGrammar (C66), PropOutline (C84), PropCore (C10-C12), PropTrie (C13-C16), PropFlat (C17-C19), PropGen (C20-C23,
C54), PropMatch (C24-C29, C32-C42, C48), PropOrder (C43), PropPath (C44-C47), PropBack (C62), PropReach (C63, C64), PropSearch (C32, C35, C36 exactly), PropEnd (C65), PropBuild (C49-C51, C55, C56), PropErrors
(C52, C53), PropReport (C67), PropCompile (C30, C31, C57), PropItems (C58), PropMacros (C59, C60), PropDiff
(C61), PropCli (C68), PropCases (C69), PropEither (C70),
PropTypes (C71), PropFixed (C72), PropEqual (C73), PropHeader (C74), PropFailure (C75), PropQuestion (C76), PropCost (C77), PropSize (C78), PropText (C79), PropTyped (C80), PropRead (C81, C82), PropWhole (C83), PropDepth (C24 and C27-C29 in any block), PropChange (C85), PropUnseen (C86), PropDocs (C87), PropAsk (C88), PropCut (C89), PropSite (C90, C91), PropVerbs (C92), PropShape (C93), PropRename (C94), PropDisk (C95), PropComment (C96), PropMountPoint (C97), PropPass (C98), PropMounts (C99), PropAction (C100), PropCalls (C101).

GoalText.v is the text of wayfinder-goal/src/routes.rs (tools/golden.py).

Tests, not proofs: Golden.v (the repository's own test cases, evaluated in the model: the text of the three
`routes.routes` files must give the text of the three `routes.rs` files), GoldenTests.v (the unit tests of wayfinder-tests, of examples/cli
and of examples/structured, and the equivalence in the crate documentation), Examples.v, BuildExamples.v, CompileExamples.v,
ReachExamples.v and ReadExamples.v (configurations used in the property files, and what is checked of them).

## Modelling decisions

* A `char` is a natural number (`N`), a Rust `String`/`&str` a list of them; request paths are lists of
  bytes. `char::is_alphanumeric` outside ASCII is an oracle argument `ualnum : N -> bool`, universally
  quantified in every theorem.
* `usize` is `nat`: lengths are at most `isize::MAX` in Rust, and the generated sums `i + n` of two
  lengths cannot reach `2^64`.
* Panics, `io::Error`s and "out of fuel" are explicit result values. Every fuelled function comes with a
  theorem that the fuel it is given suffices.
* `FromStr` of user types is an oracle `parse : type name -> bytes -> value + error`, universally
  quantified. `Display` likewise.
* A writer (`W: Write`) is abstracted: code generation produces the list of chunks it writes and a final
  status; running it on any (failing) writer is a function of these.
* A panic is one of the values of `panic` (Base.v): the model says which panic site is hit, not its message.
* The registry of error messages (errors.rs) is a transition system whose steps are the atomic operations of
  `Once`, `Mutex` and `Vec`; theorems quantify over all schedules of any number of threads.
* The operating system (environment, files, output) is a record of answers, fixed during a run of the builder;
  what the builder does is a list of events.
* `HashMap` iteration order and `sort_unstable` are modelled by a relation that allows every order.

## Plan per property

| property | model | method |
|---|---|---|
| C01 C03 C04 | Core.v, Nom.v, Parse.v | parser/printer lemma per combinator, induction on the configuration |
| C02 C05 C06 C09 | Nom.v, Parse.v | invariants of each combinator, induction on fuel |
| C66 | Nom.v, Parse.v | grammar as inductive relations; per parser, both directions |
| C84 | Parse.v | C66; an automaton on lines accepts exactly the outlines |
| C07 C08 | Parse.v | simulation: each parser commutes with squeezing line breaks |
| C10 C11 C12 | Core.v | induction on lists |
| C13-C16 | Trie.v | invariant by induction on additions, look-up refinement, canonical form |
| C17-C19 | Flat.v | induction on the tree; permutation-invariance of the sort |
| C20-C23, C54 | Gen.v, Flat.v, Trie.v | canonical form of the trie; text = rendering of the program |
| C30 C31 C57 | Gen.v, MiniRust.v | the check of the generated program, by induction on the trie, as a condition on blocks; then as one on the configuration |
| C24-C44, C48 | Gen.v, MiniRust.v, Spec.v | symbolic execution of the generated program by induction on the trie; refinement to the tree search; corollaries and counterexamples |
| C45-C47, C62-C65 | Core.v, Gen.v, Spec.v | corollaries of C24 |
| C58 | Gen.v, Items.v | the writer's text, function by function; the check of the items, by induction on the module tree |
| C59 C60 | Macros.v, Parse.v | inversion of the rules; the parser lemmas of C01 |
| C61 | Diff.v | induction on the operations |
| C68 | Cli.v, Items.v, ToPath.v | corollaries of C58, C62 and C63 |
| C69 | Cases.v, Diff.v | the written lines, read back; case analysis |
| C70 | Build.v, Parse.v | C66; a text for each well-formed configuration |
| C71 | Gen.v, MiniRust.v | C24 for the configuration with the inferred types, which has the same program |
| C72 | Fixed.v, Gen.v | computation; C58 |
| C73 | Equal.v, Items.v | induction on the module tree; corollaries of C24 and C62 |
| C74 | Gen.v, Items.v, Parse.v | induction on the module tree; C66 |
| C76 | Spec.v | corollaries of C24 and C66 |
| C77 | Gen.v, SpecCost.v | induction on the trie: steps left over for each byte that is left |
| C78 | Gen.v, SpecSize.v | weight of the trie, by induction on the configuration; grammar for files |
| C79 | Base.v (from_utf8), SpecText.v | digits to the base 64; cutting at slashes commutes with encoding |
| C80 | MiniRust.v, Gen.v, SpecTyped.v | type soundness of the matcher language, by induction on statements |
| C81 | RLex.v, RRead.v, SpecRead.v | each printed line is lexed and read back, by induction on statements and items; C24's checker accepts what is read. For C81_exact, statements with malformed arms are shown to be rejected by the grammar (ReadBad.v), and the checks on canonical and printed programs agree (ReadExact.v) |
| C82 | GoalText.v, RRead.v | both texts read to the same items and function; C81 |
| C83 | Build.v, Parse.v, RRead.v | C49, C56, C66 and C81 |
| C85 | Spec.v | C24; induction on the path to the changed block |
| C86 | Gen.v, SpecGen.v | C20, C30 |
| C87 | Gen.v, Items.v, SpecItems.v, SpecDocs.v | C46, C58 |
| C88 | Spec.v, SpecAsk.v | C24; induction on the configuration |
| C89 | Parse.v, SpecOutline.v, SpecCut.v | C84; the last line of a file, with anything after it, read by the parser |
| C92 | Spec.v, SpecCompile.v, SpecVerbs.v | C24, C20, C30; induction on the configuration |
| C93 | Spec.v, SpecVerbs.v, SpecShape.v | C24; induction on the configuration |
| C94 | Spec.v, SpecMatch.v, SpecGen.v, SpecRename.v | C24, C20; induction on the configuration |
| C95 | SpecBuild.v, SpecGrammar.v, SpecDisk.v | C75, C66, C22 |
| C96 | SpecParse.v, SpecComment.v | C66, C74 |
| C97 | SpecMatch.v, SpecMountPoint.v | C45, C30 |
| C98 | SpecMatch.v, SpecPass.v | C24, C35 |
| C99 | SpecGen.v, SpecCompile.v, SpecMounts.v | C10, C20, C30, C45, C97 |
| C100 | SpecMatch.v, SpecGen.v, SpecAction.v | C24, C20; induction on the configuration |
| C101 | SpecCalls.v | induction on the calls |
| C90 C91 | Spec.v, ToPath.v, SpecSite.v | C25, C47, C62 |
| C49-C51, C75 | Build.v | state machine over a file system and an effect trace |
| C52 C53 | Errors.v | induction over schedules / strings |
| C67 | NomErr.v, ParseErr.v, Errors.v | per combinator: erasing the errors gives the parser of C66; every item is a suffix of the text, inner ones first |

## Trusted base

* Coq 8.16.1: kernel, `vm_compute`, standard library. No other library is used.
* `Print Assumptions` says "Closed under the global context" for every property theorem: no axiom at all is used.
  `coqchk` on the compiled files also lists seven parameters `Coq.ssr.ssrunder.Under_rel.*`; they are the fields of
  a module type in the standard library's ssreflect files, loaded by `lia`, and no theorem here depends on them.
* The reading of the code. Every definition of the model cites the lines it models; Golden.v compares the complete
  pipeline (parser, generator) with the three expected outputs in the repository, and GoldenTests.v evaluates the
  repository's unit tests: parsing, printing, macros and 35 requests to `match_route`.
* External code written from documentation and memory, because it is not in /repo:
  * nom 4.1 (Nom.v, and NomErr.v for the contexts of its errors with verbose errors on). What is least certain, whether
    `many1!` keeps a failure of its first round, is a parameter.
  * rustc: MiniRust.v has the static check that decides whether generated code compiles (scoping, types of the
    variables, inference of `parse()`, struct literals, exhaustive matches, divergence) and the semantics of the
    generated statements. Gen.v's `module_ok` has the name rules (identifiers,
    keywords, duplicate items, names the generated code mentions, unit structs and constructors of the prelude as
    patterns) in terms of the configuration; Items.v's `items_ok` has them in terms of the printed items, and C58_check proves that they agree. Where rustc
    would need more than these files know (escapes in byte-string literals, braces in the texts of `format!`, identifiers
    outside ASCII) they reject.
    Lints are taken as warnings.
  * Rust's grammar: RLex.v cuts a text into tokens (escapes, raw strings, character literals and block comments
    are rejected), RRead.v parses the items, statements and expressions that generated modules use and rejects all others.
    Only C81 to C83 depend on these two files.
  * std: `str` slicing, UTF-8 validation, `format!`, `PathBuf::join`, `Once`, `Mutex`, `HashMap`, `Vec::sort`,
    `env::args`, what derived `Debug` prints and derived `PartialEq` compares, `write!`, `debug_struct`;
    the http crate's `Method`, ansi_term's bold colours; prettydiff's list of operations is arbitrary in C61.
  * `macro_rules!`: the first rule that matches the tokens is taken.

## What is not modelled

* Tests and examples of the repository (wayfinder-tests, wayfinder-goal, examples), except as golden cases,
  wayfinder-tests' diff.rs and build.rs, examples/cli's main, and wayfinder-goal's routes.rs.
* Headers and the types of parameters: they are copied to the output as text. Whether they compile is the user's
  business; theorems about running the generated code assume that they do.
* Doc comments other than C54's.

## Findings

Places where the code does not do what its documentation, or a reader, would expect. Each (but C96) has a `_refuted` theorem
with a witness.

| property | finding |
|---|---|
| C04 | `stringify` prints `--` into the indentation of the eighth level and deeper; the result does not parse |
| C07 | a line of white space is not a blank line: it makes the file invalid |
| C15 | a failing `Trie::add` returns a sub-trie, not the old trie |
| C23 | `update` and `Update` give the same struct name: the generated module does not compile |
| C28 | `/people/newton` is 404 when `new` is a static sibling of `{id}` |
| C29 | static siblings with a common prefix next to a dynamic segment are unreachable |
| C30 | `user` next to `users` gives a module that does not compile |
| C31 | two static names with different first letters next to a dynamic segment do not compile |
| C37 | a byte path that is not UTF-8 panics in a dynamic segment |
| C38 | a one-character static next to a dynamic segment panics on the path of their parent |
| C40 | `/people/` reaches `{id}` with an empty id when `people` has no resource |
| C45 | mounting next to a dynamic segment changes how other requests are routed |
| C48 | a parameter named `len` of type `usize` captures the matcher's variable and panics; one named `start` of type `usize` gets a position in the path as its value (`i`, `path`, `method`, and `len` of another type, do not compile: `C48_reserved`) |
| C53 | the caret is misplaced from line 10000 on |
| C57 | a resource called `string`, `result`, `ok`, `none`, `p`, ... gives a module that does not compile |
| C59 | a redirect with a query parameter cannot be written with the macros |
| C60 | converting the http method HEAD, OPTIONS, ... panics |
| C63 | of two sibling parameters with a static sibling, the one whose name comes second is silently never matched |
| C64 | a redirect may lead to a resource of another method: following it gives 405 |
| C67 | text after a complete route file (say, a line with an odd margin) is reported at the start of line 1 |
| C68 | `GET /files//` matches `{name}` below `files` with an empty name; the path printed for it, `/files/`, is another route |
| C69 | a case directory called `my-case`, or a plain file next to the cases, stops all tests from compiling |
| C70 | a static segment `my-page` works in a configuration but cannot be written in a route file |
| C71 | below `{id: u32}` with only a redirect to a struct with `id: String`, `/old/ann` is redirected |
| C73 | `/rooms/7` and `/rooms/007` are equal answers |
| C55 | a build that fails in code generation truncates the previous output file |
| C74 | a header line that begins with a slash, such as a comment, makes the file invalid |
| C76 | a query string in the path is taken for a part of the last segment: `/books?page=2` is 404 |
| C85 | a new static route beside `{id}` takes requests for ids that begin with its name, and can make an older one unreachable |
| C86 | a redirect to a resource that does not exist, or with other parameters, and two parameters of one name are only noticed by rustc |
| C87 | two structs for one verb and path have the same documentation; requests only give the first |
| C88, C98 | parameters are parsed although the request is not one for any route; the answer is a parse error then, not 404 |
| C89 | a route file without its end is often still a route file; a handler can be cut off in its path |
| C90 | `/ann//inbox` is not `/ann/inbox` |
| C91 | `/old//evil.example` can be redirected to another host |
| C92 | of two resources for one verb in one block, the second is silently never matched |
| C93 | a segment without resources is 404 for all methods, also if it has nested routes |
| C94 | of two parameters in one block, the names decide which one takes the requests |
| C95 | a build whose target is the route file overwrites it with the generated code, and cannot be repeated |
| C96 | there are no comments in route files |
| C97 | `mount("/api", ...)` serves nothing at `/api` |
| C99 | a configuration cannot be mounted at two places; two actions `index` in two files make code generation panic |
