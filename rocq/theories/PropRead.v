(** * Properties C81 and C82: the generated text, read as Rust *)
From Verif Require Import Base Core Nom Parse Flat MiniRust Gen Spec SpecMatch SpecGen Items SpecItems Fixed SpecCompile RLex RRead SpecRead ReadAll ReadExact
  Examples Golden GoldenTests GoalText ReadExamples.

(** C81.  The tokens of the generated text, parsed by the grammar of the part of
    Rust that it is written in, are the items of C58, the types of C72 and one
    function: the program that the other properties are about. *)
Theorem C81_reads c :
  compiles c = true -> use_headers c -> ident_types c ->
  exists root body,
    flattened_modules (c_routes c) = ROk root /\
    gen_program c = ROk body /\
    read_module (lit "routes") (w_text (codegen c))
    = Some {| rd_items := bare_items (module_items true (c_headers c) root);
              rd_others := fixed_tokens;
              rd_fns := [(prologue, canon_block body)] |}.
Proof. exact (module_reads c). Qed.
Print Assumptions C81_reads.
(** It is accepted. *)
Theorem C81_compiles c :
  compiles c = true -> use_headers c -> ident_types c ->
  exists program, compile_text (w_text (codegen c)) = Some program.
Proof. exact (text_accepted c). Qed.
Print Assumptions C81_compiles.
(** Running it is [match_route]. *)
Theorem C81_runs {T E} (rt : runtime T E) c path method :
  compiles c = true -> use_headers c -> ident_types c ->
  run_text rt (w_text (codegen c)) path method = match_route rt c path method.
Proof. exact (text_runs rt c path method). Qed.
Print Assumptions C81_runs.
(** So it matches as the configuration says. *)
Theorem C81_match {T E} (rt : runtime T E) c path method :
  runnable c -> use_headers c -> ident_types c ->
  run_text rt (w_text (codegen c)) path method = Some (tree_match (rt_parse rt) method c path).
Proof. exact (text_matches rt c path method). Qed.
Print Assumptions C81_match.
(** When names are names and text is plain, it is accepted exactly if the
    configuration is one that [compiles] describes. *)
Theorem C81_exact c :
  snd (codegen c) = ROk tt -> use_headers c -> plain_config c ->
  (exists program, compile_text (w_text (codegen c)) = Some program) <-> compiles c = true.
Proof. exact (text_exact c). Qed.
Print Assumptions C81_exact.

(** The tokens of Rust: each operator is one token, and so are words, numbers, strings, byte
    strings and lifetimes, with any white space or a comment between them. *)
Example C81_tokens :
  lex (lit "..= ... <<= >>= :: -> => == != <= >= && || += -= *= /= %= ^= &= |= << >> .. ( ) { } [ ] , ; : . = < > & | + - * / ! ? # @ $ % ^ ~")
  = Some (map (fun o => Op (lit o))
      ["..="; "..."; "<<="; ">>="; "::"; "->"; "=>"; "=="; "!="; "<="; ">="; "&&"; "||"; "+="; "-="; "*="; "/="; "%="; "^=";
       "&="; "|="; "<<"; ">>"; ".."; "("; ")"; "{"; "}"; "["; "]"; ","; ";"; ":"; "."; "="; "<"; ">"; "&"; "|"; "+"; "-";
       "*"; "/"; "!"; "?"; "#"; "@"; "$"; "%"; "^"; "~"]%string) /\
  lex (lit "fn _a1" ++ [9; 10; 13; 10]%N ++ lit "b ""x y"" b""z"" 'w 42//c" ++ [10]%N ++ lit "d")
  = Some [Word (lit "fn"); Word (lit "_a1"); Word (lit "b"); Text (lit "x y"); Bytes (lit "z"); Life (lit "w");
          Num (lit "42"); Word (lit "d")] /\
  lex (lit "a..=b<<=c::<d>>>e") =
    Some [Word (lit "a"); Op (lit "..="); Word (lit "b"); Op (lit "<<="); Word (lit "c"); Op (lit "::"); Op (lit "<");
          Word (lit "d"); Op (lit ">>"); Op (lit ">"); Word (lit "e")] /\
  lex (lit """open") = None /\ lex (lit "b""open") = None.
Proof. vm_compute. repeat split. Qed.
Example C81_example :
  runnable shop /\ use_headers shop /\ ident_types shop /\
  run_text ex_rt (w_text (codegen shop)) (lit "/people/42/books/0x7") (lit "GET") =
  Some (RunResult (MRoute {| rv_modules := [lit "People"]; rv_name := lit "Book";
    rv_fields := [(lit "id", FvVal (lit "u32") (lit "42")); (lit "isbn", FvVal (lit "String") (lit "0x7"));
                  (lit "lang", FvNone)] |})).
Proof.
  split; [exact shop_runnable|]. split; [exact shop_headers|]. split; [exact shop_types|].
  vm_compute. reflexivity.
Qed.
(** Other texts are other programs, or none. *)
Definition ok (text : str) : bool := match compile_text text with Some _ => true | None => false end.
Example C81_tampered :
  ok (w_text (codegen shop)) = true /\
  run_text ex_rt (tampered "b""bout""" "b""bort""" shop) (lit "/about") (lit "GET") = Some (RunResult MNotFound) /\
  run_text ex_rt (tampered "b""bout""" "b""bort""" shop) (lit "/abort") (lit "GET")
  = run_text ex_rt (w_text (codegen shop)) (lit "/about") (lit "GET") /\
  ok (tampered "i += 1;" "i += 1" shop) = false /\
  ok (tampered "let mut i" "let i" shop) = false /\
  ok (tampered "return Ok(Match::NotFound)," "{ i += 1; }," shop) = false /\
  ok (tampered "pub id: u32" "pub id: u64" shop) = false /\
  ok (tampered "lang: None" "land: None" shop) = false /\
  ok (tampered "NotAllowed," "NotAllowed(T)," shop) = false /\
  ok (tampered "_ => return Ok(Match::NotFound)," "_ => return Ok(Match::NotFound)" shop) = true /\
  ok (tampered "pub id: u32," "pub id: u32" shop) = false /\
  ok (tampered "pub enum Route" "pub enum Home" shop) = false /\
  ok (tampered "|e| Error" "|x| Error" shop) = false /\
  ok (tampered "people::Index {" "people::Show {" shop) = false /\
  ok (tampered "Route::People(people::" "Route::Home(people::" shop) = false /\
  ok (tampered "let len = path.len();" "" shop) = false /\
  ok (tampered "if len > 0" "if lem > 0" shop) = false /\
  ok (tampered "len > 0 && &path[0..1]" "len > 0 && &paths[0..1]" shop) = false /\
  ok (tampered "path.as_ref()" "paths.as_ref()" shop) = false /\
  ok (tampered "let len = path.len();" "let None = path.len();" shop) = false /\
  ok (tampered "pub mod routes" "pub mod route" shop) = false /\
  ok (w_text (codegen shop) ++ lit "}") = false /\
  ok (w_text (codegen shop) ++ lit "// }") = true.
Proof. vm_compute. repeat split. Qed.
Example C81_rejected :
  plain_config shop /\ compiles shop = true /\
  Forall (fun c => snd (codegen c) = ROk tt /\ use_headers c /\ plain_config c /\
                   compiles c = false /\ compile_text (w_text (codegen c)) = None) rejected.
Proof.
  split; [apply plain_configb_ok; vm_compute; reflexivity|]. split; [vm_compute; reflexivity|].
  unfold rejected.
  repeat (constructor; [split; [vm_compute; reflexivity|];
    split; [intros h Hh; vm_compute in Hh; destruct Hh|];
    split; [apply plain_configb_ok; vm_compute; reflexivity|]; split; vm_compute; reflexivity|]).
  constructor.
Qed.

(** C82.  wayfinder-goal/src/routes.rs, which is written by hand, matches as the
    configuration of the example does. *)
Theorem C82_goal {T E} (rt : runtime T E) path method :
  exists c, route_config_p no_ualnum (unlines example_routes) = POk [] c /\ runnable c /\
    run_text rt (unlines goal_rs) path method = Some (tree_match (rt_parse rt) method c path) /\
    run_text rt (unlines goal_rs) path method = match_route rt c path method.
Proof. exact (goal_is_example rt path method). Qed.
Print Assumptions C82_goal.
(** It declares the same items, and differs as a text. *)
Theorem C82_items :
  unlines goal_rs <> unlines example_rs /\
  read_module (lit "routes") (unlines goal_rs) = read_module (lit "routes") (unlines example_rs) /\
  read_module (lit "routes") (unlines goal_rs) <> None.
Proof. exact goal_same. Qed.
Print Assumptions C82_items.
(** The tests of wayfinder-goal/src/lib.rs, and a longer path. *)
Example C82_example :
  let index := Some (RunResult (MRoute {| rv_modules := [lit "People"]; rv_name := lit "Index"; rv_fields := [(lit "lang", FvNone)] |})) in
  run_text test_rt (unlines goal_rs) (lit "/people") (lit "GET") = index /\
  run_text test_rt (unlines goal_rs) (lit "/people/") (lit "GET") = index /\
  run_text test_rt (unlines goal_rs) (lit "/people/" ++ uuid ++ lit "/edit") (lit "GET") =
    Some (RunResult (MRoute {| rv_modules := [lit "People"]; rv_name := lit "Edit";
                               rv_fields := [(lit "id", FvVal (lit "Uuid") uuid); (lit "lang", FvNone)] |})).
Proof. vm_compute. repeat split. Qed.
