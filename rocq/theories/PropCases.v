(** * Property C69: one test per case directory *)
From Verif Require Import Base Core Nom Parse MiniRust Gen Errors NomErr ParseErr Build Diff Cases
  SpecGen SpecGrammar SpecBuild SpecCases CasesFacts BuildExamples PropBuild Golden.

(** The build script: exactly when it succeeds, and what it does then. *)
Theorem C69_main wo read_dir :
  (exists dir p names, cases_ready wo read_dir dir p names /\
     cases_main wo read_dir = ([Create p; Write (ToFile p) (w_text (write_cases dir (map Some names)))], Finished tt)) \/
  ((forall dir p names, ~ cases_ready wo read_dir dir p names) /\
   exists es q, cases_main wo read_dir = (es, Panicked q)).
Proof. exact (cases_main_spec wo read_dir). Qed.
Print Assumptions C69_main.
(** The text it writes has one test per entry of the directory, in order. *)
Theorem C69_tests dir names : ~ In c_nl dir -> Forall (fun n => ~ In c_nl n) names ->
  snd (write_cases dir (map Some names)) = ROk tt /\
  exists tests, tests_in (lines_of (w_text (write_cases dir (map Some names)))) = tests /\
    Forall2 (test_for dir) names tests.
Proof. exact (cases_tests dir names). Qed.
Print Assumptions C69_tests.
(** When these tests compile, and with which texts. *)
Theorem C69_compiles wo dir names tests l : Forall2 (test_for dir) names tests ->
  (compile_tests wo tests = Some l <->
   NoDup names /\ Forall (Forall word_char) names /\
   Forall2 (fun t u => fst u = fst t /\ included wo (fst (snd t)) (fst (snd u)) /\ included wo (snd (snd t)) (snd (snd u)))
     tests l).
Proof. exact (tests_compile wo dir names tests l). Qed.
Print Assumptions C69_compiles.
(** A test passes exactly if its route file is one, code can be generated for it, and
    the generated code is the expected one. *)
Theorem C69_passes wo diff_lines routes rs :
  run_case wo diff_lines routes rs = ([], Finished tt) <-> case_holds (wo_alnum wo) routes rs.
Proof. exact (run_case_passes wo diff_lines routes rs). Qed.
Print Assumptions C69_passes.
(** What a failing test says. *)
Theorem C69_fails wo diff_lines routes rs :
  (case_holds (wo_alnum wo) routes rs /\ run_case wo diff_lines routes rs = ([], Finished tt)) \/
  (exists c, config_text (wo_alnum wo) c routes /\ generates c /\ w_text (codegen c) <> rs /\
     run_case wo diff_lines routes rs =
       ([Stderr (diff_display (lit "expected") (lit "actual") (diff_lines rs (w_text (codegen c))) ++ [c_nl])],
        Panicked PanicAssert)) \/
  (exists c p, config_text (wo_alnum wo) c routes /\ ~ generates c /\ run_case wo diff_lines routes rs = ([], Panicked p)) \/
  ((~ exists c, config_text (wo_alnum wo) c routes) /\
   exists rep p, rep <> [] /\ wo_diagnosis wo routes = Some rep /\ run_case wo diff_lines routes rs = ([Stderr rep], Panicked p)).
Proof. exact (run_case_spec wo diff_lines routes rs). Qed.
Print Assumptions C69_fails.
(** A test passes exactly if the command line tool prints the expected code. *)
Theorem C69_command wo diff_lines name path routes rs :
  (forall st s, exists st', wr_write (wo_writer wo ToStdout) st s = inl st') -> wo_read wo path = inl routes ->
  (snd (run_case wo diff_lines routes rs) = Finished tt <->
   cmd_main wo [name; path] = ([Read path; Write ToStdout rs], Finished tt)).
Proof. exact (run_case_cmd wo diff_lines name path routes rs). Qed.
Print Assumptions C69_command.

(** A case of the repository, and the same under another name. *)
Definition case_files : list (str * str) :=
  [ (lit "/w/cases/nesting/routes.routes", unlines nesting_routes); (lit "/w/cases/nesting/routes.rs", unlines nesting_rs);
    (lit "/w/cases/my-case/routes.routes", unlines nesting_routes); (lit "/w/cases/my-case/routes.rs", unlines nesting_rs) ].
Definition case_world : world :=
  mkWorld (fun x => if str_eqb x (lit "OUT_DIR") then Value (lit "/out") else Value (lit "/w"))
    (fun p => match lookup p case_files with Some t => inl t | None => inr (lit "not found") end)
    (wo_create ex_world) (wo_writer ex_world) (wo_error ex_world) (wo_keep ex_world) (wo_code ex_world)
    (wo_errors ex_world) (wo_debug_kind ex_world) (wo_debug_context ex_world) (wo_alnum ex_world).
Definition case_tests (names : list string) : list (str * (str * str)) :=
  tests_in (lines_of (w_text (write_cases (lit "/w/cases") (map Some (map lit names))))).
Example C69_example :
  cases_main case_world (fun p => if str_eqb p (lit "/w/cases") then Some [Some (Some (lit "nesting"))] else None) =
    ([Create (lit "/out/cases.rs"); Write (ToFile (lit "/out/cases.rs")) (w_text (write_cases (lit "/w/cases") [Some (lit "nesting")]))],
     Finished tt) /\
  case_tests ["nesting"; "x"]%string =
    [ (lit "test_nesting", (lit "/w/cases/nesting/routes.routes", lit "/w/cases/nesting/routes.rs"));
      (lit "test_x", (lit "/w/cases/x/routes.routes", lit "/w/cases/x/routes.rs")) ] /\
  compile_tests case_world (case_tests ["nesting"]%string) = Some [ (lit "test_nesting", (unlines nesting_routes, unlines nesting_rs)) ] /\
  run_case case_world (fun _ _ => []) (unlines nesting_routes) (unlines nesting_rs) = ([], Finished tt) /\
  run_case case_world (fun _ _ => []) (unlines nesting_routes) (lit "x") = ([Stderr [c_nl]], Panicked PanicAssert).
Proof. repeat split; vm_compute; reflexivity. Qed.
(** That every directory with the two files gives a test is false: its name must be
    part of an identifier, and one other name, or a plain file, stops all tests. *)
Theorem C69_compiles_refuted :
  wo_read case_world (lit "/w/cases/my-case/routes.routes") = inl (unlines nesting_routes) /\
  wo_read case_world (lit "/w/cases/my-case/routes.rs") = inl (unlines nesting_rs) /\
  compile_tests case_world (case_tests ["nesting"; "my-case"]%string) = None /\
  compile_tests case_world (case_tests ["nesting"; "README"]%string) = None.
Proof. repeat split; vm_compute; reflexivity. Qed.
Print Assumptions C69_compiles_refuted.
