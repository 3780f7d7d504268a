(** * Property C83: from a route file to the answers of the written code *)
From Verif Require Import Base Core Nom Parse Flat MiniRust Gen Items Fixed RLex RRead Spec SpecMatch SpecGen Build SpecBuild SpecGrammar
  SpecItems SpecRead WholeFacts BuildExamples PropBuild Examples ReadExamples.

(** C83.  The command line tool, for a file that is a route file, prints a text that
    answers every request as the route file says. *)
Theorem C83_command wo name path args text c :
  wo_read wo path = inl text -> config_text (wo_alnum wo) c text ->
  runnable c -> use_headers c -> ident_types c ->
  (forall st s, exists st', wr_write (wo_writer wo ToStdout) st s = inl st') ->
  exists out, cmd_main wo (name :: path :: args) = ([Read path; Write ToStdout out], Finished tt) /\
    forall T E (rt : runtime T E) p m, run_text rt out p m = Some (tree_match (rt_parse rt) m c p).
Proof. exact (command_answers wo name path args text c). Qed.
Print Assumptions C83_command.
(** So does what a build script writes last. *)
Theorem C83_build wo b c t :
  snd (build wo b) = Finished tt -> input_ok wo b c -> output_ok wo b t ->
  runnable c -> use_headers c -> ident_types c ->
  exists before out, fst (build wo b) = before ++ [Write t out] /\ Forall (fun e => ~ is_write e) before /\
    forall T E (rt : runtime T E) p m, run_text rt out p m = Some (tree_match (rt_parse rt) m c p).
Proof. exact (build_answers wo b c t). Qed.
Print Assumptions C83_build.

Example C83_example : exists out,
  snd (build ex_world (ex_builder "app.routes" "routes.rs")) = Finished tt /\
  last (fst (build ex_world (ex_builder "app.routes" "routes.rs"))) (Read []) = Write (ToFile (lit "/out/routes.rs")) out /\
  runnable (read routes_text) /\ use_headers (read routes_text) /\ ident_types (read routes_text) /\
  run_text ex_rt out (lit "/people/42") (lit "GET") =
    Some (RunResult (MRoute (mkRoute [lit "People"] (lit "Show") [(lit "id", FvVal (lit "u32") (lit "42"))]))).
Proof.
  exists (w_text (codegen (read routes_text))). split; [vm_compute; reflexivity|]. split; [vm_compute; reflexivity|].
  split; [apply runnableb_ok; vm_compute; reflexivity|]. split; [intros h []|].
  split; [apply ident_typesb_ok; vm_compute; reflexivity|]. vm_compute. reflexivity.
Qed.
