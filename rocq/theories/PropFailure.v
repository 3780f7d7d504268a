(** * Property C75: what a failed build says *)
From Verif Require Import Base Core Nom Parse Flat MiniRust Gen Errors NomErr ParseErr Build SpecGrammar SpecBuild SpecFailure GrammarFacts BuildFacts FailureFacts
  Examples BuildExamples PropBuild.

(** ** C75: a failed build says why *)
(** [build] exits exactly in the cases of [refused], having done and said just that, ... *)
Theorem C75_says wo b es : build wo b = (es, Exited 101) <-> refused wo b es.
Proof. exact (build_says wo b es). Qed.
Print Assumptions C75_says.
(** ... panics exactly if code generation does, ... *)
Theorem C75_panics wo b es p : build wo b = (es, Panicked p) <->
  exists pre os c t text, taken wo b pre c /\ opened wo b os t /\
    run_on (wo_writer wo t) (codegen c) = (text, RPanic p) /\ es = pre ++ os ++ [Write t text].
Proof. exact (build_panics wo b es p). Qed.
Print Assumptions C75_panics.
(** ... and otherwise says nothing but what Cargo is to know. *)
Theorem C75_done wo b es : build wo b = (es, Finished tt) <->
  exists pre os c t, taken wo b pre c /\ opened wo b os t /\
    run_on (wo_writer wo t) (codegen c) = (w_text (codegen c), ROk tt) /\ es = pre ++ os ++ [Write t (w_text (codegen c))].
Proof. exact (build_done wo b es). Qed.
Print Assumptions C75_done.
Theorem C75_ends wo b : exists es,
  build wo b = (es, Exited 101) \/ build wo b = (es, Finished tt) \/ exists p, build wo b = (es, Panicked p).
Proof. exact (build_ends wo b). Qed.
Print Assumptions C75_ends.
(** [from_env] exits if one of the variables cannot be used; the first such is named. *)
Theorem C75_env wo es : builder_from_env wo = (es, Exited 101) <->
  exists msg, es = [says msg] /\
   (unset wo (lit "CARGO_MANIFEST_DIR") msg \/
    (exists d, wo_var wo (lit "CARGO_MANIFEST_DIR") = Value d) /\ unset wo (lit "OUT_DIR") msg).
Proof. exact (env_says wo es). Qed.
Print Assumptions C75_env.

(** The same world with a full disk. *)
Definition full_world : world := {|
  wo_var := fun v => if str_eqb v (lit "OUT_DIR") then NotUnicode else Value (lit "/src");
  wo_read := wo_read ex_world;
  wo_create := wo_create ex_world;
  wo_writer := fun _ => mkWriter nat 1 (fun n _ => match n with O => inr O | S m => inl m end);
  wo_error := fun _ => lit "No space left on device (os error 28)";
  wo_keep := false;
  wo_code := N.of_nat;
  wo_errors := wo_errors ex_world;
  wo_debug_kind := wo_debug_kind ex_world;
  wo_debug_context := wo_debug_context ex_world;
  wo_alnum := fun _ => false
|}.
Example C75_example :
  refused full_world (ex_builder "app.routes" "routes.rs")
    [Stdout (lit "cargo:rerun-if-changed=/src/app.routes" ++ nl); Read (lit "/src/app.routes"); Create (lit "/out/routes.rs");
     Write (ToFile (lit "/out/routes.rs")) (lit "pub mod routes {" ++ nl);
     Stderr (lit "Error generating code: No space left on device (os error 28)" ++ nl)] /\
  refused ex_world (output_stdout builder_new)
    [Stderr (lit "Source not configured.  Try builder.input_file(""app.routes"")." ++ nl)] /\
  refused ex_world (input_file (lit "/src/app.routes") builder_new)
    [Stderr (lit "Target not configured.  Try builder.output_file(""routes.rs"")." ++ nl)] /\
  (exists es, build ex_world (ex_builder "twice.routes" "routes.rs") = (es, Panicked (PanicUnwrapNone))) /\
  builder_from_env full_world = ([Stderr (lit "Env var OUT_DIR not valid Unicode." ++ nl)], Exited 101).
Proof.
  split; [apply C75_says; vm_compute; reflexivity|]. split; [apply C75_says; vm_compute; reflexivity|].
  split; [apply C75_says; vm_compute; reflexivity|]. split; [eexists; vm_compute; reflexivity|]. vm_compute. reflexivity.
Qed.
