(** * Properties C49-C51, C55 and C56: the builder *)
From Verif Require Import Base Core Nom Parse Flat MiniRust Gen Spec SpecGen GenThms Examples Errors ParseErr Build SpecBuild SpecGrammar GrammarFacts BuildFacts BuildExamples.

(** ** C49: all or nothing *)
(** The build finishes exactly when source and target are configured, the source can be
    read and parsed, the target opened, and the whole generated code written. *)
Theorem C49_finished wo b :
  snd (build wo b) = Finished tt <->
  exists c t, input_ok wo b c /\ output_ok wo b t /\
    run_on (wo_writer wo t) (codegen c) = (w_text (codegen c), ROk tt).
Proof. exact (build_finished wo b). Qed.
Print Assumptions C49_finished.
(** Otherwise the process ends with status 101. *)
Theorem C49_otherwise wo b :
  snd (build wo b) <> Finished tt -> status (snd (build wo b)) = Some 101.
Proof. exact (build_fails wo b). Qed.
Print Assumptions C49_otherwise.
(** When it finishes, the last thing it did was to write the generated code, and it
    wrote nothing else. *)
Theorem C49_output wo b c t :
  snd (build wo b) = Finished tt -> input_ok wo b c -> output_ok wo b t ->
  exists pre, fst (build wo b) = pre ++ [Write t (w_text (codegen c))] /\ Forall (fun e => ~ is_write e) pre.
Proof. exact (build_output wo b c t). Qed.
Print Assumptions C49_output.
(** The environment is read before anything else; a missing variable ends the process
    with status 101 as well. *)
Theorem C49_from_env wo :
  (exists s t, wo_var wo (lit "CARGO_MANIFEST_DIR") = Value s /\ wo_var wo (lit "OUT_DIR") = Value t /\
     builder_from_env wo = ([], Finished (mkBuilder true (Some s) None (Some t) None))) \/
  (exists msg, builder_from_env wo = ([Stderr msg], Exited 101) /\
     ((forall s, wo_var wo (lit "CARGO_MANIFEST_DIR") <> Value s) \/ (forall t, wo_var wo (lit "OUT_DIR") <> Value t))).
Proof. exact (from_env_spec wo). Qed.
Print Assumptions C49_from_env.

(** A world with three route files, where nothing can be created outside [/out]. *)
Example C49_example :
  snd (build ex_world (ex_builder "app.routes" "routes.rs")) = Finished tt /\
  fst (build ex_world (ex_builder "app.routes" "routes.rs")) =
    [Stdout (lit "cargo:rerun-if-changed=/src/app.routes" ++ nl); Read (lit "/src/app.routes");
     Create (lit "/out/routes.rs"); Write (ToFile (lit "/out/routes.rs")) (w_text (codegen (read routes_text)))] /\
  build ex_world (ex_builder "other.routes" "routes.rs") =
    ([Stdout (lit "cargo:rerun-if-changed=/src/other.routes" ++ nl); Read (lit "/src/other.routes");
      Stderr (lit "Unable to load file /src/other.routes: No such file or directory (os error 2)" ++ nl)], Exited 101) /\
  build ex_world (ex_builder "app.routes" "/etc/routes.rs") =
    ([Stdout (lit "cargo:rerun-if-changed=/src/app.routes" ++ nl); Read (lit "/src/app.routes");
      Stderr (lit "Unable to create output file /etc/routes.rs: Permission denied (os error 13)" ++ nl)], Exited 101) /\
  builder_from_env ex_world = ([], Finished (mkBuilder true (Some (lit "/src")) None (Some (lit "/out")) None)).
Proof. repeat split; vm_compute; reflexivity. Qed.
Example C49_example_output :
  input_ok ex_world (ex_builder "app.routes" "routes.rs") (read routes_text) /\
  output_ok ex_world (ex_builder "app.routes" "routes.rs") (ToFile (lit "/out/routes.rs")).
Proof.
  split.
  - right. exists (lit "app.routes"), (lit "/src/app.routes"), (file routes_text). split; [reflexivity|].
    split; [apply placed_iff; vm_compute; reflexivity|]. split; [vm_compute; reflexivity|]. apply parse_exact. vm_compute. reflexivity.
  - right. exists (lit "routes.rs"), (lit "/out/routes.rs"). repeat split; try (vm_compute; reflexivity).
    apply placed_iff. vm_compute. reflexivity.
Qed.

(** ** C50: bad input touches no file *)
Theorem C50_untouched wo b :
  (forall c, ~ input_ok wo b c) \/ b_target b = None ->
  forall e, In e (fst (build wo b)) -> ~ is_create e /\ ~ is_write e.
Proof. exact (build_untouched wo b). Qed.
Print Assumptions C50_untouched.
Example C50_example :
  (forall c, ~ input_ok ex_world (ex_builder "bad.routes" "routes.rs") c) /\
  fst (build ex_world (ex_builder "bad.routes" "routes.rs")) =
    [Stdout (lit "cargo:rerun-if-changed=/src/bad.routes" ++ nl); Read (lit "/src/bad.routes");
     Stderr (lit "Unable to parse route config file /src/bad.routes:" ++ nl);
     Stderr (lit "   2:  people" ++ nl ++ lit "     ^ Expected resources or child routes" ++ nl ++
             lit "   2:  people" ++ nl ++ lit "     ^ Many1" ++ nl)].
Proof.
  split; [|vm_compute; reflexivity]. intros c [H|(f & p & text & H & Hp & Hr & Ht)]; [discriminate|].
  injection H as <-. apply placed_iff in Hp. subst p. vm_compute in Hr. injection Hr as <-. apply parse_exact in Ht. vm_compute in Ht. discriminate.
Qed.

(** ** C51: cargo *)
Theorem C51_rerun wo b f p :
  b_use_cargo b = true -> b_source b = Some (FromFile f) -> b_target b <> None -> placed (b_source_dir b) f p ->
  exists rest,
    fst (build wo b) = Stdout (lit "cargo:rerun-if-changed=" ++ p ++ [c_nl]) :: Read p :: rest /\
    Forall (fun e => ~ is_stdout e) rest.
Proof. exact (build_rerun wo b f p). Qed.
Print Assumptions C51_rerun.
Theorem C51_silent wo b :
  b_use_cargo b = false \/ (exists c, b_source b = Some (FromConfig c)) ->
  Forall (fun e => ~ is_stdout e) (fst (build wo b)).
Proof. exact (build_no_rerun wo b). Qed.
Print Assumptions C51_silent.
(** [new] switches it off, [from_env] on, and nothing else changes it. *)
Theorem C51_flag wo s t b b' es :
  b_use_cargo builder_new = false /\
  (builder_from_env wo = (es, Finished b') -> b_use_cargo b' = true) /\
  b_use_cargo (set_source s b) = b_use_cargo b /\ b_use_cargo (set_target t b) = b_use_cargo b.
Proof. exact (use_cargo_flag wo s t b b' es). Qed.
Print Assumptions C51_flag.
Example C51_example :
  fst (build ex_world (output_stdout (input_file (lit "/src/app.routes") builder_new))) =
    [Read (lit "/src/app.routes"); Write ToStdout (w_text (codegen (read routes_text)))] /\
  b_target (ex_builder "bad.routes" "routes.rs") <> None /\
  placed (b_source_dir (ex_builder "bad.routes" "routes.rs")) (lit "bad.routes") (lit "/src/bad.routes").
Proof.
  split; [vm_compute; reflexivity|]. split; [discriminate|]. apply placed_iff. vm_compute. reflexivity.
Qed.

(** ** C55: a failed build can destroy the previous output *)
(** The file is truncated before the code is generated: a route file that names an
    action twice, which parses, leaves an empty file behind. *)
Theorem C55_refuted : exists wo b c p,
  input_ok wo b c /\ status (snd (build wo b)) = Some 101 /\
  exists es, fst (build wo b) = es ++ [Create p; Write (ToFile p) []].
Proof. exact truncated_output. Qed.
Print Assumptions C55_refuted.
(** What holds: no file other than the configured one is created, and only when the input is good. *)
Theorem C55_only_target wo b p :
  In (Create p) (fst (build wo b)) ->
  (exists c, input_ok wo b c) /\ exists f, b_target b = Some (ToFile f) /\ placed (b_target_dir b) f p.
Proof. exact (build_created wo b p). Qed.
Print Assumptions C55_only_target.

(** ** C56: the command line tool *)
Theorem C56_cmd wo name path args c :
  wo_read wo path = inl c ->
  forall cfg, config_text (wo_alnum wo) cfg c -> snd (codegen cfg) = ROk tt ->
  (forall st s, exists st', wr_write (wo_writer wo ToStdout) st s = inl st') ->
  cmd_main wo (name :: path :: args) = ([Read path; Write ToStdout (w_text (codegen cfg))], Finished tt).
Proof. exact (cmd_ok wo name path args c). Qed.
Print Assumptions C56_cmd.
Theorem C56_status wo name path args :
  status (snd (cmd_main wo (name :: path :: args))) = Some 0 \/
  status (snd (cmd_main wo (name :: path :: args))) = Some 101.
Proof. exact (cmd_status wo name path args). Qed.
Print Assumptions C56_status.
(** It succeeds exactly when the file can be read, parses, and all of the generated code can be written. *)
Theorem C56_exact wo name path args :
  snd (cmd_main wo (name :: path :: args)) = Finished tt <->
  exists text cfg, wo_read wo path = inl text /\ config_text (wo_alnum wo) cfg text /\
    run_on (wo_writer wo ToStdout) (codegen cfg) = (w_text (codegen cfg), ROk tt).
Proof. exact (cmd_finished wo name path args). Qed.
Print Assumptions C56_exact.
(** Whatever happens, it reads no other file, creates none and writes nowhere else. *)
Theorem C56_only wo name path args e :
  In e (fst (cmd_main wo (name :: path :: args))) ->
  e = Read path \/ (exists s, e = Write ToStdout s) \/ (exists s, e = Stderr s).
Proof. exact (cmd_events wo name path args e). Qed.
Print Assumptions C56_only.
(** Called without a file it prints its usage and, unlike most tools, succeeds. *)
Theorem C56_usage wo name :
  cmd_main wo [name] = ([Stderr (lit "Usage: " ++ name ++ lit " ROUTE_FILE" ++ [c_nl])], Finished tt).
Proof. exact (cmd_usage wo name). Qed.
Print Assumptions C56_usage.
Example C56_example :
  cmd_main ex_world [lit "wayfinder"; lit "/src/app.routes"] =
    ([Read (lit "/src/app.routes"); Write ToStdout (w_text (codegen (read routes_text)))], Finished tt).
Proof. vm_compute. reflexivity. Qed.
Example C56_exact_example :
  status (snd (cmd_main ex_world [lit "wayfinder"; lit "/src/bad.routes"])) = Some 101 /\
  In (Read (lit "/src/bad.routes")) (fst (cmd_main ex_world [lit "wayfinder"; lit "/src/bad.routes"])).
Proof. split; [vm_compute; reflexivity|]. vm_compute. auto. Qed.
