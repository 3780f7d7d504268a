(** * Property C70: a route file or a configuration in the build script *)
From Verif Require Import Base Core Nom Parse Flat MiniRust Gen Spec SpecMatch SpecParse SpecGrammar SpecGen Errors ParseErr
  Build SpecBuild BuildFacts Examples PropParse PropMatch BuildExamples PropBuild.

(** Building from a file does what building from the configuration that it says does,
    after announcing and reading the file. *)
Theorem C70_same wo b f p text c :
  placed (b_source_dir b) f p -> wo_read wo p = inl text -> config_text (wo_alnum wo) c text -> b_target b <> None ->
  build wo (input_file f b) =
  ((if b_use_cargo b then [Stdout (lit "cargo:rerun-if-changed=" ++ p ++ [c_nl])] else []) ++ Read p :: fst (build wo (input_config c b)),
   snd (build wo (input_config c b))).
Proof. exact (build_either wo b f p text c). Qed.
Print Assumptions C70_same.
(** Every well-formed configuration can be put into a file: the same files are created
    and written, and the outcome is the same. *)
Theorem C70_file ualnum c : wf_config ualnum c -> exists text, forall wo b f p,
  wo_alnum wo = ualnum -> placed (b_source_dir b) f p -> wo_read wo p = inl text -> b_target b <> None ->
  snd (build wo (input_file f b)) = snd (build wo (input_config c b)) /\
  filter (fun e => match e with Create _ | Write _ _ => true | _ => false end) (fst (build wo (input_file f b))) =
  filter (fun e => match e with Create _ | Write _ _ => true | _ => false end) (fst (build wo (input_config c b))).
Proof. exact (wf_either ualnum c). Qed.
Print Assumptions C70_file.
(** Its printed form is such a file if it has at most seven levels. *)
Theorem C70_printed wo b f p c : wf_config (wo_alnum wo) c -> lines_within 7 c ->
  placed (b_source_dir b) f p -> wo_read wo p = inl (config_stringify c) -> b_target b <> None ->
  snd (build wo (input_file f b)) = snd (build wo (input_config c b)) /\
  filter (fun e => match e with Create _ | Write _ _ => true | _ => false end) (fst (build wo (input_file f b))) =
  filter (fun e => match e with Create _ | Write _ _ => true | _ => false end) (fst (build wo (input_config c b))).
Proof. exact (stringify_either wo b f p c). Qed.
Print Assumptions C70_printed.
Example C70_example :
  wf_config ascii_only album /\ lines_within 7 album /\
  build ex_world (output_file (lit "routes.rs") (input_config (read routes_text) (ex_builder "" ""))) =
    ([Create (lit "/out/routes.rs"); Write (ToFile (lit "/out/routes.rs")) (w_text (codegen (read routes_text)))], Finished tt).
Proof. split; [exact (proj1 C01_example)|]. split; [exact (proj2 C01_example)|]. vm_compute. reflexivity. Qed.
(** Not every configuration that can be built can be put into a file: a segment with a
    hyphen cannot. *)
Definition hyphen : RouteConfig :=
  mkConfig [] (mkRoutes [] [(Static (lit "my-page"), mkRoutes [mkResource Get [] (lit "Page") false []] [] [])] []).
Theorem C70_refuted :
  runnable hyphen /\
  snd (build ex_world (input_config hyphen (ex_builder "" "routes.rs"))) = Finished tt /\
  match_route ex_rt hyphen (lit "/my-page") (lit "GET") = Some (RunResult (MRoute (mkRoute [] (lit "Page") []))) /\
  forall ualnum, ~ exists text, config_text ualnum hyphen text.
Proof.
  split; [apply runnableb_ok; vm_compute; reflexivity|]. split; [vm_compute; reflexivity|]. split; [vm_compute; reflexivity|].
  intros ualnum. apply (no_file ualnum hyphen [] [] (c_routes hyphen) (lit "my-page") _ 45%N (block_root _) (or_introl eq_refl)).
  - vm_compute. tauto.
  - unfold ident_char. intros [H|[H|[H|[H|[H _]]]]]; revert H; vm_compute; intuition congruence.
Qed.
Print Assumptions C70_refuted.
