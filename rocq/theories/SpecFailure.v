(** * SpecFailure: what a build does and says, whatever happens *)
From Verif Require Import Base Core Nom Parse Gen Build SpecGrammar SpecBuild.

Section Failure.
Variable wo : world.
Variable b : Builder.

Definition says (msg : str) : event := Stderr (msg ++ [c_nl]).
(** What precedes the reading of the file [p]. *)
Definition announced (p : str) : list event :=
  (if b_use_cargo b then [Stdout (lit "cargo:rerun-if-changed=" ++ p ++ [c_nl])] else []) ++ [Read p].
(** [taken es c]: the input is [c], after [es]. *)
Inductive taken : list event -> RouteConfig -> Prop :=
| taken_config c : b_source b = Some (FromConfig c) -> taken [] c
| taken_file f p text c :
    b_source b = Some (FromFile f) -> placed (b_source_dir b) f p -> wo_read wo p = inl text ->
    config_text (wo_alnum wo) c text -> taken (announced p) c.
(** [opened es t]: the output goes to [t], after [es]. *)
Inductive opened : list event -> target -> Prop :=
| opened_stdout : b_target b = Some ToStdout -> opened [] ToStdout
| opened_file f p :
    b_target b = Some (ToFile f) -> placed (b_target_dir b) f p -> wo_create wo p = None -> opened [Create p] (ToFile p).

(** The builds that end with a message. *)
Inductive refused : list event -> Prop :=
| no_source : b_source b = None ->
    refused [says (lit "Source not configured.  Try builder.input_file(""app.routes"").")]
| no_target : b_source b <> None -> b_target b = None ->
    refused [says (lit "Target not configured.  Try builder.output_file(""routes.rs"").")]
| unreadable f p e : b_source b = Some (FromFile f) -> b_target b <> None -> placed (b_source_dir b) f p ->
    wo_read wo p = inr e ->
    refused (announced p ++ [says (lit "Unable to load file " ++ p ++ lit ": " ++ e)])
| rejected f p text report : b_source b = Some (FromFile f) -> b_target b <> None -> placed (b_source_dir b) f p ->
    wo_read wo p = inl text -> (~ exists c, config_text (wo_alnum wo) c text) -> wo_diagnosis wo text = Some report ->
    refused (announced p ++ [says (lit "Unable to parse route config file " ++ p ++ lit ":"); Stderr report])
| uncreatable es c f p e : taken es c -> b_target b = Some (ToFile f) -> placed (b_target_dir b) f p ->
    wo_create wo p = Some e ->
    refused (es ++ [says (lit "Unable to create output file " ++ p ++ lit ": " ++ e)])
| unwritten es c os t text x : taken es c -> opened os t -> run_on (wo_writer wo t) (codegen c) = (text, RErr x) ->
    refused (es ++ os ++ [Write t text; says (lit "Error generating code: " ++ wo_error wo x)]).
End Failure.

(** What reading the variable [name] of the environment says. *)
Inductive unset (wo : world) (name : str) : str -> Prop :=
| not_present : wo_var wo name = NotPresent -> unset wo name (lit "Env var " ++ name ++ lit " not found.")
| not_unicode : wo_var wo name = NotUnicode -> unset wo name (lit "Env var " ++ name ++ lit " not valid Unicode.").
