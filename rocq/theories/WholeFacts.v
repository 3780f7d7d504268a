(** * WholeFacts: from inputs of the builder to answers *)
From Verif Require Import Base Core Nom Parse Flat MiniRust Gen Items Fixed RLex RRead Spec SpecMatch SpecGen Build SpecBuild SpecGrammar
  SpecItems SpecRead BuildFacts ReadAll.

Lemma command_answers wo name path args text c :
  wo_read wo path = inl text -> config_text (wo_alnum wo) c text ->
  runnable c -> use_headers c -> ident_types c ->
  (forall st s, exists st', wr_write (wo_writer wo ToStdout) st s = inl st') ->
  exists out, cmd_main wo (name :: path :: args) = ([Read path; Write ToStdout out], Finished tt) /\
    forall T E (rt : runtime T E) p m, run_text rt out p m = Some (tree_match (rt_parse rt) m c p).
Proof.
  intros Hr Hc Hrun Hh Ht Hw. exists (w_text (codegen c)). split.
  - apply (cmd_ok wo name path args text Hr c Hc (compiles_codegen c (proj1 Hrun)) Hw).
  - intros T E rt p m. apply text_matches; assumption.
Qed.
Lemma build_answers wo b c t :
  snd (build wo b) = Finished tt -> input_ok wo b c -> output_ok wo b t ->
  runnable c -> use_headers c -> ident_types c ->
  exists before out, fst (build wo b) = before ++ [Write t out] /\ Forall (fun e => ~ is_write e) before /\
    forall T E (rt : runtime T E) p m, run_text rt out p m = Some (tree_match (rt_parse rt) m c p).
Proof.
  intros Hf Hi Ho Hrun Hh Ht. destruct (build_output wo b c t Hf Hi Ho) as (before & H1 & H2).
  exists before, (w_text (codegen c)). split; [exact H1|]. split; [exact H2|].
  intros T E rt p m. apply text_matches; assumption.
Qed.
