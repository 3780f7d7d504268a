(** * Property C101: the calls that configure a builder *)
From Verif Require Import Base Core Nom Parse Flat MiniRust Gen Errors NomErr ParseErr Build SpecCalls CallsThms Examples BuildExamples.

(** After any calls on a new builder its source is that of the last input, its target that
    of the last output, and nothing else has changed, ... *)
Theorem C101_last l b s t : b_source b = None -> b_target b = None -> last_of is_input l s -> last_of is_output l t ->
  make_calls l b = mkBuilder (b_use_cargo b) (b_source_dir b) s (b_target_dir b) t.
Proof. exact (calls_fresh l b s t). Qed.
Print Assumptions C101_last.
(** ... and there is always such a pair. *)
Theorem C101_known l : exists s t, last_of is_input l s /\ last_of is_output l t.
Proof. exact (calls_known l). Qed.
Print Assumptions C101_known.
(** So neither the order of inputs and outputs nor any earlier ones make a difference. *)
Theorem C101_same l l' b s t :
  last_of is_input l s -> last_of is_output l t -> last_of is_input l' s -> last_of is_output l' t ->
  make_calls l b = make_calls l' b.
Proof. exact (calls_same l l' b s t). Qed.
Print Assumptions C101_same.
(** Without an input, or without an output, there is one message and status 101: nothing is
    read, created or written. *)
Theorem C101_missing wo l b : b_source b = None -> b_target b = None ->
  (forall k a, In k l -> ~ is_input k a) \/ (forall k a, In k l -> ~ is_output k a) ->
  exists msg, build wo (make_calls l b) = ([Stderr msg], Exited 101).
Proof. exact (calls_missing wo l b). Qed.
Print Assumptions C101_missing.

Definition many_calls : list call :=
  [OutputFile (lit "old.rs"); InputFile (lit "/src/other.routes"); OutputStdout; InputConfig (read routes_text); InputFile (lit "/src/app.routes")].
Example C101_example :
  last_of is_input many_calls (Some (FromFile (lit "/src/app.routes"))) /\
  last_of is_output many_calls (Some ToStdout) /\
  make_calls many_calls builder_new = output_stdout (input_file (lit "/src/app.routes") builder_new) /\
  snd (build ex_world (make_calls many_calls builder_new)) = Finished tt /\
  snd (build ex_world (make_calls [InputFile (lit "/src/app.routes")] builder_new)) = Exited 101 /\
  snd (build ex_world (make_calls [OutputStdout] builder_new)) = Exited 101.
Proof.
  split; [apply (last_some is_input (firstn 4 many_calls) _ []); [constructor|intros ? ? []]|].
  split; [apply (last_some is_output (firstn 2 many_calls) _ (skipn 3 many_calls)); [constructor|]|].
  - intros k a [<-|[<-|[]]] H; inversion H.
  - split; [reflexivity|]. repeat split; vm_compute; reflexivity.
Qed.
