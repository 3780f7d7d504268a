(** * SpecCalls: the calls that configure a builder *)
From Verif Require Import Base Core Build.

(** The four methods of [Builder] before [build], with their arguments. *)
Inductive call :=
| InputFile (path : str)
| InputConfig (c : RouteConfig)
| OutputFile (path : str)
| OutputStdout.
Definition make_call (b : Builder) (k : call) : Builder :=
  match k with
  | InputFile path => input_file path b
  | InputConfig c => input_config c b
  | OutputFile path => output_file path b
  | OutputStdout => output_stdout b
  end.
(** A chain of calls, the first one first. *)
Definition make_calls (l : list call) (b : Builder) : Builder := fold_left make_call l b.

Inductive is_input : call -> source -> Prop :=
| input_is_file path : is_input (InputFile path) (FromFile path)
| input_is_config c : is_input (InputConfig c) (FromConfig c).
Inductive is_output : call -> target -> Prop :=
| output_is_file path : is_output (OutputFile path) (ToFile path)
| output_is_stdout : is_output OutputStdout ToStdout.

(** The last call of a kind among [l], if there is one. *)
Inductive last_of {A} (kind : call -> A -> Prop) : list call -> option A -> Prop :=
| last_none l : (forall k a, In k l -> ~ kind k a) -> last_of kind l None
| last_some before k after a : kind k a -> (forall k' a', In k' after -> ~ kind k' a') ->
    last_of kind (before ++ k :: after) (Some a).
