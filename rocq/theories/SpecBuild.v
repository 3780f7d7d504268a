(** * SpecBuild: when a build can succeed *)
From Verif Require Import Base Core SpecGrammar Gen Build.

(** [joined d f p]: the file name [f] seen from the directory [d] is the path [p]. *)
Inductive joined : str -> str -> str -> Prop :=
| joined_absolute d f : hd_error f = Some c_slash -> joined d f f
| joined_closed d f :
    hd_error f <> Some c_slash -> (d = [] \/ exists d', d = d' ++ [c_slash]) -> joined d f (d ++ f)
| joined_open d f :
    hd_error f <> Some c_slash -> d <> [] -> (forall d', d <> d' ++ [c_slash]) ->
    joined d f (d ++ c_slash :: f).
Definition placed (dir : option str) (f p : str) : Prop :=
  match dir with
  | None => p = f
  | Some d => joined d f p
  end.

(** The source is configured and gives [c]. *)
Definition input_ok (wo : world) (b : Builder) (c : RouteConfig) : Prop :=
  b_source b = Some (FromConfig c) \/
  exists f p text,
    b_source b = Some (FromFile f) /\ placed (b_source_dir b) f p /\
    wo_read wo p = inl text /\ config_text (wo_alnum wo) c text.
(** The target is configured and can be opened as [t]. *)
Definition output_ok (wo : world) (b : Builder) (t : target) : Prop :=
  b_target b = Some ToStdout /\ t = ToStdout \/
  exists f p,
    b_target b = Some (ToFile f) /\ placed (b_target_dir b) f p /\ wo_create wo p = None /\ t = ToFile p.

Definition is_write (e : event) : Prop := exists t s, e = Write t s.
Definition is_create (e : event) : Prop := exists p, e = Create p.
Definition is_stdout (e : event) : Prop := exists s, e = Stdout s.
