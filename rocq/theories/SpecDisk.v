(** * SpecDisk: the files before and after a build *)
From Verif Require Import Base Core Gen Build SpecBuild.

(** The contents of the files, by path.  Two paths are two files. *)
Definition disk := str -> option str.
Definition put (p : str) (t : str) (d : disk) : disk := fun q => if str_eqb q p then Some t else d q.
(** What an event does to the files. *)
Definition happens (d : disk) (e : event) : disk :=
  match e with
  | Create p => put p [] d
  | Write (ToFile p) s => match d p with Some t => put p (t ++ s) d | None => d end
  | _ => d
  end.
Definition after (es : list event) (d : disk) : disk := fold_left happens es d.
(** The world [wo] with these files; [missing] is the error for all others. *)
Definition on_disk (wo : world) (missing : str) (d : disk) : world := {|
  wo_var := wo_var wo;
  wo_read := fun p => match d p with Some t => inl t | None => inr missing end;
  wo_create := wo_create wo;
  wo_writer := wo_writer wo;
  wo_error := wo_error wo;
  wo_keep := wo_keep wo;
  wo_code := wo_code wo;
  wo_errors := wo_errors wo;
  wo_debug_kind := wo_debug_kind wo;
  wo_debug_context := wo_debug_context wo;
  wo_alnum := wo_alnum wo
|}.
Definition source_path (b : Builder) (p : str) : Prop :=
  exists f, b_source b = Some (FromFile f) /\ placed (b_source_dir b) f p.
Definition target_path (b : Builder) (p : str) : Prop :=
  exists f, b_target b = Some (ToFile f) /\ placed (b_target_dir b) f p.
