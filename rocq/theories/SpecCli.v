(** * SpecCli: what the example program should print *)
From Verif Require Import Base Core Flat MiniRust Gen Items Spec SpecMatch SpecPath Build.

Fixpoint commas (l : list bytes) : bytes :=
  match l with
  | [] => []
  | [x] => x
  | x :: l' => x ++ lit ", " ++ commas l'
  end.
(** A struct with the texts of its fields; without fields, its name. *)
Definition struct_text (name : bytes) (l : list bytes) : bytes :=
  match l with
  | [] => name
  | _ => name ++ lit " { " ++ commas l ++ lit " }"
  end.
(** [x] in the variants [vs], outermost first. *)
Fixpoint inside (vs : list bytes) (x : bytes) : bytes :=
  match vs with
  | [] => x
  | v :: vs' => v ++ lit "(" ++ inside vs' x ++ lit ")"
  end.

Section Texts.
Context {T : Type}.
Variable debug : str -> T -> bytes.
Definition option_text (t : str) (o : option T) : bytes :=
  match o with None => lit "None" | Some v => lit "Some(" ++ debug t v ++ lit ")" end.
(** A value of the struct of a resource with path [pat]: the values [vals] of the
    parameters of the path, in their order there, then the values [opts] of the
    query parameters [query]. *)
Definition value_text (name : str) (pat : list PathSegment) (vals : list T) (query : list Param) (opts : list (option T))
    : bytes :=
  struct_text (utf8 name)
    (map (fun pv : Param * T => utf8 (p_name (fst pv)) ++ lit ": " ++ debug (p_typ (fst pv)) (snd pv))
         (combine (path_params pat) vals)
     ++ map (fun po : Param * option T => utf8 (p_name (fst po)) ++ lit ": " ++ option_text (p_typ (fst po)) (snd po))
            (combine query opts)).
(** The same as a value of the [Route] of the whole module. *)
Definition route_text (mods : list str) (name : str) pat vals query opts : bytes :=
  inside (map utf8 (mods ++ [name])) (value_text name pat vals query opts).
(** None of the query parameters has a value. *)
Definition no_values (query : list Param) : list (option T) := map (fun _ => None) query.
End Texts.

(** The program prints these two lines and ends normally. *)
Definition prints (o : option (run unit)) (parsed line : bytes) : Prop :=
  o = Some ([Stdout (lit "Parsed: " ++ parsed ++ [c_nl]); Stdout (line ++ [c_nl])], Finished tt).
