(** * SpecPass: answers with corresponding values *)
From Verif Require Import Base Core MiniRust Gen Spec.

Section Pass.
Context {T E T' E' : Type}.
(** Which values of a type correspond, and which errors. *)
Variable R : str -> T -> T' -> Prop.
Variable S : E -> E' -> Prop.

(** What [FromStr] says corresponds. *)
Definition parsed_alike (x : T + E) (y : T' + E') (t : str) : Prop :=
  match x, y with
  | inl v, inl v' => R t v v'
  | inr e, inr e' => S e e'
  | _, _ => False
  end.
Definition field_alike (x : str * fval T) (y : str * fval T') : Prop :=
  fst x = fst y /\
  match snd x, snd y with
  | FvVal t v, FvVal t' v' => t = t' /\ R t v v'
  | FvUsize n, FvUsize n' => n = n'
  | FvNone, FvNone => True
  | _, _ => False
  end.
Definition route_alike (v : route_value T) (v' : route_value T') : Prop :=
  rv_modules v = rv_modules v' /\ rv_name v = rv_name v' /\ Forall2 field_alike (rv_fields v) (rv_fields v').
Definition result_alike (x : run_result T E) (y : run_result T' E') : Prop :=
  match x, y with
  | RunResult (MRoute v), RunResult (MRoute v') => route_alike v v'
  | RunResult (MRedirect v), RunResult (MRedirect v') => route_alike v v'
  | RunResult (MError n e), RunResult (MError n' e') => n = n' /\ S e e'
  | RunResult MNotFound, RunResult MNotFound => True
  | RunResult MNotAllowed, RunResult MNotAllowed => True
  | RunPanic, RunPanic => True
  | _, _ => False
  end.
End Pass.
(** A value of each type is the text it is written as. *)
Definition raw : runtime (str * bytes) Empty_set := mkRuntime (fun t x => inl (t, x)) (fun _ => 0).
(** [v] is what [FromStr] makes of the text. *)
Definition parses_to {T E} (rt : runtime T E) (t : str) (v : T) (x : str * bytes) : Prop :=
  fst x = t /\ rt_parse rt t (snd x) = inl v.
Definition is_parse_error {T E} (r : option (run_result T E)) : Prop := exists n e, r = Some (RunResult (MError n e)).
