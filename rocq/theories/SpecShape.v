(** * SpecShape: configurations with the same paths and verbs *)
From Verif Require Import Base Core MiniRust Gen Spec SpecVerbs.

(** The same blocks, with resources for the same verbs: other handlers, redirects and
    query parameters. *)
Inductive same_shape : Routes -> Routes -> Prop :=
| same_shape_block rs rs' qs qs' ch ch' :
    (forall m, existsb (for_verb m) rs = existsb (for_verb m) rs') ->
    Forall2 (fun x y : PathSegment * Routes => fst x = fst y /\ same_shape (snd x) (snd y)) ch ch' ->
    same_shape (mkRoutes rs ch qs) (mkRoutes rs' ch' qs').

(** The path parameters in the fields of a struct. *)
Definition is_given {T} (f : str * fval T) : bool := match snd f with FvNone => false | _ => true end.
Definition given {T} (v : route_value T) : list (str * fval T) := filter is_given (rv_fields v).
(** The answers are of the same kind: both 404, both 405, the same error, or both matched,
    with the same values of path parameters. *)
Definition same_kind {T E} (r r' : run_result T E) : Prop :=
  match r, r' with
  | RunResult MNotFound, RunResult MNotFound => True
  | RunResult MNotAllowed, RunResult MNotAllowed => True
  | RunResult (MError x e), RunResult (MError x' e') => x = x' /\ e = e'
  | RunResult (MRoute v), RunResult (MRoute v') | RunResult (MRoute v), RunResult (MRedirect v')
  | RunResult (MRedirect v), RunResult (MRoute v') | RunResult (MRedirect v), RunResult (MRedirect v') => given v = given v'
  | RunPanic, RunPanic => True
  | _, _ => False
  end.
