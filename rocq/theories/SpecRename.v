(** * SpecRename: configurations with other names of parameters *)
From Verif Require Import Base Core MiniRust Gen Spec.

Section Rename.
Variable R : str -> str -> Prop.   (* the old name and the new one *)
Definition renamed_param (p p' : Param) : Prop := R (p_name p) (p_name p') /\ p_typ p = p_typ p'.
Inductive renamed_segment : PathSegment -> PathSegment -> Prop :=
| renamed_static s : renamed_segment (Static s) (Static s)
| renamed_dynamic p p' : renamed_param p p' -> renamed_segment (Dynamic p) (Dynamic p').
Definition renamed_resource (r r' : Resource) : Prop :=
  r_method r = r_method r' /\ r_modules r = r_modules r' /\ r_name r = r_name r' /\ r_is_redirect r = r_is_redirect r' /\
  Forall2 renamed_param (r_query r) (r_query r').
(** The same blocks and resources, with parameters of the same types. *)
Inductive renamed : Routes -> Routes -> Prop :=
| renamed_block rs rs' qs qs' ch ch' :
    Forall2 renamed_resource rs rs' -> Forall2 renamed_param qs qs' ->
    Forall2 (fun x y : PathSegment * Routes => renamed_segment (fst x) (fst y) /\ renamed (snd x) (snd y)) ch ch' ->
    renamed (mkRoutes rs ch qs) (mkRoutes rs' ch' qs').

(** The same answer, with the names of fields and in errors changed. *)
Definition renamed_value {T} (v v' : route_value T) : Prop :=
  rv_modules v = rv_modules v' /\ rv_name v = rv_name v' /\
  Forall2 (fun f f' : str * fval T => R (fst f) (fst f') /\ snd f = snd f') (rv_fields v) (rv_fields v').
Definition renamed_answer {T E} (r r' : run_result T E) : Prop :=
  match r, r' with
  | RunResult MNotFound, RunResult MNotFound | RunResult MNotAllowed, RunResult MNotAllowed | RunPanic, RunPanic => True
  | RunResult (MRoute v), RunResult (MRoute v') => renamed_value v v'
  | RunResult (MRedirect v), RunResult (MRedirect v') => renamed_value v v'
  | RunResult (MError x e), RunResult (MError x' e') => R x x' /\ e = e'
  | _, _ => False
  end.
End Rename.
