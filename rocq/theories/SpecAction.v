(** * SpecAction: other names for resources *)
From Verif Require Import Base Core Flat MiniRust Gen Spec SpecMatch.

Section Action.
(** The modules and the name that take the place of others. *)
Variable f : list str * str -> list str * str.
Definition relabel_resource (r : Resource) : Resource :=
  let '(modules, name) := f (r_modules r, r_name r) in
  mkResource (r_method r) modules name (r_is_redirect r) (r_query r).
Fixpoint relabel (b : Routes) : Routes :=
  match b with
  | mkRoutes resources children query =>
      mkRoutes (map relabel_resource resources)
        (map (fun nr : PathSegment * Routes => let (seg, child) := nr in (seg, relabel child)) children) query
  end.
Definition relabel_config (c : RouteConfig) : RouteConfig := mkConfig (c_headers c) (relabel (c_routes c)).
(** The struct of a resource, and the one of the resource that takes its place. *)
Definition relabelled {T} (v v' : route_value T) : Prop :=
  rv_fields v' = rv_fields v /\
  exists x, rv_modules v = map to_caps_case (fst x) /\ rv_name v = to_caps_case (snd x) /\
            rv_modules v' = map to_caps_case (fst (f x)) /\ rv_name v' = to_caps_case (snd (f x)).
Definition relabelled_answer {T E} (r r' : run_result T E) : Prop :=
  (exists redirect v v', r = RunResult (hit redirect v) /\ r' = RunResult (hit redirect v') /\ relabelled v v') \/
  ((forall redirect v, r <> RunResult (hit redirect v)) /\ r' = r).
End Action.
