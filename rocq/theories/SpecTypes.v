(** * SpecTypes: the types that path parameters are parsed as

    [rustc] infers the type of a path parameter from the struct literals that
    use it (gen/gen.rs:790-797 prints no type).  For the parameters of a
    resource that is the type in the configuration; a redirect builds the struct
    of its target, and below a parameter there may be redirects only. *)
From Verif Require Import Base Core Flat Gen Spec.

(** All resources of a block and the blocks below it. *)
Definition resources_below (b : Routes) : list Resource :=
  flat_map (fun e : list PathSegment * list Param * Routes => rt_resources (snd e)) (blocks b).

Fixpoint same_strs (a b : list str) : bool :=
  match a, b with
  | [], [] => true
  | x :: a', y :: b' => str_eqb x y && same_strs a' b'
  | _, _ => false
  end.
(** The struct of the action is the one that the resource builds. *)
Definition builds (r : Resource) (ma : list str * FlattenedAction) : bool :=
  same_strs (map to_snake_case (fst ma)) (map to_snake_case (r_modules r))
  && same_strs (map to_caps_case (fst ma)) (map to_caps_case (r_modules r))
  && str_eqb (to_caps_case (a_name (snd ma))) (to_caps_case (r_name r)).
(** The type of the path parameter [x] of this struct. *)
Definition struct_type (c : RouteConfig) (r : Resource) (x : str) : option str :=
  match find (builds r) (config_actions (c_routes c)) with
  | Some (_, a) => option_map p_typ (find (fun p => str_eqb (p_name p) x) (a_route_params a))
  | None => None
  end.
(** The type that the parameter [d] leading to block [child] is parsed as: the
    one in the configuration, unless there are only redirects below; then the
    type in the target of the first of them. *)
Definition parsed_as (c : RouteConfig) (d : Param) (child : Routes) : str :=
  match resources_below child with
  | [] => p_typ d
  | r :: _ =>
      if forallb r_is_redirect (resources_below child) then
        match struct_type c r (p_name d) with Some t => t | None => p_typ d end
      else p_typ d
  end.

(** The configuration with these types. *)
Fixpoint retype (f : Param -> Routes -> str) (b : Routes) : Routes :=
  match b with
  | mkRoutes resources children qs =>
      mkRoutes resources
        (map (fun nr : PathSegment * Routes =>
                match nr with
                | (seg, child) =>
                    (match seg with
                     | Static s => Static s
                     | Dynamic d => Dynamic (mkParam (p_name d) (f d child))
                     end, retype f child)
                end) children) qs
  end.
Definition inferred (c : RouteConfig) : RouteConfig :=
  mkConfig (c_headers c) (retype (parsed_as c) (c_routes c)).
