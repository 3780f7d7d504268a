(** * SpecUnseen: what code generation looks at before it succeeds *)
From Verif Require Import Base Core.

(** The names of the resources that are not redirects, the segments without the types
    of parameters, and whether there are query parameters: not the verbs, the targets
    of redirects, and what the query parameters are. *)
Definition seen_resource (r : Resource) : Resource :=
  if r_is_redirect r then mkResource Get [] [] true [] else mkResource Get (r_modules r) (r_name r) false [].
Definition seen_segment (s : PathSegment) : PathSegment :=
  match s with Static t => Static t | Dynamic p => Dynamic (mkParam (p_name p) []) end.
Definition seen_query (q : list Param) : list Param := match q with [] => [] | _ => [mkParam [] []] end.
Fixpoint seen (b : Routes) : Routes :=
  match b with
  | mkRoutes resources children query =>
      mkRoutes (map seen_resource resources)
        (map (fun nr : NestedRoutes => let (seg, child) := nr in (seen_segment seg, seen child)) children)
        (seen_query query)
  end.
