(** * SpecGen: specification of code generation *)
From Verif Require Import Base Core Flat Spec Gen.

(** The struct names declared by a configuration: module path and name of each
    resource that is not a redirect. *)
Definition struct_names (b : Routes) : list (list str * str) :=
  concat (map (fun e : list PathSegment * list Param * Routes =>
                 map (fun r => (r_modules r, r_name r))
                     (filter (fun r => negb (r_is_redirect r)) (rt_resources (snd e)))) (blocks b)).
(** The struct is declared at two places. *)
Definition declared_twice (b : Routes) (x : list str * str) : Prop :=
  exists l1 l2 l3, struct_names b = l1 ++ x :: l2 ++ x :: l3.
(** A path without the types of its parameters. *)
Definition untyped (s : PathSegment) : str + str :=
  match s with Static t => inl t | Dynamic p => inr (p_name p) end.
Definition block_paths_untyped (b : Routes) : list (list (str + str)) :=
  map (fun e : list PathSegment * list Param * Routes => map untyped (fst (fst e))) (blocks b).
Definition empty_block (b : Routes) : Prop :=
  rt_query b = [] /\ rt_resources b = [] /\ rt_routes b = [].

(** A configuration for which code can be generated. *)
Definition generates (c : RouteConfig) : Prop :=
  NoDup (struct_names (c_routes c)) /\ NoDup (block_paths_untyped (c_routes c)) /\ ~ empty_block (c_routes c).

(** Text as lines, each without and printed with its line break. *)
Definition unlines (l : list str) : str := concat (map (fun s => s ++ [c_nl]) l).
Definition is_prefix_of (a b : str) : Prop := exists t, b = a ++ t.
(** The lines of a text, without their line breaks. *)
Fixpoint lines_of (s : str) : list str :=
  match s with
  | [] => []
  | c :: s' =>
      if N.eqb c c_nl then [] :: lines_of s'
      else match lines_of s' with
           | [] => [[c]]
           | l :: ls => (c :: l) :: ls
           end
  end.
(** [accepts wr st l st']: the writer takes the chunks [l] one after the other. *)
Inductive accepts (wr : Writer) : wr_state wr -> list str -> wr_state wr -> Prop :=
| accepts_nil st : accepts wr st [] st
| accepts_cons st s st1 l st2 :
    wr_write wr st s = inl st1 -> accepts wr st1 l st2 -> accepts wr st (s :: l) st2.
