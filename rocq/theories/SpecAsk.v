(** * SpecAsk: the questions that a matcher asks [FromStr] *)
From Verif Require Import Base Core MiniRust Spec SpecMatch SpecChange.

(** The two give the same answers to the questions along the path [pat]: for each
    parameter of it, the segment at its place as a value of its type. *)
Definition same_answers {T E} (rt rt' : runtime T E) (pat : list PathSegment) (segs : list bytes) : Prop :=
  forall i p seg, nth_error pat i = Some (Dynamic p) -> nth_error segs i = Some seg -> utf8_valid seg = true ->
    rt_parse rt (p_typ p) seg = rt_parse rt' (p_typ p) seg.
(** [t] is the type of a path parameter of some block. *)
Definition declared_type (c : RouteConfig) (t : str) : Prop :=
  exists pat q b p, block_at (c_routes c) pat q b /\ In (Dynamic p) pat /\ p_typ p = t.
