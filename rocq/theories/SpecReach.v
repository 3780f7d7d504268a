(** * SpecReach: resources that no request is matched with *)
From Verif Require Import Base Core Flat Gen Spec.

(** [dropped b pat]: on the path [pat] from block [b] there is a parameter whose
    name comes after that of a sibling parameter, or one of several static
    segments beside a parameter. *)
Inductive dropped : Routes -> list PathSegment -> Prop :=
| dropped_parameter b d d' child' pat :
    In (Dynamic d', child') (rt_routes b) -> str_compare (p_name d') (p_name d) = Lt ->
    dropped b (Dynamic d :: pat)
| dropped_static b s s' child' d child pat :
    In (Static s', child') (rt_routes b) -> s' <> s -> In (Dynamic d, child) (rt_routes b) ->
    dropped b (Static s :: pat)
| dropped_below b seg child pat :
    In (seg, child) (rt_routes b) -> dropped child pat -> dropped b (seg :: pat).
