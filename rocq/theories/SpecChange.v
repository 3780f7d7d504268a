(** * SpecChange: a change in one block of a configuration *)
From Verif Require Import Base Core Flat Gen Spec SpecMatch.

(** [changed x x' pat b b']: [b'] is [b] with the block [x] at the path [pat] replaced
    by [x']. *)
Inductive changed (x x' : Routes) : list PathSegment -> Routes -> Routes -> Prop :=
| changed_here : changed x x' [] x x'
| changed_below seg pat child child' resources l1 l2 query :
    changed x x' pat child child' ->
    changed x x' (seg :: pat) (mkRoutes resources (l1 ++ (seg, child) :: l2) query)
      (mkRoutes resources (l1 ++ (seg, child') :: l2) query).

(** The segments of a request path, also an empty one at its end. *)
Definition all_segments (path : bytes) : list bytes := split_slash (no_slash path).
(** The first segments are as the path [pat] says. *)
Fixpoint begins (pat : list PathSegment) (segs : list bytes) : Prop :=
  match pat, segs with
  | [], _ => True
  | Static s :: pat', seg :: segs' => seg = s /\ begins pat' segs'
  | Dynamic _ :: pat', _ :: segs' => begins pat' segs'
  | _ :: _, [] => False
  end.
(** And no other segments follow, unless it is the empty one after a slash at the
    end. *)
Definition ends_at (pat : list PathSegment) (segs : list bytes) : Prop :=
  begins pat segs /\ (skipn (length pat) segs = [] \/ skipn (length pat) segs = [[]]).
(** And then a segment follows that begins with [s]. *)
Definition begins_with (pat : list PathSegment) (s : str) (segs : list bytes) : Prop :=
  begins pat segs /\ exists t rest, skipn (length pat) segs = (s ++ t) :: rest.
