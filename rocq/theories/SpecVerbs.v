(** * SpecVerbs: the resources of a block in another order *)
From Coq Require Import Permutation.
From Verif Require Import Base Core.

(** [related P b b']: the same blocks, with [P] for the resources of each block. *)
Inductive related (P : list Resource -> list Resource -> Prop) : Routes -> Routes -> Prop :=
| related_block rs rs' qs ch ch' : P rs rs' ->
    Forall2 (fun x y : PathSegment * Routes => fst x = fst y /\ related P (snd x) (snd y)) ch ch' ->
    related P (mkRoutes rs ch qs) (mkRoutes rs' ch' qs).
(** Each verb has the same resources, in the same order. *)
Definition for_verb (m : Method) (r : Resource) : bool :=
  match m, r_method r with Get, Get | Post, Post | Put, Put | Delete, Delete => true | _, _ => false end.
Definition same_by_verb (rs rs' : list Resource) : Prop :=
  forall m, filter (for_verb m) rs = filter (for_verb m) rs'.
(** Each verb has the same first resource, or none. *)
Definition same_first (rs rs' : list Resource) : Prop :=
  forall m, find (for_verb m) rs = find (for_verb m) rs'.
