(** * SpecCore: specification of mounting *)
From Coq Require Import Permutation.
From Verif Require Import Base Core Spec.

(** The route table: for each block, in pre-order, its path, the query
    parameters in scope and its resources. *)
Definition table (b : Routes) : list (list PathSegment * list Param * list Resource) :=
  map (fun e : list PathSegment * list Param * Routes =>
         let '(p, q, x) := e in (p, q, rt_resources x)) (blocks b).
(** An entry moved below a segment and into the scope of query parameters. *)
Definition below (seg : PathSegment) (q : list Param)
    (e : list PathSegment * list Param * list Resource) : list PathSegment * list Param * list Resource :=
  let '(p, q', rs) := e in (seg :: p, q ++ q', rs).

Definition header_dec (h h' : Header) : {h = h'} + {h <> h'}.
Proof. repeat decide equality. Defined.
(** Position of the first occurrence. *)
Fixpoint first_index (h : Header) (l : list Header) : nat :=
  match l with
  | [] => 0
  | x :: l' => if header_dec x h then 0 else S (first_index h l')
  end.

(** The same configuration with the nested routes of blocks in another order. *)
Inductive reordered : Routes -> Routes -> Prop :=
| reordered_block rs qs ch ch' ch'' :
    Forall2 (fun x y : PathSegment * Routes => fst x = fst y /\ reordered (snd x) (snd y)) ch ch' ->
    Permutation ch' ch'' ->
    reordered (mkRoutes rs ch qs) (mkRoutes rs ch'' qs).
(** Several configurations mounted, one after the other. *)
Definition mounts (c : RouteConfig) (guests : list (str * RouteConfig)) : RouteConfig :=
  fold_left (fun c g => mount c (fst g) (snd g)) guests c.
