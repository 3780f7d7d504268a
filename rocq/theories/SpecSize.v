(** * SpecSize: how large a configuration and a generated matcher are *)
From Verif Require Import Base Core MiniRust.

(** The statements of a block and its arms, those inside of them included. *)
Fixpoint stmt_size (s : stmt) : nat :=
  let block := (fix block (l : list stmt) : nat :=
                  match l with [] => 0 | s :: l' => stmt_size s + block l' end) in
  match s with
  | SIf _ body | SWhile _ body => S (block body)
  | SMatch _ arms =>
      S ((fix go (l : list (arm_head * list stmt)) : nat :=
            match l with [] => 0 | (_, body) :: l' => S (block body) + go l' end) arms)
  | _ => 1
  end.
Fixpoint statements (l : list stmt) : nat :=
  match l with [] => 0 | s :: l' => stmt_size s + statements l' end.

(** The characters of the static segments of a block, two for each parameter,
    and one for each slash; and the resources. *)
Definition segment_size (s : PathSegment) : nat :=
  match s with Static t => S (length t) | Dynamic _ => 2 end.
Fixpoint places (b : Routes) : nat :=
  match b with
  | mkRoutes _ routes _ =>
      list_sum (map (fun nr => match nr with (seg, child) => segment_size seg + places child end) routes)
  end.
Fixpoint resources_in (b : Routes) : nat :=
  match b with
  | mkRoutes resources routes _ =>
      length resources + list_sum (map (fun nr => match nr with (_, child) => resources_in child end) routes)
  end.
