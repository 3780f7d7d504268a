(** * SpecCost: what a run of a matcher costs

    A big-step semantics of MiniRust that counts steps, without fuel: one step
    per executed statement, one per test of a condition.  [takes] and
    [takes_block] hold only of runs that end. *)
From Verif Require Import Base MiniRust Gen.

(** Statements on the longest branch of a block; a loop counts once. *)
Fixpoint longest_stmt (s : stmt) : nat :=
  let block := (fix block (l : list stmt) : nat :=
                  match l with [] => 0 | s :: l' => longest_stmt s + block l' end) in
  match s with
  | SIf _ body => S (block body)
  | SMatch _ arms =>
      S ((fix go (l : list (arm_head * list stmt)) : nat :=
            match l with [] => 0 | (_, body) :: l' => Nat.max (block body) (go l') end) arms)
  | _ => 1
  end.
Fixpoint longest (l : list stmt) : nat :=
  match l with [] => 0 | s :: l' => longest_stmt s + longest l' end.

Definition compound (s : stmt) : bool :=
  match s with SWhile _ _ | SIf _ _ | SMatch _ _ => true | _ => false end.

Section Cost.
Context {T E : Type}.
Variable rt : runtime T E.
Variable senv : struct_env.

Inductive takes : env T -> stmt -> list stmt -> nat -> outcome T E -> Prop :=
| takes_simple en s rest :
    compound s = false -> takes en s rest 1 (exec_stmt rt senv 0 en s rest)
| takes_if_panic en c body rest :
    eval_bexpr rt en c = Some None -> takes en (SIf c body) rest 1 OPanic
| takes_if_no en c body rest :
    eval_bexpr rt en c = Some (Some false) -> takes en (SIf c body) rest 1 (ONext en)
| takes_if_yes en c body rest n o :
    eval_bexpr rt en c = Some (Some true) -> takes_block en body n o ->
    takes en (SIf c body) rest (S n) (leave en o)
| takes_match_panic en sc arms rest :
    eval_scrut rt en sc = Some None -> takes en (SMatch sc arms) rest 1 OPanic
| takes_match en sc arms rest v arm n o :
    eval_scrut rt en sc = Some (Some v) ->
    find (fun a => arm_matches (fst a) v) arms = Some arm ->
    takes_block en (snd arm) n o ->
    takes en (SMatch sc arms) rest (S n) (leave en o)
| takes_while_panic en c body rest :
    eval_bexpr rt en c = Some None -> takes en (SWhile c body) rest 1 OPanic
| takes_while_no en c body rest :
    eval_bexpr rt en c = Some (Some false) -> takes en (SWhile c body) rest 1 (ONext en)
| takes_while_again en c body rest n en' m o :
    eval_bexpr rt en c = Some (Some true) -> takes_block en body n (ONext en') ->
    takes (skipn (length en' - length en) en') (SWhile c body) rest m o ->
    takes en (SWhile c body) rest (S n + m) o
| takes_while_out en c body rest n o :
    eval_bexpr rt en c = Some (Some true) -> takes_block en body n o ->
    (forall en', o <> ONext en') -> takes en (SWhile c body) rest (S n) o
with takes_block : env T -> list stmt -> nat -> outcome T E -> Prop :=
| takes_nil en : takes_block en [] 0 (ONext en)
| takes_cons en s l n en' m o :
    takes en s l n (ONext en') -> takes_block en' l m o -> takes_block en (s :: l) (n + m) o
| takes_stop en s l n o :
    takes en s l n o -> (forall en', o <> ONext en') -> takes_block en (s :: l) n o.
End Cost.

(** The outcome that [match_route] reports as [r]. *)
Definition outcome_of {T E} (r : run_result T E) : outcome T E :=
  match r with RunResult m => ORet m | RunPanic => OPanic end.
