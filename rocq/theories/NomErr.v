(** * NomErr: the combinators of Nom.v with the errors they report

    nom 4.1 with the feature [verbose-errors] (wayfinder/Cargo.toml:17): an error is a
    [Context], the inputs at which something went wrong with a kind each.  Like Nom.v
    this file is part of the trusted base; that forgetting the contexts gives Nom.v is
    proved in ReportFacts.v. *)
From Verif Require Import Base Nom Errors.

Inductive vres (A : Type) :=
| VOk (rest : str) (a : A)
| VErr (c : context)
| VFail (c : context)
| VFuel.
Arguments VOk {A} rest a.
Arguments VErr {A} c.
Arguments VFail {A} c.
Arguments VFuel {A}.
Definition vparser (A : Type) := str -> vres A.

Definition vbind {A B} (p : vparser A) (f : A -> vparser B) : vparser B :=
  fun i => match p i with
           | VOk r a => f a r
           | VErr c => VErr c
           | VFail c => VFail c
           | VFuel => VFuel
           end.
Definition vret {A} (a : A) : vparser A := fun i => VOk i a.

Notation "'vdo' x <- p ; q" := (vbind p (fun x => q))
  (at level 200, x name, p at level 100, q at level 200, right associativity).
Notation "p ;;; q" := (vbind p (fun _ => q)) (at level 100, q at level 200, right associativity).

(** [error_position!]: a primitive that stops where it started. *)
Definition at_start {A} (kind : string) (p : parser A) : vparser A :=
  fun i => match p i with
           | POk r a => VOk r a
           | PErr => VErr (Code i (Builtin (lit kind)))
           | PFail => VFail (Code i (Builtin (lit kind)))
           | PFuel => VFuel
           end.
Definition vtag (t : str) : vparser unit := at_start "Tag" (tag t).
Definition vtag_no_case (t : str) : vparser unit := at_start "Tag" (tag_no_case t).
Definition vchar (c : char) : vparser unit := at_start "Char" (pchar c).
Definition vtake_while1 (f : char -> bool) : vparser str := at_start "TakeWhile1" (take_while1 f).
Definition vline_ending : vparser unit := at_start "CrLf" line_ending.
Definition vnot_line_ending : vparser str := at_start "Tag" not_line_ending.
Definition veof : vparser unit := at_start "Eof" eof.
Definition vsp : vparser unit := fun i => VOk (snd (span is_sp i)) tt.

Definition vws {A} (p : vparser A) : vparser A :=
  vsp ;;; vdo a <- p; vsp ;;; vret a.

(** [alt!]: when every branch stops with [Error], the error is that of [alt!]. *)
Definition valt {A} (p q : vparser A) : vparser A :=
  fun i => match p i with
           | VErr _ =>
               match q i with
               | VErr _ => VErr (Code i (Builtin (lit "Alt")))
               | r => r
               end
           | r => r
           end.

(** [error_node_position!]: one more item at the end of the list. *)
Definition add_error (i : str) (e : error_kind) (c : context) : context :=
  match c with
  | Code j k => CList [(j, k); (i, e)]
  | CList l => CList (l ++ [(i, e)])
  end.
(** [return_error!]. *)
Definition vreturn_error {A} (code : N) (p : vparser A) : vparser A :=
  fun i => match p i with
           | VErr c => VFail (add_error i (Custom code) c)
           | VFail c => VFail (add_error i (Custom code) c)
           | r => r
           end.

Definition vnot {A} (p : vparser A) : vparser unit :=
  fun i => match p i with
           | VOk _ _ => VErr (Code i (Builtin (lit "Not")))
           | VErr _ => VOk i tt
           | VFail c => VFail c
           | VFuel => VFuel
           end.

(** [count!]: the error is at the start of the first round. *)
Fixpoint vcount_aux {A} (start : str) (p : vparser A) (n : nat) : vparser unit :=
  match n with
  | O => vret tt
  | S n' => fun i =>
      match p i with
      | VOk r _ => vcount_aux start p n' r
      | VErr _ => VErr (Code start (Builtin (lit "Count")))
      | VFail c => VFail c
      | VFuel => VFuel
      end
  end.
Definition vcount {A} (p : vparser A) (n : nat) : vparser unit := fun i => vcount_aux i p n i.

Fixpoint vmany0_aux {A} (fuel : nat) (p : vparser A) : vparser (list A) :=
  fun i =>
    match fuel with
    | O => VFuel
    | S fuel' =>
        match p i with
        | VOk r a =>
            if str_eqb r i then VOk i []
            else match vmany0_aux fuel' p r with
                 | VOk r' l => VOk r' (a :: l)
                 | VErr c => VErr c
                 | VFail c => VFail c
                 | VFuel => VFuel
                 end
        | VErr _ => VOk i []
        | VFail c => VFail c
        | VFuel => VFuel
        end
    end.
Definition vmany0 {A} (p : vparser A) : vparser (list A) :=
  fun i => vmany0_aux (S (length i)) p i.

(** [many1!]: an error of the first round is replaced by one of [many1!] itself.  From
    memory of its source nom 4.1 does so for a [Failure] too; the parameter [keep]
    says whether it passes the [Failure] on instead, and every theorem holds for both. *)
Definition vmany1 {A} (keep : bool) (p : vparser A) : vparser (list A) :=
  fun i => match p i with
           | VOk r a => (vdo l <- vmany0 p; vret (a :: l)) r
           | VErr _ => VErr (Code i (Builtin (lit "Many1")))
           | VFail c => VFail (if keep then c else Code i (Builtin (lit "Many1")))
           | VFuel => VFuel
           end.

Definition vrecognize {A} (p : vparser A) : vparser str :=
  fun i => match p i with
           | VOk r _ => VOk r (firstn (length i - length r) i)
           | VErr c => VErr c
           | VFail c => VFail c
           | VFuel => VFuel
           end.
