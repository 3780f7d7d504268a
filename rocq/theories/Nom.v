(** * Nom: the nom 4.1 combinators used by parse/mod.rs, on [CompleteStr].

    nom is an external dependency (not in /repo); this file is part of the
    trusted base.  Each combinator is written from the nom 4.1 documentation
    and source.  Simplifications: error values keep only their class ([Error],
    which lets alternatives backtrack, or [Failure], which does not), not the
    position and kind lists of the [verbose-errors] feature, which are in NomErr.v.  On
    [CompleteStr], [at_eof()] is always true, so no combinator returns
    [Incomplete], and [complete!], [alt_complete!] add nothing.  [PFuel] is the
    model's own out-of-fuel marker, proved unreachable in ParseFacts.v. *)
From Verif Require Import Base.

Inductive pres (A : Type) :=
| POk (rest : str) (a : A)
| PErr
| PFail
| PFuel.
Arguments POk {A} rest a.
Arguments PErr {A}.
Arguments PFail {A}.
Arguments PFuel {A}.

Definition parser (A : Type) := str -> pres A.

(** [do_parse!], [preceded!], [terminated!], [delimited!], [pair!] are
    sequencing. *)
Definition pbind {A B} (p : parser A) (f : A -> parser B) : parser B :=
  fun i => match p i with
           | POk r a => f a r
           | PErr => PErr
           | PFail => PFail
           | PFuel => PFuel
           end.
Definition pret {A} (a : A) : parser A := fun i => POk i a.

Notation "'do' x <- p ; q" := (pbind p (fun x => q))
  (at level 200, x name, p at level 100, q at level 200, right associativity).
Notation "p ;; q" := (pbind p (fun _ => q)) (at level 100, q at level 200, right associativity).

(** [tag!]. *)
Definition tag (t : str) : parser unit :=
  fun i => if is_prefix t i then POk (skipn (length t) i) tt else PErr.

(** [tag_no_case!] on an ASCII tag.  nom compares [char::to_lowercase] forms;
    no non-ASCII char lower-cases to a letter of the four verbs used here, so
    ASCII lower-casing is the same. *)
Fixpoint is_prefix_no_case (p s : str) : bool :=
  match p, s with
  | [], _ => true
  | x :: p', y :: s' => N.eqb (to_lower x) (to_lower y) && is_prefix_no_case p' s'
  | _ :: _, [] => false
  end.
Definition tag_no_case (t : str) : parser unit :=
  fun i => if is_prefix_no_case t i then POk (skipn (length t) i) tt else PErr.

(** [char!]. *)
Definition pchar (c : char) : parser unit :=
  fun i => match i with
           | x :: i' => if N.eqb x c then POk i' tt else PErr
           | [] => PErr
           end.

(** [split_at_position] of CompleteStr: the longest prefix satisfying [f]. *)
Fixpoint span (f : char -> bool) (s : str) : str * str :=
  match s with
  | x :: s' => if f x then let '(a, b) := span f s' in (x :: a, b) else ([], s)
  | [] => ([], [])
  end.

(** [take_while1!]. *)
Definition take_while1 (f : char -> bool) : parser str :=
  fun i => match span f i with
           | ([], _) => PErr
           | (a, r) => POk r a
           end.

(** [sp]: white space of [ws!]. *)
Definition is_sp (c : char) : bool :=
  N.eqb c c_space || N.eqb c c_tab || N.eqb c c_cr || N.eqb c c_nl.
Definition sp : parser unit := fun i => POk (snd (span is_sp i)) tt.

(** [ws!(p)] for a function or primitive [p]: white space, [p], white space. *)
Definition ws {A} (p : parser A) : parser A :=
  sp ;; do a <- p; sp ;; pret a.

(** [alt!] with two branches: only [Error] backtracks. *)
Definition alt {A} (p q : parser A) : parser A :=
  fun i => match p i with
           | PErr => q i
           | r => r
           end.

(** [return_error!]: turns [Error] into [Failure]. *)
Definition return_error {A} (p : parser A) : parser A :=
  fun i => match p i with
           | PErr => PFail
           | r => r
           end.

(** [not!]. *)
Definition pnot {A} (p : parser A) : parser unit :=
  fun i => match p i with
           | POk _ _ => PErr
           | PErr => POk i tt
           | PFail => PFail
           | PFuel => PFuel
           end.

(** [count!]. *)
Fixpoint pcount {A} (p : parser A) (n : nat) : parser unit :=
  match n with
  | O => pret tt
  | S n' => p ;; pcount p n'
  end.

(** [many0!].  A round that consumes nothing ends the loop without pushing its
    value (the input is always [at_eof]). *)
Fixpoint many0_aux {A} (fuel : nat) (p : parser A) : parser (list A) :=
  fun i =>
    match fuel with
    | O => PFuel
    | S fuel' =>
        match p i with
        | POk r a =>
            if str_eqb r i then POk i []
            else match many0_aux fuel' p r with
                 | POk r' l => POk r' (a :: l)
                 | PErr => PErr
                 | PFail => PFail
                 | PFuel => PFuel
                 end
        | PErr => POk i []
        | PFail => PFail
        | PFuel => PFuel
        end
    end.
Definition many0 {A} (p : parser A) : parser (list A) :=
  fun i => many0_aux (S (length i)) p i.

(** [many1!]: the first round must succeed; afterwards as [many0!]. *)
Definition many1 {A} (p : parser A) : parser (list A) :=
  do a <- p; do l <- many0 p; pret (a :: l).

(** [line_ending]. *)
Definition line_ending : parser unit :=
  fun i => match i with
           | x :: i' =>
               if N.eqb x c_nl then POk i' tt
               else if N.eqb x c_cr then
                 match i' with
                 | y :: i'' => if N.eqb y c_nl then POk i'' tt else PErr
                 | [] => PErr
                 end
               else PErr
           | [] => PErr
           end.

(** [not_line_ending]: everything up to the first CR or LF; an error if that is
    a CR not followed by LF. *)
Definition is_line_char (c : char) : bool := negb (N.eqb c c_cr || N.eqb c c_nl).
Definition not_line_ending : parser str :=
  fun i =>
    match span is_line_char i with
    | (a, []) => POk [] a
    | (a, x :: r) =>
        if N.eqb x c_cr then
          if is_prefix [c_cr; c_nl] (x :: r) then POk (x :: r) a else PErr
        else POk (x :: r) a
    end.

(** [recognize!]: the consumed part of the input. *)
Definition recognize {A} (p : parser A) : parser str :=
  fun i => match p i with
           | POk r _ => POk r (firstn (length i - length r) i)
           | PErr => PErr
           | PFail => PFail
           | PFuel => PFuel
           end.

(** [eof!]. *)
Definition eof : parser unit :=
  fun i => match i with
           | [] => POk [] tt
           | _ => PErr
           end.
