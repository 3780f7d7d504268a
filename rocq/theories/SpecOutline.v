(** * SpecOutline: a route file as a list of indented lines *)
From Verif Require Import Base Core SpecParse SpecGrammar.

(** What a line says: a query parameter, a verb with its handler, or a segment. *)
Inductive entry :=
| EQuery (p : Param)
| EVerb (m : Method) (modules : list str) (name : str) (redirect : bool)
| ESegment (s : PathSegment).
(** With the number of levels that it is indented. *)
Definition line : Type := (nat * entry)%type.

(** The lines of a block: its query parameters, its resources, each with its query
    parameters one level deeper, and its segments, each with its block one level
    deeper. *)
Definition param_line (level : nat) (p : Param) : line := (level, EQuery p).
Definition resource_lines (level : nat) (r : Resource) : list line :=
  (level, EVerb (r_method r) (r_modules r) (r_name r) (r_is_redirect r)) :: map (param_line (S level)) (r_query r).
Fixpoint outline (level : nat) (b : Routes) : list line :=
  match b with
  | mkRoutes resources routes query =>
      map (param_line level) query
      ++ flat_map (resource_lines level) resources
      ++ flat_map (fun nr : NestedRoutes => let (s, child) := nr in (level, ESegment s) :: outline (S level) child) routes
  end.

(** A block has a resource or a nested route. *)
Definition filled (b : Routes) : Prop := rt_resources b <> [] \/ rt_routes b <> [].

Section Text.
Variable ualnum : char -> bool.
Inductive entry_text : entry -> str -> Prop :=
| entry_query p a w b : blanks a -> param_text ualnum p w -> blanks b ->
    entry_text (EQuery p) (lit "[" ++ a ++ w ++ b ++ lit "]")
| entry_verb m ms n redirect v w : map to_lower v = map to_lower (method_display m) ->
    target_text ualnum redirect ms n w -> entry_text (EVerb m ms n redirect) (v ++ lit " " ++ w)
| entry_segment s w : segment_text ualnum s w -> entry_text (ESegment s) w.
Inductive line_text : line -> str -> Prop :=
| line_text_intro level x w e : entry_text x w -> newlines e -> line_text (level, x) (margin level ++ w ++ e).
(** Header lines, the line [/], and lines in any order. *)
Inductive lined_text : list Header -> list line -> str -> Prop :=
| lined_text_intro hs l e0 s e w : e0 = [] \/ newlines e0 -> texts header_line hs s -> newlines e ->
    texts line_text l w -> lined_text hs l (e0 ++ s ++ lit "/" ++ e ++ w).
End Text.

(** ** Which lines may follow which *)

(** [Open n]: a block was opened at level [n] and has nothing but query parameters;
    [Verbs n]: the last line that is not a query parameter is a verb at level [n]. *)
Inductive place := Open (n : nat) | Verbs (n : nat).
Definition next (at_ : place) (l : line) : option place :=
  let (k, x) := l in
  match at_ with
  | Open n =>
      if (k =? n)%nat then
        Some match x with EQuery _ => Open n | EVerb _ _ _ _ => Verbs n | ESegment _ => Open (S n) end
      else None
  | Verbs n =>
      match x with
      | EQuery _ => if (k =? S n)%nat then Some (Verbs n) else None
      | EVerb _ _ _ _ => if (k =? n)%nat then Some (Verbs n) else None
      | ESegment _ => if (1 <=? k)%nat && (k <=? n)%nat then Some (Open (S k)) else None
      end
  end.
Fixpoint walk (at_ : place) (l : list line) : option place :=
  match l with
  | [] => Some at_
  | x :: l' => match next at_ x with Some at' => walk at' l' | None => None end
  end.
(** A file may end after a verb or its query parameters. *)
Definition well_ordered (l : list line) : bool :=
  match walk (Open 1) l with Some (Verbs _) => true | _ => false end.

(** Query parameters, then resources, then segments. *)
Definition rank (x : entry) : nat :=
  match x with EQuery _ => 0 | EVerb _ _ _ _ => 1 | ESegment _ => 2 end.
