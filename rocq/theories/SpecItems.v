(** * SpecItems: what a generated module should declare *)
From Verif Require Import Base Core Flat MiniRust Gen Items Spec.

(** The structs: one per resource that is not a redirect, in the module of the
    resource, with a field per parameter of the path and an optional one per
    query parameter in scope. *)
Definition required (p : Param) : field_decl := mkField (p_name p) (p_typ p) false.
Definition optional (p : Param) : field_decl := mkField (p_name p) (p_typ p) true.
Definition resource_struct (pat : list PathSegment) (q : list Param) (r : Resource)
    : list str * str * list field_decl :=
  (map to_snake_case (r_modules r), to_caps_case (r_name r),
   map required (path_params pat) ++ map optional (q ++ r_query r)).
Definition config_structs (b : Routes) : list (list str * str * list field_decl) :=
  flat_map (fun e : list PathSegment * list Param * Routes =>
              let '(pat, q, b) := e in
              map (resource_struct pat q) (filter (fun r => negb (r_is_redirect r)) (rt_resources b))) (blocks b).

(** The items of the module at a path. *)
Inductive module_at : list item -> list str -> list item -> Prop :=
| module_here items : module_at items [] items
| module_inside items k l path l' : In (ItMod k l) items -> module_at l path l' -> module_at items (k :: path) l'.
(** The enum of a module has a variant for each struct of the module and one for
    each module in it, holding that struct or the enum of that module, and
    [to_path] takes all of them. *)
Definition enum_complete (items : list item) : Prop :=
  exists variants subs,
    enums_of items = [(lit "Route", variants)] /\
    enum_paths_of items = [(lit "Route", map fst variants)] /\
    map fst (mods_of items) = map to_snake_case subs /\
    map fst (struct_paths_of items) = map fst (structs_of items) /\
    variants = map (fun s : str * list (str * ty) => (fst s, TyItem [] (fst s))) (structs_of items)
               ++ map (fun k => (to_caps_case k, TyItem [to_snake_case k] (lit "Route"))) subs.

(** A [format!] template: texts, with doubled braces, and holes; what is put into the
    holes; and what comes out. *)
Definition doubled (c : char) : str := if N.eqb c c_lbrace || N.eqb c c_rbrace then [c; c] else [c].
Definition template_of (l : list (str + bytes)) : str :=
  flat_map (fun x => match x with inl s => flat_map doubled s | inr _ => lit "{}" end) l.
Definition holes_of (l : list (str + bytes)) : list bytes :=
  flat_map (fun x => match x with inl _ => [] | inr v => [v] end) l.
Definition shown_of (l : list (str + bytes)) : bytes :=
  flat_map (fun x => match x with inl s => utf8 s | inr v => v end) l.
