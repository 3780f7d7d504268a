(** * SpecDocs: the documentation of the generated types *)
From Verif Require Import Base Core Flat MiniRust Gen Items Spec SpecMatch.

(** The declared structs with their module paths and documentation. *)
Fixpoint item_docs (path : list str) (it : item) {struct it} : list (list str * str * str) :=
  match it with
  | ItStruct doc n _ => [(path, n, doc)]
  | ItMod n l => flat_map (item_docs (path ++ [n])) l
  | _ => []
  end.
Definition items_docs (items : list item) : list (list str * str * str) := flat_map (item_docs []) items.

(** What they should say: the verb, and the path with the names of its parameters in
    braces. *)
Definition braced (s : PathSegment) : str :=
  match s with Static t => t | Dynamic p => lit "{" ++ p_name p ++ lit "}" end.
Definition request_line (pat : list PathSegment) (r : Resource) : str :=
  method_display (r_method r) ++ lit " /" ++ join (map braced pat).
Definition resource_doc (pat : list PathSegment) (r : Resource) : str :=
  lit "Renders for `" ++ request_line pat r ++ lit "`.".
Definition config_docs (b : Routes) : list (list str * str * str) :=
  flat_map (fun e : list PathSegment * list Param * Routes =>
              let '(pat, _, b) := e in
              map (fun r => (map to_snake_case (r_modules r), to_caps_case (r_name r), resource_doc pat r))
                  (filter (fun r => negb (r_is_redirect r)) (rt_resources b))) (blocks b).

(** A documented path with texts in place of the names in braces; [name]: what was read
    of one since its brace. *)
Fixpoint fill (values : str -> bytes) (name : option str) (text : str) : bytes :=
  match text, name with
  | [], _ => []
  | c :: t, None => if N.eqb c c_lbrace then fill values (Some []) t else utf8_char c ++ fill values None t
  | c :: t, Some n => if N.eqb c c_rbrace then values n ++ fill values None t else fill values (Some (n ++ [c])) t
  end.
(** The segments that this gives. *)
Definition given (values : str -> bytes) (s : PathSegment) : bytes :=
  match s with Static t => t | Dynamic p => values (p_name p) end.
Definition spaces (n : nat) : str := repeat c_space n.
