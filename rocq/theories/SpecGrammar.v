(** * SpecGrammar: the texts of the route file language and what they mean *)
From Verif Require Import Base Core SpecParse.

(** White space: spaces, tabs and the characters of line breaks. *)
Definition blanks (w : str) : Prop := Forall (fun c => is_space c = true) w.
(** Two spaces per level. *)
Definition margin (level : nat) : str := concat (repeat (lit "  ") level).

(** One text after the other, one for each item. *)
Inductive texts {A : Type} (P : A -> str -> Prop) : list A -> str -> Prop :=
| texts_nil : texts P [] []
| texts_cons x xs s rest : P x s -> texts P xs rest -> texts P (x :: xs) (s ++ rest).

Section Grammar.
(** Which characters outside ASCII are alphanumeric. *)
Variable ualnum : char -> bool.

(** [name: type]. *)
Inductive param_text : Param -> str -> Prop :=
| param_text_intro n a b t : ident ualnum n -> blanks a -> blanks b -> ident ualnum t ->
    param_text (mkParam n t) (n ++ a ++ lit ":" ++ b ++ t).

(** [{name: type}] or a word. *)
Inductive segment_text : PathSegment -> str -> Prop :=
| static_text t : ident ualnum t -> segment_text (Static t) t
| dynamic_text p a w b : blanks a -> param_text p w -> blanks b ->
    segment_text (Dynamic p) (lit "{" ++ a ++ w ++ b ++ lit "}").

(** A line [[name: type]]. *)
Inductive query_text (level : nat) : Param -> str -> Prop :=
| query_text_intro p a w b e : blanks a -> param_text p w -> blanks b -> newlines e ->
    query_text level p (margin level ++ lit "[" ++ a ++ w ++ b ++ lit "]" ++ e).

(** [module::module::name]. *)
Inductive path_text : list str -> str -> str -> Prop :=
| path_text_last n : ident ualnum n -> path_text [] n n
| path_text_step m ms n a b w : ident ualnum m -> blanks a -> blanks b -> path_text ms n w ->
    path_text (m :: ms) n (m ++ a ++ lit "::" ++ b ++ w).
Inductive target_text : bool -> list str -> str -> str -> Prop :=
| handler_text ms n w : path_text ms n w -> target_text false ms n w
| redirect_text ms n a b w : blanks a -> blanks b -> path_text ms n w ->
    target_text true ms n (a ++ lit "->" ++ b ++ w).

(** A line [VERB target] and the lines of its query parameters. *)
Inductive resource_text (level : nat) : Resource -> str -> Prop :=
| resource_text_intro m ms n redirect query v w e s :
    map to_lower v = map to_lower (method_display m) ->
    target_text redirect ms n w -> newlines e -> texts (query_text (S level)) query s ->
    resource_text level (mkResource m ms n redirect query) (margin level ++ v ++ lit " " ++ w ++ e ++ s).

(** A block: query parameters, then resources, then segments with their blocks. *)
Inductive block_text : nat -> Routes -> str -> Prop :=
| block_text_intro level resources routes query s1 s2 s3 :
    resources <> [] \/ routes <> [] ->
    texts (query_text level) query s1 ->
    texts (resource_text level) resources s2 ->
    nested_texts level routes s3 ->
    block_text level (mkRoutes resources routes query) (s1 ++ s2 ++ s3)
with nested_texts : nat -> list NestedRoutes -> str -> Prop :=
| nested_texts_nil level : nested_texts level [] []
| nested_texts_cons level seg child routes w e s rest :
    segment_text seg w -> newlines e -> block_text (S level) child s ->
    nested_texts level routes rest ->
    nested_texts level ((seg, child) :: routes) (margin level ++ w ++ e ++ s ++ rest).

(** A header line. *)
Inductive header_line : Header -> str -> Prop :=
| header_line_intro h e : wf_header h -> newlines e -> header_line h (h_text h ++ e).

(** A route file: header lines, the line [/], and a block one level in. *)
Inductive config_text : RouteConfig -> str -> Prop :=
| config_text_intro hs b e0 s e w : e0 = [] \/ newlines e0 -> texts header_line hs s -> newlines e ->
    block_text 1 b w ->
    config_text (mkConfig hs b) (e0 ++ s ++ lit "/" ++ e ++ w).
End Grammar.
