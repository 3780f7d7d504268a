(** * SpecCompile: when does the generated module compile?

    Conditions on the configuration alone: its names, the shape of its blocks,
    its redirects and the types of its parameters. *)
From Coq Require Import Permutation.
From Verif Require Import Base Core Flat Gen Spec.

(** ** Blocks in the generated matcher

    [emitted b p q x]: like [block_at], but of several parameters that are
    siblings only the first one, in the order of their names, is followed: the
    others are not in the generated code. *)
Definition first_param (b : Routes) : option (Param * Routes) :=
  least_dynamic (dynamic_children (rt_routes b)).
Inductive emitted : Routes -> list PathSegment -> list Param -> Routes -> Prop :=
| emitted_here b : emitted b [] (rt_query b) b
| emitted_static b s child p q x :
    In (Static s, child) (rt_routes b) -> emitted child p q x ->
    emitted b (Static s :: p) (rt_query b ++ q) x
| emitted_dynamic b d child p q x :
    first_param b = Some (d, child) -> emitted child p q x ->
    emitted b (Dynamic d :: p) (rt_query b ++ q) x.

(** ** The shape of a block *)

(** Text that can stand in a byte-string literal as it is. *)
Definition plain_text (s : str) : Prop :=
  forall c, In c s -> (c < 128)%N /\ c <> c_quote /\ c <> c_backslash /\ c <> c_cr.
Record shape_ok (b : Routes) : Prop := {
  so_plain : forall s child, In (Static s, child) (rt_routes b) -> plain_text s;
  (** no static name properly begins with a sibling's *)
  so_prefix : forall s t child child',
      In (Static s, child) (rt_routes b) -> In (Static (s ++ t), child') (rt_routes b) -> t = [];
  (** a parameter is alone, or has static siblings with one first letter *)
  so_mixed : dynamic_children (rt_routes b) <> [] ->
      (statics (rt_routes b) = [] /\ length (dynamic_children (rt_routes b)) = 1) \/
      (statics (rt_routes b) <> [] /\
       exists ch, forall s child, In (Static s, child) (rt_routes b) -> exists s', s = ch :: s')
}.

(** ** The text of the configuration

    It is printed as a doc comment, where a carriage return is not allowed. *)
Definition param_texts (p : Param) : list str := [p_name p; p_typ p].
Definition segment_texts (s : PathSegment) : list str :=
  match s with Static t => [t] | Dynamic p => param_texts p end.
Definition resource_texts (r : Resource) : list str :=
  r_name r :: r_modules r ++ flat_map param_texts (r_query r).
Definition block_texts (b : Routes) : list str :=
  flat_map param_texts (rt_query b) ++ flat_map resource_texts (rt_resources b)
  ++ flat_map (fun nr => segment_texts (fst nr)) (rt_routes b).
Definition no_returns (c : RouteConfig) : Prop :=
  forall p q x s, block_at (c_routes c) p q x -> In s (block_texts x) -> ~ In c_cr s.

(** ** Names *)

(** A name a Rust programmer would choose: an identifier of lower-case letters,
    digits and underscores that starts with a letter. *)
Definition ordinary (s : str) : Prop :=
  is_ident s = true /\ (forall c, In c s -> is_upper c = false) /\
  match s with c :: _ => is_lower c = true | [] => False end.
Definition block_names (b : Routes) : list str :=
  map p_name (rt_query b)
  ++ flat_map (fun r => r_name r :: r_modules r ++ map p_name (r_query r)) (rt_resources b)
  ++ flat_map (fun nr => match fst nr with Static _ => [] | Dynamic p => [p_name p] end) (rt_routes b).
Definition ordinary_names (c : RouteConfig) : Prop :=
  forall p q x s, block_at (c_routes c) p q x -> In s (block_names x) -> ordinary s.

Section Names.
Variable c : RouteConfig.

(** The action [a] declares a struct in module [ms]. *)
Definition in_module (ms : list str) (a : FlattenedAction) : Prop :=
  In (ms, a) (config_actions (c_routes c)).
(** [ms] has a module [k] in it. *)
Definition sub_module (ms : list str) (k : str) : Prop :=
  exists rest a, in_module (ms ++ k :: rest) a.
(** The struct has no fields: its name is a constant as well. *)
Definition is_unit (a : FlattenedAction) : Prop := a_route_params a = [] /\ a_query_params a = [].
Definition unit_in (ms : list str) (x : str) : Prop :=
  exists a, in_module ms a /\ is_unit a /\ to_caps_case (a_name a) = x.
(** Names that the code of the module [ms] uses itself. *)
Definition taken (ms : list str) (x : str) : Prop :=
  In x [lit "Route"; lit "String"] \/
  (ms = [] /\ In x [lit "Match"; lit "Error"; lit "fmt"; lit "std"; lit "Box"; lit "AsRef"; lit "Result"]) \/
  (x = lit "Option" /\ exists a, in_module ms a /\ a_query_params a <> []).
(** Names that no variable can have, because the prelude has a constructor of
    this name. *)
Definition constructor (x : str) : Prop := In x [lit "None"; lit "Some"; lit "Ok"; lit "Err"].
Definition fields (a : FlattenedAction) : list str :=
  map p_name (a_route_params a) ++ map p_name (a_query_params a).

Record good_names : Prop := {
  gn_some : config_actions (c_routes c) <> [];
  gn_action : forall ms a, in_module ms a -> is_ident (to_caps_case (a_name a)) = true;
  gn_taken : forall ms a, in_module ms a -> ~ taken ms (to_caps_case (a_name a));
  gn_distinct : forall ms a a', in_module ms a -> in_module ms a' ->
      to_caps_case (a_name a) = to_caps_case (a_name a') -> a_name a = a_name a';
  gn_fields : forall ms a x, in_module ms a -> In x (fields a) -> 
      is_ident x = true /\ ~ unit_in ms x /\ ~ constructor x;
  gn_fields_distinct : forall ms a, in_module ms a -> NoDup (fields a);
  gn_path : forall ms a s x, in_module ms a -> In (Static s) (a_path a) -> In x s ->
      ~ In x [c_lbrace; c_rbrace; c_quote; c_backslash; c_cr; c_nl];
  gn_ok : ~ unit_in [] (lit "Ok");
  gn_module : forall ms k, sub_module ms k ->
      is_ident (to_snake_case k) = true /\ is_ident (to_caps_case k) = true;
  gn_module_taken : forall ms k, sub_module ms k -> ~ taken ms (to_snake_case k);
  gn_module_distinct : forall ms k k', sub_module ms k -> sub_module ms k' ->
      to_snake_case k = to_snake_case k' \/ to_caps_case k = to_caps_case k' -> k = k';
  gn_module_action : forall ms k a, sub_module ms k -> in_module ms a ->
      to_caps_case (a_name a) <> to_snake_case k /\ to_caps_case (a_name a) <> to_caps_case k
}.

(** ** The matcher *)

(** [a] is the action that resource [r] names. *)
Definition target (r : Resource) (a : FlattenedAction) : Prop :=
  exists ms, in_module ms a /\ map to_snake_case ms = map to_snake_case (r_modules r) /\
             map to_caps_case ms = map to_caps_case (r_modules r) /\
             to_caps_case (a_name a) = to_caps_case (r_name r).
(** A resource in block [x] at path [p] with query parameters [q] in scope. *)
Definition resource_ok (p : list PathSegment) (q : list Param) (r : Resource) : Prop :=
  (r_modules r = [] -> ~ In (to_caps_case (r_name r)) [lit "P"; lit "M"]) /\
  (q ++ r_query r <> [] -> ~ unit_in [] (lit "None")) /\
  (r_is_redirect r = true ->
   exists a, target r a /\
     Permutation (map p_name (path_params p)) (map p_name (a_route_params a)) /\
     Permutation (map p_name (q ++ r_query r)) (map p_name (a_query_params a))).
(** The parameter [d] hides no variable that the code below it needs, and its
    type can be inferred from this code. *)
Definition param_ok (d : Param) (child : Routes) : Prop :=
  ~ unit_in [] (p_name d) /\ ~ constructor (p_name d) /\
  ~ In (p_name d) [lit "i"; lit "path"; lit "method"] /\
  (exists p q x r, emitted child p q x /\ In r (rt_resources x)) /\
  exists T, (p_name d = lit "len" -> T = lit "usize") /\
    forall p q x r a d',
    emitted child p q x -> In r (rt_resources x) -> target r a ->
    In d' (a_route_params a) -> p_name d' = p_name d -> p_typ d' = T.

Record matcher_ok : Prop := {
  mo_shape : forall p q x, emitted (c_routes c) p q x -> shape_ok x;
  mo_resource : forall p q x r, emitted (c_routes c) p q x -> In r (rt_resources x) -> resource_ok p q r;
  mo_param : forall p q x d child, emitted (c_routes c) p q x -> first_param x = Some (d, child) ->
      param_ok d child
}.
End Names.
