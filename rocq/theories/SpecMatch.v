(** * SpecMatch: what it means for a request to match a route

    Declarative counterparts of the search of Spec.v: patterns, request
    segments, and the segment-wise matcher the README describes. *)
From Verif Require Import Base Core Flat MiniRust Gen Spec.

(** ** Request paths as segments *)

Fixpoint split_slash (l : bytes) : list bytes :=
  match l with
  | [] => [[]]
  | b :: l' =>
      if N.eqb b c_slash then [] :: split_slash l'
      else match split_slash l' with
           | s :: r => (b :: s) :: r
           | [] => [[b]]
           end
  end.
(** The pieces between slashes; the last one does not count when it is empty
    (a trailing slash, or an empty path). *)
Definition pieces (l : bytes) : list bytes :=
  let s := split_slash l in
  match last s [] with [] => removelast s | _ => s end.
Definition request_segments (path : bytes) : list bytes := pieces (no_slash path).

Fixpoint join (segs : list bytes) : bytes :=
  match segs with
  | [] => []
  | [s] => s
  | s :: segs' => s ++ c_slash :: join segs'
  end.
(** The path is made of these segments: an optional leading slash, the segments
    separated by slashes, an optional trailing slash. *)
Definition spelled (l : bytes) (segs : list bytes) : Prop :=
  l = join segs \/ segs <> [] /\ l = join segs ++ [c_slash].
Definition spells (path : bytes) (segs : list bytes) : Prop := spelled (no_slash path) segs.

(** ** Conditions on configurations *)

(** A property of every block. *)
Definition every_block (P : Routes -> Prop) (b : Routes) : Prop :=
  forall p q x, block_at b p q x -> P x.
(** Static segments are not empty and contain no slash. *)
Definition plain_statics (b : Routes) : Prop :=
  forall s child, In (Static s, child) (rt_routes b) -> s <> [] /\ ~ In c_slash s.
(** A block with a dynamic child declares a resource. *)
Definition dynamic_has_resources (b : Routes) : Prop :=
  dynamic_children (rt_routes b) <> [] -> rt_resources b <> [].
(** A dynamic child has no static sibling. *)
Definition no_mixed (b : Routes) : Prop :=
  dynamic_children (rt_routes b) <> [] -> statics (rt_routes b) = [].
(** Not the shape that panics on an empty rest: no resources, a dynamic child
    and a single static one, of one character. *)
Definition no_short_static (b : Routes) : Prop :=
  rt_resources b = [] -> dynamic_children (rt_routes b) <> [] ->
  forall s child, statics (rt_routes b) = [(s, child)] -> length s <> 1.

Section Patterns.
Context {T E : Type}.
Variable parse : str -> bytes -> T + E.

(** ** Patterns

    [matches pat segs a]: the request segments [segs] match the pattern [pat],
    and [a] are the parsed parameters, leftmost first. *)
Inductive matches : list PathSegment -> list bytes -> @args T -> Prop :=
| matches_nil : matches [] [] []
| matches_static s pat segs a :
    matches pat segs a -> matches (Static s :: pat) (s :: segs) a
| matches_dynamic p v seg pat segs a :
    ~ In c_slash seg -> utf8_valid seg = true -> parse (p_typ p) seg = inl v ->
    matches pat segs a -> matches (Dynamic p :: pat) (seg :: segs) ((p, v) :: a).

(** ** Where a search ends, whatever the method

    [Found b query a]: in block [b], which declares resources, with the query
    parameters [query] in scope and the path parameters [a]. *)
Inductive found :=
| Found (b : Routes) (query : list Param) (a : @args T)
| Nothing
| Bad (p : Param) (e : E)
| Stop.
Definition finish (method : bytes) (f : found) : run_result T E :=
  match f with
  | Found b query a => answer method (rt_resources b) query a
  | Nothing => RunResult MNotFound
  | Bad p e => RunResult (MError (p_name p) e)
  | Stop => RunPanic
  end.
(** The end of a path is reached in block [b]. *)
Definition here (b : Routes) (query : list Param) (a : @args T) : found :=
  match rt_resources b with [] => Nothing | _ => Found b query a end.

(** The search that the generated code performs. *)
Definition finder := list Param -> @args T -> bytes -> found.
Definition go_in (b : Routes) (run : finder) (query : list Param) (a : @args T) (tail : bytes) : found :=
  match tail with
  | [] => here b (query ++ rt_query b) a
  | c :: tail' => if N.eqb c c_slash then run query a tail' else Nothing
  end.
Definition find_dyn (p : Param) (b : Routes) (run : finder) (query : list Param) (a : @args T)
    (rest : bytes) : found :=
  let (seg, tail) := segment rest in
  if utf8_valid seg then
    match parse (p_typ p) seg with
    | inl v => go_in b run query (a ++ [(p, v)]) tail
    | inr e => Bad p e
    end
  else Stop.
Fixpoint find_stat (l : list (str * (Routes * finder))) (query : list Param) (a : @args T)
    (rest : bytes) : found :=
  match l with
  | [] => Nothing
  | (s, (b, run)) :: l' =>
      match after_segment s rest with
      | Some tail => go_in b run query a tail
      | None => find_stat l' query a rest
      end
  end.
Fixpoint tree_find (b : Routes) (query : list Param) (a : @args T) (rest : bytes) {struct b} : found :=
  match b with
  | mkRoutes resources children qs =>
      let query' := query ++ qs in
      let kids := map (fun nr : PathSegment * Routes =>
                         match nr with (seg, child) => (seg, (child, tree_find child)) end) children in
      match resources, rest with
      | _ :: _, [] => Found b query' a
      | _, _ =>
          match least_dynamic (dynamic_children kids), statics kids with
          | None, ss => find_stat ss query' a rest
          | Some (p, (child, run)), [(s, (child', run'))] =>
              if (length s =? 1)%nat && (length rest =? 0)%nat then Stop
              else
                match strip s rest with
                | Some tail => go_in child' run' query' a tail
                | None => find_dyn p child run query' a rest
                end
          | Some (p, (child, run)), _ => find_dyn p child run query' a rest
          end
      end
  end.

(** ** The ideal matcher

    One segment after the other: a static child with exactly this name if there
    is one, otherwise the dynamic child if there is one. *)
Fixpoint static_child (seg : bytes) (l : list (str * Routes)) : option Routes :=
  match l with
  | [] => None
  | (s, b) :: l' => if str_eqb s seg then Some b else static_child seg l'
  end.
Fixpoint ideal_find (segs : list bytes) (b : Routes) (query : list Param) (a : @args T) : found :=
  let query' := query ++ rt_query b in
  match segs with
  | [] => here b query' a
  | seg :: segs' =>
      match static_child seg (statics (rt_routes b)) with
      | Some child => ideal_find segs' child query' a
      | None =>
          match least_dynamic (dynamic_children (rt_routes b)) with
          | Some (p, child) =>
              match parse (p_typ p) seg with
              | inl v => ideal_find segs' child query' (a ++ [(p, v)])
              | inr e => Bad p e
              end
          | None => Nothing
          end
      end
  end.
Definition ideal_match (method : bytes) (c : RouteConfig) (path : bytes) : run_result T E :=
  finish method (ideal_find (request_segments path) (c_routes c) [] []).
End Patterns.
Arguments found T E : clear implicits.

(** A request that the generated code treats as it should: on the way, a
    segment that goes to a dynamic child does not begin with the name of the
    only static sibling, a segment that names a static child has no dynamic
    sibling or only one static one, and the path does not end in a block that has
    a dynamic child but no resource. *)
Fixpoint unaffected (segs : list bytes) (b : Routes) : Prop :=
  let dyn := dynamic_children (rt_routes b) in
  let stat := statics (rt_routes b) in
  match segs with
  | [] => dyn <> [] -> rt_resources b <> []
  | seg :: segs' =>
      match static_child seg stat with
      | Some child => (dyn <> [] -> length stat = 1) /\ unaffected segs' child
      | None =>
          match least_dynamic dyn with
          | Some (_, child) =>
              (forall s child', stat = [(s, child')] -> strip s seg = None) /\ unaffected segs' child
          | None => True
          end
      end
  end.

(** ** Configurations whose generated matcher can be run

    The generated module compiles, no path parameter captures a variable of the
    matcher, and redirects agree with their targets about parameter types. *)
Definition runnable (c : RouteConfig) : Prop :=
  compiles c = true /\ hygienic c /\ redirects_typed c.

(** [Ok(Match::Route(r))] or [Ok(Match::Redirect(r))]. *)
Definition hit {T E} (redirect : bool) (v : route_value T) : match_result T E :=
  if redirect then MRedirect v else MRoute v.
(** No resource is declared for the method. *)
Definition no_resource_for (method : bytes) (b : Routes) : Prop :=
  forall r, In r (rt_resources b) -> method_display (r_method r) <> method.
(** The first resource declared for the method. *)
Definition first_resource_for (method : bytes) (b : Routes) (r : Resource) : Prop :=
  exists l1 l2, rt_resources b = l1 ++ r :: l2 /\ method_display (r_method r) = method /\
    forall r', In r' l1 -> method_display (r_method r') <> method.
(** At most one dynamic child. *)
Definition one_dynamic (b : Routes) : Prop := length (dynamic_children (rt_routes b)) <= 1.

(** The path fields of a matched route: for each dynamic segment of the pattern,
    the value its bytes parse to. *)
Fixpoint param_values {T E} (parse : str -> bytes -> T + E) (pat : list PathSegment) (segs : list bytes)
    : list (str * fval T) :=
  match pat, segs with
  | Static _ :: pat', _ :: segs' => param_values parse pat' segs'
  | Dynamic p :: pat', seg :: segs' =>
      match parse (p_typ p) seg with
      | inl v => (p_name p, FvVal (p_typ p) v) :: param_values parse pat' segs'
      | inr _ => []
      end
  | _, _ => []
  end.
