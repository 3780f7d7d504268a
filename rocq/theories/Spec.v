(** * Spec: specifications, independent of the trie and of the generated code

    [tree_run] is the search that the generated [match_route] performs, stated
    on the blocks of the configuration: which block a request path reaches and
    what is answered there.  It describes the matcher as it is, including its
    lack of backtracking; [ideal_run] is what the README promises. *)
From Coq Require Import Sorted Permutation.
From Verif Require Import Base Core Flat MiniRust Gen.

(** The rest of [l] after the prefix [s]. *)
Fixpoint strip (s l : list N) : option (list N) :=
  match s, l with
  | [], _ => Some l
  | x :: s', y :: l' => if N.eqb x y then strip s' l' else None
  | _, _ => None
  end.

(** A segment: the bytes before the next slash; and what follows them. *)
Fixpoint segment (l : bytes) : bytes * bytes :=
  match l with
  | [] => ([], [])
  | b :: l' => if N.eqb b c_slash then ([], l) else let (s, r) := segment l' in (b :: s, r)
  end.

(** Nested routes by kind of segment. *)
Fixpoint statics {X} (l : list (PathSegment * X)) : list (str * X) :=
  match l with
  | [] => []
  | (Static s, x) :: l' => (s, x) :: statics l'
  | (Dynamic _, _) :: l' => statics l'
  end.
Fixpoint dynamic_children {X} (l : list (PathSegment * X)) : list (Param * X) :=
  match l with
  | [] => []
  | (Dynamic p, x) :: l' => (p, x) :: dynamic_children l'
  | (Static _, _) :: l' => dynamic_children l'
  end.
(** The one whose parameter name comes first in the order of strings. *)
Fixpoint least_dynamic {X} (l : list (Param * X)) : option (Param * X) :=
  match l with
  | [] => None
  | (p, x) :: l' =>
      match least_dynamic l' with
      | None => Some (p, x)
      | Some (p', x') =>
          match str_compare (p_name p') (p_name p) with
          | Lt => Some (p', x')
          | _ => Some (p, x)
          end
      end
  end.

(** ** Blocks of a configuration

    Every block below [b] (itself included), in pre-order: its path, the query
    parameters in scope there (outermost first), and the block. *)
Fixpoint blocks (b : Routes) : list (list PathSegment * list Param * Routes) :=
  match b with
  | mkRoutes resources children qs =>
      ([], qs, b)
        :: concat (map (fun nr : PathSegment * Routes =>
                          match nr with
                          | (seg, child) =>
                              map (fun e : list PathSegment * list Param * Routes =>
                                     let '(p, q, x) := e in (seg :: p, qs ++ q, x)) (blocks child)
                          end) children)
  end.

(** [block_at b p q x]: following the segments [p] from block [b] leads to block
    [x], where the query parameters [q] are in scope. *)
Inductive block_at : Routes -> list PathSegment -> list Param -> Routes -> Prop :=
| block_root b : block_at b [] (rt_query b) b
| block_step b seg child p q x :
    In (seg, child) (rt_routes b) -> block_at child p q x ->
    block_at b (seg :: p) (rt_query b ++ q) x.

(** The parameters of a path. *)
Fixpoint path_params (p : list PathSegment) : list Param :=
  match p with
  | [] => []
  | Static _ :: p' => path_params p'
  | Dynamic d :: p' => d :: path_params p'
  end.

(** Every non-redirect resource, in pre-order: its module path and the action
    (struct) it declares. *)
Definition action_of (path : list PathSegment) (query : list Param) (r : Resource)
    : list str * FlattenedAction :=
  (r_modules r, mkAction (r_name r) (r_method r) path (path_params path) (query ++ r_query r)).
Definition block_actions (e : list PathSegment * list Param * Routes)
    : list (list str * FlattenedAction) :=
  let '(p, q, b) := e in
  map (action_of p q) (filter (fun r => negb (r_is_redirect r)) (rt_resources b)).
Definition config_actions (b : Routes) : list (list str * FlattenedAction) :=
  concat (map block_actions (blocks b)).

(** ** The module tree

    [module_actions]: the actions of a module tree with their module paths. *)
Definition pre (k : str) (e : list str * FlattenedAction) : list str * FlattenedAction := (k :: fst e, snd e).
Fixpoint module_actions (m : FlattenedModule) : list (list str * FlattenedAction) :=
  match m with
  | mkModule _ acts mods =>
      map (fun a => ([], a)) acts
      ++ concat (map (fun s => map (pre (m_name s)) (module_actions s)) mods)
  end.
(** Orders by name. *)
Definition key_lt {A} (key : A -> str) (x y : A) : Prop := str_compare (key x) (key y) = Lt.
Definition key_le {A} (key : A -> str) (x y : A) : Prop := str_compare (key x) (key y) <> Gt.
(** Sorted strictly by name at every level, and no empty module inside. *)
Inductive tree_ok : FlattenedModule -> Prop :=
| tree_ok_intro name acts mods :
    StronglySorted (key_lt a_name) acts -> StronglySorted (key_lt m_name) mods ->
    (forall s, In s mods -> tree_ok s) -> (forall s, In s mods -> module_actions s <> []) ->
    tree_ok (mkModule name acts mods).

(** [finalizes m name f]: [f] can be obtained from the maps in [m] by draining
    them in some order and sorting in some correct way. *)
Inductive finalizes : HModule -> str -> FlattenedModule -> Prop :=
| finalizes_intro ms acts name acts' subs mods' :
    Permutation acts' (map snd acts) -> StronglySorted (key_le a_name) acts' ->
    Forall2 (fun kv s => finalizes (snd kv) (fst kv) s) ms subs ->
    Permutation mods' subs -> StronglySorted (key_le m_name) mods' ->
    finalizes (mkHModule ms acts) name (mkModule name acts' mods').

(** The variables of the generated matcher. *)
Definition matcher_names : list str :=
  [lit "i"; lit "len"; lit "path"; lit "method"; lit "text"; lit "start"].
(** No path parameter is named like one of them. *)
Definition separate (c : RouteConfig) : Prop :=
  forall path q b p, In (path, q, b) (blocks (c_routes c)) -> In p (path_params path) ->
  ~ In (p_name p) matcher_names.
(** The variables that hold a position in the path, of type [usize].  No path
    parameter of this type is named like one of them. *)
Definition position_names : list str := [lit "i"; lit "len"; lit "start"].
Definition hygienic (c : RouteConfig) : Prop :=
  forall path q b p, In (path, q, b) (blocks (c_routes c)) -> In p (path_params path) ->
  p_typ p = lit "usize" -> ~ In (p_name p) position_names.
(** A redirect passes its path parameters to the struct of its target: they
    are declared with the same type there. *)
Definition redirects_typed (c : RouteConfig) : Prop :=
  forall path q b r p mods a p',
  In (path, q, b) (blocks (c_routes c)) -> In r (rt_resources b) -> r_is_redirect r = true ->
  In p (path_params path) ->
  In (mods, a) (config_actions (c_routes c)) ->
  map to_snake_case mods = map to_snake_case (r_modules r) ->
  map to_caps_case mods = map to_caps_case (r_modules r) ->
  to_caps_case (a_name a) = to_caps_case (r_name r) ->
  In p' (a_route_params a ++ a_query_params a) -> p_name p' = p_name p -> p_typ p' = p_typ p.

Section Search.
Context {T E : Type}.
(** [FromStr], by the name of the type. *)
Variable parse : str -> bytes -> T + E.
Variable method : bytes.

(** The path parameters read so far, leftmost first. *)
Definition args := list (Param * T).

(** The answer of a block that was reached: the first resource declared for the
    method, with the path parameters and every query parameter [None]. *)
Definition route_for (r : Resource) (query : list Param) (a : args) : route_value T :=
  mkRoute (map to_caps_case (r_modules r)) (to_caps_case (r_name r))
    (map (fun pv : Param * T => (p_name (fst pv), FvVal (p_typ (fst pv)) (snd pv))) a
     ++ map (fun p => (p_name p, FvNone)) (query ++ r_query r)).
Definition answer (resources : list Resource) (query : list Param) (a : args) : run_result T E :=
  match find (fun r => str_eqb method (method_display (r_method r))) resources with
  | Some r =>
      RunResult (if r_is_redirect r then MRedirect (route_for r query a)
                 else MRoute (route_for r query a))
  | None => RunResult MNotAllowed
  end.

(** Searching a block: query parameters of the enclosing blocks, path
    parameters so far, remaining path. *)
Definition search := list Param -> args -> bytes -> run_result T E.

(** The segment leading to block [b] was read and [tail] follows it. *)
Definition enter (b : Routes) (run : search) (query : list Param) (a : args) (tail : bytes)
    : run_result T E :=
  match tail with
  | [] =>
      match rt_resources b with
      | [] => RunResult MNotFound
      | rs => answer rs (query ++ rt_query b) a
      end
  | c :: tail' => if N.eqb c c_slash then run query a tail' else RunResult MNotFound
  end.

Definition take_dynamic (d : Param * (Routes * search)) (query : list Param) (a : args)
    (rest : bytes) : run_result T E :=
  let '(p, (b, run)) := d in
  let (seg, tail) := segment rest in
  if utf8_valid seg then
    match parse (p_typ p) seg with
    | inl v => enter b run query (a ++ [(p, v)]) tail
    | inr e => RunResult (MError (p_name p) e)
    end
  else RunPanic.

(** Does the path go on with segment [s]?  If so, what follows it. *)
Definition after_segment (s rest : bytes) : option bytes :=
  match strip s rest with
  | Some [] => Some []
  | Some (c :: t) => if N.eqb c c_slash then Some (c :: t) else None
  | None => None
  end.
Fixpoint take_static (l : list (str * (Routes * search))) (query : list Param) (a : args)
    (rest : bytes) : run_result T E :=
  match l with
  | [] => RunResult MNotFound
  | (s, (b, run)) :: l' =>
      match after_segment s rest with
      | Some tail => enter b run query a tail
      | None => take_static l' query a rest
      end
  end.

Fixpoint tree_run (b : Routes) (query : list Param) (a : args) (rest : bytes) {struct b}
    : run_result T E :=
  match b with
  | mkRoutes resources children qs =>
      let query' := query ++ qs in
      let kids := map (fun nr : PathSegment * Routes =>
                         match nr with (seg, child) => (seg, (child, tree_run child)) end) children in
      match resources, rest with
      | _ :: _, [] => answer resources query' a
      | _, _ =>
          match least_dynamic (dynamic_children kids), statics kids with
          | None, ss => take_static ss query' a rest
          | Some d, [(s, (child, run))] =>
              if (length s =? 1)%nat && (length rest =? 0)%nat then RunPanic
              else
                match strip s rest with
                | Some tail => enter child run query' a tail
                | None => take_dynamic d query' a rest
                end
          | Some d, _ => take_dynamic d query' a rest
          end
      end
  end.

(** A request path without its optional leading slash. *)
Definition no_slash (path : bytes) : bytes :=
  match path with
  | b :: p => if N.eqb b c_slash then p else path
  | [] => []
  end.
Definition tree_match (c : RouteConfig) (path : bytes) : run_result T E :=
  tree_run (c_routes c) [] [] (no_slash path).
End Search.
