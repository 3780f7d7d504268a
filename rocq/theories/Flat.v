(** * Flat: model of wayfinder/src/gen/flat.rs *)
From Verif Require Import Base Core Trie.

(** gen/flat.rs:6-11, [enum Charlike]; [Ord] is derived: variants in order of
    declaration, then contents. *)
Inductive Charlike :=
| CStatic (c : char)
| CDynamic (name : str)
| CSeparator.

Definition charlike_cmp (a b : Charlike) : comparison :=
  match a, b with
  | CStatic x, CStatic y => N.compare x y
  | CStatic _, _ => Lt
  | CDynamic _, CStatic _ => Gt
  | CDynamic x, CDynamic y => str_compare x y
  | CDynamic _, CSeparator => Lt
  | CSeparator, CSeparator => Eq
  | CSeparator, _ => Gt
  end.

(** gen/flat.rs:13-16, [struct FlattenedPath]: its segments. *)
Notation FlattenedPath := (list PathSegment) (only parsing).

(** gen/flat.rs:19-33, [FlattenedPath::iter]. *)
Definition segment_iter (s : PathSegment) : list Charlike :=
  match s with
  | Static t => map CStatic t ++ [CSeparator]
  | Dynamic d => [CDynamic (p_name d); CSeparator]
  end.
Definition path_iter (p : FlattenedPath) : list Charlike := concat (map segment_iter p).

(** gen/flat.rs:35-40, [FlattenedPath::dynamics]. *)
Fixpoint dynamics (p : FlattenedPath) : list Param :=
  match p with
  | [] => []
  | Static _ :: p' => dynamics p'
  | Dynamic d :: p' => d :: dynamics p'
  end.

(** gen/flat.rs:43-48, [struct FlattenedRoute]. *)
Record FlattenedRoute := mkFlat {
  f_path : FlattenedPath;
  f_resources : list Resource;
  f_query : list Param
}.

(** gen/flat.rs:61-92, [FlattenedRoutes::flatten]. *)
Fixpoint flatten (routes : Routes) (path : list PathSegment) (query : list Param)
    : list FlattenedRoute :=
  match routes with
  | mkRoutes resources children qs =>
      let query' := query ++ qs in
      mkFlat path resources query'
        :: concat (map (fun nr => match nr with
                                  | (seg, child) => flatten child (path ++ [seg]) query'
                                  end) children)
  end.

(** gen/flat.rs:54-59, [impl From<&Routes> for FlattenedRoutes]. *)
Definition flattened_routes (routes : Routes) : list FlattenedRoute := flatten routes [] [].

(** gen/flat.rs:100-111, [FlattenedRoutes::to_trie]. *)
Fixpoint to_trie_from (t : Trie Charlike FlattenedRoute) (l : list FlattenedRoute)
    : res (Trie Charlike FlattenedRoute) :=
  match l with
  | [] => ROk t
  | route :: l' =>
      match trie_add charlike_cmp t (path_iter (f_path route)) route with
      | inl t' => to_trie_from t' l'
      | inr _ => RPanic PanicDuplicatePath
      end
  end.
Definition to_trie (l : list FlattenedRoute) : res (Trie Charlike FlattenedRoute) :=
  to_trie_from trie_new l.

(** gen/flat.rs:243-250, [struct FlattenedAction]. *)
Record FlattenedAction := mkAction {
  a_name : str;
  a_method : Method;
  a_path : FlattenedPath;
  a_route_params : list Param;
  a_query_params : list Param
}.

(** gen/flat.rs:236-241, [struct FlattenedModule]. *)
Inductive FlattenedModule :=
  mkModule (name : str) (actions : list FlattenedAction) (modules : list FlattenedModule).
Definition m_name (m : FlattenedModule) := match m with mkModule n _ _ => n end.
Definition m_actions (m : FlattenedModule) := match m with mkModule _ a _ => a end.
Definition m_modules (m : FlattenedModule) := match m with mkModule _ _ s => s end.

(** gen/flat.rs:130-135, [helper::Module], [ModuleMap], [ActionMap].  A
    [HashMap] is its list of entries, in an order that carries no meaning
    (FlatFacts.v proves the result does not depend on it). *)
Inductive HModule :=
  mkHModule (module_map : list (str * HModule)) (action_map : list (str * FlattenedAction)).
Definition hm_modules (m : HModule) := match m with mkHModule a _ => a end.
Definition hm_actions (m : HModule) := match m with mkHModule _ b => b end.
Definition hmodule_default : HModule := mkHModule [] [].

(** [HashMap::get] / replacing the value of a present key. *)
Fixpoint assoc_get {A} (k : str) (l : list (str * A)) : option A :=
  match l with
  | [] => None
  | (k', a) :: l' => if str_eqb k' k then Some a else assoc_get k l'
  end.
Fixpoint assoc_set {A} (k : str) (a : A) (l : list (str * A)) : list (str * A) :=
  match l with
  | [] => [(k, a)]
  | (k', a') :: l' => if str_eqb k' k then (k', a) :: l' else (k', a') :: assoc_set k a l'
  end.

(** gen/flat.rs:198-214: descend through [entry(..).or_insert(default)] along
    the module names, then [insert] the action.  The boolean tells whether
    [insert] returned [Some] (an action of that name was there). *)
Fixpoint hmodule_insert (m : HModule) (modules : list str) (name : str) (a : FlattenedAction)
    : HModule * bool :=
  match modules with
  | [] =>
      (mkHModule (hm_modules m) (assoc_set name a (hm_actions m)),
       match assoc_get name (hm_actions m) with Some _ => true | None => false end)
  | md :: modules' =>
      let sub := match assoc_get md (hm_modules m) with
                 | Some s => s
                 | None => hmodule_default
                 end in
      let '(sub', dup) := hmodule_insert sub modules' name a in
      (mkHModule (assoc_set md sub' (hm_modules m)) (hm_actions m), dup)
  end.

(** gen/flat.rs:190-222: the loop over the resources of one block.  On a
    duplicate the panic message itself unwraps the first module name, so for
    an action without modules the panic is the one of [unwrap]. *)
Fixpoint insert_resources (accum : HModule) (path : FlattenedPath) (query : list Param)
    (resources : list Resource) : res HModule :=
  match resources with
  | [] => ROk accum
  | r :: rs =>
      if r_is_redirect r then insert_resources accum path query rs
      else
        let action :=
          mkAction (r_name r) (r_method r) path (dynamics path) (query ++ r_query r) in
        let '(accum', dup) := hmodule_insert accum (r_modules r) (r_name r) action in
        if dup then
          match r_modules r with
          | [] => RPanic PanicUnwrapNone
          | _ => RPanic PanicDuplicateAction
          end
        else insert_resources accum' path query rs
  end.

(** gen/flat.rs:167-230: the work-list loop of [FlattenedModules::flatten].
    [stack] is [routes_to_process], its head the last element of the vector. *)
Fixpoint modules_loop (fuel : nat) (accum : HModule)
    (stack : list (Routes * FlattenedPath * list Param)) : res HModule :=
  match stack with
  | [] => ROk accum
  | (routes, path, query) :: stack' =>
      match fuel with
      | O => RFuel
      | S fuel' =>
          let query' := query ++ rt_query routes in
          rbind (insert_resources accum path query' (rt_resources routes)) (fun accum' =>
            let pushed :=
              map (fun nr : PathSegment * Routes => let '(seg, child) := nr in (child, path ++ [seg], query'))
                  (rt_routes routes) in
            modules_loop fuel' accum' (rev pushed ++ stack'))
      end
  end.

(** Number of blocks: the number of rounds of the loop. *)
Fixpoint routes_size (r : Routes) : nat :=
  match r with
  | mkRoutes _ children _ =>
      S (fold_right Nat.add 0
           (map (fun nr => match nr with (_, c) => routes_size c end) children))
  end.

(** [sort_unstable_by_key(|x| x.name.clone())]: insertion sort.  Any correct
    sort gives the same result when names are distinct (FlatFacts.v). *)
Fixpoint sort_insert {A} (key : A -> str) (x : A) (l : list A) : list A :=
  match l with
  | [] => [x]
  | y :: l' =>
      match str_compare (key x) (key y) with
      | Gt => y :: sort_insert key x l'
      | _ => x :: l
      end
  end.
Definition sort_by_key {A} (key : A -> str) (l : list A) : list A :=
  fold_right (sort_insert key) [] l.

(** gen/flat.rs:146-163, [helper::Module::finalize]. *)
Fixpoint finalize (m : HModule) (name : str) : FlattenedModule :=
  match m with
  | mkHModule module_map action_map =>
      let actions := sort_by_key a_name (map snd action_map) in
      let modules :=
        sort_by_key m_name
          (map (fun kv => match kv with (k, v) => finalize v k end) module_map) in
      mkModule name actions modules
  end.

(** gen/flat.rs:119-124 and 167-233, [FlattenedModules::from] and
    [FlattenedModules::flatten]. *)
Definition flattened_modules (routes : Routes) : res FlattenedModule :=
  rbind (modules_loop (routes_size routes) hmodule_default [(routes, [], [])])
        (fun accum => ROk (finalize accum (lit "routes"))).
