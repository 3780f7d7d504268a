(** * Properties C17-C19: flattening *)
From Coq Require Import Sorted Permutation.
From Verif Require Import Base Core Flat MiniRust Gen Spec FlatFacts MatchFacts.

(** C17.  One table entry per block, in pre-order, with the path of the block
    and the query parameters of the enclosing blocks, outermost first. *)
Theorem C17_flattened_table b :
  map (fun fr => (f_path fr, f_query fr, f_resources fr)) (flattened_routes b) =
  map (fun e : list PathSegment * list Param * Routes =>
         let '(p, q, x) := e in (p, q, rt_resources x)) (blocks b).
Proof. exact (flattened_table b). Qed.
Print Assumptions C17_flattened_table.

(** [blocks] lists exactly the blocks that can be reached. *)
Theorem C17_blocks_complete b p q x : In (p, q, x) (blocks b) <-> block_at b p q x.
Proof. exact (blocks_at b p q x). Qed.
Print Assumptions C17_blocks_complete.

Definition ex_flat : Routes :=
  mkRoutes [mkResource Get [] (lit "index") false []]
    [ (Static (lit "people"),
       mkRoutes [mkResource Get [lit "people"] (lit "list") false [mkParam (lit "max") (lit "u8")];
                 mkResource Post [lit "people"] (lit "old") true []]
         [(Dynamic (mkParam (lit "id") (lit "u32")),
           mkRoutes [mkResource Get [lit "people"] (lit "show") false []] [] [])]
         [mkParam (lit "page") (lit "u32")]) ]
    [mkParam (lit "lang") (lit "String")].
Example C17_example :
  map (fun fr => (length (f_path fr), map p_name (f_query fr))) (flattened_routes ex_flat) =
  [(0, [lit "lang"]); (1, [lit "lang"; lit "page"]); (2, [lit "lang"; lit "page"])].
Proof. reflexivity. Qed.

(** C18.  The module tree holds exactly the non-redirect resources, each at its
    module path, sorted, without empty modules ... *)
Theorem C18_module_tree b root :
  flattened_modules b = ROk root ->
  m_name root = lit "routes" /\ tree_ok root /\
  Permutation (module_actions root) (config_actions b) /\
  NoDup (map (fun e : list str * FlattenedAction => (fst e, a_name (snd e))) (config_actions b)).
Proof. exact (flattened_modules_tree b root). Qed.
Print Assumptions C18_module_tree.

(** ... and the declared structs are those of these actions: a field per path
    parameter, then an optional field per query parameter in scope. *)
Theorem C18_structs b root :
  flattened_modules b = ROk root ->
  Permutation (module_structs [] root)
    (map (fun ma : list str * FlattenedAction =>
            (map (fun m => (to_snake_case m, to_caps_case m)) (fst ma), to_caps_case (a_name (snd ma)),
             map (fun p => mkField (p_name p) (p_typ p) false) (a_route_params (snd ma))
             ++ map (fun p => mkField (p_name p) (p_typ p) true) (a_query_params (snd ma))))
         (config_actions b)).
Proof. exact (flattened_modules_structs b root). Qed.
Print Assumptions C18_structs.

Example C18_example :
  exists root, flattened_modules ex_flat = ROk root /\
    map (fun s : struct_decl => let '(ms, n, fs) := s in (ms, n, map fd_name fs)) (module_structs [] root) =
    [ ([], lit "Index", [lit "lang"]);
      ([(lit "people", lit "People")], lit "List", [lit "lang"; lit "page"; lit "max"]);
      ([(lit "people", lit "People")], lit "Show", [lit "id"; lit "lang"; lit "page"]) ].
Proof. eexists. split; vm_compute; reflexivity. Qed.

(** C19.  Whatever the iteration order of the hash maps, and whatever correct
    sort is used: the module tree is the same. *)
Theorem C19_any_order b root :
  flattened_modules b = ROk root ->
  exists hm, modules_loop (routes_size b) hmodule_default [(b, [], [])] = ROk hm /\
             forall f, finalizes hm (lit "routes") f <-> f = root.
Proof. exact (flattened_modules_any_order b root). Qed.
Print Assumptions C19_any_order.
