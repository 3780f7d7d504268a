(** * Properties C44 to C47: cost, mounting and [to_path] *)
From Coq Require Import Permutation.
From Verif Require Import Base Core Flat MiniRust Gen Spec SpecMatch ToPath SpecPath SpecMount SpecCost PathThms ReachThms MountThms MountPointThms
  CostFacts MatchFacts FlatFacts Examples.

(** C44.  Every request is answered within as many steps as the longest branch
    of the generated code has statements, plus two (a test and an increment) per
    byte of the path.  The steps are those of [takes_block], a semantics without
    fuel, and are determined by the program. *)
Theorem C44_linear {T E} (rt : runtime T E) c path method :
  runnable c ->
  exists root body r n,
    flattened_modules (c_routes c) = ROk root /\ gen_program c = ROk body /\
    match_route rt c path method = Some r /\
    takes_block rt (module_structs [] root) (prologue_env path method) body n (outcome_of r) /\
    n <= longest body + 2 * length path.
Proof. exact (match_route_cost rt c path method). Qed.
Print Assumptions C44_linear.
Theorem C44_deterministic {T E} (rt : runtime T E) senv en l n o n' o' :
  takes_block rt senv en l n o -> takes_block rt senv en l n' o' -> n = n' /\ o = o'.
Proof. exact (fun H H' => proj2 (takes_fun rt senv) en l n o H n' o' H'). Qed.
Print Assumptions C44_deterministic.
Example C44_example : exists body,
  gen_program shop = ROk body /\ longest body = 66 /\
  match_route ex_rt shop (lit "/people/12/books/x") (lit "GET") =
  Some (RunResult (MRoute {| rv_modules := [lit "People"]; rv_name := lit "Book";
    rv_fields := [(lit "id", FvVal (lit "u32") (lit "12")); (lit "isbn", FvVal (lit "String") (lit "x"));
                  (lit "lang", FvNone)] |})).
Proof. eexists. split; [vm_compute; reflexivity|]. split; vm_compute; reflexivity. Qed.

(** C45.  Requests below the mount point are answered by the mounted routes,
    with the query parameters of the host's root in front of their own. *)
Theorem C45_mounted {T E} (rt : runtime T E) c at_ d p method :
  runnable (mount c at_ d) -> runnable d -> no_mixed (c_routes c) ->
  match_route rt (mount c at_ d) (c_slash :: at_ ++ c_slash :: p) method =
  option_map (answer_with_query (rt_query (c_routes c))) (match_route rt d (c_slash :: p) method).
Proof. exact (point_served rt c at_ d p method). Qed.
Print Assumptions C45_mounted.
Theorem C45_mounted_root {T E} (rt : runtime T E) c at_ d method :
  runnable (mount c at_ d) -> runnable d -> no_mixed (c_routes c) -> at_ <> [] ->
  plain_statics (c_routes d) -> dynamic_has_resources (c_routes d) ->
  match_route rt (mount c at_ d) (c_slash :: at_) method =
  option_map (answer_with_query (rt_query (c_routes c))) (match_route rt d [c_slash] method).
Proof. exact (point_root rt c at_ d method). Qed.
Print Assumptions C45_mounted_root.
(** Other requests are answered as by the host, which has no dynamic segment at
    its root, or nothing else and the request does not start with the mount
    point. *)
Theorem C45_unmounted {T E} (rt : runtime T E) c at_ d path method :
  runnable (mount c at_ d) -> runnable c ->
  plain_statics (c_routes (mount c at_ d)) ->
  dynamic_children (rt_routes (c_routes c)) = [] \/
  statics (rt_routes (c_routes c)) = [] /\ strip at_ (first_segment path) = None /\ no_slash path <> [] ->
  first_segment path <> at_ ->
  match_route rt (mount c at_ d) path method = match_route rt c path method.
Proof. exact (unmounted rt c at_ d path method). Qed.
Print Assumptions C45_unmounted.
Definition blog : RouteConfig := read
  [ "/"; "  GET posts"; "  {post: u32}"; "    [page: u32]"; "    GET post" ]%string.
Example C45_example :
  runnable (mount shop (lit "blog") blog) /\ runnable blog /\
  plain_statics (c_routes (mount shop (lit "blog") blog)) /\ no_mixed (c_routes shop) /\
  plain_statics (c_routes blog) /\ dynamic_has_resources (c_routes blog) /\
  dynamic_children (rt_routes (c_routes shop)) = [] /\
  match_route ex_rt (mount shop (lit "blog") blog) (lit "/blog/7") (lit "GET") =
  Some (RunResult (MRoute {| rv_modules := []; rv_name := lit "Post";
    rv_fields := [(lit "post", FvVal (lit "u32") (lit "7")); (lit "lang", FvNone); (lit "page", FvNone)] |})).
Proof.
  split; [apply runnableb_ok; vm_compute; reflexivity|]. split; [apply runnableb_ok; vm_compute; reflexivity|].
  split; [apply plain_staticsb_ok; vm_compute; reflexivity|]. split; [apply no_mixedb_ok; vm_compute; reflexivity|].
  split; [apply plain_staticsb_ok; vm_compute; reflexivity|].
  split; [apply dynamic_has_resourcesb_ok; vm_compute; reflexivity|].
  split; vm_compute; reflexivity.
Qed.
(** Not so in general: next to a dynamic segment, mounting a second static
    segment changes how the first one is matched. *)
Definition host : RouteConfig := read
  [ "/"; "  fob"; "    GET fob"; "  {id: String}"; "    GET show" ]%string.
Definition guest : RouteConfig := read [ "/"; "  GET guest" ]%string.
Theorem C45_unconditional_refuted :
  runnable host /\ runnable guest /\ runnable (mount host (lit "foo") guest) /\
  plain_statics (c_routes (mount host (lit "foo") guest)) /\
  first_segment (lit "/fob") <> lit "foo" /\
  match_route ex_rt host (lit "/fob") (lit "GET") =
  Some (RunResult (MRoute {| rv_modules := []; rv_name := lit "Fob"; rv_fields := [] |})) /\
  match_route ex_rt (mount host (lit "foo") guest) (lit "/fob") (lit "GET") =
  Some (RunResult (MRoute {| rv_modules := []; rv_name := lit "Show";
                             rv_fields := [(lit "id", FvVal (lit "String") (lit "fob"))] |})).
Proof.
  split; [apply runnableb_ok; vm_compute; reflexivity|]. split; [apply runnableb_ok; vm_compute; reflexivity|].
  split; [apply runnableb_ok; vm_compute; reflexivity|]. split; [apply plain_staticsb_ok; vm_compute; reflexivity|].
  split; [discriminate|]. split; vm_compute; reflexivity.
Qed.
Print Assumptions C45_unconditional_refuted.

(** C46.  The values print to slash-free UTF-8 text that parses back; no static
    sibling captures the path; the last segment is not empty; the resource is
    the first of its method in its block. *)
Theorem C46_round_trip {T E} (rt : runtime T E) (show : str -> T -> bytes) c pat q b r vals opts fs path :
  runnable c -> every_block plain_statics (c_routes c) ->
  block_at (c_routes c) pat q b -> r_is_redirect r = false ->
  first_resource_for (method_display (r_method r)) b r ->
  struct_fields pat (q ++ r_query r) vals opts fs ->
  (forall p v, In (p, v) (combine (path_params pat) vals) ->
     ~ In c_slash (show (p_typ p) v) /\ utf8_valid (show (p_typ p) v) = true /\
     rt_parse rt (p_typ p) (show (p_typ p) v) = inl v) ->
  uncaptured (c_routes c) pat (path_texts show pat vals) ->
  last (path_texts show pat vals) [c_slash] <> [] ->
  to_path show c (map to_caps_case (r_modules r)) (to_caps_case (r_name r)) fs = Some path ->
  match_route rt c path (method_display (r_method r)) =
  Some (RunResult (MRoute {| rv_modules := map to_caps_case (r_modules r);
    rv_name := to_caps_case (r_name r);
    rv_fields := map (fun pv : Param * T => (p_name (fst pv), FvVal (p_typ (fst pv)) (snd pv)))
                     (combine (path_params pat) vals)
                 ++ map (fun p => (p_name p, FvNone)) (q ++ r_query r) |})).
Proof. exact (to_path_round rt show c pat q b r vals opts fs path). Qed.
Print Assumptions C46_round_trip.

(** Exactly then: for every resource, method and values that print to slash-free
    UTF-8 text that parses back. *)
Theorem C46_exact {T E} (rt : runtime T E) (show : str -> T -> bytes) c pat q b r vals opts fs path method :
  runnable c -> every_block plain_statics (c_routes c) ->
  block_at (c_routes c) pat q b -> In r (rt_resources b) -> r_is_redirect r = false ->
  struct_fields pat (q ++ r_query r) vals opts fs ->
  (forall p v, In (p, v) (combine (path_params pat) vals) ->
     ~ In c_slash (show (p_typ p) v) /\ utf8_valid (show (p_typ p) v) = true /\
     rt_parse rt (p_typ p) (show (p_typ p) v) = inl v) ->
  to_path show c (map to_caps_case (r_modules r)) (to_caps_case (r_name r)) fs = Some path ->
  match_route rt c path method =
  Some (RunResult (MRoute {| rv_modules := map to_caps_case (r_modules r);
    rv_name := to_caps_case (r_name r);
    rv_fields := map (fun pv : Param * T => (p_name (fst pv), FvVal (p_typ (fst pv)) (snd pv)))
                     (combine (path_params pat) vals)
                 ++ map (fun p => (p_name p, FvNone)) (q ++ r_query r) |})) <->
  first_resource_for method b r /\
  uncaptured (c_routes c) pat (path_texts show pat vals) /\
  (last (path_texts show pat vals) [c_slash] = [] -> open_end (c_routes c) pat).
Proof. exact (round_exact rt show c pat q b r vals opts fs path method). Qed.
Print Assumptions C46_exact.

(** C47. *)
Theorem C47_to_path {T} (show : str -> T -> bytes) c pat q b r vals opts fs :
  compiles c = true -> block_at (c_routes c) pat q b -> In r (rt_resources b) -> r_is_redirect r = false ->
  struct_fields pat (q ++ r_query r) vals opts fs ->
  to_path show c (map to_caps_case (r_modules r)) (to_caps_case (r_name r)) fs =
  Some (c_slash :: join (path_texts show pat vals)).
Proof. exact (to_path_text show c pat q b r vals opts fs). Qed.
Print Assumptions C47_to_path.

Definition book_path : list PathSegment :=
  [Static (lit "people"); Dynamic (mkParam (lit "id") (lit "u32")); Static (lit "books");
   Dynamic (mkParam (lit "isbn") (lit "String"))].
Definition book_fields : fields bytes :=
  [(lit "isbn", Given (lit "0-19")); (lit "lang", Query (Some (lit "en"))); (lit "id", Given (lit "12"))].
Example C46_C47_example : exists b r,
  block_at (c_routes shop) book_path [mkParam (lit "lang") (lit "String")] b /\
  first_resource_for (lit "GET") b r /\ method_display (r_method r) = lit "GET" /\ r_is_redirect r = false /\
  struct_fields book_path ([mkParam (lit "lang") (lit "String")] ++ r_query r) [lit "12"; lit "0-19"]
    [Some (lit "en")] book_fields /\
  (forall p v, In (p, v) (combine (path_params book_path) [lit "12"; lit "0-19"]) ->
     ~ In c_slash (ex_show (p_typ p) v) /\ utf8_valid (ex_show (p_typ p) v) = true /\
     rt_parse ex_rt (p_typ p) (ex_show (p_typ p) v) = inl v) /\
  uncaptured (c_routes shop) book_path (path_texts ex_show book_path [lit "12"; lit "0-19"]) /\
  to_path ex_show shop (map to_caps_case (r_modules r)) (to_caps_case (r_name r)) book_fields =
  Some (lit "/people/12/books/0-19") /\
  match_route ex_rt shop (lit "/people/12/books/0-19") (lit "GET") =
  Some (RunResult (MRoute {| rv_modules := [lit "People"]; rv_name := lit "Book";
    rv_fields := [(lit "id", FvVal (lit "u32") (lit "12")); (lit "isbn", FvVal (lit "String") (lit "0-19"));
                  (lit "lang", FvNone)] |})).
Proof.
  set (r := mkResource Get [lit "people"] (lit "book") false []). exists (mkRoutes [r] [] []), r. split.
  { assert (H : In (book_path, [mkParam (lit "lang") (lit "String")], mkRoutes [r] [] []) (blocks (c_routes shop)))
      by (vm_compute; intuition).
    apply blocks_at. exact H. }
  split.
  { exists [], []. split; [reflexivity|]. split; [reflexivity|]. intros r' []. }
  split; [reflexivity|]. split; [reflexivity|].
  split; [|split; [|split; [|split; vm_compute; reflexivity]]].
  - split; [reflexivity|]. split; [reflexivity|].
    apply (Permutation_trans (l' := [(lit "isbn", Given (lit "0-19")); (lit "id", Given (lit "12"));
                                     (lit "lang", Query (Some (lit "en")))])); [apply perm_skip, perm_swap|].
    apply perm_swap.
  - intros p v [[= <- <-]|[[= <- <-]|[]]]; (split; [|split; vm_compute; reflexivity]); vm_compute; intuition discriminate.
  - vm_compute. eapply uncaptured_static; [left; reflexivity|intros H; exfalso; apply H; reflexivity|].
    eapply uncaptured_dynamic; [reflexivity|discriminate|].
    eapply uncaptured_static; [left; reflexivity|intros H; exfalso; apply H; reflexivity|].
    eapply uncaptured_dynamic; [reflexivity|discriminate|]. constructor.
Qed.
