(** * Property C85: which requests a change of the routes concerns *)
From Verif Require Import Base Core Flat MiniRust Gen Spec SpecMatch SpecChange MatchFacts ChangeThms Examples.

(** The block [x] at the path [pat] becomes [x'], whatever the two are.  Requests whose
    segments do not begin as [pat] says are answered as before. *)
Theorem C85_outside {T E} (rt : runtime T E) c c' x x' pat path method :
  runnable c -> runnable c' -> every_block plain_statics (c_routes c) ->
  changed x x' pat (c_routes c) (c_routes c') -> ~ begins pat (all_segments path) ->
  match_route rt c path method = match_route rt c' path method.
Proof. exact (changed_outside rt method c c' x x' pat path). Qed.
Print Assumptions C85_outside.
(** Another resource in a block that has resources: only requests for its verb that end
    in this block. *)
Theorem C85_resource {T E} (rt : runtime T E) c c' rs1 r rs2 ch q pat path method :
  runnable c -> runnable c' -> every_block plain_statics (c_routes c) ->
  changed (mkRoutes (rs1 ++ rs2) ch q) (mkRoutes (rs1 ++ r :: rs2) ch q) pat (c_routes c) (c_routes c') ->
  rs1 ++ rs2 <> [] -> method <> method_display (r_method r) \/ ~ ends_at pat (all_segments path) ->
  match_route rt c path method = match_route rt c' path method.
Proof. exact (added_resource rt c c' rs1 r rs2 ch q pat path method). Qed.
Print Assumptions C85_resource.
(** Another static segment in a block without parameters: only requests for it. *)
Theorem C85_route {T E} (rt : runtime T E) c c' rs l1 s child l2 q pat path method :
  runnable c -> runnable c' -> every_block plain_statics (c_routes c') ->
  changed (mkRoutes rs (l1 ++ l2) q) (mkRoutes rs (l1 ++ (Static s, child) :: l2) q) pat (c_routes c) (c_routes c') ->
  dynamic_children (l1 ++ l2) = [] -> ~ begins (pat ++ [Static s]) (all_segments path) ->
  match_route rt c path method = match_route rt c' path method.
Proof. exact (added_route rt c c' rs l1 s child l2 q pat path method). Qed.
Print Assumptions C85_route.
(** The first static segment beside parameters: only requests with a segment that begins
    with its name. *)
Theorem C85_beside {T E} (rt : runtime T E) c c' rs l1 s child l2 q pat path method :
  runnable c -> runnable c' -> every_block plain_statics (c_routes c') ->
  changed (mkRoutes rs (l1 ++ l2) q) (mkRoutes rs (l1 ++ (Static s, child) :: l2) q) pat (c_routes c) (c_routes c') ->
  statics (l1 ++ l2) = [] -> rs <> [] -> ~ begins_with pat s (all_segments path) ->
  match_route rt c path method = match_route rt c' path method.
Proof. exact (added_beside rt c c' rs l1 s child l2 q pat path method). Qed.
Print Assumptions C85_beside.
(** The first parameter beside at most one static segment: only requests with a segment
    that does not begin with the name of this one. *)
Theorem C85_parameter {T E} (rt : runtime T E) c c' rs l1 p child l2 q pat path method :
  runnable c -> runnable c' -> every_block plain_statics (c_routes c') ->
  changed (mkRoutes rs (l1 ++ l2) q) (mkRoutes rs (l1 ++ (Dynamic p, child) :: l2) q) pat (c_routes c) (c_routes c') ->
  dynamic_children (l1 ++ l2) = [] -> rs <> [] ->
  ends_at pat (all_segments path) \/
  (exists s x, statics (l1 ++ l2) = [(s, x)] /\ begins_with pat s (all_segments path)) ->
  match_route rt c path method = match_route rt c' path method.
Proof. exact (added_parameter rt c c' rs l1 p child l2 q pat path method). Qed.
Print Assumptions C85_parameter.

Definition staff : RouteConfig := read
  [ "/"; "  GET home"; "  people"; "    GET people::index"; "    {id: String}"; "      GET people::show";
    "      edit"; "        GET people::edit" ]%string.
Definition staff_remove : RouteConfig := read
  [ "/"; "  GET home"; "  people"; "    GET people::index"; "    {id: String}"; "      GET people::show"; "      DELETE people::remove";
    "      edit"; "        GET people::edit" ]%string.
Definition staff_books : RouteConfig := read
  [ "/"; "  GET home"; "  people"; "    GET people::index"; "    {id: String}"; "      GET people::show";
    "      edit"; "        GET people::edit"; "      books"; "        GET people::books" ]%string.
Definition staff_new : RouteConfig := read
  [ "/"; "  GET home"; "  people"; "    GET people::index"; "    {id: String}"; "      GET people::show";
    "      edit"; "        GET people::edit"; "    new"; "      GET people::make" ]%string.
Definition staff_newest : RouteConfig := read
  [ "/"; "  GET home"; "  people"; "    GET people::index"; "    {id: String}"; "      GET people::show";
    "      edit"; "        GET people::edit"; "    new"; "      GET people::make"; "    nearest"; "      GET people::nearest" ]%string.
Ltac change_at := vm_compute; repeat (apply (changed_below _ _ _ _ _ _ _ [] [] _)); apply changed_here.
Definition person : list PathSegment := [Static (lit "people"); Dynamic (mkParam (lit "id") (lit "String"))].
Definition show : list Resource := [mkResource Get [lit "people"] (lit "show") false []].
Definition edit : NestedRoutes := (Static (lit "edit"), mkRoutes [mkResource Get [lit "people"] (lit "edit") false []] [] []).
Example C85_resource_example :
  runnable staff /\ runnable staff_remove /\ every_block plain_statics (c_routes staff) /\
  changed (mkRoutes (show ++ []) [edit] []) (mkRoutes (show ++ [mkResource Delete [lit "people"] (lit "remove") false []]) [edit] [])
    person (c_routes staff) (c_routes staff_remove) /\
  ends_at person (all_segments (lit "/people/7/")) /\ ~ ends_at person (all_segments (lit "/people/7/edit")) /\
  match_route ex_rt staff (lit "/people/7") (lit "DELETE") <> match_route ex_rt staff_remove (lit "/people/7") (lit "DELETE").
Proof.
  split; [apply runnableb_ok; vm_compute; reflexivity|]. split; [apply runnableb_ok; vm_compute; reflexivity|].
  split; [eapply every_blockb_ok; [exact plain_staticsb_ok|vm_compute; reflexivity]|].
  split; [change_at|]. split; [vm_compute; auto|]. split; [vm_compute; intuition discriminate|vm_compute; discriminate].
Qed.
Example C85_route_example :
  runnable staff_books /\ every_block plain_statics (c_routes staff_books) /\
  changed (mkRoutes show ([edit] ++ []) [])
    (mkRoutes show ([edit] ++ [(Static (lit "books"), mkRoutes [mkResource Get [lit "people"] (lit "books") false []] [] [])]) [])
    person (c_routes staff) (c_routes staff_books) /\
  begins (person ++ [Static (lit "books")]) (all_segments (lit "/people/7/books/x")) /\
  ~ begins (person ++ [Static (lit "books")]) (all_segments (lit "/people/7/edit")) /\
  match_route ex_rt staff (lit "/people/7/books") (lit "GET") <> match_route ex_rt staff_books (lit "/people/7/books") (lit "GET").
Proof.
  split; [apply runnableb_ok; vm_compute; reflexivity|].
  split; [eapply every_blockb_ok; [exact plain_staticsb_ok|vm_compute; reflexivity]|].
  split; [change_at|]. split; [vm_compute; auto|]. split; [vm_compute; intuition discriminate|vm_compute; discriminate].
Qed.
Example C85_outside_example :
  ~ begins person (all_segments (lit "/people")) /\ ~ begins person (all_segments (lit "/person/7/books")) /\
  begins person (all_segments (lit "/people/7/books")).
Proof. split; [vm_compute; intuition discriminate|]. split; [vm_compute; intuition discriminate|vm_compute; auto]. Qed.
Example C85_beside_example :
  statics ([(Dynamic (mkParam (lit "id") (lit "String")), mkRoutes show [edit] [])] ++ []) = [] /\
  begins_with [Static (lit "people")] (lit "new") (all_segments (lit "/people/newton")) /\
  ~ begins_with [Static (lit "people")] (lit "new") (all_segments (lit "/people/7")).
Proof.
  split; [vm_compute; reflexivity|]. split; [vm_compute; split; [exact (conj eq_refl I)|]; exists (lit "ton"), []; vm_compute; reflexivity|].
  intros [_ (t & rest & H)]. discriminate H.
Qed.
Definition makers : RouteConfig := read
  [ "/"; "  GET home"; "  people"; "    GET people::index"; "    new"; "      GET people::make" ]%string.
Definition make : NestedRoutes := (Static (lit "new"), mkRoutes [mkResource Get [lit "people"] (lit "make") false []] [] []).
Definition id_child : NestedRoutes := (Dynamic (mkParam (lit "id") (lit "String")), mkRoutes show [edit] []).
Definition index : list Resource := [mkResource Get [lit "people"] (lit "index") false []].
Example C85_parameter_example :
  runnable makers /\ runnable staff_new /\ every_block plain_statics (c_routes staff_new) /\
  changed (mkRoutes index ([] ++ [make]) []) (mkRoutes index ([] ++ id_child :: [make]) []) [Static (lit "people")]
    (c_routes makers) (c_routes staff_new) /\
  ends_at [Static (lit "people")] (all_segments (lit "/people/")) /\
  begins_with [Static (lit "people")] (lit "new") (all_segments (lit "/people/newton")) /\
  match_route ex_rt makers (lit "/people/7") (lit "GET") <> match_route ex_rt staff_new (lit "/people/7") (lit "GET").
Proof.
  split; [apply runnableb_ok; vm_compute; reflexivity|]. split; [apply runnableb_ok; vm_compute; reflexivity|].
  split; [eapply every_blockb_ok; [exact plain_staticsb_ok|vm_compute; reflexivity]|].
  split; [change_at|]. split; [vm_compute; auto|].
  split; [vm_compute; split; [exact (conj eq_refl I)|]; exists (lit "ton"), []; vm_compute; reflexivity|vm_compute; discriminate].
Qed.

(** Not so in general.  The route [new] beside the parameter takes other requests, ... *)
Theorem C85_captured_refuted : exists l1 l2 rs q child,
  runnable staff /\ runnable staff_new /\ every_block plain_statics (c_routes staff_new) /\
  changed (mkRoutes rs (l1 ++ l2) q) (mkRoutes rs (l1 ++ (Static (lit "new"), child) :: l2) q) [Static (lit "people")]
    (c_routes staff) (c_routes staff_new) /\
  ~ begins ([Static (lit "people")] ++ [Static (lit "new")]) (all_segments (lit "/people/newton")) /\
  match_route ex_rt staff (lit "/people/newton") (lit "GET") =
  Some (RunResult (MRoute {| rv_modules := [lit "People"]; rv_name := lit "Show";
                             rv_fields := [(lit "id", FvVal (lit "String") (lit "newton"))] |})) /\
  match_route ex_rt staff_new (lit "/people/newton") (lit "GET") = Some (RunResult MNotFound).
Proof.
  exists (rt_routes (mkRoutes [] [(Dynamic (mkParam (lit "id") (lit "String")), mkRoutes show [edit] [])] [])), [],
    [mkResource Get [lit "people"] (lit "index") false []], [], (mkRoutes [mkResource Get [lit "people"] (lit "make") false []] [] []).
  split; [apply runnableb_ok; vm_compute; reflexivity|]. split; [apply runnableb_ok; vm_compute; reflexivity|].
  split; [eapply every_blockb_ok; [exact plain_staticsb_ok|vm_compute; reflexivity]|].
  split; [change_at|]. split; [vm_compute; intuition discriminate|]. split; vm_compute; reflexivity.
Qed.
Print Assumptions C85_captured_refuted.
(** ... and a second one, with the same first letter, makes the first unreachable. *)
Theorem C85_shadowed_refuted : exists l1 l2 rs q child,
  runnable staff_new /\ runnable staff_newest /\ every_block plain_statics (c_routes staff_newest) /\
  changed (mkRoutes rs (l1 ++ l2) q) (mkRoutes rs (l1 ++ (Static (lit "nearest"), child) :: l2) q) [Static (lit "people")]
    (c_routes staff_new) (c_routes staff_newest) /\
  ~ begins ([Static (lit "people")] ++ [Static (lit "nearest")]) (all_segments (lit "/people/new")) /\
  match_route ex_rt staff_new (lit "/people/new") (lit "GET") =
  Some (RunResult (MRoute {| rv_modules := [lit "People"]; rv_name := lit "Make"; rv_fields := [] |})) /\
  match_route ex_rt staff_newest (lit "/people/new") (lit "GET") =
  Some (RunResult (MRoute {| rv_modules := [lit "People"]; rv_name := lit "Show";
                             rv_fields := [(lit "id", FvVal (lit "String") (lit "new"))] |})).
Proof.
  exists [(Dynamic (mkParam (lit "id") (lit "String")), mkRoutes show [edit] []);
          (Static (lit "new"), mkRoutes [mkResource Get [lit "people"] (lit "make") false []] [] [])], [],
    [mkResource Get [lit "people"] (lit "index") false []], [], (mkRoutes [mkResource Get [lit "people"] (lit "nearest") false []] [] []).
  split; [apply runnableb_ok; vm_compute; reflexivity|]. split; [apply runnableb_ok; vm_compute; reflexivity|].
  split; [eapply every_blockb_ok; [exact plain_staticsb_ok|vm_compute; reflexivity]|].
  split; [change_at|]. split; [vm_compute; intuition discriminate|]. split; vm_compute; reflexivity.
Qed.
Print Assumptions C85_shadowed_refuted.
(** A parameter beside two static segments with the same first letter takes the requests
    of both. *)
Definition two_makers : RouteConfig := read
  [ "/"; "  GET home"; "  people"; "    GET people::index"; "    new"; "      GET people::make"; "    nearest"; "      GET people::nearest" ]%string.
Definition nearest : NestedRoutes := (Static (lit "nearest"), mkRoutes [mkResource Get [lit "people"] (lit "nearest") false []] [] []).
Theorem C85_parameter_refuted : exists rs l1 p child l2 q,
  runnable two_makers /\ runnable staff_newest /\ every_block plain_statics (c_routes staff_newest) /\
  changed (mkRoutes rs (l1 ++ l2) q) (mkRoutes rs (l1 ++ (Dynamic p, child) :: l2) q) [Static (lit "people")]
    (c_routes two_makers) (c_routes staff_newest) /\
  dynamic_children (l1 ++ l2) = [] /\
  match_route ex_rt two_makers (lit "/people/new") (lit "GET") =
  Some (RunResult (MRoute {| rv_modules := [lit "People"]; rv_name := lit "Make"; rv_fields := [] |})) /\
  match_route ex_rt staff_newest (lit "/people/new") (lit "GET") =
  Some (RunResult (MRoute {| rv_modules := [lit "People"]; rv_name := lit "Show";
                             rv_fields := [(lit "id", FvVal (lit "String") (lit "new"))] |})).
Proof.
  exists index, [], (mkParam (lit "id") (lit "String")), (mkRoutes show [edit] []), [make; nearest], [].
  split; [apply runnableb_ok; vm_compute; reflexivity|]. split; [apply runnableb_ok; vm_compute; reflexivity|].
  split; [eapply every_blockb_ok; [exact plain_staticsb_ok|vm_compute; reflexivity]|].
  split; [change_at|]. split; [reflexivity|]. split; vm_compute; reflexivity.
Qed.
Print Assumptions C85_parameter_refuted.
