(** * Properties C24-C42, C48: what the generated [match_route] answers

    [match_route rt c path method] runs the generated program on a request;
    [runnable c] says that it compiles and that no parameter name interferes. *)
From Verif Require Import Base Core Nom Parse Flat MiniRust Gen Spec SpecMatch MatchFacts MatchProps MatchThms
  Examples.

(** C24.  The generated program computes the tree search of Spec.v. *)
Theorem C24_match_route {T E} (rt : runtime T E) c path method :
  compiles c = true -> hygienic c -> redirects_typed c ->
  match_route rt c path method = Some (tree_match (rt_parse rt) method c path).
Proof. exact (match_route_tree rt c path method). Qed.
Print Assumptions C24_match_route.
Example C24_example :
  runnable shop /\
  match_route ex_rt shop (lit "/people/42/books/0x7") (lit "GET") =
  Some (RunResult (MRoute {| rv_modules := [lit "People"]; rv_name := lit "Book";
    rv_fields := [(lit "id", FvVal (lit "u32") (lit "42")); (lit "isbn", FvVal (lit "String") (lit "0x7"));
                  (lit "lang", FvNone)] |})).
Proof. split; [exact shop_runnable|vm_compute; reflexivity]. Qed.

(** C25. *)
Theorem C25_sound {T E} (rt : runtime T E) c path method redirect v :
  runnable c ->
  match_route rt c path method = Some (RunResult (hit redirect v)) ->
  exists pat q b r segs a,
    block_at (c_routes c) pat q b /\ first_resource_for method b r /\ r_is_redirect r = redirect /\
    spells path segs /\ matches (rt_parse rt) pat segs a /\ v = route_for r q a.
Proof. exact (sound rt c path method redirect v). Qed.
Print Assumptions C25_sound.
Example C25_example :
  exists v, match_route ex_rt shop (lit "people/42/me/") (lit "GET") = Some (RunResult (hit true v)) /\
    rv_name v = lit "Show".
Proof. eexists. split; [vm_compute; reflexivity|reflexivity]. Qed.

(** C26.  Where no static child sits next to a dynamic one, the answer is the
    one of the segment-wise matcher ... *)
Theorem C26_ideal {T E} (rt : runtime T E) c path method :
  runnable c ->
  every_block plain_statics (c_routes c) -> every_block no_mixed (c_routes c) ->
  every_block dynamic_has_resources (c_routes c) -> utf8_valid path = true ->
  match_route rt c path method = Some (ideal_match (rt_parse rt) method c path).
Proof. exact (config_ideal rt c path method). Qed.
Print Assumptions C26_ideal.
(** ... and every declared pattern is reached. *)
Theorem C26_complete {T E} (rt : runtime T E) c path method pat q b r segs (a : @args T) :
  runnable c ->
  every_block plain_statics (c_routes c) -> every_block no_mixed (c_routes c) ->
  every_block dynamic_has_resources (c_routes c) -> every_block one_dynamic (c_routes c) ->
  utf8_valid path = true ->
  block_at (c_routes c) pat q b -> first_resource_for method b r ->
  spells path segs -> last segs [c_slash] <> [] -> matches (rt_parse rt) pat segs a ->
  match_route rt c path method = Some (RunResult (hit (r_is_redirect r) (route_for r q a))).
Proof. exact (complete rt c path method pat q b r segs a). Qed.
Print Assumptions C26_complete.
Example C26_example :
  runnable shop /\
  every_block plain_statics (c_routes shop) /\ every_block no_mixed (c_routes shop) /\
  every_block dynamic_has_resources (c_routes shop) /\ every_block one_dynamic (c_routes shop).
Proof.
  split; [exact shop_runnable|]. split; [exact shop_plain|]. split; [exact shop_no_mixed|].
  split; [exact shop_dynamic|exact shop_one_dynamic].
Qed.

(** C27.  Below the root: the segment [s] goes to the static child ... *)
Theorem C27_static_wins {T E} (rt : runtime T E) c method s child rest :
  runnable c -> plain_statics (c_routes c) ->
  statics (rt_routes (c_routes c)) = [(s, child)] ->
  match_route rt c (c_slash :: s ++ c_slash :: rest) method =
  Some (tree_run (rt_parse rt) method child (rt_query (c_routes c)) [] rest).
Proof. exact (static_child_wins rt c method s child rest). Qed.
Print Assumptions C27_static_wins.
(** ... a segment that does not begin with [s] goes to the dynamic child. *)
Theorem C27_dynamic_otherwise {T E} (rt : runtime T E) c method s child p dchild seg rest :
  runnable c -> plain_statics (c_routes c) ->
  statics (rt_routes (c_routes c)) = [(s, child)] ->
  dynamic_children (rt_routes (c_routes c)) = [(p, dchild)] ->
  seg <> [] -> ~ In c_slash seg -> utf8_valid seg = true -> strip s seg = None ->
  match_route rt c (c_slash :: seg ++ c_slash :: rest) method =
  Some match rt_parse rt (p_typ p) seg with
       | inl v => tree_run (rt_parse rt) method dchild (rt_query (c_routes c)) [(p, v)] rest
       | inr e => RunResult (MError (p_name p) e)
       end.
Proof. exact (dynamic_child_taken rt c method s child p dchild seg rest). Qed.
Print Assumptions C27_dynamic_otherwise.
(** At any depth: a request none of whose segments meets C28, C29 or C40 gets
    the answer of the segment-wise matcher, for which an exact static name wins. *)
Theorem C27_request {T E} (rt : runtime T E) c path method :
  runnable c ->
  every_block plain_statics (c_routes c) -> utf8_valid path = true ->
  unaffected (request_segments path) (c_routes c) ->
  match_route rt c path method = Some (ideal_match (rt_parse rt) method c path).
Proof. exact (request_ideal rt c path method). Qed.
Print Assumptions C27_request.
Definition corner : RouteConfig := read
  [ "/"; "  GET home"; "  new"; "    GET make"; "  {id: String}"; "    GET show"; "    pages"; "      GET pages" ]%string.
Example C27_example :
  runnable corner /\ plain_statics (c_routes corner) /\
  (exists child, statics (rt_routes (c_routes corner)) = [(lit "new", child)]) /\
  (exists p child, dynamic_children (rt_routes (c_routes corner)) = [(p, child)]) /\
  match_route ex_rt corner (lit "/ne/pages") (lit "GET") =
  Some (RunResult (MRoute {| rv_modules := []; rv_name := lit "Pages";
                             rv_fields := [(lit "id", FvVal (lit "String") (lit "ne"))] |})).
Proof.
  split; [apply runnableb_ok; vm_compute; reflexivity|].
  split; [apply plain_staticsb_ok; vm_compute; reflexivity|].
  split; [eexists; vm_compute; reflexivity|]. split; [do 2 eexists; vm_compute; reflexivity|].
  vm_compute; reflexivity.
Qed.
Example C27_request_example :
  runnable mixed /\ every_block plain_statics (c_routes mixed) /\
  unaffected (request_segments (lit "/people/old")) (c_routes mixed) /\
  unaffected (request_segments (lit "/people/new")) (c_routes mixed).
Proof.
  split; [exact mixed_runnable|]. split; [exact mixed_plain|].
  split; vm_compute; repeat split; try discriminate.
  all: try (intros ? ? H; injection H as <- _; reflexivity).
Qed.

(** C28 is false: [/people/newton] does not reach [{id}]. *)
Theorem C28_refuted :
  runnable mixed /\ every_block plain_statics (c_routes mixed) /\
  let show := {| rv_modules := [lit "People"]; rv_name := lit "Show";
                 rv_fields := [(lit "id", FvVal (lit "String") (lit "newton"))] |} in
  ideal_match ex_parse (lit "GET") mixed (lit "/people/newton") = RunResult (MRoute show) /\
  match_route ex_rt mixed (lit "/people/newton") (lit "GET") = Some (RunResult MNotFound).
Proof.
  split; [exact mixed_runnable|]. split; [exact mixed_plain|]. split; vm_compute; reflexivity.
Qed.
Print Assumptions C28_refuted.
(** In general: a segment that properly begins with the static name is lost. *)
Theorem C28_captured {T E} (rt : runtime T E) c method s child x t :
  runnable c -> plain_statics (c_routes c) ->
  statics (rt_routes (c_routes c)) = [(s, child)] ->
  dynamic_children (rt_routes (c_routes c)) <> [] -> x <> c_slash ->
  match_route rt c (c_slash :: s ++ x :: t) method = Some (RunResult MNotFound).
Proof. exact (captured rt c method s child x t). Qed.
Print Assumptions C28_captured.
Example C28_example :
  match_route ex_rt corner (lit "/newton/pages") (lit "GET") = Some (RunResult MNotFound).
Proof. vm_compute; reflexivity. Qed.

(** C29 is false: [/foobar] reaches the dynamic route. *)
Definition commons : RouteConfig := read
  [ "/"; "  GET home"; "  {id: String}"; "    GET show"; "  foobar"; "    GET foobar";
    "  fomo"; "    GET fomo"; "  foosh"; "    GET foosh" ]%string.
Theorem C29_refuted :
  runnable commons /\ every_block plain_statics (c_routes commons) /\
  ideal_match ex_parse (lit "GET") commons (lit "/foobar") =
  RunResult (MRoute {| rv_modules := []; rv_name := lit "Foobar"; rv_fields := [] |}) /\
  match_route ex_rt commons (lit "/foobar") (lit "GET") =
  Some (RunResult (MRoute {| rv_modules := []; rv_name := lit "Show";
                             rv_fields := [(lit "id", FvVal (lit "String") (lit "foobar"))] |})).
Proof.
  split; [apply runnableb_ok; vm_compute; reflexivity|].
  split; [block_check plain_staticsb_ok|]. split; vm_compute; reflexivity.
Qed.
Print Assumptions C29_refuted.
(** In general: next to two or more static children, the dynamic one takes
    every segment. *)
Theorem C29_shadowed {T E} (rt : runtime T E) c method seg rest s1 s2 ss p dchild :
  runnable c ->
  statics (rt_routes (c_routes c)) = s1 :: s2 :: ss ->
  dynamic_children (rt_routes (c_routes c)) = [(p, dchild)] ->
  seg <> [] -> ~ In c_slash seg -> utf8_valid seg = true ->
  match_route rt c (c_slash :: seg ++ c_slash :: rest) method =
  Some match rt_parse rt (p_typ p) seg with
       | inl v => tree_run (rt_parse rt) method dchild (rt_query (c_routes c)) [(p, v)] rest
       | inr e => RunResult (MError (p_name p) e)
       end.
Proof. exact (statics_shadowed rt c method seg rest s1 s2 ss p dchild). Qed.
Print Assumptions C29_shadowed.
Example C29_example :
  (exists s1 s2 ss, statics (rt_routes (c_routes commons)) = s1 :: s2 :: ss) /\
  exists p child, dynamic_children (rt_routes (c_routes commons)) = [(p, child)].
Proof. split; repeat eexists; vm_compute; reflexivity. Qed.

(** C30 and C31 are false: the code generated for these two files does not
    compile. *)
Definition users : RouteConfig := read
  [ "/"; "  user"; "    GET user"; "  users"; "    GET users" ]%string.
Theorem C30_refuted :
  every_block plain_statics (c_routes users) /\
  (exists text, codegen users = (text, ROk tt)) /\ compiles users = false.
Proof.
  split; [block_check plain_staticsb_ok|]. split; [eexists|]; vm_compute; reflexivity.
Qed.
Print Assumptions C30_refuted.
Definition siblings : RouteConfig := read
  [ "/"; "  GET home"; "  about"; "    GET about"; "  blog"; "    GET blog"; "  {id: String}"; "    GET show" ]%string.
Theorem C31_refuted :
  every_block plain_statics (c_routes siblings) /\
  (exists text, codegen siblings = (text, ROk tt)) /\ compiles siblings = false.
Proof.
  split; [block_check plain_staticsb_ok|]. split; [eexists|]; vm_compute; reflexivity.
Qed.
Print Assumptions C31_refuted.

(** C32.  405 exactly when the search ends in a block with resources but none
    for the method, 404 exactly when it ends in no such block. *)
Theorem C32_not_allowed {T E} (rt : runtime T E) c path method :
  runnable c ->
  match_route rt c path method = Some (RunResult MNotAllowed) <->
  exists b q a, tree_find (rt_parse rt) (c_routes c) [] [] (no_slash path) = Found b q a /\
                no_resource_for method b.
Proof. exact (not_allowed_iff rt c path method). Qed.
Print Assumptions C32_not_allowed.
Theorem C32_not_found {T E} (rt : runtime T E) c path method :
  runnable c ->
  match_route rt c path method = Some (RunResult MNotFound) <->
  tree_find (rt_parse rt) (c_routes c) [] [] (no_slash path) = Nothing.
Proof. exact (not_found_iff rt c path method). Qed.
Print Assumptions C32_not_found.
(** An unknown path never gives 405. *)
Theorem C32_known_path {T E} (rt : runtime T E) c path method :
  runnable c ->
  match_route rt c path method = Some (RunResult MNotAllowed) ->
  exists pat q b segs a,
    block_at (c_routes c) pat q b /\ rt_resources b <> [] /\ no_resource_for method b /\
    spells path segs /\ matches (rt_parse rt) pat segs a.
Proof. exact (not_allowed_sound rt c path method). Qed.
Print Assumptions C32_known_path.
(** Whether the answer is 404, an error or a panic does not depend on the method. *)
Theorem C32_method_independent {T E} (rt : runtime T E) c path m1 m2 :
  runnable c ->
  (match_route rt c path m1 = Some (RunResult MNotFound) <->
   match_route rt c path m2 = Some (RunResult MNotFound)) /\
  (forall name e, match_route rt c path m1 = Some (RunResult (MError name e)) <->
   match_route rt c path m2 = Some (RunResult (MError name e))) /\
  (match_route rt c path m1 = Some RunPanic <-> match_route rt c path m2 = Some RunPanic).
Proof. exact (method_only rt c path m1 m2). Qed.
Print Assumptions C32_method_independent.
Example C32_example :
  match_route ex_rt shop (lit "/people/42") (lit "POST") = Some (RunResult MNotAllowed) /\
  match_route ex_rt shop (lit "/people/42/shoes") (lit "POST") = Some (RunResult MNotFound).
Proof. split; vm_compute; reflexivity. Qed.

(** C33. *)
Theorem C33_method_bytes {T E} (rt : runtime T E) c path method redirect v :
  runnable c ->
  match_route rt c path method = Some (RunResult (hit redirect v)) ->
  In method [lit "GET"; lit "POST"; lit "PUT"; lit "DELETE"] /\
  exists pat q b r, block_at (c_routes c) pat q b /\ first_resource_for method b r /\
    r_is_redirect r = redirect /\ rv_modules v = map to_caps_case (r_modules r) /\
    rv_name v = to_caps_case (r_name r).
Proof.
  exact (fun Hc H => conj (method_verbs rt c path method redirect v Hc H)
                          (method_first rt c path method redirect v Hc H)).
Qed.
Print Assumptions C33_method_bytes.
Theorem C33_root {T E} (rt : runtime T E) c method :
  runnable c -> rt_resources (c_routes c) <> [] ->
  (forall r, first_resource_for method (c_routes c) r ->
     match_route rt c [c_slash] method =
     Some (RunResult (hit (r_is_redirect r) (route_for r (rt_query (c_routes c)) [])))) /\
  (no_resource_for method (c_routes c) ->
     match_route rt c [c_slash] method = Some (RunResult MNotAllowed)).
Proof. exact (root_answer rt c method). Qed.
Print Assumptions C33_root.
Definition twice : RouteConfig := read [ "/"; "  POST save"; "  GET first"; "  GET second" ]%string.
Example C33_example :
  runnable twice /\
  match_route ex_rt twice (lit "/") (lit "GET") =
  Some (RunResult (MRoute {| rv_modules := []; rv_name := lit "First"; rv_fields := [] |})) /\
  match_route ex_rt twice (lit "/") (lit "get") = Some (RunResult MNotAllowed) /\
  match_route ex_rt twice (lit "/") (lit "GETX") = Some (RunResult MNotAllowed) /\
  match_route ex_rt twice (lit "/") (lit "GE") = Some (RunResult MNotAllowed).
Proof.
  split; [apply runnableb_ok; vm_compute; reflexivity|]. repeat split; vm_compute; reflexivity.
Qed.

(** C34.  The path fields are the parses of the segments of the request at the
    places of the dynamic segments of the pattern. *)
Theorem C34_raw_segments {T E} (rt : runtime T E) c path method redirect v :
  runnable c ->
  match_route rt c path method = Some (RunResult (hit redirect v)) ->
  exists pat q b r segs,
    block_at (c_routes c) pat q b /\ In r (rt_resources b) /\
    spells path segs /\ length pat = length segs /\
    (forall i p seg, nth_error pat i = Some (Dynamic p) -> nth_error segs i = Some seg -> ~ In c_slash seg) /\
    rv_fields v = param_values (rt_parse rt) pat segs ++ map (fun p => (p_name p, FvNone)) (q ++ r_query r).
Proof. exact (raw_params rt c path method redirect v). Qed.
Print Assumptions C34_raw_segments.
Example C34_example :
  match_route ex_rt shop (lit "/people/042/books/%2F a%20/") (lit "GET") =
  Some (RunResult (MRoute {| rv_modules := [lit "People"]; rv_name := lit "Book";
    rv_fields := [(lit "id", FvVal (lit "u32") (lit "042")); (lit "isbn", FvVal (lit "String") (lit "%2F a%20"));
                  (lit "lang", FvNone)] |})).
Proof. vm_compute; reflexivity. Qed.

(** C35. *)
Theorem C35_error {T E} (rt : runtime T E) c path method name e :
  runnable c ->
  match_route rt c path method = Some (RunResult (MError name e)) ->
  exists pat q b child p segs a seg tail,
    block_at (c_routes c) pat q b /\ In (Dynamic p, child) (rt_routes b) /\ p_name p = name /\
    matches (rt_parse rt) pat segs a /\
    ~ In c_slash seg /\ utf8_valid seg = true /\ rt_parse rt (p_typ p) seg = inr e /\
    no_slash path = join (segs ++ [seg]) ++ tail /\ (tail = [] \/ exists t, tail = c_slash :: t).
Proof. exact (error_sound rt c path method name e). Qed.
Print Assumptions C35_error.
Theorem C35_error_first {T E} (rt : runtime T E) c path method name e :
  runnable c -> every_block plain_statics (c_routes c) ->
  match_route rt c path method = Some (RunResult (MError name e)) ->
  exists u seg tail, path = u ++ seg ++ tail /\ ~ In c_slash seg /\
    (tail = [] \/ exists t, tail = c_slash :: t) /\
    forall tail' method', (tail' = [] \/ exists t, tail' = c_slash :: t) -> seg <> [] \/ tail' <> [] ->
      u <> [] \/ seg <> [] ->
      match_route rt c (u ++ seg ++ tail') method' = Some (RunResult (MError name e)).
Proof. exact (error_stable rt c path method name e). Qed.
Print Assumptions C35_error_first.
(** Conversely the segment-wise matcher's errors are reported (C26); e.g. *)
Example C35_example :
  match_route ex_rt shop (lit "/people/x/nowhere/at/all") (lit "BREW") =
  Some (RunResult (MError (lit "id") tt)).
Proof. vm_compute; reflexivity. Qed.

(** C36. *)
Theorem C36_no_panic {T E} (rt : runtime T E) c path method :
  runnable c -> every_block no_short_static (c_routes c) -> utf8_valid path = true ->
  match_route rt c path method <> Some RunPanic.
Proof. exact (no_panic rt c path method). Qed.
Print Assumptions C36_no_panic.
Example C36_example : runnable mixed /\ every_block no_short_static (c_routes mixed).
Proof. split; [exact mixed_runnable|exact mixed_no_short]. Qed.

(** C37 is false. *)
Theorem C37_refuted :
  runnable shop /\ every_block no_short_static (c_routes shop) /\
  match_route ex_rt shop (lit "/people/" ++ [255%N]) (lit "GET") = Some RunPanic.
Proof. split; [exact shop_runnable|]. split; [exact shop_no_short|vm_compute; reflexivity]. Qed.
Print Assumptions C37_refuted.

(** C38 is false. *)
Definition short : RouteConfig := read
  [ "/"; "  a"; "    GET letter"; "  {x: String}"; "    GET other" ]%string.
Theorem C38_refuted :
  runnable short /\ match_route ex_rt short (lit "/") (lit "GET") = Some RunPanic.
Proof. split; [apply runnableb_ok|]; vm_compute; reflexivity. Qed.
Print Assumptions C38_refuted.
Theorem C38_panics {T E} (rt : runtime T E) c method x child :
  runnable c ->
  rt_resources (c_routes c) = [] -> statics (rt_routes (c_routes c)) = [([x], child)] ->
  dynamic_children (rt_routes (c_routes c)) <> [] ->
  match_route rt c [c_slash] method = Some RunPanic /\ match_route rt c [] method = Some RunPanic.
Proof. exact (short_static_panics rt c method x child). Qed.
Print Assumptions C38_panics.

(** C39. *)
Theorem C39_leading_slash {T E} (rt : runtime T E) c path method :
  runnable c -> (forall p, path <> c_slash :: p) ->
  match_route rt c (c_slash :: path) method = match_route rt c path method.
Proof. exact (leading_slash rt c path method). Qed.
Print Assumptions C39_leading_slash.
Example C39_example : exists v,
  match_route ex_rt shop (lit "about") (lit "GET") = Some (RunResult (MRoute v)).
Proof. eexists. vm_compute. reflexivity. Qed.

(** C40. *)
Theorem C40_trailing_slash {T E} (rt : runtime T E) c path method :
  runnable c ->
  every_block plain_statics (c_routes c) -> every_block dynamic_has_resources (c_routes c) ->
  (forall p, path <> p ++ [c_slash]) ->
  match_route rt c (path ++ [c_slash]) method = match_route rt c path method.
Proof. exact (trailing_slash rt c path method). Qed.
Print Assumptions C40_trailing_slash.
Example C40_example :
  runnable mixed /\ every_block plain_statics (c_routes mixed) /\
  every_block dynamic_has_resources (c_routes mixed).
Proof. split; [exact mixed_runnable|]. split; [exact mixed_plain|exact mixed_dynamic]. Qed.
(** Without the proviso it is false. *)
Definition bare : RouteConfig := read
  [ "/"; "  people"; "    {id: String}"; "      GET show" ]%string.
Theorem C40_unconditional_refuted :
  runnable bare /\ every_block plain_statics (c_routes bare) /\
  match_route ex_rt bare (lit "/people") (lit "GET") = Some (RunResult MNotFound) /\
  match_route ex_rt bare (lit "/people/") (lit "GET") =
  Some (RunResult (MRoute {| rv_modules := []; rv_name := lit "Show";
                             rv_fields := [(lit "id", FvVal (lit "String") [])] |})).
Proof.
  split; [apply runnableb_ok; vm_compute; reflexivity|]. split; [block_check plain_staticsb_ok|].
  split; vm_compute; reflexivity.
Qed.
Print Assumptions C40_unconditional_refuted.

(** C41.  After the path fields come the query parameters in scope, all
    [None]. *)
Theorem C41_query_none {T E} (rt : runtime T E) c path method redirect v :
  runnable c ->
  match_route rt c path method = Some (RunResult (hit redirect v)) ->
  exists pat q b r vals,
    block_at (c_routes c) pat q b /\ first_resource_for method b r /\
    map fst vals = map p_name (path_params pat) /\
    rv_fields v = map (fun xv : str * (str * T) => (fst xv, FvVal (fst (snd xv)) (snd (snd xv)))) vals
                  ++ map (fun p => (p_name p, FvNone)) (q ++ r_query r).
Proof. exact (query_none rt c path method redirect v). Qed.
Print Assumptions C41_query_none.
Example C41_example :
  match_route ex_rt shop (lit "/people") (lit "POST") =
  Some (RunResult (MRoute {| rv_modules := [lit "People"]; rv_name := lit "Create";
    rv_fields := [(lit "lang", FvNone); (lit "force", FvNone)] |})).
Proof. vm_compute; reflexivity. Qed.

(** C42. *)
Theorem C42_redirect {T E} (rt : runtime T E) c path method redirect v :
  runnable c ->
  match_route rt c path method = Some (RunResult (hit redirect v)) ->
  exists pat q b r,
    block_at (c_routes c) pat q b /\ In r (rt_resources b) /\ method = method_display (r_method r) /\
    r_is_redirect r = redirect /\
    rv_modules v = map to_caps_case (r_modules r) /\ rv_name v = to_caps_case (r_name r).
Proof. exact (redirect_kind rt c path method redirect v). Qed.
Print Assumptions C42_redirect.
Example C42_example : exists v,
  match_route ex_rt shop (lit "/people/1/me") (lit "GET") = Some (RunResult (MRedirect v)) /\
  rv_modules v = [lit "People"] /\ rv_name v = lit "Show".
Proof. eexists. split; [vm_compute; reflexivity|]. split; reflexivity. Qed.

(** C48.  A parameter named [len] of type [usize] captures the matcher's own
    variable: the module compiles, and a well-formed request panics where the
    tree search answers not-found.  ([C24_match_route] is the positive part: only
    parameters of type [usize] named [i], [len] or [start] matter.) *)
Definition captor : RouteConfig := read
  [ "/"; "  {len: usize}"; "    GET show"; "    more"; "      GET more" ]%string.
Theorem C48_refuted :
  compiles captor = true /\ redirects_typed captor /\
  match_route ex_rt captor (lit "/9/mo") (lit "GET") = Some RunPanic /\
  tree_match ex_parse (lit "GET") captor (lit "/9/mo") = RunResult MNotFound.
Proof.
  split; [vm_compute; reflexivity|]. split; [apply redirects_typedb_ok; vm_compute; reflexivity|].
  split; vm_compute; reflexivity.
Qed.
Print Assumptions C48_refuted.

(** A parameter named [start] of type [usize], followed by another parameter:
    the route is built with the position of the second one in the text. *)
Definition captor_start : RouteConfig := read
  [ "/"; "  {start: usize}"; "    GET show"; "    {word: String}"; "      GET more" ]%string.
Theorem C48_start_refuted :
  compiles captor_start = true /\ redirects_typed captor_start /\
  match_route ex_rt captor_start (lit "/7/abc") (lit "GET") =
  Some (RunResult (MRoute {| rv_modules := []; rv_name := lit "More";
    rv_fields := [(lit "start", FvUsize 3); (lit "word", FvVal (lit "String") (lit "abc"))] |})) /\
  tree_match ex_parse (lit "GET") captor_start (lit "/7/abc") =
  RunResult (MRoute {| rv_modules := []; rv_name := lit "More";
    rv_fields := [(lit "start", FvVal (lit "usize") (lit "7")); (lit "word", FvVal (lit "String") (lit "abc"))] |}).
Proof.
  split; [vm_compute; reflexivity|]. split; [apply redirects_typedb_ok; vm_compute; reflexivity|].
  split; vm_compute; reflexivity.
Qed.
Print Assumptions C48_start_refuted.
(** With another type the same names do no harm. *)
Example C48_harmless :
  let c := read [ "/"; "  {text: String}"; "    GET show"; "  b"; "    {start: String}"; "      GET more" ]%string in
  runnable c /\
  match_route ex_rt c (lit "/b/xyz") (lit "GET") =
  Some (RunResult (MRoute {| rv_modules := []; rv_name := lit "More";
    rv_fields := [(lit "start", FvVal (lit "String") (lit "xyz"))] |})).
Proof. split; [apply runnableb_ok|]; vm_compute; reflexivity. Qed.
