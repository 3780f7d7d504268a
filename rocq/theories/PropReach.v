(** * Properties C63 and C64: which resources are matched; following redirects *)
From Coq Require Import Permutation.
From Verif Require Import Base Core Flat MiniRust Gen Items ToPath Spec SpecMatch SpecPath SpecBack SpecReach PathThms ReachThms
  MatchFacts RunFacts FlatFacts Examples ReachExamples PropMatch PropPath PropBack.

(** C63.  Exactly these requests are answered with a route or a redirect: the
    path is spelled with segments that match the path of a block and are not
    captured on their way, and the resource is the first of its method there. *)
Theorem C63_exact {T E} (rt : runtime T E) c path method redirect v :
  runnable c -> every_block plain_statics (c_routes c) ->
  match_route rt c path method = Some (RunResult (hit redirect v)) <->
  exists pat q b r segs a,
    block_at (c_routes c) pat q b /\ first_resource_for method b r /\ r_is_redirect r = redirect /\
    reads (c_routes c) (no_slash path) pat segs /\ matches (rt_parse rt) pat segs a /\
    uncaptured (c_routes c) pat segs /\ v = route_for r q a.
Proof. exact (match_reads rt c path method redirect v). Qed.
Print Assumptions C63_exact.
(** A resource is matched by some request exactly if it is the first of its
    method in its block, and some segments lead there. *)
Theorem C63_reached {T E} (rt : runtime T E) c pat q b r :
  runnable c -> every_block plain_statics (c_routes c) ->
  block_at (c_routes c) pat q b -> In r (rt_resources b) -> r_is_redirect r = false ->
  (exists path method v, match_route rt c path method = Some (RunResult (MRoute v)) /\
     rv_modules v = map to_caps_case (r_modules r) /\ rv_name v = to_caps_case (r_name r)) <->
  (exists method, first_resource_for method b r) /\
  exists segs a, matches (rt_parse rt) pat segs a /\ uncaptured (c_routes c) pat segs.
Proof. exact (reached rt c pat q b r). Qed.
Print Assumptions C63_reached.
(** No request is matched with a resource below a parameter that has a sibling
    parameter with a name before its own, or below one of several static
    segments beside a parameter. *)
Theorem C63_dropped {T E} (rt : runtime T E) c pat q b r path method v :
  runnable c -> every_block plain_statics (c_routes c) ->
  block_at (c_routes c) pat q b -> In r (rt_resources b) -> r_is_redirect r = false ->
  dropped (c_routes c) pat ->
  match_route rt c path method = Some (RunResult (MRoute v)) ->
  rv_modules v <> map to_caps_case (r_modules r) \/ rv_name v <> to_caps_case (r_name r).
Proof. exact (never rt c pat q b r path method v). Qed.
Print Assumptions C63_dropped.
(** There are such resources in modules that compile: beside [new], [{a}] drops
    [{b}]. *)
Theorem C63_refuted : runnable twins /\
  block_at (c_routes twins) [Dynamic (mkParam (lit "b") (lit "u8"))] [] (mkRoutes [two] [] []) /\
  first_resource_for (lit "GET") (mkRoutes [two] [] []) two /\
  forall T E (rt : runtime T E) path method v,
    match_route rt twins path method = Some (RunResult (MRoute v)) -> rv_modules v <> [] \/ rv_name v <> lit "Two".
Proof.
  exact (conj twins_runnable (conj twins_two (conj
    (ex_intro _ [] (ex_intro _ [] (conj eq_refl (conj eq_refl (fun _ H => False_ind _ H)))))
    (fun T E rt path method v => never rt twins _ _ _ two path method v twins_runnable twins_plain twins_two
      (or_introl eq_refl) eq_refl twins_dropped)))).
Qed.
Print Assumptions C63_refuted.
Example C63_example :
  match_route ex_rt twins (lit "/7") (lit "GET") =
    Some (RunResult (MRoute (mkRoute [] (lit "One") [(lit "a", FvVal (lit "u8") (lit "7"))]))) /\
  match_route ex_rt twins (lit "/new/") (lit "GET") = Some (RunResult (MRoute (mkRoute [] (lit "Make") []))) /\
  match_route ex_rt twins (lit "/newer") (lit "GET") = Some (RunResult MNotFound) /\
  reads (c_routes twins) (lit "new/") [Static (lit "new")] [lit "new"] /\
  uncaptured (c_routes twins) [Static (lit "new")] [lit "new"] /\
  uncaptured (c_routes twins) [Dynamic (mkParam (lit "a") (lit "u8"))] [lit "7"] /\
  ~ uncaptured (c_routes twins) [Dynamic (mkParam (lit "a") (lit "u8"))] [lit "newer"].
Proof.
  split; [vm_compute; reflexivity|]. split; [vm_compute; reflexivity|]. split; [vm_compute; reflexivity|].
  split; [right; split; [discriminate|reflexivity]|].
  split; [|split].
  - eapply (uncaptured_static _ _ (mkRoutes [mkResource Get [] (lit "make") false []] [] [])); [| |constructor].
    + vm_compute. intuition.
    + reflexivity.
  - eapply uncaptured_dynamic; [vm_compute; reflexivity| |constructor].
    intros s child' H. vm_compute in H. injection H as <- _. reflexivity.
  - intros H. inversion H as [| |b0 p0 child0 pat0 seg0 segs0 Hl Hs Hu]; subst.
    discriminate (Hs (lit "new") (mkRoutes [mkResource Get [] (lit "make") false []] [] []) eq_refl).
Qed.
(** The path of a parameter may end in nothing only if its block has no
    resources of its own. *)
Definition blank : RouteConfig := read [ "/"; "  tag"; "    {t: String}"; "      GET tag" ]%string.
Example C63_open_example : runnable blank /\ every_block plain_statics (c_routes blank) /\
  reads (c_routes blank) (lit "tag/") [Static (lit "tag"); Dynamic (mkParam (lit "t") (lit "String"))] [lit "tag"; []] /\
  match_route ex_rt blank (lit "/tag/") (lit "GET") =
    Some (RunResult (MRoute (mkRoute [] (lit "Tag") [(lit "t", FvVal (lit "String") [])]))).
Proof.
  split; [apply runnableb_ok; vm_compute; reflexivity|]. split; [block_check plain_staticsb_ok|].
  split; [|vm_compute; reflexivity]. left. split; [reflexivity|]. intros _.
  eapply open_below; [left; reflexivity|]. apply open_here; [reflexivity|]. intros _ _ s child H. discriminate H.
Qed.

(** C64.  The path of a redirect, requested with method [method'], is answered
    with the resource redirected to and the same values, exactly if that
    resource is the first for [method'] in its block, and the path is not
    captured. *)
Theorem C64_follow {T E} (rt : runtime T E) (show : str -> T -> bytes) c path method v :
  runnable c -> every_block plain_statics (c_routes c) ->
  match_route rt c path method = Some (RunResult (MRedirect v)) ->
  (forall x t y, In (x, FvVal t y) (rv_fields v) ->
     ~ In c_slash (show t y) /\ utf8_valid (show t y) = true /\ rt_parse rt t (show t y) = inl y) ->
  exists fs pat q b r vals v',
    struct_value v fs /\ block_at (c_routes c) pat q b /\ In r (rt_resources b) /\ r_is_redirect r = false /\
    rv_modules v = map to_caps_case (r_modules r) /\ rv_name v = to_caps_case (r_name r) /\
    to_path show c (rv_modules v) (rv_name v) fs = Some (c_slash :: join (path_texts show pat vals)) /\
    rv_modules v' = rv_modules v /\ rv_name v' = rv_name v /\ Permutation (rv_fields v') (rv_fields v) /\
    forall method',
      match_route rt c (c_slash :: join (path_texts show pat vals)) method' = Some (RunResult (MRoute v')) <->
      first_resource_for method' b r /\ uncaptured (c_routes c) pat (path_texts show pat vals) /\
      (last (path_texts show pat vals) [c_slash] = [] -> open_end (c_routes c) pat).
Proof. exact (follow rt show c path method v). Qed.
Print Assumptions C64_follow.
Example C64_example : runnable moved /\ every_block plain_statics (c_routes moved) /\
  match_route ex_rt moved (lit "old/hat/7/") (lit "GET") =
    Some (RunResult (MRedirect (mkRoute [] (lit "Item")
      [(lit "b", FvVal (lit "String") (lit "hat")); (lit "a", FvVal (lit "u32") (lit "7"))]))) /\
  to_path ex_show moved [] (lit "Item") [(lit "b", Given (lit "hat")); (lit "a", Given (lit "7"))] =
    Some (lit "/new/7/x/hat") /\
  match_route ex_rt moved (lit "/new/7/x/hat") (lit "GET") =
    Some (RunResult (MRoute (mkRoute [] (lit "Item")
      [(lit "a", FvVal (lit "u32") (lit "7")); (lit "b", FvVal (lit "String") (lit "hat"))]))).
Proof.
  split; [apply runnableb_ok; vm_compute; reflexivity|]. split; [block_check plain_staticsb_ok|].
  split; [vm_compute; reflexivity|]. split; vm_compute; reflexivity.
Qed.
(** Not every redirect can be followed: nothing requires the resource redirected
    to to have the method of the redirect.  A browser that follows this one asks
    for a method that is not allowed. *)
Definition posted : RouteConfig := read
  [ "/"; "  old"; "    GET -> item"; "  new"; "    POST item" ]%string.
Theorem C64_refuted : runnable posted /\ every_block plain_statics (c_routes posted) /\
  match_route ex_rt posted (lit "/old") (lit "GET") = Some (RunResult (MRedirect (mkRoute [] (lit "Item") []))) /\
  to_path ex_show posted [] (lit "Item") [] = Some (lit "/new") /\
  match_route ex_rt posted (lit "/new") (lit "GET") = Some (RunResult MNotAllowed).
Proof.
  split; [apply runnableb_ok; vm_compute; reflexivity|]. split; [block_check plain_staticsb_ok|].
  split; [vm_compute; reflexivity|]. split; vm_compute; reflexivity.
Qed.
Print Assumptions C64_refuted.
