(** * Properties C32, C35 and C36: exactly which requests give which answer

    C63_exact is about the requests that are answered with a route. *)
From Verif Require Import Base Core Flat MiniRust Gen Spec SpecMatch SpecPath SearchThms MatchFacts RunFacts FlatFacts
  Examples ReachExamples PropMatch PropReach.

(** C32.  405: the path leads to a block that has resources but none for the method. *)
Theorem C32_not_allowed_exact {T E} (rt : runtime T E) c path method :
  runnable c -> every_block plain_statics (c_routes c) ->
  match_route rt c path method = Some (RunResult MNotAllowed) <->
  exists pat q b segs a,
    block_at (c_routes c) pat q b /\ rt_resources b <> [] /\ no_resource_for method b /\
    reads (c_routes c) (no_slash path) pat segs /\ matches (rt_parse rt) pat segs a /\
    uncaptured (c_routes c) pat segs.
Proof. exact (match_not_allowed rt c path method). Qed.
Print Assumptions C32_not_allowed_exact.
(** 404: the path leads to no block that has resources, to no parameter that its text
    is no value of, and not to the end that panics. *)
Theorem C32_not_found_exact {T E} (rt : runtime T E) c path method :
  runnable c -> every_block plain_statics (c_routes c) ->
  match_route rt c path method = Some (RunResult MNotFound) <->
  ~ (exists pat q b segs a, block_at (c_routes c) pat q b /\ rt_resources b <> [] /\
       reads (c_routes c) (no_slash path) pat segs /\ matches (rt_parse rt) pat segs a /\
       uncaptured (c_routes c) pat segs) /\
  ~ (exists pat segs p seg, read_as (rt_parse rt) (c_routes c) (no_slash path) pat segs p seg /\
       (utf8_valid seg = false \/ exists e, rt_parse rt (p_typ p) seg = inr e)) /\
  ~ (exists pat q b segs a, block_at (c_routes c) pat q b /\ ~ no_short_static b /\ matches (rt_parse rt) pat segs a /\
       uncaptured (c_routes c) pat segs /\ no_slash path = concat (map (fun s => s ++ [c_slash]) segs)).
Proof. exact (match_not_found rt c path method). Qed.
Print Assumptions C32_not_found_exact.

(** C35.  An error: the path leads to a parameter that its text is no value of.  The
    method and the text after that segment do not matter. *)
Theorem C35_exact {T E} (rt : runtime T E) c path method name e :
  runnable c -> every_block plain_statics (c_routes c) ->
  match_route rt c path method = Some (RunResult (MError name e)) <->
  exists pat segs p seg,
    read_as (rt_parse rt) (c_routes c) (no_slash path) pat segs p seg /\
    utf8_valid seg = true /\ rt_parse rt (p_typ p) seg = inr e /\ p_name p = name.
Proof. exact (match_error rt c path method name e). Qed.
Print Assumptions C35_exact.
Example C35_exact_example :
  runnable numbered /\ every_block plain_statics (c_routes numbered) /\
  read_as ex_parse (c_routes numbered) (lit "x/y/z") [] [] (mkParam (lit "a") (lit "u32")) (lit "x") /\
  ex_parse (lit "u32") (lit "x") = inr tt /\
  match_route ex_rt numbered (lit "/x/y/z") (lit "BREW") = Some (RunResult (MError (lit "a") tt)).
Proof.
  split; [apply runnableb_ok; vm_compute; reflexivity|]. split; [block_check plain_staticsb_ok|]. split; [|split; vm_compute; reflexivity].
  split; [apply new_then_a; reflexivity|]. split; [exists []; constructor|]. split; [vm_compute; intuition discriminate|].
  exists (lit "/y/z"). split; [reflexivity|]. split; [right; eexists; reflexivity|discriminate].
Qed.

(** C36.  A panic: the path leads to a parameter whose text is not UTF-8, or it ends in
    a block without resources that has a parameter and a single static segment of one
    character. *)
Theorem C36_exact {T E} (rt : runtime T E) c path method :
  runnable c -> every_block plain_statics (c_routes c) ->
  match_route rt c path method = Some RunPanic <->
  (exists pat segs p seg, read_as (rt_parse rt) (c_routes c) (no_slash path) pat segs p seg /\ utf8_valid seg = false) \/
  (exists pat q b segs a, block_at (c_routes c) pat q b /\ ~ no_short_static b /\ matches (rt_parse rt) pat segs a /\
     uncaptured (c_routes c) pat segs /\ no_slash path = concat (map (fun s => s ++ [c_slash]) segs)).
Proof. exact (match_panic rt c path method). Qed.
Print Assumptions C36_exact.
Definition short_below : RouteConfig := read
  [ "/"; "  in"; "    a"; "      GET letter"; "    {x: String}"; "      GET other" ]%string.
Example C36_exact_example :
  (read_as ex_parse (c_routes numbered) [255%N] [] [] (mkParam (lit "a") (lit "u32")) [255%N] /\
   utf8_valid [255%N] = false /\ match_route ex_rt numbered [255%N] (lit "GET") = Some RunPanic) /\
  (runnable short_below /\ every_block plain_statics (c_routes short_below) /\
   match_route ex_rt short_below (lit "/in/") (lit "GET") = Some RunPanic /\
   match_route ex_rt short_below (lit "/in") (lit "GET") = Some (RunResult MNotFound) /\
   match_route ex_rt short_below (lit "/in//") (lit "GET") =
     Some (RunResult (MRoute (mkRoute [] (lit "Other") [(lit "x", FvVal (lit "String") [])])))).
Proof.
  split.
  - split; [|split; vm_compute; reflexivity].
    split; [apply new_then_a; reflexivity|]. split; [exists []; constructor|]. split; [vm_compute; intuition discriminate|].
    exists []. split; [reflexivity|]. split; [left; reflexivity|discriminate].
  - split; [apply runnableb_ok; vm_compute; reflexivity|]. split; [block_check plain_staticsb_ok|].
    repeat split; vm_compute; reflexivity.
Qed.
