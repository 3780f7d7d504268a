(** * Property C73: comparing answers with [==] *)
From Coq Require Import Permutation.
From Verif Require Import Base Core Flat MiniRust Gen Items Cli Fixed Equal Spec SpecMatch SpecPath SpecEqual EqualFacts EqualEx Examples
  PropMatch PropPath PropBack.

(** C73.  The derived [==] of two values of [Route]: they are values of the same
    struct, of the same module, and equal field by field. *)
Theorem C73_route {T} (eqv : str -> T -> T -> bool) c pat q b r vals opts fs pat' q' b' r' vals' opts' gs :
  compiles c = true ->
  block_at (c_routes c) pat q b -> In r (rt_resources b) -> r_is_redirect r = false ->
  struct_fields pat (q ++ r_query r) vals opts fs ->
  block_at (c_routes c) pat' q' b' -> In r' (rt_resources b') -> r_is_redirect r' = false ->
  struct_fields pat' (q' ++ r_query r') vals' opts' gs ->
  exists e,
    eq_route eqv c (map to_caps_case (r_modules r)) (to_caps_case (r_name r)) fs
      (map to_caps_case (r_modules r')) (to_caps_case (r_name r')) gs = Some e /\
    (e = true <->
     map to_caps_case (r_modules r) = map to_caps_case (r_modules r') /\ to_caps_case (r_name r) = to_caps_case (r_name r') /\
     pat = pat' /\ q ++ r_query r = q' ++ r_query r' /\
     equal_values eqv (path_params pat) vals vals' /\ equal_options eqv (q ++ r_query r) opts opts').
Proof. exact (eq_routes eqv c pat q b r vals opts fs pat' q' b' r' vals' opts' gs). Qed.
Print Assumptions C73_route.
(** Two answers of [match_route] that are not errors, if [==] of the types of the
    parameters is equality. *)
Theorem C73_answers {T E} (eqv : str -> T -> T -> bool) (of_usize : nat -> T) (rt : runtime T E) c path method path' method' m m' :
  runnable c -> decides eqv ->
  match_route rt c path method = Some (RunResult m) -> match_route rt c path' method' = Some (RunResult m') ->
  no_error m -> no_error m' ->
  exists e, eq_match eqv of_usize c m m' = Some e /\ (e = true <-> same_match m m').
Proof. exact (eq_answers eqv of_usize rt c path method path' method' m m'). Qed.
Print Assumptions C73_answers.
(** Requests that are answered with equal routes have the same method and the same
    segments, if no two texts are parsed as the same value. *)
Theorem C73_requests {T E} (eqv : str -> T -> T -> bool) (of_usize : nat -> T) (rt : runtime T E) c path method path' method' v w :
  runnable c -> decides eqv ->
  (forall t text text' x, rt_parse rt t text = inl x -> rt_parse rt t text' = inl x -> text = text') ->
  match_route rt c path method = Some (RunResult (MRoute v)) ->
  match_route rt c path' method' = Some (RunResult (MRoute w)) ->
  eq_match (E := E) eqv of_usize c (MRoute v) (MRoute w) = Some true ->
  method = method' /\ exists segs, spells path segs /\ spells path' segs.
Proof. exact (equal_requests eqv of_usize rt c path method path' method' v w). Qed.
Print Assumptions C73_requests.

(** Not without that condition: [FromStr] of numbers ignores leading zeros
    (EqualEx.v: /rooms/7 and /rooms/007). *)
Theorem C73_refuted : ~ forall (eqv : str -> bytes -> bytes -> bool) (of_usize : nat -> bytes) (rt : runtime bytes unit)
    c path method path' method' v w,
  runnable c -> decides eqv ->
  match_route rt c path method = Some (RunResult (MRoute v)) ->
  match_route rt c path' method' = Some (RunResult (MRoute w)) ->
  eq_match (E := unit) eqv of_usize c (MRoute v) (MRoute w) = Some true ->
  exists segs, spells path segs /\ spells path' segs.
Proof. exact equal_paths_differ. Qed.
Print Assumptions C73_refuted.

Example C73_example :
  runnable rooms /\ decides ex_eqv /\
  eq_match ex_eqv nat_str rooms (MRoute (E := unit) (room "7")) (MRoute (room "7")) = Some true /\
  eq_match ex_eqv nat_str rooms (MRoute (E := unit) (room "7")) (MRoute (room "8")) = Some false /\
  eq_match ex_eqv nat_str rooms (MRoute (E := unit) (room "7")) (MRedirect (room "7")) = Some false /\
  eq_match ex_eqv nat_str rooms (MRoute (E := unit) (room "7")) MNotFound = Some false /\
  exists v, match_route number_rt rooms (lit "/rooms/7") (lit "DELETE") = Some (RunResult (MRoute v)) /\
    eq_match ex_eqv nat_str rooms (MRoute (E := unit) (room "7")) (MRoute v) = Some false.
Proof.
  split; [exact rooms_runnable|]. split; [exact ex_decides|].
  do 4 (split; [vm_compute; reflexivity|]). eexists. split; vm_compute; reflexivity.
Qed.
(** The fields of a redirect are in the order of the literal, those of a route in
    the order of the path; [==] does not see it. *)
Example C73_redirect : exists v w,
  runnable moved /\
  match_route ex_rt moved (lit "/old/hat/7") (lit "GET") = Some (RunResult (MRedirect v)) /\
  match_route ex_rt moved (lit "/new/7/x/hat") (lit "GET") = Some (RunResult (MRoute w)) /\
  rv_fields v <> rv_fields w /\
  eq_match (E := unit) ex_eqv nat_str moved (MRoute v) (MRoute w) = Some true.
Proof.
  exists (mkRoute [] (lit "Item") [(lit "b", FvVal (lit "String") (lit "hat")); (lit "a", FvVal (lit "u32") (lit "7"))]),
    (mkRoute [] (lit "Item") [(lit "a", FvVal (lit "u32") (lit "7")); (lit "b", FvVal (lit "String") (lit "hat"))]).
  split; [apply runnableb_ok; vm_compute; reflexivity|]. split; [vm_compute; reflexivity|]. split; [vm_compute; reflexivity|].
  split; [discriminate|vm_compute; reflexivity].
Qed.
