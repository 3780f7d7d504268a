(** * Properties C24, C27, C28 and C29 in any block

    The segments [segs] of the request lead, not captured, along the path [pat] to the
    block [x], with the query parameters [q] in scope and the path parameters [a]. *)
From Verif Require Import Base Core Flat MiniRust Gen Spec SpecMatch SpecPath MatchFacts RunFacts FlatFacts
  SearchThms DepthThms Examples PropMatch.

(** C24.  From there on the rest of the request is matched in [x] alone. *)
Theorem C24_below {T E} (rt : runtime T E) c pat q x segs a method rest :
  runnable c -> every_block plain_statics (c_routes c) -> block_at (c_routes c) pat q x ->
  matches (rt_parse rt) pat segs a -> uncaptured (c_routes c) pat segs ->
  exists q', q = q' ++ rt_query x /\
    match_route rt c (c_slash :: concat (map (fun s => s ++ [c_slash]) segs) ++ rest) method =
    Some (tree_run (rt_parse rt) method x q' a rest).
Proof. exact (run_below rt c pat q x segs a method rest). Qed.
Print Assumptions C24_below.
(** C27.  The segment [s] goes to the only static child, ... *)
Theorem C27_static_at {T E} (rt : runtime T E) c pat q x segs a method s child rest :
  runnable c -> every_block plain_statics (c_routes c) -> block_at (c_routes c) pat q x ->
  matches (rt_parse rt) pat segs a -> uncaptured (c_routes c) pat segs ->
  statics (rt_routes x) = [(s, child)] ->
  match_route rt c (c_slash :: concat (map (fun s => s ++ [c_slash]) segs) ++ s ++ c_slash :: rest) method =
  Some (tree_run (rt_parse rt) method child q a rest).
Proof. exact (fun H1 H2 H3 H4 H5 => static_wins_below rt c pat q x segs a H1 H2 H3 H4 H5 method s child rest). Qed.
Print Assumptions C27_static_at.
(** ... a segment that does not begin with its name to the parameter. *)
Theorem C27_dynamic_at {T E} (rt : runtime T E) c pat q x segs a method s child p dchild seg rest :
  runnable c -> every_block plain_statics (c_routes c) -> block_at (c_routes c) pat q x ->
  matches (rt_parse rt) pat segs a -> uncaptured (c_routes c) pat segs ->
  statics (rt_routes x) = [(s, child)] -> dynamic_children (rt_routes x) = [(p, dchild)] ->
  ~ In c_slash seg -> utf8_valid seg = true -> strip s seg = None ->
  match_route rt c (c_slash :: concat (map (fun s => s ++ [c_slash]) segs) ++ seg ++ c_slash :: rest) method =
  Some match rt_parse rt (p_typ p) seg with
       | inl v => tree_run (rt_parse rt) method dchild q (a ++ [(p, v)]) rest
       | inr e => RunResult (MError (p_name p) e)
       end.
Proof. exact (dynamic_at rt c pat q x segs a method s child p dchild seg rest). Qed.
Print Assumptions C27_dynamic_at.
(** C28.  A segment that properly begins with its name is not found. *)
Theorem C28_captured_at {T E} (rt : runtime T E) c pat q x segs a method s child y t :
  runnable c -> every_block plain_statics (c_routes c) -> block_at (c_routes c) pat q x ->
  matches (rt_parse rt) pat segs a -> uncaptured (c_routes c) pat segs ->
  statics (rt_routes x) = [(s, child)] -> dynamic_children (rt_routes x) <> [] -> y <> c_slash ->
  match_route rt c (c_slash :: concat (map (fun s => s ++ [c_slash]) segs) ++ s ++ y :: t) method =
  Some (RunResult MNotFound).
Proof. exact (fun H1 H2 H3 H4 H5 => captured_below rt c pat q x segs a H1 H2 H3 H4 H5 method s child y t). Qed.
Print Assumptions C28_captured_at.
(** C29.  Next to two or more static children every segment goes to the parameter. *)
Theorem C29_shadowed_at {T E} (rt : runtime T E) c pat q x segs a method seg rest s1 s2 ss p dchild :
  runnable c -> every_block plain_statics (c_routes c) -> block_at (c_routes c) pat q x ->
  matches (rt_parse rt) pat segs a -> uncaptured (c_routes c) pat segs ->
  statics (rt_routes x) = s1 :: s2 :: ss -> dynamic_children (rt_routes x) = [(p, dchild)] ->
  ~ In c_slash seg -> utf8_valid seg = true ->
  match_route rt c (c_slash :: concat (map (fun s => s ++ [c_slash]) segs) ++ seg ++ c_slash :: rest) method =
  Some match rt_parse rt (p_typ p) seg with
       | inl v => tree_run (rt_parse rt) method dchild q (a ++ [(p, v)]) rest
       | inr e => RunResult (MError (p_name p) e)
       end.
Proof. exact (shadowed_at rt c pat q x segs a method seg rest s1 s2 ss p dchild). Qed.
Print Assumptions C29_shadowed_at.
(** A block with a static and a dynamic child below a parameter. *)
Definition chapters : RouteConfig := read
  [ "/"; "  books"; "    {isbn: String}"; "      new"; "        GET make"; "      {page: u32}"; "        GET show" ]%string.
Example C28_at_example :
  runnable chapters /\ every_block plain_statics (c_routes chapters) /\
  let pat := [Static (lit "books"); Dynamic (mkParam (lit "isbn") (lit "String"))] in
  let segs := [lit "books"; lit "0-19"] in
  (exists q x child p dchild, block_at (c_routes chapters) pat q x /\ statics (rt_routes x) = [(lit "new", child)] /\
     dynamic_children (rt_routes x) = [(p, dchild)]) /\
  matches ex_parse pat segs [(mkParam (lit "isbn") (lit "String"), lit "0-19")] /\ uncaptured (c_routes chapters) pat segs /\
  match_route ex_rt chapters (lit "/books/0-19/newt") (lit "GET") = Some (RunResult MNotFound) /\
  match_route ex_rt chapters (lit "/books/0-19/x") (lit "GET") = Some (RunResult (MError (lit "page") tt)) /\
  exists v, match_route ex_rt chapters (lit "/books/0-19/new/") (lit "GET") = Some (RunResult (MRoute v)) /\ rv_name v = lit "Make".
Proof.
  split; [apply runnableb_ok; vm_compute; reflexivity|]. split; [block_check plain_staticsb_ok|]. intros pat segs.
  split.
  { repeat eexists; [eapply block_step; [left; reflexivity|]; eapply block_step; [left; reflexivity|]; apply block_root|reflexivity|reflexivity]. }
  split.
  { apply matches_static. apply matches_dynamic; [vm_compute; intuition discriminate|reflexivity|reflexivity|constructor]. }
  split.
  { eapply uncaptured_static; [left; reflexivity|intros H; exfalso; apply H; reflexivity|].
    eapply uncaptured_dynamic; [reflexivity|discriminate|constructor]. }
  split; [vm_compute; reflexivity|]. split; [vm_compute; reflexivity|]. eexists. split; vm_compute; reflexivity.
Qed.
