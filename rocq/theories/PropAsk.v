(** * Property C88: what a matcher asks [FromStr] *)
From Verif Require Import Base Core Flat MiniRust Gen Spec SpecMatch SpecChange SpecAsk MatchFacts MatchThms AskThms Examples AskExamples.

(** For each request there is one path from the root of the configuration to a block,
    with static segments as in the request, such that only the answers along this path
    matter: each segment is looked at as a value of at most one type. *)
Theorem C88_asked {T E} (rt : runtime T E) c path : runnable c -> every_block plain_statics (c_routes c) ->
  exists pat, (exists q b, block_at (c_routes c) pat q b) /\ begins pat (all_segments path) /\
    forall (rt' : runtime T E) method, same_answers rt rt' pat (all_segments path) ->
      match_route rt' c path method = match_route rt c path method.
Proof. exact (match_asks rt c path). Qed.
Print Assumptions C88_asked.
(** What is not a segment of the request, or not a declared type, does not matter. *)
Theorem C88_declared {T E} (rt rt' : runtime T E) c path method : runnable c -> every_block plain_statics (c_routes c) ->
  (forall t seg, declared_type c t -> In seg (all_segments path) -> utf8_valid seg = true -> rt_parse rt t seg = rt_parse rt' t seg) ->
  match_route rt c path method = match_route rt' c path method.
Proof. exact (match_declared rt rt' c path method). Qed.
Print Assumptions C88_declared.

Definition path_4_12 : list PathSegment := [Dynamic (mkParam (lit "floor") (lit "Floor")); Dynamic (mkParam (lit "room") (lit "Room"))].
Example C88_asked_example :
  runnable rooms /\ every_block plain_statics (c_routes rooms) /\
  begins path_4_12 (all_segments (lit "/4/12")) /\
  match_route floors rooms (lit "/4/12") (lit "GET") =
  Some (RunResult (MRoute {| rv_modules := []; rv_name := lit "Room";
    rv_fields := [(lit "floor", FvVal (lit "Floor") (lit "4")); (lit "room", FvVal (lit "Room") (lit "12"))] |})) /\
  (forall rt' : runtime bytes unit,
     rt_parse rt' (lit "Floor") (lit "4") = inl (lit "4") -> rt_parse rt' (lit "Room") (lit "12") = inl (lit "12") ->
     same_answers floors rt' path_4_12 (all_segments (lit "/4/12"))) /\
  match_route floors rooms (lit "/40/12") (lit "GET") = Some (RunResult (MError (lit "floor") tt)).
Proof.
  split; [exact rooms_runnable|]. split; [exact rooms_plain|].
  split; [vm_compute; exact I|]. split; [vm_compute; reflexivity|]. split; [|vm_compute; reflexivity].
  intros rt' H1 H2 [|[|i]] p seg Hp Hs _.
  - injection Hp as <-. vm_compute in Hs. injection Hs as <-. symmetry. exact H1.
  - injection Hp as <-. vm_compute in Hs. injection Hs as <-. symmetry. exact H2.
  - destruct i; discriminate.
Qed.

(** That a value is only parsed if the request matches a route otherwise (an open point in
    the README) is false: this request is not one for a route, whatever [FromStr] says,
    and still depends on what it says. *)
Theorem C88_otherwise_refuted : exists c path,
  runnable c /\ every_block plain_statics (c_routes c) /\
  (forall (T E : Type) (rt : runtime T E) method redirect v, match_route rt c path method <> Some (RunResult (hit redirect v))) /\
  exists (rt rt' : runtime bytes unit) method, match_route rt c path method <> match_route rt' c path method.
Proof. exact asked_anyway. Qed.
Print Assumptions C88_otherwise_refuted.
