(** * Property C93: what 404, 405 and parse errors depend on *)
From Verif Require Import Base Core Flat MiniRust Gen Spec SpecMatch SpecVerbs SpecShape MatchFacts CompileFacts ShapeThms
  Examples.

(** Blocks with the same paths and verbs: the answers are of the same kind. *)
Theorem C93_kind {T E} (rt : runtime T E) c c' path method : runnable c -> runnable c' ->
  same_shape (c_routes c) (c_routes c') ->
  exists r r', match_route rt c path method = Some r /\ match_route rt c' path method = Some r' /\ same_kind r r'.
Proof. exact (match_shape rt c c' path method). Qed.
Print Assumptions C93_kind.

Definition shop : RouteConfig := read
  [ "/"; "  GET home"; "  items"; "    [page: u32]"; "    GET shop::list"; "    POST shop::add";
    "    {id: u32}"; "      GET shop::item"; "        [full: bool]"; "      PUT shop::edit" ]%string.
Definition shop' : RouteConfig := read
  [ "use x;"; "/"; "  [debug: bool]"; "  GET index"; "  items"; "    POST create"; "    GET all"; "    GET other";
    "    {id: u32}"; "      PUT -> one"; "      GET one" ]%string.
Example C93_example : runnable shop /\ runnable shop' /\ same_shape (c_routes shop) (c_routes shop') /\
  match_route ex_rt shop (lit "/items/7") (lit "PUT") =
    Some (RunResult (MRoute (mkRoute [lit "Shop"] (lit "Edit")
      [(lit "id", FvVal (lit "u32") (lit "7")); (lit "page", FvNone)]))) /\
  match_route ex_rt shop' (lit "/items/7") (lit "PUT") =
    Some (RunResult (MRedirect (mkRoute [] (lit "One")
      [(lit "id", FvVal (lit "u32") (lit "7")); (lit "debug", FvNone)]))) /\
  match_route ex_rt shop (lit "/items/7") (lit "DELETE") = Some (RunResult MNotAllowed) /\
  match_route ex_rt shop' (lit "/items/7") (lit "DELETE") = Some (RunResult MNotAllowed) /\
  match_route ex_rt shop (lit "/items/x") (lit "GET") = match_route ex_rt shop' (lit "/items/x") (lit "GET").
Proof.
  split; [apply runnableb_ok; vm_compute; reflexivity|]. split; [apply runnableb_ok; vm_compute; reflexivity|].
  split; [|repeat split; vm_compute; reflexivity].
  vm_compute. repeat (constructor; try (intros []; reflexivity)).
Qed.
(** The kinds differ: a 404 is not a 405, and errors and values are compared. *)
Example C93_kinds :
  let v x := mkRoute (T := bytes) [] (lit "A") [(lit "id", FvVal (lit "u32") (lit x)); (lit "q", FvNone)] in
  ~ same_kind (T := bytes) (E := unit) (RunResult MNotFound) (RunResult MNotAllowed) /\
  ~ same_kind (E := unit) (RunResult (MRoute (v "7"%string))) (RunResult (MRoute (v "8"%string))) /\
  ~ same_kind (E := unit) (RunResult (MRoute (v "7"%string))) (RunResult MNotFound) /\
  ~ same_kind (T := bytes) (RunResult (MError (lit "a") tt)) (RunResult (MError (lit "b") tt)) /\
  ~ same_kind (T := bytes) (E := unit) (RunResult MNotFound) RunPanic /\
  same_kind (E := unit) (RunResult (MRoute (v "7"%string))) (RunResult (MRedirect (v "7"%string))).
Proof. repeat split; try (intros H; vm_compute in H; first [contradiction | discriminate H | destruct H; discriminate]). Qed.
(** That the paths of the blocks alone decide whether a request is answered with 404 is
    false: a block without resources is not found; with one for another verb, it is. *)
Definition bare : RouteConfig := read [ "/"; "  a"; "    b"; "      GET x" ]%string.
Definition full : RouteConfig := read [ "/"; "  a"; "    POST y"; "    b"; "      GET x" ]%string.
Theorem C93_refuted : runnable bare /\ runnable full /\
  map (fun e => fst (fst e)) (blocks (c_routes bare)) = map (fun e => fst (fst e)) (blocks (c_routes full)) /\
  match_route ex_rt bare (lit "/a") (lit "GET") = Some (RunResult MNotFound) /\
  match_route ex_rt full (lit "/a") (lit "GET") = Some (RunResult MNotAllowed).
Proof.
  split; [apply runnableb_ok; vm_compute; reflexivity|]. split; [apply runnableb_ok; vm_compute; reflexivity|].
  repeat split; vm_compute; reflexivity.
Qed.
Print Assumptions C93_refuted.
