(** * Property C71: the types of path parameters

    The generated matcher does not mention types: [rustc] infers them from the
    struct literals. *)
From Verif Require Import Base Core Nom Parse Flat MiniRust Gen Spec SpecMatch SpecTypes TypesFacts Examples.

(** C71 is false: below [{id: u32}] there is only a redirect, and its target has
    [id: String].  The path [/old/ann] is redirected, although [ann] is no
    [u32]. *)
Definition renumbered : RouteConfig := read
  [ "/"; "  GET home"; "  old"; "    {id: u32}"; "      GET -> show";
    "  people"; "    {id: String}"; "      GET show" ]%string.
Theorem C71_refuted :
  compiles renumbered = true /\ separate renumbered /\ every_block one_dynamic (c_routes renumbered) /\
  match_route ex_rt renumbered (lit "/old/ann") (lit "GET") =
  Some (RunResult (MRedirect {| rv_modules := []; rv_name := lit "Show";
                                rv_fields := [(lit "id", FvVal (lit "String") (lit "ann"))] |})) /\
  tree_match ex_parse (lit "GET") renumbered (lit "/old/ann") = RunResult (MError (lit "id") tt).
Proof.
  split; [vm_compute; reflexivity|]. split; [apply separateb_ok; vm_compute; reflexivity|].
  split; [block_check one_dynamicb_ok|]. split; vm_compute; reflexivity.
Qed.
Print Assumptions C71_refuted.

(** What happens instead, whatever the redirects: the answer is the one of the
    configuration with the types of SpecTypes.v. *)
Theorem C71_inferred {T E} (rt : runtime T E) c path method :
  compiles c = true -> separate c -> every_block one_dynamic (c_routes c) ->
  match_route rt c path method = Some (tree_match (rt_parse rt) method (inferred c) path).
Proof. exact (match_route_inferred rt c path method). Qed.
Print Assumptions C71_inferred.
(** A parameter with a resource below it that is no redirect keeps its type. *)
Theorem C71_own c d child p q x r :
  block_at child p q x -> In r (rt_resources x) -> r_is_redirect r = false -> parsed_as c d child = p_typ d.
Proof. exact (parsed_own_resource c d child p q x r). Qed.
Print Assumptions C71_own.
(** All types are the ones in the configuration if and only if the redirects
    agree with their targets. *)
Theorem C71_exactly c :
  compiles c = true -> separate c -> every_block one_dynamic (c_routes c) ->
  (inferred c = c <-> redirects_typed c).
Proof. exact (inferred_exactly c). Qed.
Print Assumptions C71_exactly.
Example C71_example :
  inferred renumbered = read
    [ "/"; "  GET home"; "  old"; "    {id: String}"; "      GET -> show";
      "  people"; "    {id: String}"; "      GET show" ]%string /\
  ~ redirects_typed renumbered /\ inferred shop = shop.
Proof.
  split; [vm_compute; reflexivity|]. split; [|vm_compute; reflexivity].
  intros H. apply inferred_same in H. apply (f_equal (fun c => length (concat (map (fun e => flat_map (fun p => p_typ p)
    (path_params (fst (fst e)))) (blocks (c_routes c)))))) in H. vm_compute in H. discriminate.
Qed.
