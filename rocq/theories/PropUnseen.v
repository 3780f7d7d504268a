(** * Property C86: mistakes that only the compiler finds *)
From Coq Require Import Permutation.
From Verif Require Import Base Core Flat Gen Spec SpecGen SpecCompile SpecUnseen MatchFacts UnseenFacts CompileFacts Examples.

(** Two parameters of the same name in scope of a resource: never compiles. *)
Theorem C86_params c ms a : In (ms, a) (config_actions (c_routes c)) -> ~ NoDup (fields a) -> compiles c = false.
Proof. exact (twice_named c ms a). Qed.
Print Assumptions C86_params.
(** A redirect in the generated matcher without a target, or to one that does not have
    the same parameters: never compiles. *)
Theorem C86_redirect c p q x r : separate c \/ redirects_typed c -> emitted (c_routes c) p q x ->
  In r (rt_resources x) -> r_is_redirect r = true ->
  (forall a, target c r a -> ~ (Permutation (map p_name (path_params p)) (map p_name (a_route_params a)) /\
                                Permutation (map p_name (q ++ r_query r)) (map p_name (a_query_params a)))) ->
  compiles c = false.
Proof. exact (no_such_target c p q x r). Qed.
Print Assumptions C86_redirect.
(** Whether code is generated does not depend on the names of query parameters, the
    targets of redirects, the types of parameters or the verbs. *)
Theorem C86_unseen c c' : seen (c_routes c) = seen (c_routes c') ->
  snd (codegen c) = ROk tt <-> snd (codegen c') = ROk tt.
Proof. exact (unseen c c'). Qed.
Print Assumptions C86_unseen.

Definition sound : RouteConfig := read
  [ "/"; "  GET home"; "  old"; "    GET -> home"; "  {id: u32}"; "    GET show"; "      [page: u32]" ]%string.
(** A parameter twice; a redirect to nothing; a redirect to a resource with another
    parameter. *)
Definition careless : list RouteConfig := map read
  [ [ "/"; "  GET home"; "  old"; "    GET -> home"; "  {id: u32}"; "    GET show"; "      [id: u32]" ];
    [ "/"; "  GET home"; "  old"; "    GET -> house"; "  {id: u32}"; "    GET show"; "      [page: u32]" ];
    [ "/"; "  GET home"; "  old"; "    GET -> show"; "  {id: u32}"; "    GET show"; "      [page: u32]" ] ]%string.
(** Code is generated for all of them, and none of them compiles. *)
Theorem C86_noticed_refuted : compiles sound = true /\ forall c, In c careless ->
  seen (c_routes sound) = seen (c_routes c) /\ (exists text, codegen c = (text, ROk tt)) /\ compiles c = false.
Proof.
  split; [vm_compute; reflexivity|]. intros c H.
  repeat (destruct H as [<-|H]; [vm_compute; split; [reflexivity|split; [eexists; reflexivity|reflexivity]]|]). destruct H.
Qed.
Print Assumptions C86_noticed_refuted.
Example C86_example :
  (exists c ms a, In c careless /\ In (ms, a) (config_actions (c_routes c)) /\ fields a = [lit "id"; lit "id"]) /\
  (exists c p q x r, In c careless /\ separate c /\ emitted (c_routes c) p q x /\ In r (rt_resources x) /\
     r_is_redirect r = true /\ r_name r = lit "house").
Proof.
  split.
  - eexists. exists [], (mkAction (lit "show") Get [Dynamic (mkParam (lit "id") (lit "u32"))] [mkParam (lit "id") (lit "u32")] [mkParam (lit "id") (lit "u32")]).
    split; [left; reflexivity|]. split; [right; left; vm_compute; reflexivity|vm_compute; reflexivity].
  - eexists. exists [Static (lit "old")], [], (mkRoutes [mkResource Get [] (lit "house") true []] [] []), (mkResource Get [] (lit "house") true []).
    split; [right; left; reflexivity|]. split; [apply separateb_ok; vm_compute; reflexivity|]. split; [|split; [left; reflexivity|split; reflexivity]].
    match goal with |- emitted ?b _ _ _ => change (emitted b [Static (lit "old")] (rt_query b ++ []) (mkRoutes [mkResource Get [] (lit "house") true []] [] [])) end.
    apply (emitted_static _ (lit "old") (mkRoutes [mkResource Get [] (lit "house") true []] [] []) [] []); [left; vm_compute; reflexivity|].
    exact (emitted_here (mkRoutes [mkResource Get [] (lit "house") true []] [] [])).
Qed.
