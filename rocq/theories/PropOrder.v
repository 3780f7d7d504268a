(** * Property C43: the order of sibling routes *)
From Coq Require Import Permutation.
From Verif Require Import Base Core Flat MiniRust Gen Spec SpecCore SpecGen OrderFacts Examples.

Theorem C43_order c c' :
  reordered (c_routes c) (c_routes c') ->
  (snd (codegen c) = ROk tt <-> snd (codegen c') = ROk tt) /\
  compiles c = compiles c' /\
  forall T E (rt : runtime T E) path method, match_route rt c path method = match_route rt c' path method.
Proof.
  exact (fun H => conj (reordered_codegen c c' H)
    (conj (compiles_perm c c' (reordered_table _ _ H))
          (fun T E rt path method => match_route_perm rt c c' path method (reordered_table _ _ H)))).
Qed.
Print Assumptions C43_order.
(** In particular the order in which configurations are mounted does not matter. *)
Theorem C43_mounts c guests guests' : Permutation guests guests' ->
  (snd (codegen (mounts c guests)) = ROk tt <-> snd (codegen (mounts c guests')) = ROk tt) /\
  compiles (mounts c guests) = compiles (mounts c guests') /\
  forall T E (rt : runtime T E) path method,
    match_route rt (mounts c guests) path method = match_route rt (mounts c guests') path method.
Proof. exact (fun H => C43_order _ _ (mounts_reordered c guests guests' H)). Qed.
Print Assumptions C43_mounts.
(** The generated texts differ only in the documentation. *)
Theorem C43_text c c' :
  reordered (c_routes c) (c_routes c') -> c_headers c = c_headers c' ->
  snd (codegen c) = ROk tt ->
  exists head doc doc' rest, w_text (codegen c) = head ++ doc ++ rest /\ w_text (codegen c') = head ++ doc' ++ rest /\
    doc = unlines (map (fun x => lit "    //! " ++ x) (lines_of (routes_stringify 1 (c_routes c)))) /\
    doc' = unlines (map (fun x => lit "    //! " ++ x) (lines_of (routes_stringify 1 (c_routes c')))).
Proof. exact (reordered_text c c'). Qed.
Print Assumptions C43_text.

Definition mixed' : RouteConfig := read
  [ "/";
    "  people";
    "    GET people::index";
    "    {id: String}";
    "      GET people::show";
    "      DELETE people::remove";
    "    new";
    "      GET people::make" ]%string.
Example C43_example : reordered (c_routes mixed) (c_routes mixed') /\ mixed <> mixed'.
Proof.
  split; [|vm_compute; discriminate]. vm_compute.
  eapply reordered_block; [|apply Permutation_refl]. constructor; [|constructor].
  split; [reflexivity|]. cbn [snd].
  eapply reordered_block; [|apply perm_swap].
  constructor; [|constructor; [|constructor]]; (split; [reflexivity|]);
    cbn [snd]; eapply reordered_block; constructor.
Qed.
Example C43_mounts_example :
  let a := read [ "/"; "  GET a" ]%string in let b := read [ "use x::Y;"; "/"; "  {id: Y}"; "    GET b" ]%string in
  mounts mixed [(lit "one", a); (lit "two", b)] <> mounts mixed [(lit "two", b); (lit "one", a)] /\
  compiles (mounts mixed [(lit "one", a); (lit "two", b)]) = true /\
  match_route ex_rt (mounts mixed [(lit "two", b); (lit "one", a)]) (lit "/one") (lit "GET") =
    Some (RunResult (MRoute (mkRoute [] (lit "A") []))).
Proof. split; [vm_compute; discriminate|]. split; vm_compute; reflexivity. Qed.
