(** * Property C92: the order of the resources of a block *)
From Coq Require Import Permutation.
From Verif Require Import Base Core Flat MiniRust Gen Spec SpecMatch SpecGen SpecVerbs MatchFacts CompileFacts VerbThms
  Examples.

(** The answers depend on the first resource of each block for each verb only. *)
Theorem C92_first {T E} (rt : runtime T E) c c' path method : runnable c -> runnable c' ->
  related same_first (c_routes c) (c_routes c') -> match_route rt c path method = match_route rt c' path method.
Proof. exact (match_by_verb rt c c' path method). Qed.
Print Assumptions C92_first.
(** Resources for different verbs can be written in any order. *)
Theorem C92_order {T E} (rt : runtime T E) c c' path method : separate c -> runnable c ->
  related same_by_verb (c_routes c) (c_routes c') -> match_route rt c path method = match_route rt c' path method.
Proof. exact (match_order rt c c' path method). Qed.
Print Assumptions C92_order.
(** Whether code is generated, and whether it compiles, does not depend on the order of
    resources at all. *)
Theorem C92_generated c c' : related (@Permutation Resource) (c_routes c) (c_routes c') ->
  snd (codegen c) = ROk tt <-> snd (codegen c') = ROk tt.
Proof. exact (shuffled_codegen c c'). Qed.
Print Assumptions C92_generated.
Theorem C92_compiles c c' : separate c -> related (@Permutation Resource) (c_routes c) (c_routes c') ->
  compiles c = compiles c'.
Proof. exact (shuffled_compiles c c'). Qed.
Print Assumptions C92_compiles.

Definition desk : RouteConfig := read
  [ "/"; "  notes"; "    GET list"; "    POST add"; "    {id: u32}"; "      GET show"; "      PUT edit"; "      DELETE drop" ]%string.
Definition desk' : RouteConfig := read
  [ "/"; "  notes"; "    POST add"; "    GET list"; "    {id: u32}"; "      DELETE drop"; "      GET show"; "      PUT edit" ]%string.
Example C92_example : separate desk /\ runnable desk /\ desk <> desk' /\ w_text (codegen desk) <> w_text (codegen desk') /\
  related same_by_verb (c_routes desk) (c_routes desk') /\
  match_route ex_rt desk' (lit "/notes/7") (lit "PUT") =
    Some (RunResult (MRoute (mkRoute [] (lit "Edit") [(lit "id", FvVal (lit "u32") (lit "7"))]))).
Proof.
  split; [apply separateb_ok; vm_compute; reflexivity|]. split; [apply runnableb_ok; vm_compute; reflexivity|].
  split; [vm_compute; discriminate|]. split; [vm_compute; discriminate|]. split; [|vm_compute; reflexivity].
  vm_compute. repeat (constructor; try (intros []; reflexivity)).
Qed.
(** That the order never matters is false: of two resources for one verb the first one
    answers. *)
Definition twice : RouteConfig := read [ "/"; "  GET one"; "  GET two" ]%string.
Definition twice' : RouteConfig := read [ "/"; "  GET two"; "  GET one" ]%string.
Theorem C92_refuted : runnable twice /\ runnable twice' /\ related (@Permutation Resource) (c_routes twice) (c_routes twice') /\
  match_route ex_rt twice (lit "/") (lit "GET") = Some (RunResult (MRoute (mkRoute [] (lit "One") []))) /\
  match_route ex_rt twice' (lit "/") (lit "GET") = Some (RunResult (MRoute (mkRoute [] (lit "Two") []))).
Proof.
  split; [apply runnableb_ok; vm_compute; reflexivity|]. split; [apply runnableb_ok; vm_compute; reflexivity|].
  split; [|split; vm_compute; reflexivity]. vm_compute. constructor; [apply perm_swap|constructor].
Qed.
Print Assumptions C92_refuted.
(** A second resource for a verb changes nothing. *)
Example C92_first_example :
  let once := read [ "/"; "  GET one" ]%string in
  runnable once /\ related same_first (c_routes once) (c_routes twice).
Proof.
  split; [apply runnableb_ok; vm_compute; reflexivity|]. vm_compute. constructor; [intros []; reflexivity|constructor].
Qed.
