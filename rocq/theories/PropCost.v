(** * Property C77: the time for a request does not depend on the configuration *)
From Verif Require Import Base Core Flat MiniRust Gen SpecMatch SpecCost CostThms Examples.

(** C77.  Every request is answered within twenty-three steps and twenty-three
    more for each byte of the path, whatever the configuration is.  The steps
    are those of C44: statements and tests of conditions. *)
Theorem C77_bytes {T E} (rt : runtime T E) c path method :
  runnable c ->
  exists root body r n,
    flattened_modules (c_routes c) = ROk root /\ gen_program c = ROk body /\
    match_route rt c path method = Some r /\
    takes_block rt (module_structs [] root) (prologue_env path method) body n (outcome_of r) /\
    n <= 23 * S (length path).
Proof. exact (match_route_bytes rt c path method). Qed.
Print Assumptions C77_bytes.
(** Below the number of statements on the longest branch, for a short path. *)
Example C77_example : exists body,
  runnable shop /\ gen_program shop = ROk body /\ longest body = 66 /\ 23 * S (length (lit "/")) = 46.
Proof.
  eexists. split; [apply runnableb_ok; vm_compute; reflexivity|]. split; [vm_compute; reflexivity|].
  split; vm_compute; reflexivity.
Qed.
