(** * ReachExamples: small configurations for C35 and C63 *)
From Verif Require Import Base Core Flat MiniRust Gen Items ToPath Spec SpecMatch SpecPath SpecBack SpecReach PathThms ReachThms SearchThms
  MatchFacts RunFacts FlatFacts Examples.

(** Beside [new], [{a}] drops [{b}]. *)
Definition twins : RouteConfig := read
  [ "/"; "  new"; "    GET make"; "  {a: u8}"; "    GET one"; "  {b: u8}"; "    GET two" ]%string.
Definition two : Resource := mkResource Get [] (lit "two") false [].
Lemma twins_runnable : runnable twins.
Proof. apply runnableb_ok. vm_compute. reflexivity. Qed.
Lemma twins_plain : every_block plain_statics (c_routes twins).
Proof. block_check plain_staticsb_ok. Qed.
Lemma twins_two : block_at (c_routes twins) [Dynamic (mkParam (lit "b") (lit "u8"))] [] (mkRoutes [two] [] []).
Proof.
  assert (H : In ([Dynamic (mkParam (lit "b") (lit "u8"))], [], mkRoutes [two] [] []) (blocks (c_routes twins)))
    by (vm_compute; intuition).
  apply blocks_at. exact H.
Qed.
Lemma twins_dropped : dropped (c_routes twins) [Dynamic (mkParam (lit "b") (lit "u8"))].
Proof.
  apply (dropped_parameter _ _ (mkParam (lit "a") (lit "u8")) (mkRoutes [mkResource Get [] (lit "one") false []] [] [])).
  - vm_compute. intuition.
  - reflexivity.
Qed.
Definition numbered : RouteConfig := read
  [ "/"; "  new"; "    GET make"; "  {a: u32}"; "    GET one" ]%string.
Lemma new_then_a seg : strip (lit "new") seg = None ->
  uncaptured (c_routes numbered) ([] ++ [Dynamic (mkParam (lit "a") (lit "u32"))]) ([] ++ [seg]).
Proof.
  intros H. eapply uncaptured_dynamic; [vm_compute; reflexivity| |constructor].
  intros s child' E. vm_compute in E. injection E as <- _. exact H.
Qed.
