(** * Properties C30, C31, C57 and names of C48: when the generated module compiles *)
From Verif Require Import Base Core Flat MiniRust Gen Spec SpecMatch SpecGen SpecCompile.
From Verif Require Import CompileFacts MatchFacts Examples CompileExamples PropMatch.

(** C30.  Exactly which configurations compile. *)
Theorem C30_exact c : separate c ->
  compiles c = true <-> generates c /\ no_returns c /\ good_names c /\ matcher_ok c.
Proof. exact (compiles_exactly c). Qed.
Print Assumptions C30_exact.
(** Not if a static name properly begins with a sibling's. *)
Theorem C30_prefix c p q x s t child child' :
  separate c \/ redirects_typed c -> emitted (c_routes c) p q x ->
  In (Static s, child) (rt_routes x) -> In (Static (s ++ t), child') (rt_routes x) -> t <> [] ->
  compiles c = false.
Proof. exact (prefix_sibling c p q x s t child child'). Qed.
Print Assumptions C30_prefix.
Example C30_exact_example :
  (separate shop /\ compiles shop = true) /\ (separate mixed /\ compiles mixed = true) /\
  (separate users /\ compiles users = false).
Proof. repeat split; try apply separateb_ok; vm_compute; reflexivity. Qed.
Example C30_prefix_example :
  emitted (c_routes users) [] [] (c_routes users) /\
  exists child child', In (Static (lit "user"), child) (rt_routes (c_routes users)) /\
                       In (Static (lit "user" ++ lit "s"), child') (rt_routes (c_routes users)).
Proof.
  split; [exact (emitted_here (c_routes users))|].
  eexists. eexists. split; [left|right; left]; vm_compute; reflexivity.
Qed.

(** [a_B] and [a__b] are the same module but not the same variant. *)
Example C30_variant_example :
  let f m := read [ "/"; "  GET a_B::x"; "  y"; "    GET -> " ++ m ++ "::x" ]%string in
  map (fun m => (map to_snake_case (map lit [m]), map to_caps_case (map lit [m]), compiles (f m))) ["a_B"; "a__b"]%string =
  [ ([lit "a__b"], [lit "AB"], true); ([lit "a__b"], [lit "A_b"], false) ].
Proof. vm_compute. reflexivity. Qed.

(** C31.  Not with a parameter next to static names of different first
    letters. *)
Theorem C31_letters c p q x d child a s b t child1 child2 :
  separate c \/ redirects_typed c -> emitted (c_routes c) p q x -> In (Dynamic d, child) (rt_routes x) ->
  In (Static (a :: s), child1) (rt_routes x) -> In (Static (b :: t), child2) (rt_routes x) -> a <> b ->
  compiles c = false.
Proof. exact (mixed_letters c p q x d child a s b t child1 child2). Qed.
Print Assumptions C31_letters.
Example C31_letters_example :
  separate siblings /\ emitted (c_routes siblings) [] [] (c_routes siblings) /\
  (exists d child, In (Dynamic d, child) (rt_routes (c_routes siblings))) /\
  exists a s b t child1 child2, a <> b /\
    In (Static (a :: s), child1) (rt_routes (c_routes siblings)) /\
    In (Static (b :: t), child2) (rt_routes (c_routes siblings)).
Proof.
  split; [apply separateb_ok; vm_compute; reflexivity|].
  split; [exact (emitted_here (c_routes siblings))|]. split.
  - eexists. eexists. right; right; left. vm_compute. reflexivity.
  - eexists. eexists. eexists. eexists. eexists. eexists. split; cycle 1.
    + split; [left|right; left]; vm_compute; reflexivity.
    + discriminate.
Qed.

(** C48.  Some names the compiler refuses: where the matcher needs the variable
    again, the parameter hides it. *)
Theorem C48_reserved c p q x d child :
  redirects_typed c -> emitted (c_routes c) p q x -> first_param x = Some (d, child) ->
  In (p_name d) [lit "i"; lit "path"; lit "method"] \/ (p_name d = lit "len" /\ p_typ d <> lit "usize") ->
  compiles c = false.
Proof. exact (reserved_name c p q x d child). Qed.
Print Assumptions C48_reserved.
(** Exactly these, and [text] and [start] are free. *)
Example C48_reserved_example :
  let f n t := read [ "/"; "  {" ++ n ++ ": " ++ t ++ "}"; "    GET show" ]%string in
  map (fun n => (compiles (f n "u8"%string), compiles (f n "usize"%string)))
    ["i"; "path"; "method"; "len"; "text"; "start"; "id"]%string =
  [(false, false); (false, false); (false, false); (false, true); (true, true); (true, true); (true, true)].
Proof. vm_compute. reflexivity. Qed.
Example C48_reserved_case :
  let c := read [ "/"; "  a"; "    {path: String}"; "      GET show" ]%string in
  redirects_typed c /\ exists q x d child, emitted (c_routes c) [Static (lit "a")] q x /\
    first_param x = Some (d, child) /\ p_name d = lit "path".
Proof.
  split; [apply redirects_typedb_ok; vm_compute; reflexivity|].
  do 4 eexists. split.
  - eapply (emitted_static _ (lit "a")); [left; vm_compute; reflexivity|]. apply emitted_here.
  - split; vm_compute; reflexivity.
Qed.

(** C57 is false: none of these files compiles, although every name is
    ordinary and the code is generated. *)
Theorem C57_refuted c : In c unlucky ->
  ordinary_names c /\ separate c /\ (exists text, codegen c = (text, ROk tt)) /\ compiles c = false.
Proof. exact (unlucky_none c). Qed.
Print Assumptions C57_refuted.
(** Every configuration that compiles has good names. *)
Theorem C57_names c : compiles c = true -> good_names c.
Proof. exact (compiles_names c). Qed.
Print Assumptions C57_names.
(** A struct that takes the name of something the generated code mentions. *)
Theorem C57_taken c ms a :
  In (ms, a) (config_actions (c_routes c)) -> taken c ms (to_caps_case (a_name a)) -> compiles c = false.
Proof. exact (shadowing_name c ms a). Qed.
Print Assumptions C57_taken.
(** A parameter that takes the name of a constructor of the prelude. *)
Theorem C57_constructor c ms a x :
  In (ms, a) (config_actions (c_routes c)) -> In x (fields a) -> constructor x -> compiles c = false.
Proof. exact (constructor_name c ms a x). Qed.
Print Assumptions C57_constructor.
Example C57_constructor_example :
  let f p q := read [ "/"; "  {" ++ p ++ ": u8}"; "    GET show"; "      [" ++ q ++ ": u8]" ]%string in
  map (fun pq => (map (fun a => fields (snd a)) (config_actions (c_routes (f (fst pq) (snd pq)))), compiles (f (fst pq) (snd pq))))
    [("x", "y"); ("Some", "y"); ("x", "Err")]%string =
  [ ([[lit "x"; lit "y"]], true); ([[lit "Some"; lit "y"]], false); ([[lit "x"; lit "Err"]], false) ].
Proof. vm_compute. reflexivity. Qed.
Example C57_example :
  compiles shop = true /\
  (exists c ms a, In c unlucky /\ In (ms, a) (config_actions (c_routes c)) /\ taken c ms (to_caps_case (a_name a))).
Proof.
  split; [vm_compute; reflexivity|]. eexists. eexists. eexists.
  split; [left; reflexivity|]. split; [left; vm_compute; reflexivity|]. left. right; left. vm_compute. reflexivity.
Qed.
