(** * Property C65: from the route file to the answers *)
From Verif Require Import Base Core Nom Parse Flat MiniRust Gen Items Spec SpecMatch SpecParse SpecCompile SpecGen SpecItems SpecCost Build SpecBuild
  EndThms Examples PropParse BuildExamples PropBuild.

(** C65.  A build that finishes has written, last and once, the printed form of
    items and of a program; if the configuration it read is runnable, this
    program answers every request as the search in the tree of that
    configuration does, in the semantics without fuel. *)
Theorem C65_build wo b : snd (build wo b) = Finished tt ->
  exists c t pre root lines body,
    input_ok wo b c /\ output_ok wo b t /\
    flattened_modules (c_routes c) = ROk root /\
    routes_stringify 1 (c_routes c) = unlines lines /\
    fst (build wo b) = pre ++ [Write t
      (w_text (w_lines preamble1)
       ++ unlines (map (fun x => lit "    //! " ++ x) lines)
       ++ w_text (w_lines preamble2)
       ++ pr_items (lit "    ") (module_items true (c_headers c) root)
       ++ nl
       ++ w_text (w_lines boilerplate)
       ++ pr_block 2 body
       ++ unlines [lit "    }"; []; lit "} // mod routes"])] /\
    Forall (fun e => ~ is_write e) pre /\
    (runnable c -> forall T E (rt : runtime T E) path method, exists n,
       takes_block rt (items_env (module_items true (c_headers c) root)) (prologue_env path method) body n
         (outcome_of (tree_match (rt_parse rt) method c path))).
Proof. exact (end_to_end wo b). Qed.
Print Assumptions C65_build.
(** What is read from a file meets the conditions of C26, C46, C63 and C64 on
    static segments, and has no carriage return in its texts. *)
Theorem C65_parsed ualnum text rest c : route_config_p ualnum text = POk rest c ->
  every_block plain_statics (c_routes c) /\ no_returns c.
Proof. exact (parsed_plain ualnum text rest c). Qed.
Print Assumptions C65_parsed.
Example C65_example :
  snd (build ex_world (ex_builder "app.routes" "routes.rs")) = Finished tt /\
  input_ok ex_world (ex_builder "app.routes" "routes.rs") (read routes_text) /\ runnable (read routes_text) /\
  tree_match (rt_parse ex_rt) (lit "GET") (read routes_text) (lit "/people/42") =
    RunResult (MRoute (mkRoute [lit "People"] (lit "Show") [(lit "id", FvVal (lit "u32") (lit "42"))])).
Proof.
  split; [exact (proj1 C49_example)|]. split; [exact (proj1 C49_example_output)|].
  split; [apply runnableb_ok; vm_compute; reflexivity|vm_compute; reflexivity].
Qed.
Example C65_parsed_example : route_config_p ascii_only (file album_lines) = POk [] album.
Proof. exact (proj1 album_accepted). Qed.
