(** * Property C94: the names of parameters *)
From Verif Require Import Base Core Flat MiniRust Gen Spec SpecMatch SpecGen SpecRename MatchFacts CompileFacts RenameThms
  Examples.

(** Other names give the same answers, with the other names in them. *)
Theorem C94_answers {T E} R (rt : runtime T E) c c' path method : runnable c -> runnable c' ->
  every_block one_dynamic (c_routes c) -> renamed R (c_routes c) (c_routes c') ->
  exists r r', match_route rt c path method = Some r /\ match_route rt c' path method = Some r' /\ renamed_answer R r r'.
Proof. exact (match_renamed R rt c c' path method). Qed.
Print Assumptions C94_answers.
(** Whether code is generated does not depend on them. *)
Theorem C94_generated R c c' : every_block one_dynamic (c_routes c) -> renamed R (c_routes c) (c_routes c') ->
  snd (codegen c) = ROk tt <-> snd (codegen c') = ROk tt.
Proof. exact (renamed_codegen R c c'). Qed.
Print Assumptions C94_generated.

Definition library : RouteConfig := read
  [ "/"; "  [lang: String]"; "  books"; "    {isbn: String}"; "      GET book"; "        [page: u32]";
    "      lend"; "        {to: u32}"; "          POST lend"; "          GET -> lend" ]%string.
Definition library' : RouteConfig := read
  [ "/"; "  [l: String]"; "  books"; "    {number: String}"; "      GET book"; "        [p: u32]";
    "      lend"; "        {reader: u32}"; "          POST lend"; "          GET -> lend" ]%string.
Inductive new_name : str -> str -> Prop :=
| new_lang : new_name (lit "lang") (lit "l")
| new_isbn : new_name (lit "isbn") (lit "number")
| new_page : new_name (lit "page") (lit "p")
| new_to : new_name (lit "to") (lit "reader").
Example C94_example : runnable library /\ runnable library' /\ every_block one_dynamic (c_routes library) /\
  renamed new_name (c_routes library) (c_routes library') /\
  match_route ex_rt library (lit "/books/x/lend/7") (lit "GET") =
    Some (RunResult (MRedirect (mkRoute [] (lit "Lend")
      [(lit "isbn", FvVal (lit "String") (lit "x")); (lit "to", FvVal (lit "u32") (lit "7")); (lit "lang", FvNone)]))) /\
  match_route ex_rt library' (lit "/books/x/lend/7") (lit "GET") =
    Some (RunResult (MRedirect (mkRoute [] (lit "Lend")
      [(lit "number", FvVal (lit "String") (lit "x")); (lit "reader", FvVal (lit "u32") (lit "7")); (lit "l", FvNone)]))) /\
  match_route ex_rt library (lit "/books/x/lend/y") (lit "GET") = Some (RunResult (MError (lit "to") tt)) /\
  match_route ex_rt library' (lit "/books/x/lend/y") (lit "GET") = Some (RunResult (MError (lit "reader") tt)).
Proof.
  split; [apply runnableb_ok; vm_compute; reflexivity|]. split; [apply runnableb_ok; vm_compute; reflexivity|].
  split; [block_check one_dynamicb_ok|]. split; [|repeat split; vm_compute; reflexivity].
  vm_compute. repeat (constructor || split); try exact new_lang; try exact new_isbn; try exact new_page; exact new_to.
Qed.
(** That names never matter is false: of two path parameters in one block, the one with the
    first name in the alphabet takes all requests; and with a name that another parameter
    of the path has, the module does not compile. *)
Definition pair : RouteConfig := read [ "/"; "  all"; "    GET top"; "  {a: u32}"; "    GET x"; "  {b: String}"; "    GET y" ]%string.
Definition pair' : RouteConfig := read [ "/"; "  all"; "    GET top"; "  {c: u32}"; "    GET x"; "  {b: String}"; "    GET y" ]%string.
Theorem C94_refuted : runnable pair /\ runnable pair' /\ renamed (fun _ _ => True) (c_routes pair) (c_routes pair') /\
  match_route ex_rt pair (lit "/7") (lit "GET") =
    Some (RunResult (MRoute (mkRoute [] (lit "X") [(lit "a", FvVal (lit "u32") (lit "7"))]))) /\
  match_route ex_rt pair' (lit "/7") (lit "GET") =
    Some (RunResult (MRoute (mkRoute [] (lit "Y") [(lit "b", FvVal (lit "String") (lit "7"))]))).
Proof.
  split; [apply runnableb_ok; vm_compute; reflexivity|]. split; [apply runnableb_ok; vm_compute; reflexivity|].
  split; [|split; vm_compute; reflexivity]. vm_compute. repeat (constructor || split).
Qed.
Print Assumptions C94_refuted.
Definition shelf : RouteConfig := read [ "/"; "  {a: u32}"; "    {b: u32}"; "      GET x" ]%string.
Definition shelf' : RouteConfig := read [ "/"; "  {a: u32}"; "    {a: u32}"; "      GET x" ]%string.
Theorem C94_compiles_refuted : renamed (fun _ _ => True) (c_routes shelf) (c_routes shelf') /\
  compiles shelf = true /\ snd (codegen shelf') = ROk tt /\ compiles shelf' = false.
Proof. split; [vm_compute; repeat (constructor || split)|]. repeat split; vm_compute; reflexivity. Qed.
Print Assumptions C94_compiles_refuted.
