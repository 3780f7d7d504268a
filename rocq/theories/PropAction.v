(** * Property C100: the names of actions *)
From Verif Require Import Base Core Flat MiniRust Gen Spec SpecGen SpecMatch SpecAction ActionThms MatchThms Examples.

(** With other names and modules for the resources, if the module still compiles, every
    request is answered with the resource at the same place. *)
Theorem C100_answers f {T E} (rt : runtime T E) c path method : runnable c -> runnable (relabel_config f c) ->
  exists r r', match_route rt c path method = Some r /\ match_route rt (relabel_config f c) path method = Some r' /\
    relabelled_answer f r r'.
Proof. exact (answers_lab f rt c path method). Qed.
Print Assumptions C100_answers.
(** Whether code is generated does not depend on the names, as long as different structs
    get different ones. *)
Theorem C100_generated f c :
  (forall x y, In x (struct_names (c_routes c)) -> In y (struct_names (c_routes c)) -> f x = f y -> x = y) ->
  snd (codegen c) = ROk tt <-> snd (codegen (relabel_config f c)) = ROk tt.
Proof. exact (generates_lab f c). Qed.
Print Assumptions C100_generated.

Definition people : RouteConfig :=
  read ["/"; "  GET people::index"; "  {id: u32}"; "    GET people::show"; "    PUT -> people::show"]%string.
(** [people::index] and [people::show] become [list] and [users::staff::one]. *)
Definition users (x : list str * str) : list str * str :=
  if str_eqb (snd x) (lit "index") then ([], lit "list") else ([lit "users"; lit "staff"], lit "one").
Example C100_example :
  runnable people /\ runnable (relabel_config users people) /\
  relabel_config users people =
    read ["/"; "  GET list"; "  {id: u32}"; "    GET users::staff::one"; "    PUT -> users::staff::one"]%string /\
  (forall x y, In x (struct_names (c_routes people)) -> In y (struct_names (c_routes people)) -> users x = users y -> x = y) /\
  match_route ex_rt people (lit "/7") (lit "PUT") =
    Some (RunResult (MRedirect (mkRoute [lit "People"] (lit "Show") [(lit "id", FvVal (lit "u32") (lit "7"))]))) /\
  match_route ex_rt (relabel_config users people) (lit "/7") (lit "PUT") =
    Some (RunResult (MRedirect (mkRoute [lit "Users"; lit "Staff"] (lit "One") [(lit "id", FvVal (lit "u32") (lit "7"))]))).
Proof.
  split; [apply runnableb_ok; vm_compute; reflexivity|]. split; [apply runnableb_ok; vm_compute; reflexivity|].
  split; [vm_compute; reflexivity|]. split; [|split; vm_compute; reflexivity].
  intros x y Hx Hy. vm_compute in Hx, Hy. destruct Hx as [<-|[<-|[]]], Hy as [<-|[<-|[]]]; vm_compute; congruence.
Qed.
(** Other names may not compile: an action [string], or two whose names differ only in
    their case. *)
Theorem C100_compiles_refuted :
  runnable people /\ (forall g, In g [fun x => if str_eqb (snd x) (lit "index") then ([], lit "string") else x;
                                      fun x => if str_eqb (snd x) (lit "index") then ([lit "people"], lit "Show") else x] ->
    snd (codegen (relabel_config g people)) = ROk tt /\ compiles (relabel_config g people) = false).
Proof.
  split; [apply runnableb_ok; vm_compute; reflexivity|]. intros g [<-|[<-|[]]]; split; vm_compute; reflexivity.
Qed.
Print Assumptions C100_compiles_refuted.
