(** * Property C87: the documentation of the generated types *)
From Coq Require Import Permutation.
From Verif Require Import Base Core Flat MiniRust Gen Items Spec SpecMatch SpecGen SpecItems SpecPath SpecCompile SpecDocs
  CompileFacts DocFacts Examples.

(** C87.  Every struct says which request it renders; in the text this is the
    line before it. *)
Theorem C87_structs c root :
  flattened_modules (c_routes c) = ROk root ->
  Permutation (items_docs (module_items true (c_headers c) root)) (config_docs (c_routes c)).
Proof. exact (items_documented c root). Qed.
Print Assumptions C87_structs.
Theorem C87_text c pat q b r :
  snd (codegen c) = ROk tt ->
  block_at (c_routes c) pat q b -> In r (rt_resources b) -> r_is_redirect r = false ->
  let ind := spaces (4 * S (length (r_modules r))) in
  exists before after,
    w_text (codegen c) =
      before ++ unlines [ ind ++ lit "/// " ++ resource_doc pat r; ind ++ lit "#[derive(Debug, PartialEq, Eq)]" ]
      ++ ind ++ lit "pub struct " ++ to_caps_case (r_name r) ++ after.
Proof. exact (doc_printed c pat q b r). Qed.
Print Assumptions C87_text.
(** The documented request, with texts for the names in braces, is answered with
    the struct, under the conditions of C46. *)
Theorem C87_request {T E} (rt : runtime T E) c pat q b r a values :
  runnable c -> every_block plain_statics (c_routes c) ->
  block_at (c_routes c) pat q b -> r_is_redirect r = false ->
  first_resource_for (method_display (r_method r)) b r ->
  matches (rt_parse rt) pat (map (given values) pat) a ->
  uncaptured (c_routes c) pat (map (given values) pat) -> last (map (given values) pat) [c_slash] <> [] ->
  exists template, request_line pat r = method_display (r_method r) ++ lit " " ++ template /\
    match_route rt c (fill values None template) (method_display (r_method r)) = Some (RunResult (MRoute (route_for r q a))).
Proof. exact (doc_request rt c pat q b r a values). Qed.
Print Assumptions C87_request.
(** Two structs with the same documentation are of one block and one verb ... *)
Theorem C87_unique c pat q b r pat' q' b' r' :
  compiles c = true -> separate c \/ redirects_typed c -> every_block plain_statics (c_routes c) ->
  block_at (c_routes c) pat q b -> In r (rt_resources b) -> r_is_redirect r = false ->
  block_at (c_routes c) pat' q' b' -> In r' (rt_resources b') -> r_is_redirect r' = false ->
  resource_doc pat r = resource_doc pat' r' -> pat = pat' /\ b = b' /\ r_method r = r_method r'.
Proof. exact (doc_unique c pat q b r pat' q' b' r'). Qed.
Print Assumptions C87_unique.
(** ... and there are such structs: the documented request gives the first one. *)
Definition doubled : RouteConfig := read [ "/"; "  {id: u32}"; "    GET one"; "    GET two" ]%string.
Theorem C87_request_refuted :
  runnable doubled /\
  config_docs (c_routes doubled) =
    [ ([], lit "One", lit "Renders for `GET /{id}`."); ([], lit "Two", lit "Renders for `GET /{id}`.") ] /\
  match_route ex_rt doubled (fill (fun _ => lit "7") None (lit "/{id}")) (lit "GET") =
    Some (RunResult (MRoute (mkRoute [] (lit "One") [(lit "id", FvVal (lit "u32") (lit "7"))]))).
Proof. split; [apply runnableb_ok; vm_compute; reflexivity|]. split; vm_compute; reflexivity. Qed.
Print Assumptions C87_request_refuted.
(** The enum [Route] of the module at a path. *)
Theorem C87_enums c root path l doc n variants :
  flattened_modules (c_routes c) = ROk root ->
  module_at (module_items true (c_headers c) root) path l -> In (ItEnum doc n variants) l ->
  doc = match path with
        | [] => lit "An active route in the application -- match against this."
        | k :: ks => lit "Parameters for requests to the " ++ last ks k ++ lit " controller."
        end.
Proof. exact (fun _ H => enum_docs (c_headers c) _ path l H true root doc n variants eq_refl). Qed.
Print Assumptions C87_enums.

Definition book_values (n : str) : bytes := if str_eqb n (lit "id") then lit "12" else lit "0-19".
Example C87_example :
  map (fun d : list str * str * str => (snd (fst d), snd d)) (config_docs (c_routes shop)) =
    [ (lit "Home", lit "Renders for `GET /`.");
      (lit "Index", lit "Renders for `GET /people`.");
      (lit "Create", lit "Renders for `POST /people`.");
      (lit "Show", lit "Renders for `GET /people/{id}`.");
      (lit "Update", lit "Renders for `PUT /people/{id}`.");
      (lit "Books", lit "Renders for `GET /people/{id}/books`.");
      (lit "Book", lit "Renders for `GET /people/{id}/books/{isbn}`.");
      (lit "About", lit "Renders for `GET /about`.") ] /\
  fill book_values None (lit "/people/{id}/books/{isbn}") = lit "/people/12/books/0-19" /\
  match_route ex_rt shop (lit "/people/12/books/0-19") (lit "GET") =
  Some (RunResult (MRoute {| rv_modules := [lit "People"]; rv_name := lit "Book";
    rv_fields := [(lit "id", FvVal (lit "u32") (lit "12")); (lit "isbn", FvVal (lit "String") (lit "0-19"));
                  (lit "lang", FvNone)] |})).
Proof. repeat split; vm_compute; reflexivity. Qed.
Example C87_conditions_example : exists pat q b r a,
  runnable shop /\ every_block plain_statics (c_routes shop) /\ block_at (c_routes shop) pat q b /\
  r_is_redirect r = false /\ first_resource_for (method_display (r_method r)) b r /\
  matches (rt_parse ex_rt) pat (map (given book_values) pat) a /\
  uncaptured (c_routes shop) pat (map (given book_values) pat) /\ last (map (given book_values) pat) [c_slash] <> [] /\
  request_line pat r = lit "GET /people/{id}" /\ separate shop.
Proof.
  set (id := mkParam (lit "id") (lit "u32")).
  exists [Static (lit "people"); Dynamic id]. eexists. eexists.
  exists (mkResource Get [lit "people"] (lit "show") false []), [(id, lit "12")].
  split; [exact shop_runnable|]. split; [exact shop_plain|]. split.
  { eapply block_step; [left; reflexivity|]. eapply block_step; [left; reflexivity|]. constructor. }
  split; [reflexivity|]. split.
  { exists []. eexists. split; [reflexivity|]. split; [reflexivity|]. intros r' []. }
  split.
  { constructor. constructor; [vm_compute; intuition discriminate|vm_compute; reflexivity|vm_compute; reflexivity|constructor]. }
  split.
  { eapply uncaptured_static; [left; reflexivity|intros H; exfalso; apply H; reflexivity|].
    eapply uncaptured_dynamic; [reflexivity|intros s child' H; discriminate H|constructor]. }
  split; [discriminate|]. split; [vm_compute; reflexivity|]. apply separateb_ok. vm_compute. reflexivity.
Qed.
