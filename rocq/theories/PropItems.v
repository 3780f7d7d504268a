(** * Property C58: the generated module as Rust items *)
From Coq Require Import Permutation.
From Verif Require Import Base Core Flat MiniRust Gen Items Spec SpecMatch SpecGen SpecItems ItemThms Examples.

(** C58.  The text is the printed form of the items, between fixed texts, the
    documentation and the body of [match_route]. *)
Theorem C58_text c :
  snd (codegen c) = ROk tt ->
  exists root lines body,
    flattened_modules (c_routes c) = ROk root /\
    routes_stringify 1 (c_routes c) = unlines lines /\ Forall (fun x => ~ In c_nl x) lines /\
    gen_program c = ROk body /\
    w_text (codegen c) =
      w_text (w_lines preamble1)
      ++ unlines (map (fun x => lit "    //! " ++ x) lines)
      ++ w_text (w_lines preamble2)
      ++ pr_items (lit "    ") (module_items true (c_headers c) root)
      ++ nl
      ++ w_text (w_lines boilerplate)
      ++ pr_block 2 body
      ++ unlines [lit "    }"; []; lit "} // mod routes"].
Proof. exact (items_text c). Qed.
Print Assumptions C58_text.
(** The structs are those of the configuration, each once. *)
Theorem C58_structs c root :
  flattened_modules (c_routes c) = ROk root ->
  Permutation (items_structs (module_items true (c_headers c) root)) (config_structs (c_routes c)).
Proof. exact (items_declare c root). Qed.
Print Assumptions C58_structs.
Theorem C58_enums c root path l :
  flattened_modules (c_routes c) = ROk root ->
  module_at (module_items true (c_headers c) root) path l -> enum_complete l.
Proof. exact (fun _ H => items_enums_complete (c_headers c) _ path l H true root eq_refl). Qed.
Print Assumptions C58_enums.
(** The module compiles exactly when its items, its documentation and the body
    of [match_route] pass their checks. *)
Theorem C58_check c root body :
  flattened_modules (c_routes c) = ROk root -> gen_program c = ROk body ->
  let items := module_items true (c_headers c) root in
  compiles c = true <->
  items_ok true items = true /\ doc_ok c = true /\
  check_block (items_env items) prologue_tenv body false = Some true.
Proof. exact (items_check c root body). Qed.
Print Assumptions C58_check.
(** [format!] puts its arguments into the holes, and braces that are written twice are
    printed once; nothing else is accepted. *)
Theorem C58_format t args out : format t args = Some out <->
  exists l, t = template_of l /\ args = holes_of l /\ out = shown_of l.
Proof. exact (format_exact t args out). Qed.
Print Assumptions C58_format.
Example C58_format_example :
  let l := [inl (lit "/a{"); inr (lit "7"); inl (lit "}/b")] in
  template_of l = lit "/a{{{}}}/b" /\ holes_of l = [lit "7"] /\ shown_of l = lit "/a{7}/b" /\
  format (lit "/a{{{}}}/b") [] = None /\ format (lit "/a{}b") [lit "7"; lit "8"] = None /\ format (lit "/a{b") [] = None.
Proof. repeat split; vm_compute; reflexivity. Qed.

Definition library : RouteConfig := read
  [ "use uuid::Uuid;"; ""; "/"; "  [lang: String]"; "  GET welcome"; "  books"; "    {id: Uuid}"; "      GET books::show" ]%string.
Example C58_example : exists root,
  flattened_modules (c_routes library) = ROk root /\
  module_items true (c_headers library) root =
    [ ItLine (lit "use uuid::Uuid;"); ItBlank;
      ItStruct (lit "Renders for `GET /`.") (lit "Welcome") [(lit "lang", TyOption (lit "String"))]; ItBlank;
      ItStructPath (lit "Welcome") [lit "lang"] (lit "/") []; ItBlank;
      ItMod (lit "books")
        [ ItLine (lit "use uuid::Uuid;"); ItBlank;
          ItStruct (lit "Renders for `GET /books/{id}`.") (lit "Show")
            [(lit "id", TyUser (lit "Uuid")); (lit "lang", TyOption (lit "String"))]; ItBlank;
          ItStructPath (lit "Show") [lit "id"; lit "lang"] (lit "/books/{}") [lit "id"]; ItBlank;
          ItEnum (lit "Parameters for requests to the books controller.") (lit "Route")
            [(lit "Show", TyItem [] (lit "Show"))]; ItBlank;
          ItEnumPath (lit "Route") [lit "Show"] ];
      ItBlank;
      ItEnum (lit "An active route in the application -- match against this.") (lit "Route")
        [(lit "Welcome", TyItem [] (lit "Welcome")); (lit "Books", TyItem [lit "books"] (lit "Route"))]; ItBlank;
      ItEnumPath (lit "Route") [lit "Welcome"; lit "Books"] ] /\
  config_structs (c_routes library) =
    [ ([], lit "Welcome", [mkField (lit "lang") (lit "String") true]);
      ([lit "books"], lit "Show", [mkField (lit "id") (lit "Uuid") false; mkField (lit "lang") (lit "String") true]) ] /\
  compiles library = true.
Proof. eexists. split; [vm_compute; reflexivity|]. repeat split; vm_compute; reflexivity. Qed.
Example C58_print_example :
  pr_item (lit "    ") (ItStructPath (lit "Show") [lit "id"; lit "lang"] (lit "/books/{}") [lit "id"]) =
  map lit
    [ "    impl Show {";
      "        /// Make a path to this route with the given parameters.";
      "        pub fn to_path(&self) -> String {";
      "            let Show { ref id, ref lang, } = self;";
      "            format!(""/books/{}"", id)";
      "        }";
      "    }" ]%string.
Proof. vm_compute. reflexivity. Qed.
(** Items that are rejected: a hole too few; a field left out of the pattern;
    a payload that is not declared. *)
Example C58_reject_example :
  let book := ItStruct (lit "Book.") (lit "Book") [(lit "id", TyUser (lit "u32"))] in
  let enum := [ItEnum [] (lit "Route") [(lit "Book", TyItem [] (lit "Book"))]; ItEnumPath (lit "Route") [lit "Book"]] in
  items_ok true ([book; ItStructPath (lit "Book") [lit "id"] (lit "/{}") [lit "id"]] ++ enum) = true /\
  items_ok true ([book; ItStructPath (lit "Book") [lit "id"] (lit "/") [lit "id"]] ++ enum) = false /\
  items_ok true ([book; ItStructPath (lit "Book") [] (lit "/") []] ++ enum) = false /\
  items_ok true [book; ItEnum [] (lit "Route") [(lit "Book", TyItem [] (lit "Book"))]] = true /\
  items_ok true [book; ItEnum [] (lit "Route") [(lit "Book", TyItem [lit "a"; lit "b"] (lit "Book"))]] = false /\
  items_ok true [book; ItEnum [] (lit "Route") [(lit "Book", TyItem [lit "books"] (lit "Route"))]] = false /\
  items_ok true [book; ItEnum [] (lit "Route") [(lit "Book", TyUser (lit "Book"))]] = false.
Proof. repeat split; vm_compute; reflexivity. Qed.
