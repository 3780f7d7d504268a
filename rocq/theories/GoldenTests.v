(** * GoldenTests: the repository's own unit tests, evaluated in the model

    wayfinder-tests/src/lib.rs, wayfinder-tests/src/macros.rs, the tests of
    examples/cli and examples/structured, and the documentation of the crate.
    Like Golden.v, these are tests of the model, not proofs about it. *)
From Verif Require Import Base Core Nom Parse Trie Flat MiniRust Gen Macros Golden.

Definition eof (l : list string) : str := removelast (unlines l).
(** The tests put a text one level deep: two spaces in front of it and after
    every line break. *)
Definition deeper (s : str) : str := lit "  " ++ flat_map (fun c => if N.eqb c c_nl then c_nl :: lit "  " else [c]) s.
Definition both {A} (show : A -> str) (parse : parser A) (wrap : str -> str) (rest : str) (cases : list (A * str)) : Prop :=
  Forall (fun c => show (fst c) = snd c /\ parse (wrap (snd c)) = POk rest (fst c)) cases.
Ltac table := repeat constructor; vm_compute; reflexivity.

(** ** wayfinder-tests/src/lib.rs *)
Example test_method :
  both method_display method_p (fun s => s) [] [(Get, lit "GET"); (Post, lit "POST"); (Put, lit "PUT"); (Delete, lit "DELETE")].
Proof. table. Qed.
Definition param_cases : list (Param * str) :=
  [ (mkParam (lit "id") (lit "Uuid"), lit "id: Uuid"); (mkParam (lit "x") (lit "isize"), lit "x: isize");
    (mkParam (lit "name") (lit "String"), lit "name: String") ].
Example test_param : both param_display (param_p no_ualnum) (fun s => s) [] param_cases.
Proof. table. Qed.
Example test_path_segment_static :
  both segment_display (path_segment_p no_ualnum 1) (app (lit "  ")) []
    (map (fun s => (segment_from_str s, s)) [lit "people"; lit "accounts"; lit "posts"]).
Proof. table. Qed.
Example test_path_segment_dynamic :
  both segment_display (path_segment_p no_ualnum 1) (fun s => lit "  {" ++ s ++ lit "}") []
    (map (fun c => (segment_from_param (fst c), snd c)) param_cases).
Proof. table. Qed.
Example test_query_parameter_parse :
  Forall (fun c => query_parameter_p no_ualnum 1 (lit "  [" ++ snd c ++ lit "]") = POk [] (fst c)) param_cases.
Proof. table. Qed.
Definition resource_cases : list (Resource * str) :=
  [ (mkResource Get [lit "person"] (lit "show") false [], unlines ["GET person::show"]);
    (mkResource Get [lit "person"] (lit "show") true [], unlines ["GET -> person::show"]);
    (mkResource Get [lit "person"] (lit "show") false [mkParam (lit "id") (lit "usize")],
     unlines ["GET person::show"; "  [id: usize]"]);
    (mkResource Get [] (lit "index") false [], unlines ["GET index"]);
    (mkResource Get [lit "admin"; lit "person"] (lit "show") false [], unlines ["GET admin::person::show"]) ]%string.
Example test_resource : both (resource_stringify 0) (resource_p no_ualnum 1) deeper (lit "  ") resource_cases.
Proof. table. Qed.
Definition people (m : Method) (name : string) : Resource := mkResource m [lit "People"] (lit name) false [].
Definition update : Resource := mkResource Put [lit "People"] (lit "Update") false [mkParam (lit "name") (lit "String")].
Definition id : PathSegment := segment_from_param (mkParam (lit "id") (lit "Uuid")).
Definition leaf (rs : list Resource) : Routes := mkRoutes rs [] [].
Definition routes_cases : list (Routes * str) :=
  [ (leaf [people Get "Index"; people Post "New"], unlines ["GET People::Index"; "POST People::New"]);
    (mkRoutes [people Get "Index"] [] [mkParam (lit "lang") (lit "String")],
     unlines ["[lang: String]"; "GET People::Index"]);
    (mkRoutes [people Get "Index"] [(id, leaf [people Get "Show"])] [],
     unlines ["GET People::Index"; "{id: Uuid}"; "  GET People::Show"]) ]%string.
Example test_routes : both (routes_stringify 0) (routes_p no_ualnum 9 1) deeper (lit "  ") routes_cases.
Proof. table. Qed.
Definition nested_cases : list (NestedRoutes * str) :=
  [ ((Static (lit "people"), leaf [people Get "Index"]), unlines ["people"; "  GET People::Index"]);
    ((id, leaf [people Get "Show"; update]),
     unlines ["{id: Uuid}"; "  GET People::Show"; "  PUT People::Update"; "    [name: String]"]) ]%string.
Example test_nested_routes :
  both (nested_stringify 0) (nested_body_p no_ualnum (routes_p no_ualnum 9) 1) deeper (lit "  ") nested_cases.
Proof. table. Qed.
Definition config_cases : list (RouteConfig * str) :=
  [ (mkConfig [mkHeader (lit "use uuid::Uuid;")]
       (mkRoutes []
          [(Static (lit "people"), mkRoutes [people Get "Index"] [(id, leaf [people Get "Show"; update])] [])]
          [mkParam (lit "lang") (lit "String")]),
     unlines [ "use uuid::Uuid;"; ""; "/"; "  [lang: String]"; "  people"; "    GET People::Index"; "    {id: Uuid}";
               "      GET People::Show"; "      PUT People::Update"; "        [name: String]" ]);
    (mkConfig []
       (mkRoutes []
          [ (Static (lit "one"), leaf [mkResource Get [lit "One"] (lit "Show") false []; mkResource Post [lit "One"] (lit "Make") false []]);
            (Static (lit "two"), leaf [mkResource Get [lit "Two"] (lit "Show") false []; mkResource Post [lit "Two"] (lit "Make") false []]) ]
          []),
     unlines [ "/"; "  one"; "    GET One::Show"; "    POST One::Make"; "  two"; "    GET Two::Show"; "    POST Two::Make" ]) ]%string.
Example test_route_config : both config_stringify (route_config_p no_ualnum) (fun s => s) [] config_cases.
Proof. table. Qed.

(** ** wayfinder-tests/src/macros.rs *)
Notation i s := (TIdent (lit s)) (only parsing).
Example test_header_macro : header_macro (lit "use uuid::Uuid;") = mkHeader (lit "use uuid::Uuid;").
Proof. reflexivity. Qed.
Example test_param_macro : param_macro (lit "id") (lit "Uuid") = mkParam (lit "id") (lit "Uuid").
Proof. reflexivity. Qed.
Example test_get_macro :
  get_macro [i "User"; TColons; i "New"] = Some (ROk (mkResource Get [lit "User"] (lit "New") false [])) /\
  get_macro [TArrow; i "User"; TColons; i "New"] = Some (ROk (mkResource Get [lit "User"] (lit "New") true [])) /\
  get_macro [i "User"; TColons; i "New"; TComma; TExpr (param_macro (lit "name") (lit "String"))] =
    Some (ROk (mkResource Get [lit "User"] (lit "New") false [mkParam (lit "name") (lit "String")])) /\
  get_macro [i "Homepage"] = Some (ROk (mkResource Get [] (lit "Homepage") false [])) /\
  get_macro [i "admin"; TColons; i "users"; TColons; i "Create"] =
    Some (ROk (mkResource Get [lit "admin"; lit "users"] (lit "Create") false [])).
Proof. repeat split. Qed.
Example test_post_macro :
  post_macro [i "User"; TColons; i "New"] = Some (ROk (mkResource Post [lit "User"] (lit "New") false [])) /\
  post_macro [TArrow; i "User"; TColons; i "New"] = Some (ROk (mkResource Post [lit "User"] (lit "New") true [])) /\
  post_macro [i "User"; TColons; i "New"; TComma; TExpr (param_macro (lit "name") (lit "String"))] =
    Some (ROk (mkResource Post [lit "User"] (lit "New") false [mkParam (lit "name") (lit "String")])) /\
  post_macro [i "Homepage"] = Some (ROk (mkResource Post [] (lit "Homepage") false [])) /\
  post_macro [i "admin"; TColons; i "users"; TColons; i "Create"] =
    Some (ROk (mkResource Post [lit "admin"; lit "users"] (lit "Create") false [])).
Proof. repeat split. Qed.
Example test_put_macro :
  put_macro [i "User"; TColons; i "New"] = Some (ROk (mkResource Put [lit "User"] (lit "New") false [])) /\
  put_macro [TArrow; i "User"; TColons; i "New"] = Some (ROk (mkResource Put [lit "User"] (lit "New") true [])) /\
  put_macro [i "User"; TColons; i "New"; TComma; TExpr (param_macro (lit "name") (lit "String"))] =
    Some (ROk (mkResource Put [lit "User"] (lit "New") false [mkParam (lit "name") (lit "String")])) /\
  put_macro [i "Homepage"] = Some (ROk (mkResource Put [] (lit "Homepage") false [])) /\
  put_macro [i "admin"; TColons; i "users"; TColons; i "Create"] =
    Some (ROk (mkResource Put [lit "admin"; lit "users"] (lit "Create") false [])).
Proof. repeat split. Qed.
Example test_delete_macro :
  delete_macro [i "User"; TColons; i "New"] = Some (ROk (mkResource Delete [lit "User"] (lit "New") false [])) /\
  delete_macro [TArrow; i "User"; TColons; i "New"] = Some (ROk (mkResource Delete [lit "User"] (lit "New") true [])) /\
  delete_macro [i "User"; TColons; i "New"; TComma; TExpr (param_macro (lit "name") (lit "String"))] =
    Some (ROk (mkResource Delete [lit "User"] (lit "New") false [mkParam (lit "name") (lit "String")])) /\
  delete_macro [i "Homepage"] = Some (ROk (mkResource Delete [] (lit "Homepage") false [])) /\
  delete_macro [i "admin"; TColons; i "users"; TColons; i "Create"] =
    Some (ROk (mkResource Delete [lit "admin"; lit "users"] (lit "Create") false [])).
Proof. repeat split. Qed.

(** ** examples/cli/src/main.rs: the requests of its test, on example.routes *)
Definition uuid : bytes := lit "12345678901234567890123456789012".
(** [FromStr for Uuid]: here, 32 hexadecimal digits. *)
Definition test_rt : runtime bytes unit :=
  {| rt_parse := fun t s =>
        if str_eqb t (lit "Uuid") then
          if (length s =? 32)%nat && forallb (fun c => is_digit c || (97 <=? c)%N && (c <=? 102)%N) s then inl s else inr tt
        else inl s;
     rt_usize := fun _ => 0 |}.
Definition parsed (l : list string) : RouteConfig :=
  match route_config_p no_ualnum (unlines l) with POk [] c => c | _ => mkConfig [] (leaf []) end.
(** example.routes of the repository, which differs from that of the test
    cases in one action. *)
Definition cli_routes : list string :=
  map (fun l => if String.eqb l "      PUT Books::update" then "      PUT Books::Update"%string else l) example_routes.
Definition cli_cases : list (string * Method * match_result bytes unit) :=
  [
    ("", Get, MNotFound);
    ("/", Get, MNotFound);
    ("/user", Get, MNotFound);
    ("/users", Get, MRedirect (mkRoute [lit "People"] (lit "Index") [(lit "lang", FvNone)]));
    ("/users/", Get, MRedirect (mkRoute [lit "People"] (lit "Index") [(lit "lang", FvNone)]));
    ("/people", Get, MRoute (mkRoute [lit "People"] (lit "Index") [(lit "lang", FvNone)]));
    ("/people/", Get, MRoute (mkRoute [lit "People"] (lit "Index") [(lit "lang", FvNone)]));
    ("/people", Post, MRoute (mkRoute [lit "People"] (lit "Create") [(lit "lang", FvNone)]));
    ("/people/", Post, MRoute (mkRoute [lit "People"] (lit "Create") [(lit "lang", FvNone)]));
    ("/people/new", Get, MRoute (mkRoute [lit "People"] (lit "New") [(lit "lang", FvNone)]));
    ("/people/new/", Get, MRoute (mkRoute [lit "People"] (lit "New") [(lit "lang", FvNone)]));
    ("/people/12345678901234567890123456789012", Get, MRoute (mkRoute [lit "People"] (lit "Show") [(lit "id", FvVal (lit "Uuid") uuid); (lit "lang", FvNone)]));
    ("/people/12345678901234567890123456789012/", Get, MRoute (mkRoute [lit "People"] (lit "Show") [(lit "id", FvVal (lit "Uuid") uuid); (lit "lang", FvNone)]));
    ("/people/12345678901234567890123456789012", Put, MRoute (mkRoute [lit "People"] (lit "Update") [(lit "id", FvVal (lit "Uuid") uuid); (lit "lang", FvNone); (lit "name", FvNone)]));
    ("/people/12345678901234567890123456789012/", Put, MRoute (mkRoute [lit "People"] (lit "Update") [(lit "id", FvVal (lit "Uuid") uuid); (lit "lang", FvNone); (lit "name", FvNone)]));
    ("/people/12345678901234567890123456789012", Delete, MRoute (mkRoute [lit "People"] (lit "Destroy") [(lit "id", FvVal (lit "Uuid") uuid); (lit "lang", FvNone)]));
    ("/people/12345678901234567890123456789012/", Delete, MRoute (mkRoute [lit "People"] (lit "Destroy") [(lit "id", FvVal (lit "Uuid") uuid); (lit "lang", FvNone)]));
    ("/people/12345678901234567890123456789012/edi", Get, MNotFound);
    ("/people/12345678901234567890123456789012/edit", Get, MRoute (mkRoute [lit "People"] (lit "Edit") [(lit "id", FvVal (lit "Uuid") uuid); (lit "lang", FvNone)]));
    ("/people/12345678901234567890123456789012/edit/", Get, MRoute (mkRoute [lit "People"] (lit "Edit") [(lit "id", FvVal (lit "Uuid") uuid); (lit "lang", FvNone)]));
    ("/books", Get, MRoute (mkRoute [lit "Books"] (lit "Index") [(lit "lang", FvNone)]));
    ("/books/", Get, MRoute (mkRoute [lit "Books"] (lit "Index") [(lit "lang", FvNone)]));
    ("/books", Post, MRoute (mkRoute [lit "Books"] (lit "Create") [(lit "lang", FvNone)]));
    ("/books/", Post, MRoute (mkRoute [lit "Books"] (lit "Create") [(lit "lang", FvNone)]));
    ("/books/new", Get, MRoute (mkRoute [lit "Books"] (lit "New") [(lit "lang", FvNone)]));
    ("/books/new/", Get, MRoute (mkRoute [lit "Books"] (lit "New") [(lit "lang", FvNone)]));
    ("/books/12345678901234567890123456789012", Get, MRoute (mkRoute [lit "Books"] (lit "Show") [(lit "id", FvVal (lit "Uuid") uuid); (lit "lang", FvNone)]));
    ("/books/12345678901234567890123456789012/", Get, MRoute (mkRoute [lit "Books"] (lit "Show") [(lit "id", FvVal (lit "Uuid") uuid); (lit "lang", FvNone)]));
    ("/books/12345678901234567890123456789012", Put, MRoute (mkRoute [lit "Books"] (lit "Update") [(lit "id", FvVal (lit "Uuid") uuid); (lit "lang", FvNone)]));
    ("/books/12345678901234567890123456789012/", Put, MRoute (mkRoute [lit "Books"] (lit "Update") [(lit "id", FvVal (lit "Uuid") uuid); (lit "lang", FvNone)]));
    ("/books/12345678901234567890123456789012", Delete, MRoute (mkRoute [lit "Books"] (lit "Destroy") [(lit "id", FvVal (lit "Uuid") uuid); (lit "lang", FvNone)]));
    ("/books/12345678901234567890123456789012/", Delete, MRoute (mkRoute [lit "Books"] (lit "Destroy") [(lit "id", FvVal (lit "Uuid") uuid); (lit "lang", FvNone)]));
    ("/books/12345678901234567890123456789012/edit", Get, MRoute (mkRoute [lit "Books"] (lit "Edit") [(lit "id", FvVal (lit "Uuid") uuid); (lit "lang", FvNone)]));
    ("/books/12345678901234567890123456789012/edit/", Get, MRoute (mkRoute [lit "Books"] (lit "Edit") [(lit "id", FvVal (lit "Uuid") uuid); (lit "lang", FvNone)]));
    ("/people/12345678901234567890123456789012", Post, MNotAllowed)
  ]%string.
Example test_cli :
  compiles (parsed cli_routes) = true /\
  Forall (fun c : string * Method * match_result bytes unit =>
            let '(path, method, expected) := c in
            match_route test_rt (parsed cli_routes) (lit path) (method_display method) =
            Some (RunResult expected)) cli_cases.
Proof. split; [vm_compute; reflexivity|]. repeat constructor; vm_compute; reflexivity. Qed.

(** ** examples/structured: routes built with the macros and mounted *)
Definition made (r : option (res Resource)) : Resource :=
  match r with Some (ROk r) => r | _ => mkResource Get [] [] false [] end.
Definition verb (macro : list token -> option (res Resource)) (controller action : string) : Resource :=
  made (macro [TIdent (lit controller); TColons; TIdent (lit action)]).
Definition base : RouteConfig :=
  mkConfig []
    (mkRoutes []
       [ nested_new (segment_from_str (lit "users")) (leaf [made (get_macro [TArrow; i "People"; TColons; i "New"])]) ]
       [param_macro (lit "lang") (lit "String")]).
Definition controller (name : string) (update_params : list token) : RouteConfig :=
  mkConfig [header_macro (lit "use uuid::Uuid;")]
    (mkRoutes [verb get_macro name "Index"; verb post_macro name "Create"]
       [ nested_new (segment_from_str (lit "new")) (leaf [verb get_macro name "New"]);
         nested_new (segment_from_param (param_macro (lit "id") (lit "Uuid")))
           (mkRoutes [ verb get_macro name "Show";
                       made (put_macro ([TIdent (lit name); TColons; i "Update"] ++ update_params));
                       verb delete_macro name "Destroy" ]
              [ nested_new (segment_from_str (lit "edit")) (leaf [verb get_macro name "Edit"]) ] []) ] []).
Definition structured : RouteConfig :=
  mount (mount base (lit "people") (controller "People" [TComma; TExpr (param_macro (lit "name") (lit "String"))]))
    (lit "books") (controller "Books" []).
Example test_structured :
  compiles structured = true /\
  map (fun pm : string * string => match_route test_rt structured (lit (fst pm)) (lit (snd pm)))
    [ ("/people", "GET"); ("/people/12345678901234567890123456789012", "DELETE");
      ("/people/12345678901234567890123456789012", "POST") ]%string =
  [ Some (RunResult (MRoute (mkRoute [lit "People"] (lit "Index") [(lit "lang", FvNone)])));
    Some (RunResult (MRoute (mkRoute [lit "People"] (lit "Destroy") [(lit "id", FvVal (lit "Uuid") uuid); (lit "lang", FvNone)])));
    Some (RunResult MNotAllowed) ].
Proof. split; vm_compute; reflexivity. Qed.

(** ** wayfinder/src/lib.rs: the equivalent code, with the type in the file
    written as in the code *)
Example doc_equivalent :
  parsed
    [ "use uuid::Uuid;"; ""; "/"; "  GET Index"; ""; "  users"; "    GET Users::List"; "    POST Users::Create"; "";
      "    {id: Uuid}"; "      GET Users::Show" ]%string =
  mkConfig [header_macro (lit "use uuid::Uuid;")]
    (mkRoutes [made (get_macro [i "Index"])]
       [ nested_new (segment_from_str (lit "users"))
           (mkRoutes [verb get_macro "Users" "List"; verb post_macro "Users" "Create"]
              [ nested_new (segment_from_param (param_macro (lit "id") (lit "Uuid"))) (leaf [verb get_macro "Users" "Show"]) ]
              []) ]
       []).
Proof. vm_compute. reflexivity. Qed.
