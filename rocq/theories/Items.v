(** * Items: the generated module as Rust items

    [codegen_module] of Gen.v prints structs, [impl] blocks, modules and enums.
    Here are these items as data, with a printer, the rules by which rustc
    accepts them, and what their [to_path] methods compute.  None of the three
    knows about routes; [module_items] at the end says which items the generator
    prints, and ItemFacts.v proves it. *)
From Verif Require Import Base Core Trie Flat MiniRust Gen.

(** ** Syntax *)

(** A type written in the configuration, [Option] of one, or an item, by its
    path from the module. *)
Inductive ty :=
| TyUser (t : str)
| TyOption (t : str)
| TyItem (path : list str) (name : str).

Inductive item :=
| ItLine (text : str)                                      (* copied from the configuration *)
| ItBlank
| ItStruct (doc name : str) (fields : list (str * ty))
| ItStructPath (name : str) (binds : list str) (template : str) (args : list str)
    (* impl name { pub fn to_path(&self) -> String {
         let name { ref binds.. } = self; format!(template, args..) } } *)
| ItMod (name : str) (items : list item)
| ItEnum (doc name : str) (variants : list (str * ty))     (* variants with one field *)
| ItEnumPath (name : str) (arms : list str).
    (* impl name { pub fn to_path(&self) -> String {
         match self { name::arm(ref route) => route.to_path(), .. } } } *)

(** ** Printing *)

Definition pr_ty (t : ty) : str :=
  match t with
  | TyUser t => t
  | TyOption t => lit "Option<" ++ t ++ lit ">"
  | TyItem path name => flat_map (fun m => m ++ lit "::") path ++ name
  end.
Definition derive : str := lit "#[derive(Debug, PartialEq, Eq)]".
(** The lines of [impl name], at an indentation. *)
Definition pr_impl (ind name : str) (body : list str) : list str :=
  [ ind ++ lit "impl " ++ name ++ lit " {";
    ind ++ lit "    /// Make a path to this route with the given parameters.";
    ind ++ lit "    pub fn to_path(&self) -> String {" ]
  ++ map (fun l => ind ++ lit "        " ++ l) body
  ++ [ ind ++ lit "    }"; ind ++ lit "}" ].
Fixpoint pr_item (ind : str) (it : item) {struct it} : list str :=
  match it with
  | ItLine text => [ind ++ text]
  | ItBlank => [[]]
  | ItStruct doc name fields =>
      [ ind ++ lit "/// " ++ doc; ind ++ derive ]
      ++ match fields with
         | [] => [ ind ++ lit "pub struct " ++ name ++ lit ";" ]
         | _ => [ ind ++ lit "pub struct " ++ name ++ lit " {" ]
                ++ map (fun f => ind ++ lit "    pub " ++ fst f ++ lit ": " ++ pr_ty (snd f) ++ lit ",") fields
                ++ [ ind ++ lit "}" ]
         end
  | ItStructPath name binds template args =>
      pr_impl ind name
        (match binds with
         | [] => []
         | _ => [ lit "let " ++ name ++ lit " { " ++ flat_map (fun b => lit "ref " ++ b ++ lit ", ") binds
                  ++ lit "} = self;" ]
         end
         ++ [ lit "format!(" ++ [c_quote] ++ template ++ [c_quote] ++ flat_map (fun a => lit ", " ++ a) args
              ++ lit ")" ])
  | ItMod name items =>
      [ ind ++ lit "pub mod " ++ name ++ lit " {" ]
      ++ flat_map (pr_item (ind ++ lit "    ")) items
      ++ [ ind ++ lit "}" ]
  | ItEnum doc name variants =>
      [ ind ++ lit "/// " ++ doc; ind ++ derive; ind ++ lit "pub enum " ++ name ++ lit " {" ]
      ++ map (fun v => ind ++ lit "    " ++ fst v ++ lit "(" ++ pr_ty (snd v) ++ lit "),") variants
      ++ [ ind ++ lit "}" ]
  | ItEnumPath name arms =>
      pr_impl ind name
        ([ lit "match self {" ]
         ++ map (fun a => lit "    " ++ name ++ lit "::" ++ a ++ lit "(ref route) => route.to_path(),") arms
         ++ [ lit "}" ])
  end.
Definition pr_items (ind : str) (items : list item) : str :=
  concat (map (fun l => l ++ nl) (flat_map (pr_item ind) items)).

(** ** What a module declares *)

Definition structs_of (items : list item) : list (str * list (str * ty)) :=
  flat_map (fun it => match it with ItStruct _ n fs => [(n, fs)] | _ => [] end) items.
Definition struct_paths_of (items : list item) : list (str * (list str * str * list str)) :=
  flat_map (fun it => match it with ItStructPath n b t a => [(n, (b, t, a))] | _ => [] end) items.
Definition mods_of (items : list item) : list (str * list item) :=
  flat_map (fun it => match it with ItMod n l => [(n, l)] | _ => [] end) items.
Definition enums_of (items : list item) : list (str * list (str * ty)) :=
  flat_map (fun it => match it with ItEnum _ n vs => [(n, vs)] | _ => [] end) items.
Definition enum_paths_of (items : list item) : list (str * list str) :=
  flat_map (fun it => match it with ItEnumPath n a => [(n, a)] | _ => [] end) items.
Definition types_of (items : list item) : list str :=
  map fst (structs_of items) ++ map fst (enums_of items) ++ map fst (mods_of items).
Definition units_of (items : list item) : list str :=
  map fst (filter (fun s : str * list (str * ty) => match snd s with [] => true | _ => false end)
                  (structs_of items)).

(** The declared structs with their module paths. *)
Definition field_of (f : str * ty) : field_decl :=
  match snd f with
  | TyUser t => mkField (fst f) t false
  | TyOption t => mkField (fst f) t true
  | TyItem _ n => mkField (fst f) n false
  end.
Fixpoint item_structs (path : list str) (it : item) {struct it} : list (list str * str * list field_decl) :=
  match it with
  | ItStruct _ n fs => [(path, n, map field_of fs)]
  | ItMod n l => flat_map (item_structs (path ++ [n])) l
  | _ => []
  end.
Definition items_structs (items : list item) : list (list str * str * list field_decl) :=
  flat_map (item_structs []) items.

(** The same for the check of [match_route], with the variants of [Route] that
    hold the [Route] of each module on the way. *)
Definition holders (items : list item) (m : str) : list str :=
  match lookup (lit "Route") (enums_of items) with
  | Some vs =>
      flat_map (fun v : str * ty =>
                  match snd v with
                  | TyItem [k] n => if str_eqb k m && str_eqb n (lit "Route") then [fst v] else []
                  | _ => []
                  end) vs
  | None => []
  end.
Fixpoint item_env (holder : str -> list str) (path : list (str * str)) (it : item) {struct it} : struct_env :=
  match it with
  | ItStruct _ n fs => [(path, n, map field_of fs)]
  | ItMod n l => flat_map (fun v => flat_map (item_env (holders l) (path ++ [(n, v)])) l) (holder n)
  | _ => []
  end.
Definition items_env (items : list item) : struct_env := flat_map (item_env (holders items) []) items.

(** ** Acceptance *)

Definition mem (x : str) (l : list str) : bool := existsb (str_eqb x) l.
Definition subset (l l' : list str) : bool := forallb (fun x => mem x l') l.

(** A [format!] string without escapes and with positional holes only: the
    number of holes.  [None]: something else, which may or may not be accepted
    by rustc. *)
Fixpoint holes (template : str) : option nat :=
  match template with
  | [] => Some 0
  | c :: t =>
      if N.eqb c c_lbrace then
        match t with
        | d :: t' => if N.eqb d c_rbrace then option_map S (holes t') else None
        | [] => None
        end
      else if format_char c then holes t else None
  end.
(** One line of a doc comment. *)
Definition doc_line (s : str) : bool := forallb (fun c => negb (N.eqb c c_nl) && negb (N.eqb c c_cr)) s.

(** Names of the prelude that an item mentions. *)
Definition mentions (it : item) : list str :=
  match it with
  | ItStruct _ _ fs => flat_map (fun f : str * ty => match snd f with TyOption _ => [lit "Option"] | _ => [] end) fs
  | ItStructPath _ _ _ _ | ItEnumPath _ _ => [lit "String"]
  | _ => []
  end.
(** The fixed code of the root module (gen/gen.rs:319-454, the model's
    [boilerplate]): the types it declares, those it mentions. *)
Definition fixed_types : list str := [lit "Match"; lit "Error"; lit "fmt"].
Definition fixed_mentions : list str := [lit "std"; lit "Box"; lit "AsRef"; lit "Result"; lit "String"].

(** The type of a variant's field: a struct of the module or an enum of a module
    in it. *)
Definition payload_ok (decls : list item -> list str) (mdecls : list item -> list str) (items : list item) (t : ty)
    : bool :=
  match t with
  | TyItem [] n => mem n (decls items)
  | TyItem [m] n =>
      match lookup m (mods_of items) with
      | Some l => mem n (mdecls l)
      | None => false
      end
  | _ => false
  end.
Definition declared (items : list item) (t : ty) : bool :=
  payload_ok (fun l => map fst (structs_of l)) (fun l => map fst (enums_of l)) items t.
Definition has_to_path (items : list item) (t : ty) : bool :=
  payload_ok (fun l => map fst (struct_paths_of l)) (fun l => map fst (enum_paths_of l)) items t.

Definition names_ok (l : list str) : bool := forallb is_ident l && nodup_strs l.
(** An item next to [items]. *)
Definition beside_ok (items : list item) (it : item) : bool :=
  match it with
  | ItLine _ | ItBlank | ItMod _ _ => true
  | ItStruct doc _ fs => doc_line doc && names_ok (map fst fs)
  | ItStructPath n binds template args =>
      match lookup n (structs_of items) with
      | None => false
      | Some fs =>
          (* the pattern names every field once, none of them a constructor *)
          nodup_strs binds && subset binds (map fst fs) && subset (map fst fs) binds
          && forallb (fun b => negb (mem b (units_of items)) && negb (prelude_ctor b)) binds
          (* one argument per hole, each bound and with a [Display] *)
          && match holes template with Some k => (k =? length args)%nat | None => false end
          && forallb (fun a => mem a binds && match lookup a fs with Some (TyUser _) => true | _ => false end) args
      end
  | ItEnum doc _ vs =>
      doc_line doc && names_ok (map fst vs) && forallb (fun v => declared items (snd v)) vs
  | ItEnumPath n arms =>
      match lookup n (enums_of items) with
      | None => false
      | Some vs =>
          (* every variant once, and at least one: [match self {}] on a
             reference is rejected *)
          match arms with [] => false | _ => true end
          && nodup_strs arms && subset arms (map fst vs) && subset (map fst vs) arms
          && forallb (fun v => has_to_path items (snd v)) vs
          && negb (mem (lit "route") (units_of items))
      end
  end.
(** One module, without the modules in it. *)
Definition scope_ok (root : bool) (items : list item) : bool :=
  let types := types_of items in
  forallb is_ident types
  && nodup_strs (types ++ (if root then fixed_types else []))
  && forallb (fun x => negb (mem x types)) (flat_map mentions items ++ (if root then fixed_mentions else []))
  && (if root then negb (mem (lit "Ok") (units_of items)) else true)
  && forallb (beside_ok items) items.
Fixpoint item_ok (it : item) : bool :=
  match it with
  | ItMod _ l => scope_ok false l && forallb item_ok l
  | _ => true
  end.
Definition items_ok (root : bool) (items : list item) : bool := scope_ok root items && forallb item_ok items.

(** ** [format!]

    [{}] takes the next argument; doubled braces stand for themselves; anything
    else with a brace, too few or too many arguments are rejected by rustc.  A
    [String] is its UTF-8 bytes. *)
Fixpoint format (template : str) (args : list bytes) : option bytes :=
  match template with
  | [] => match args with [] => Some [] | _ => None end
  | c :: t =>
      if N.eqb c c_lbrace then
        match t with
        | d :: t' =>
            if N.eqb d c_rbrace then
              match args with
              | x :: args' => option_map (app x) (format t' args')
              | [] => None
              end
            else if N.eqb d c_lbrace then option_map (cons c_lbrace) (format t' args)
            else None
        | [] => None
        end
      else if N.eqb c c_rbrace then
        match t with
        | d :: t' => if N.eqb d c_rbrace then option_map (cons c_rbrace) (format t' args) else None
        | [] => None
        end
      else option_map (app (utf8_char c)) (format t args)
  end.

(** ** Running [to_path] *)
Section Run.
Context {T : Type}.
(** [Display] of the type with the given name. *)
Variable show : str -> T -> bytes.

(** The value of a field: of a path parameter, or of a query parameter. *)
Inductive field_value := Given (v : T) | Query (o : option T).
Definition fields := list (str * field_value).

(** The variables bound by the pattern, with their types and values; an argument
    of [format!] must be one of them, and [Option] has no [Display]. *)
Fixpoint arguments (decl : list (str * ty)) (fs : fields) (binds args : list str) : option (list bytes) :=
  match args with
  | [] => Some []
  | a :: args' =>
      if mem a binds then
        match lookup a decl, lookup a fs, arguments decl fs binds args' with
        | Some (TyUser t), Some (Given v), Some l => Some (show t v :: l)
        | _, _, _ => None
        end
      else None
  end.
Definition run_struct (items : list item) (name : str) (fs : fields) : option bytes :=
  match lookup name (structs_of items), lookup name (struct_paths_of items) with
  | Some decl, Some (binds, template, args) =>
      match arguments decl fs binds args with
      | Some l => format template l
      | None => None
      end
  | _, _ => None
  end.
(** A value of the enum [enum] of the module [items]: the variants [vs],
    outermost first, around a struct with fields [fs]. *)
Fixpoint run_enum (items : list item) (enum : str) (vs : list str) (fs : fields) : option bytes :=
  match vs with
  | [] => None
  | v :: vs' =>
      match lookup enum (enums_of items), lookup enum (enum_paths_of items) with
      | Some variants, Some arms =>
          if mem v arms then
            match lookup v variants with
            | Some (TyItem [] n) => match vs' with [] => run_struct items n fs | _ => None end
            | Some (TyItem [m] n) =>
                match lookup m (mods_of items) with
                | Some l => run_enum l n vs' fs
                | None => None
                end
            | _ => None
            end
          else None
      | _, _ => None
      end
  end.
End Run.
Arguments field_value T : clear implicits.
Arguments fields T : clear implicits.

(** ** The items of a generated module *)

(** gen/gen.rs:79-126: the struct of an action. *)
Definition path_text (dyn : str -> str) (p : FlattenedPath) : str :=
  match p with
  | [] => []
  | s :: p' =>
      let text s := match s with Static t => t | Dynamic d => dyn (p_name d) end in
      text s ++ flat_map (fun s => lit "/" ++ text s) p'
  end.
Definition action_doc (a : FlattenedAction) : str :=
  lit "Renders for `" ++ method_display (a_method a) ++ lit " /"
  ++ path_text (fun p => lit "{" ++ p ++ lit "}") (a_path a) ++ lit "`.".
Definition action_names (a : FlattenedAction) : list str :=
  map p_name (a_route_params a) ++ map p_name (a_query_params a).
Definition action_items (a : FlattenedAction) : list item :=
  [ ItStruct (action_doc a) (to_caps_case (a_name a))
      (map (fun p => (p_name p, TyUser (p_typ p))) (a_route_params a)
       ++ map (fun p => (p_name p, TyOption (p_typ p))) (a_query_params a));
    ItBlank;
    (* gen/gen.rs:130-191 *)
    ItStructPath (to_caps_case (a_name a)) (action_names a)
      (lit "/" ++ path_text (fun _ => lit "{}") (a_path a))
      (map p_name (a_route_params a));
    ItBlank ].
(** gen/gen.rs:203-273: the [Route] enum. *)
Definition enum_doc (root : bool) (name : str) : str :=
  if root then lit "An active route in the application -- match against this."
  else lit "Parameters for requests to the " ++ to_snake_case name ++ lit " controller.".
Definition enum_items (root : bool) (m : FlattenedModule) : list item :=
  [ ItEnum (enum_doc root (m_name m)) (lit "Route")
      (map (fun a => (to_caps_case (a_name a), TyItem [] (to_caps_case (a_name a)))) (m_actions m)
       ++ map (fun s => (to_caps_case (m_name s), TyItem [to_snake_case (m_name s)] (lit "Route"))) (m_modules m));
    ItBlank;
    ItEnumPath (lit "Route")
      (map (fun a => to_caps_case (a_name a)) (m_actions m) ++ map (fun s => to_caps_case (m_name s)) (m_modules m)) ].
(** gen/gen.rs:58-276. *)
Definition header_items (headers : list Header) : list item :=
  map (fun h => ItLine (h_text h)) headers ++ match headers with [] => [] | _ => [ItBlank] end.
Fixpoint module_items (root : bool) (headers : list Header) (m : FlattenedModule) {struct m} : list item :=
  match m with
  | mkModule name actions modules =>
      header_items headers
      ++ flat_map action_items actions
      ++ flat_map (fun s => [ItMod (to_snake_case (m_name s)) (module_items false headers s); ItBlank]) modules
      ++ enum_items root m
  end.
