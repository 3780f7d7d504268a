(** * Cli: printing what [match_route] returns, and examples/cli/src/main.rs:1-23
    (the program of examples/structured/src/main.rs:1-23 is the same)

    The [Debug] and [Display] implementations of the generated module
    (wayfinder/src/gen/gen.rs:106, 217, 319-395), and the example program that
    matches its argument.  What the derived and the standard library's
    implementations print is from the documentation of [std::fmt]. *)
From Verif Require Import Base Core Flat MiniRust Gen Items ToPath Build.

Section Debug.
Context {T E : Type}.
(** [Debug] of the type with the given name, and of the errors of [FromStr]. *)
Variable debug : str -> T -> bytes.
Variable debug_error : E -> bytes.

(** A field of a generated struct: a value, or an [Option]. *)
Definition debug_field (t : ty) (v : field_value T) : option bytes :=
  match t, v with
  | TyUser t, Given v => Some (debug t v)
  | TyOption _, Query None => Some (lit "None")
  | TyOption t, Query (Some v) => Some (lit "Some(" ++ debug t v ++ lit ")")
  | _, _ => None
  end.
(** [derive(Debug)] of a struct: the fields in the order of the declaration. *)
Fixpoint debug_fields (first : bool) (decl : list (str * ty)) (fs : fields T) : option bytes :=
  match decl with
  | [] => Some (if first then [] else lit " }")
  | (x, t) :: decl' =>
      match lookup x fs with
      | Some v =>
          match debug_field t v, debug_fields false decl' fs with
          | Some s, Some rest => Some ((if first then lit " { " else lit ", ") ++ utf8 x ++ lit ": " ++ s ++ rest)
          | _, _ => None
          end
      | None => None
      end
  end.
Definition debug_struct (items : list item) (name : str) (fs : fields T) : option bytes :=
  match lookup name (structs_of items) with
  | Some decl => option_map (app (utf8 name)) (debug_fields true decl fs)
  | None => None
  end.
(** [derive(Debug)] of the enum [enum] of the module [items]; values as for [run_enum]. *)
Fixpoint debug_enum (items : list item) (enum : str) (vs : list str) (fs : fields T) : option bytes :=
  match vs with
  | [] => None
  | v :: vs' =>
      match lookup enum (enums_of items) with
      | Some variants =>
          option_map (fun s => utf8 v ++ lit "(" ++ s ++ lit ")")
            match lookup v variants with
            | Some (TyItem [] n) => match vs' with [] => debug_struct items n fs | _ => None end
            | Some (TyItem [m] n) =>
                match lookup m (mods_of items) with
                | Some l => debug_enum l n vs' fs
                | None => None
                end
            | _ => None
            end
      | None => None
      end
  end.
(** [Debug] of a [Route]. *)
Definition debug_route (c : RouteConfig) (mods : list str) (name : str) (fs : fields T) : option bytes :=
  match flattened_modules (c_routes c) with
  | ROk root =>
      if compiles c then debug_enum (module_items true (c_headers c) root) (lit "Route") (mods ++ [name]) fs else None
  | _ => None
  end.

(** [Debug] of a [String]; other characters that it escapes are in no identifier. *)
Definition debug_string (s : str) : bytes :=
  quoted (flat_map (fun c => if N.eqb c c_quote || N.eqb c 92%N then [92%N; c] else utf8_char c) s).
(** gen/gen.rs:359-369 and 371-386. *)
Definition error_debug (param : str) (e : E) : bytes :=
  lit "wayfinder::Error { param: " ++ debug_string param ++ lit ", what: " ++ debug_error e ++ lit " }".
Definition error_display (param : str) (e : E) : bytes :=
  lit "Error parsing '" ++ utf8 param ++ lit "' parameter " ++ debug_error e.

(** A matched route as a value of its struct.  [of_usize] is a [usize] as a value
    (a parameter that captures one of the matcher's variables). *)
Variable of_usize : nat -> T.
Definition as_fields (v : route_value T) : fields T :=
  map (fun xv => (fst xv, match snd xv with
                          | FvVal _ v => Given v
                          | FvUsize n => Given (of_usize n)
                          | FvNone => Query None
                          end)) (rv_fields v).
(** gen/gen.rs:328-350. *)
Definition result_debug (c : RouteConfig) (m : match_result T E) : option bytes :=
  let route v := debug_route c (rv_modules v) (rv_name v) (as_fields v) in
  match m with
  | MNotFound => Some (lit "Ok(Match::NotFound)")
  | MNotAllowed => Some (lit "Ok(Match::NotAllowed)")
  | MRoute v => option_map (fun s => lit "Ok(Match::Route(" ++ s ++ lit "))") (route v)
  | MRedirect v => option_map (fun s => lit "Ok(Match::Redirect(" ++ s ++ lit "))") (route v)
  | MError x e => Some (lit "Err(" ++ error_debug x e ++ lit ")")
  end.

(** examples/cli/src/main.rs:15-21. *)
Variable show : str -> T -> bytes.
Definition cli_line (c : RouteConfig) (m : match_result T E) : option bytes :=
  let path v := to_path show c (rv_modules v) (rv_name v) (as_fields v) in
  match m with
  | MError x e => Some (lit "Error: " ++ error_display x e)
  | MNotFound => Some (lit "No matching route.")
  | MNotAllowed => Some (lit "Route does not support method.")
  | MRoute v => option_map (app (lit "Route to ")) (path v)
  | MRedirect v => option_map (app (lit "Redirect to ")) (path v)
  end.
(** examples/cli/src/main.rs:5-22, for the routes [c]; the arguments as the
    operating system gives them ([std::env::args] panics if one is not Unicode).
    [None]: the program does not compile. *)
Variable rt : runtime T E.
Definition cli_main (c : RouteConfig) (args : list bytes) : option (run unit) :=
  if compiles c then
    if forallb utf8_valid args then
      match args with
      | [] => Some ([], Panicked PanicSlice)
      | [name] => Some (emit (Stderr (lit "Usage: " ++ name ++ lit " ROUTE_TO_TEST" ++ [c_nl])))
      | _ :: path :: _ =>
          match match_route rt c path (lit "GET") with
          | Some (RunResult m) =>
              match result_debug c m, cli_line c m with
              | Some d, Some l =>
                  Some (let! _u := emit (Stdout (lit "Parsed: " ++ d ++ [c_nl])) in emit (Stdout (l ++ [c_nl])))
              | _, _ => None
              end
          | Some RunPanic => Some ([], Panicked PanicSlice)
          | None => None
          end
      end
    else Some ([], Panicked PanicUnwrapNone)
  else None.
End Debug.
