(** * Gen: model of wayfinder/src/gen/gen.rs *)
From Verif Require Import Base Core Trie Flat MiniRust.

(** gen/gen.rs:10-32, [to_caps_case].  [caps_loop]'s list is the current
    character [ch] followed by the rest of the iterator [chars]. *)
Fixpoint caps_loop (l : str) : str :=
  match l with
  | [] => []
  | c :: l' =>
      if N.eqb c c_under then
        match l' with
        | [] => []
        | c2 :: l'' => to_upper c2 :: caps_loop l''
        end
      else c :: caps_loop l'
  end.
Definition to_caps_case (s : str) : str :=
  match s with
  | [] => []
  | c :: s' => caps_loop (to_upper c :: s')
  end.

(** gen/gen.rs:34-56, [to_snake_case]. *)
Fixpoint snake_loop (l : str) : str :=
  match l with
  | [] => []
  | c :: l' =>
      if is_upper c then c_under :: to_lower c :: snake_loop l' else c :: snake_loop l'
  end.
Definition to_snake_case (s : str) : str :=
  match s with
  | [] => []
  | c :: s' => snake_loop (to_lower c :: s')
  end.

(** ** Writing

    A run of the generator against a writer that accepts everything: the
    chunks handed to the writer, one per [write!]/[writeln!], and the final
    status.  A run against any other writer is a function of it ([run_on]). *)
Definition W := (list str * res unit)%type.
Definition w_ok : W := ([], ROk tt).
Definition w_fail (r : res unit) : W := ([], r).
Definition w (s : str) : W := ([s], ROk tt).
Definition wl (s : str) : W := ([s ++ nl], ROk tt).
Definition w_seq (a b : W) : W :=
  match a with
  | (l, ROk _) => let (l', r) := b in (l ++ l', r)
  | _ => a
  end.
Infix ">>" := w_seq (at level 61, right associativity).
Fixpoint w_all (l : list W) : W :=
  match l with
  | [] => w_ok
  | a :: l' => a >> w_all l'
  end.
(** The whole text. *)
Definition w_text (a : W) : str := concat (fst a).

(** An arbitrary writer: a state and, for each chunk, either the next state or
    an error together with how many characters were taken before failing.
    [run_on] gives the text that reached the writer and the final status. *)
Record Writer := mkWriter {
  wr_state : Type;
  wr_init : wr_state;
  wr_write : wr_state -> str -> wr_state + nat
}.
Fixpoint run_chunks (wr : Writer) (st : wr_state wr) (l : list str) : str * bool :=
  match l with
  | [] => ([], true)
  | s :: l' =>
      match wr_write wr st s with
      | inl st' => let (t, ok) := run_chunks wr st' l' in (s ++ t, ok)
      | inr n => (firstn n s, false)
      end
  end.
Definition run_on (wr : Writer) (a : W) : str * res unit :=
  let (t, ok) := run_chunks wr (wr_init wr) (fst a) in
  (t, if ok then snd a else RErr WriterError).

(** ** codegen_module *)

(** gen/gen.rs:82-102 and 159-179: the two loops over the characters of an
    action's path; [dyn] prints a dynamic segment.  A final separator is not
    printed. *)
Fixpoint write_path (dyn : str -> str) (l : list Charlike) : W :=
  match l with
  | [] => w_ok
  | CStatic c :: l' => w [c] >> write_path dyn l'
  | CDynamic p :: l' => w (dyn p) >> write_path dyn l'
  | CSeparator :: l' =>
      match l' with
      | [] => write_path dyn l'
      | _ => w (lit "/") >> write_path dyn l'
      end
  end.

(** gen/gen.rs:79-192: one action: struct and [to_path]. *)
Definition write_action (ind : str) (a : FlattenedAction) : W :=
  let has_params :=
    match a_route_params a, a_query_params a with [], [] => false | _, _ => true end in
  w (ind ++ lit "/// Renders for `" ++ method_display (a_method a) ++ lit " /")
  >> write_path (fun p => lit "{" ++ p ++ lit "}") (path_iter (a_path a))
  >> wl (lit "`.")
  >> wl (ind ++ lit "#[derive(Debug, PartialEq, Eq)]")
  >> w (ind ++ lit "pub struct " ++ to_caps_case (a_name a))
  >> (if has_params then
        wl (lit " {")
        >> w_all (map (fun p => wl (ind ++ lit "    pub " ++ p_name p ++ lit ": " ++ p_typ p ++ lit ","))
                      (a_route_params a))
        >> w_all (map (fun p => wl (ind ++ lit "    pub " ++ p_name p ++ lit ": Option<" ++ p_typ p ++ lit ">,"))
                      (a_query_params a))
        >> wl (ind ++ lit "}")
      else wl (lit ";"))
  >> wl []
  >> wl (ind ++ lit "impl " ++ to_caps_case (a_name a) ++ lit " {")
  >> wl (ind ++ lit "    /// Make a path to this route with the given parameters.")
  >> wl (ind ++ lit "    pub fn to_path(&self) -> String {")
  >> (if has_params then
        w (ind ++ lit "        let " ++ to_caps_case (a_name a) ++ lit " { ")
        >> w_all (map (fun p => w (lit "ref " ++ p_name p ++ lit ", ")) (a_route_params a))
        >> w_all (map (fun p => w (lit "ref " ++ p_name p ++ lit ", ")) (a_query_params a))
        >> wl (lit "} = self;")
      else w_ok)
  >> w (ind ++ lit "        format!(" ++ [c_quote] ++ lit "/")
  >> write_path (fun _ => lit "{}") (path_iter (a_path a))
  >> w [c_quote]
  >> w_all (map (fun p => w (lit ", " ++ p_name p)) (a_route_params a))
  >> wl (lit ")")
  >> wl (ind ++ lit "    }")
  >> wl (ind ++ lit "}")
  >> wl [].

(** gen/gen.rs:203-273: the [Route] enum of a module and its [to_path]. *)
Definition write_route_enum (ind : str) (m : FlattenedModule) : W :=
  (if str_eqb ind (lit "    ") then
     wl (ind ++ lit "/// An active route in the application -- match against this.")
   else
     wl (ind ++ lit "/// Parameters for requests to the " ++ to_snake_case (m_name m) ++ lit " controller."))
  >> wl (ind ++ lit "#[derive(Debug, PartialEq, Eq)]")
  >> wl (ind ++ lit "pub enum Route {")
  >> w_all (map (fun a => wl (ind ++ lit "    " ++ to_caps_case (a_name a) ++ lit "("
                                ++ to_caps_case (a_name a) ++ lit "),")) (m_actions m))
  >> w_all (map (fun s => wl (ind ++ lit "    " ++ to_caps_case (m_name s) ++ lit "("
                                ++ to_snake_case (m_name s) ++ lit "::Route),")) (m_modules m))
  >> wl (ind ++ lit "}")
  >> wl []
  >> wl (ind ++ lit "impl Route {")
  >> wl (ind ++ lit "    /// Make a path to this route with the given parameters.")
  >> wl (ind ++ lit "    pub fn to_path(&self) -> String {")
  >> wl (ind ++ lit "        match self {")
  >> w_all (map (fun a => wl (ind ++ lit "            Route::" ++ to_caps_case (a_name a)
                                ++ lit "(ref route) => route.to_path(),")) (m_actions m))
  >> w_all (map (fun s => wl (ind ++ lit "            Route::" ++ to_caps_case (m_name s)
                                ++ lit "(ref route) => route.to_path(),")) (m_modules m))
  >> wl (ind ++ lit "        }")
  >> wl (ind ++ lit "    }")
  >> wl (ind ++ lit "}").

(** gen/gen.rs:58-276, [codegen_module]. *)
Definition write_headers (ind : str) (headers : list Header) : W :=
  w_all (map (fun h => wl (ind ++ h_text h)) headers)
  >> match headers with [] => w_ok | _ => wl [] end.
Definition write_mod_open (ind : str) (name : str) : W :=
  wl (ind ++ lit "pub mod " ++ to_snake_case name ++ lit " {").
Definition write_mod_close (ind : str) : W := wl (ind ++ lit "}") >> wl [].
Fixpoint codegen_module (headers : list Header) (m : FlattenedModule) (ind : str) {struct m} : W :=
  match m with
  | mkModule name actions modules =>
      write_headers ind headers
      >> w_all (map (write_action ind) actions)
      >> w_all (map (fun s => write_mod_open ind (m_name s)
                              >> codegen_module headers s (ind ++ lit "    ")
                              >> write_mod_close ind) modules)
      >> write_route_enum ind m
  end.

(** ** codegen_trie *)

Notation ctrie := (Trie Charlike FlattenedRoute).

Definition s_i : str := lit "i".
Definition s_len : str := lit "len".
Definition s_path : str := lit "path".
Definition s_method : str := lit "method".
Definition s_text : str := lit "text".
Definition s_start : str := lit "start".

(** gen/gen.rs:717-727: the module path, nesting and parentheses of a
    resource's modules. *)
Fixpoint route_nest (path accum parens : str) (modules : list str) : str * str * str :=
  match modules with
  | [] => (path, accum, parens)
  | m :: ms =>
      route_nest (path ++ to_snake_case m ++ lit "::")
                 (accum ++ path ++ lit "Route::" ++ to_caps_case m ++ lit "(")
                 (parens ++ lit ")") ms
  end.

(** gen/gen.rs:704-762, [write_methods]. *)
Definition write_resource (indent1 : str) (route : FlattenedRoute) (r : Resource) : W :=
  let '(path, nest, close_parens) := route_nest [] [] [] (r_modules r) in
  wl (indent1 ++ lit "        " ++ method_byte_str (r_method r) ++ lit " => return Ok(Match::"
      ++ (if r_is_redirect r then lit "Redirect" else lit "Route") ++ lit "("
      ++ nest ++ path ++ lit "Route::" ++ to_caps_case (r_name r) ++ lit "("
      ++ path ++ to_caps_case (r_name r) ++ lit " {")
  >> w_all (map (fun p => wl (indent1 ++ lit "            " ++ p_name p ++ lit ","))
                (dynamics (f_path route)))
  >> w_all (map (fun p => wl (indent1 ++ lit "            " ++ p_name p ++ lit ": None,"))
                (f_query route))
  >> w_all (map (fun p => wl (indent1 ++ lit "            " ++ p_name p ++ lit ": None,"))
                (r_query r))
  >> wl (indent1 ++ lit "        }" ++ close_parens ++ lit "))),").
Definition write_methods (route : FlattenedRoute) (indent : nat) : W :=
  let indent1 := spaces4 indent in
  wl (indent1 ++ lit "if i == len {")
  >> wl (indent1 ++ lit "    match method {")
  >> w_all (map (write_resource indent1 route) (f_resources route))
  >> wl (indent1 ++ lit "        _ => return Ok(Match::NotAllowed),")
  >> wl (indent1 ++ lit "    }")
  >> wl (indent1 ++ lit "}").

(** gen/gen.rs:533-544: follow single static children. *)
Fixpoint chase (t : ctrie) : str * ctrie :=
  match t with
  | mkTrie _ [(CStatic c, t')] => let (s, t'') := chase t' in (c :: s, t'')
  | _ => ([], t)
  end.

Definition is_separator (k : Charlike) : bool :=
  match k with CSeparator => true | _ => false end.
Definition is_static (k : Charlike) : bool :=
  match k with CStatic _ => true | _ => false end.

(** gen/gen.rs:592-627: the unambiguous prefix next to a dynamic child: the
    text [s], the counter [l], and the trie reached.  The inner [fix] picks the
    only static child. *)
Fixpoint unamb (t : ctrie) : str * nat * ctrie :=
  match t with
  | mkTrie _ children =>
      if existsb (fun c => is_separator (fst c)) children then ([], 0, t)
      else if (length (filter (fun c => is_static (fst c)) children) =? 1)%nat then
        (fix pick (l : list (Charlike * ctrie)) : str * nat * ctrie :=
           match l with
           | [] => ([], 1, t)                            (* not reached *)
           | (CStatic c, t') :: _ =>
               let '(s, n, t'') := unamb t' in (c :: s, S n, t'')
           | _ :: l' => pick l'
           end) children
      else ([], 1, t)
  end.

(** gen/gen.rs:577-580: the first dynamic child. *)
Fixpoint find_dynamic (l : list (Charlike * ctrie)) : option (str * ctrie) :=
  match l with
  | [] => None
  | (CDynamic n, t) :: _ => Some (n, t)
  | _ :: l' => find_dynamic l'
  end.

Definition has_resources (d : option FlattenedRoute) : option FlattenedRoute :=
  match d with
  | Some route => match f_resources route with [] => None | _ => Some route end
  | None => None
  end.

(** [match_len] as printed: the byte length of the text (gen/gen.rs:546). *)
Definition byte_len (s : str) : nat := length (utf8 s).

(** gen/gen.rs:764-810, [write_dynamic]; [rec] is [codegen_trie]. *)
Definition write_dynamic (rec : ctrie -> nat -> W) (t : ctrie) (indent : nat) (name : str) : W :=
  let indent1 := spaces4 indent in
  wl []
  >> wl (indent1 ++ lit "while i < len && &path[i..i+1] != b" ++ quoted (lit "/") ++ lit " {")
  >> wl (indent1 ++ lit "    i += 1;")
  >> wl (indent1 ++ lit "}")
  >> wl []
  >> wl (indent1 ++ lit "let text = std::str::from_utf8(&path[start..i]).unwrap();")
  >> wl (indent1 ++ lit "let " ++ name ++ lit " = text.parse()")
  >> wl (indent1 ++ lit "    .map_err(|e| Error::fail(" ++ quoted name ++ lit ", e))?;")
  >> wl []
  >> match t_children t with
     | [(CSeparator, _)] => rec t indent
     | _ => w_fail (RErr InvalidInput)
     end.

(** gen/gen.rs:674-695: the arms of the match on an ambiguous character. *)
Fixpoint write_arms (rec : ctrie -> nat -> W) (indent : nat) (l : list (Charlike * ctrie)) : W :=
  match l with
  | [] => w_ok
  | (k, child) :: l' =>
      let indent2 := spaces4 (S indent) in
      match k with
      | CStatic c =>
          wl (indent2 ++ lit "b" ++ quoted [c] ++ lit " => {")
          >> wl (indent2 ++ lit "    i += 1;")
          >> rec child (indent + 2)
          >> wl (indent2 ++ lit "},")
          >> write_arms rec indent l'
      | CDynamic p => write_dynamic rec child indent p           (* then [break] *)
      | CSeparator => wl (indent2 ++ lit "Some('/') => {}") >> write_arms rec indent l'
      end
  end.

(** gen/gen.rs:575-701: more than one child. *)
Definition write_many (rec : ctrie -> nat -> W) (t : ctrie) (indent : nat) : W :=
  let indent1 := spaces4 indent in
  let indent2 := spaces4 (S indent) in
  let children := t_children t in
  let dynamic := find_dynamic children in
  match dynamic with
  | Some _ => wl [] >> wl (indent1 ++ lit "let start = i;") >> wl []
  | None => w_ok
  end
  >> let '(unambiguous, l, next) := unamb t in
     let match_len := if (l =? 0)%nat then 1 else l in
     match unambiguous with
     | _ :: _ =>
         match dynamic with
         | None => w_fail (RPanic PanicAssert)
         | Some (name, dchild) =>
             (if (match_len =? 1)%nat then wl (indent1 ++ lit "if i <= len {")
              else wl (indent1 ++ lit "if i + " ++ nat_str match_len ++ lit " <= len {"))
             >> wl (indent2 ++ lit "match &path[i..i+" ++ nat_str match_len ++ lit "] {")
             >> wl (indent2 ++ lit "    b" ++ quoted unambiguous ++ lit " => {")
             >> wl (indent2 ++ lit "        i += " ++ nat_str match_len ++ lit ";")
             >> rec next (indent + 3)
             >> wl (indent2 ++ lit "    },")
             >> wl (indent2 ++ lit "    _ => {},")
             >> wl (indent2 ++ lit "}")
             >> wl (indent1 ++ lit "}")
             >> write_dynamic rec dchild indent name
         end
     | [] =>
         wl (indent1 ++ lit "if i == len {")
         >> wl (indent1 ++ lit "    return Ok(Match::NotFound);")
         >> wl (indent1 ++ lit "}")
         >> wl (indent1 ++ lit "match &path[i..i+1] {")
         >> write_arms rec indent children
         >> wl (indent1 ++ lit "    _ => return Ok(Match::NotFound),")
         >> wl (indent1 ++ lit "}")
     end.

(** gen/gen.rs:495-702: what follows the method check, by the children of the
    node; [rec] is [codegen_trie]. *)
Definition write_children (rec : ctrie -> nat -> W) (t : ctrie) (indent : nat) : W :=
  let indent1 := spaces4 indent in
  match t_children t with
  | [] => wl (indent1 ++ lit "return Ok(Match::NotFound);")
  | [(CSeparator, child)] =>
      match has_resources (t_data child) with
      | Some route => write_methods route indent
      | None =>
          wl (indent1 ++ lit "if i == len {")
          >> wl (indent1 ++ lit "    return Ok(Match::NotFound);")
          >> wl (indent1 ++ lit "}")
      end
      >> wl (indent1 ++ lit "match &path[i..i+1] {")
      >> wl (indent1 ++ lit "    b" ++ quoted (lit "/") ++ lit " => {")
      >> wl (indent1 ++ lit "        i += 1;")
      >> wl (indent1 ++ lit "    },")
      >> wl (indent1 ++ lit "    _ => return Ok(Match::NotFound),")
      >> wl (indent1 ++ lit "}")
      >> rec child indent
  | [(CStatic ch, child)] =>
      let (more, child') := chase child in
      let unambiguous := ch :: more in
      let match_len := byte_len unambiguous in
      (if (match_len =? 1)%nat then wl (indent1 ++ lit "if i == len {")
       else wl (indent1 ++ lit "if i + " ++ nat_str match_len ++ lit " > len {"))
      >> wl (indent1 ++ lit "    return Ok(Match::NotFound);")
      >> wl (indent1 ++ lit "}")
      >> wl (indent1 ++ lit "match &path[i..i+" ++ nat_str match_len ++ lit "] {")
      >> wl (indent1 ++ lit "    b" ++ quoted unambiguous ++ lit " => {")
      >> wl (indent1 ++ lit "        i += " ++ nat_str match_len ++ lit ";")
      >> wl (indent1 ++ lit "    },")
      >> wl (indent1 ++ lit "    _ => return Ok(Match::NotFound),")
      >> wl (indent1 ++ lit "}")
      >> rec child' indent
  | [(CDynamic name, child)] =>
      wl (indent1 ++ lit "let start = i;")
      >> write_dynamic rec child indent name
  | _ => write_many rec t indent
  end.

(** gen/gen.rs:474-702, [codegen_trie]. *)
Fixpoint codegen_trie (fuel : nat) (t : ctrie) (indent : nat) : W :=
  match fuel with
  | O => w_fail RFuel
  | S fuel' =>
      match has_resources (t_data t) with
      | Some route => write_methods route indent
      | None => w_ok
      end
      >> write_children (codegen_trie fuel') t indent
  end.

(** ** codegen *)

(** [str::replace(s, from_char, to)]. *)
Fixpoint replace_char (from : char) (to : str) (s : str) : str :=
  match s with
  | [] => []
  | c :: s' => (if N.eqb c from then to else [c]) ++ replace_char from to s'
  end.

(** gen/gen.rs:287-300: opening lines. *)
Definition preamble1 : list string :=
  [ "pub mod routes {";
    "";
    "    //! Application route configuration.";
    "    //!";
    "    //! Of note is the function [`match_route`] as well as request structs";
    "    //! specific to each named resource.";
    "    //!";
    "    //! Route configuration:";
    "    //!";
    "    //! ```ignore";
    "    //! /" ]%string.
(** gen/gen.rs:305-314. *)
Definition preamble2 : list string :=
  [ "    //! ```";
    "    //!";
    "    //! [`match_route`]: fn.match_route.html";
    "";
    "    #![allow(dead_code)]";
    "    #![allow(unused_imports)]";
    "    #![allow(unused_mut)]";
    "    #![allow(unused_variables)]";
    "" ]%string.
(** gen/gen.rs:319-463: [Match], [Error], documentation, and the head of
    [match_route]. *)
Definition boilerplate : list string :=
  [ "    #[derive(PartialEq, Eq)]";
    "    pub enum Match<T> {";
    "        NotFound,";
    "        NotAllowed,";
    "        Route(T),";
    "        Redirect(T),";
    "    }";
    "";
    "    use std::fmt;";
    "    impl<T: fmt::Debug> fmt::Debug for Match<T> {";
    "        fn fmt(&self, f: &mut fmt::Formatter) -> fmt::Result {";
    "            match self {";
    "                Match::NotFound => write!(f, ""Match::NotFound""),";
    "                Match::NotAllowed => write!(f, ""Match::NotAllowed""),";
    "                Match::Route(t) => write!(f, ""Match::Route({:?})"", t),";
    "                Match::Redirect(t) => write!(f, ""Match::Redirect({:?})"", t),";
    "            }";
    "        }";
    "    }";
    "";
    "    pub struct Error {";
    "        param: String,";
    "        what: Box<dyn fmt::Debug>,";
    "    }";
    "";
    "    impl fmt::Debug for Error {";
    "        fn fmt(&self, f: &mut fmt::Formatter) -> fmt::Result {";
    "            f.debug_struct(""wayfinder::Error"")";
    "                .field(""param"", &self.param)";
    "                .field(""what"", &self.what)";
    "                .finish()";
    "        }";
    "    }";
    "";
    "    impl fmt::Display for Error {";
    "        fn fmt(&self, f: &mut fmt::Formatter) -> fmt::Result {";
    "            write!(";
    "                f,";
    "                ""Error parsing '{}' parameter {:?}"",";
    "                self.param, self.what";
    "            )";
    "        }";
    "    }";
    "";
    "    impl std::error::Error for Error {}";
    "";
    "    impl Error {";
    "        pub fn fail<S: AsRef<str>, T: fmt::Debug + 'static>(param: S, what: T) -> Error {";
    "            Error {";
    "                param: param.as_ref().to_string(),";
    "                what: Box::new(what),";
    "            }";
    "        }";
    "    }";
    "    /// Match a path and method against this router.";
    "    ///";
    "    /// Accepts a byte slice for the request path and HTTP verb.";
    "    /// Returns a `Result`, usually `Ok` with the result of the";
    "    /// [`Match`].";
    "    ///";
    "    /// If the match was successful, it will be a `Match::Route` or";
    "    /// `Match::Redirect` with the parameters enclosed.  You can then";
    "    /// match on the [`Route`] to pass control of the request along to";
    "    /// a specific handler.";
    "    ///";
    "    /// If there is no match, this will return `Match::NotFound`";
    "    /// if no path matches (which you could return as `404 Not Found`),";
    "    /// or `Match::NotAllowed` if no method matches (in which case a";
    "    /// `405 Not Allowed` would be appropriate).";
    "    ///";
    "    /// If a route parameter fails to parse correctly, this will return";
    "    /// `Err` with the underlying parsing error.  Usually you'll want";
    "    /// to send back a `400 Bad Request` for that.";
    "    ///";
    "    /// [`Match`]: enum.Match.html";
    "    /// [`Route`]: enum.Route.html";
    "    pub fn match_route<P: AsRef<[u8]>, M: AsRef<[u8]>>(";
    "        path: P,";
    "        method: M,";
    "    ) -> Result<Match<Route>, Error> {";
    "        let method = method.as_ref();";
    "        let path = path.as_ref();";
    "        let len = path.len();";
    "        let mut i = if len > 0 && &path[0..1] == b""/"" { 1 } else { 0 };";
    "" ]%string.
Definition w_lines (l : list string) : W := w_all (map (fun s => wl (lit s)) l).

(** gen/gen.rs:302-304: the configuration inside the doc comment.  The slice
    [..len-8] counts bytes; the text ends in a line break followed by the eight
    ASCII characters of the comment prefix whenever it is not empty, so eight
    characters are removed; the empty text panics. *)
Definition doc_prefix : str := lit "    //! ".
Definition write_doc (r : Routes) : W :=
  let s := replace_char c_nl (nl ++ doc_prefix) (routes_stringify 1 r) in
  if (length s <? 8)%nat then w_fail (RPanic PanicSlice)
  else w (doc_prefix ++ firstn (length s - 8) s).

(** gen/gen.rs:278-472, [codegen]. *)
Definition codegen (c : RouteConfig) : W :=
  let flattened := flattened_routes (c_routes c) in
  match flattened_modules (c_routes c) with
  | ROk root =>
      w_lines preamble1
      >> write_doc (c_routes c)
      >> w_lines preamble2
      >> codegen_module (c_headers c) root (lit "    ")
      >> wl []
      >> w_lines boilerplate
      >> match to_trie flattened with
         | ROk t => codegen_trie (S (trie_height t)) t 2
         | RErr e => w_fail (RErr e)
         | RPanic p => w_fail (RPanic p)
         | RFuel => w_fail RFuel
         end
      >> wl (lit "    }")
      >> wl []
      >> wl (lit "} // mod routes")
  | RErr e => w_fail (RErr e)
  | RPanic p => w_fail (RPanic p)
  | RFuel => w_fail RFuel
  end.

(** ** The program that [codegen_trie] prints

    The same control structure as [codegen_trie], producing statements of
    MiniRust instead of text.  GenFacts.v proves that the text above is the
    rendering of this program. *)

Definition i_eq_len : bexpr := BEq (EVar s_i) (EVar s_len).
Definition path_slice (n : nat) : scrut := ScSlice s_path (EVar s_i) (EPlus s_i n).
Definition not_found : stmt := SReturn RetNotFound.

(** A module's name and its variant (gen/gen.rs:195 and 235; 722-723). *)
Definition module_names (m : str) : str * str := (to_snake_case m, to_caps_case m).
(** write_methods *)
Definition resource_ret (route : FlattenedRoute) (r : Resource) : ret :=
  RetRoute (r_is_redirect r)
    (map module_names (r_modules r))
    (to_caps_case (r_name r))
    (map (fun p => (p_name p, FVar)) (dynamics (f_path route))
     ++ map (fun p => (p_name p, FNone)) (f_query route)
     ++ map (fun p => (p_name p, FNone)) (r_query r)).
Definition methods_stmt (route : FlattenedRoute) : stmt :=
  SIf i_eq_len
    [SMatch (ScVar s_method)
       (map (fun r => (AHInline (method_display (r_method r)), [SReturn (resource_ret route r)]))
            (f_resources route)
        ++ [(AHWild, [SReturn RetNotAllowed])])].
Definition methods_block (d : option FlattenedRoute) : list stmt :=
  match has_resources d with
  | Some route => [methods_stmt route]
  | None => []
  end.

Definition expect (n : nat) (t : str) : stmt :=
  SMatch (path_slice n) [(AHBlock t, [SAdd s_i n]); (AHWild, [not_found])].

(** write_dynamic *)
Definition dynamic_block (name : str) (rest : list stmt) : list stmt :=
  [ SBlank;
    SWhile (BAnd (BLt (EVar s_i) (EVar s_len))
                 (BSliceNe s_path (EVar s_i) (EPlus s_i 1) (lit "/")))
      [SAdd s_i 1];
    SBlank;
    SLetUtf8 s_text s_path (EVar s_start) (EVar s_i);
    SLetParse name s_text name;
    SBlank ] ++ rest.
Definition gen_dynamic (rec : ctrie -> res (list stmt)) (t : ctrie) (name : str) : res (list stmt) :=
  match t_children t with
  | [(CSeparator, _)] => rbind (rec t) (fun b => ROk (dynamic_block name b))
  | _ => RErr InvalidInput
  end.

Fixpoint gen_arms (rec : ctrie -> res (list stmt)) (l : list (Charlike * ctrie))
    : res (list (arm_head * list stmt)) :=
  match l with
  | [] => ROk []
  | (k, child) :: l' =>
      match k with
      | CStatic c =>
          rbind (rec child) (fun b =>
          rbind (gen_arms rec l') (fun arms =>
          ROk ((AHBlock [c], SAdd s_i 1 :: b) :: arms)))
      | CDynamic p =>
          rbind (gen_dynamic rec child p) (fun b => ROk [(AHStmts, b)])
      | CSeparator =>
          rbind (gen_arms rec l') (fun arms => ROk ((AHSomeSlash, []) :: arms))
      end
  end.

Definition gen_many (rec : ctrie -> res (list stmt)) (t : ctrie) : res (list stmt) :=
  let children := t_children t in
  let dynamic := find_dynamic children in
  let start :=
    match dynamic with
    | Some _ => [SBlank; SLet s_start (EVar s_i); SBlank]
    | None => []
    end in
  let '(unambiguous, l, next) := unamb t in
  let n := if (l =? 0)%nat then 1 else l in
  match unambiguous with
  | _ :: _ =>
      match dynamic with
      | None => RPanic PanicAssert
      | Some (name, dchild) =>
          rbind (rec next) (fun b =>
          rbind (gen_dynamic rec dchild name) (fun d =>
          ROk (start
               ++ SIf (if (n =? 1)%nat then BLe (EVar s_i) (EVar s_len)
                       else BLe (EPlus s_i n) (EVar s_len))
                    [SMatch (path_slice n)
                       [(AHBlock unambiguous, SAdd s_i n :: b); (AHWildUnit, [])]]
               :: d)))
      end
  | [] =>
      rbind (gen_arms rec children) (fun arms =>
      ROk (start
           ++ [SIf i_eq_len [not_found];
               SMatch (path_slice 1) (arms ++ [(AHWild, [not_found])])]))
  end.
Definition gen_children (rec : ctrie -> res (list stmt)) (t : ctrie) : res (list stmt) :=
  match t_children t with
  | [] => ROk [not_found]
  | [(CSeparator, child)] =>
      let check :=
        match has_resources (t_data child) with
        | Some route => methods_stmt route
        | None => SIf i_eq_len [not_found]
        end in
      rbind (rec child) (fun b => ROk (check :: expect 1 (lit "/") :: b))
  | [(CStatic ch, child)] =>
      let (more, child') := chase child in
      let unambiguous := ch :: more in
      let n := byte_len unambiguous in
      rbind (rec child') (fun b =>
      ROk (SIf (if (n =? 1)%nat then i_eq_len else BGt (EPlus s_i n) (EVar s_len)) [not_found]
           :: expect n unambiguous :: b))
  | [(CDynamic name, child)] =>
      rbind (gen_dynamic rec child name) (fun b => ROk (SLet s_start (EVar s_i) :: b))
  | _ => gen_many rec t
  end.

Fixpoint gen_trie (fuel : nat) (t : ctrie) : res (list stmt) :=
  match fuel with
  | O => RFuel
  | S fuel' =>
      rbind (gen_children (gen_trie fuel') t) (fun b => ROk (methods_block (t_data t) ++ b))
  end.

(** The body of [match_route] after the prologue. *)
Definition gen_program (c : RouteConfig) : res (list stmt) :=
  rbind (to_trie (flattened_routes (c_routes c))) (fun t => gen_trie (S (trie_height t)) t).

(** ** Declared structs and the static check of the whole module *)

(** The struct declared for an action (gen/gen.rs:106-126). *)
Definition action_fields (a : FlattenedAction) : list field_decl :=
  map (fun p => mkField (p_name p) (p_typ p) false) (a_route_params a)
  ++ map (fun p => mkField (p_name p) (p_typ p) true) (a_query_params a).
Fixpoint module_structs (path : list (str * str)) (m : FlattenedModule) : struct_env :=
  match m with
  | mkModule _ actions modules =>
      map (fun a => (path, to_caps_case (a_name a), action_fields a)) actions
      ++ concat (map (fun s => module_structs (path ++ [module_names (m_name s)]) s) modules)
  end.

(** Rust identifiers: ASCII, not a keyword, not the underscore alone. *)
Definition keywords : list string :=
  [ "as"; "break"; "const"; "continue"; "crate"; "dyn"; "else"; "enum"; "extern"; "false"; "fn";
    "for"; "if"; "impl"; "in"; "let"; "loop"; "match"; "mod"; "move"; "mut"; "pub"; "ref";
    "return"; "self"; "Self"; "static"; "struct"; "super"; "trait"; "true"; "type"; "unsafe";
    "use"; "where"; "while"; "async"; "await"; "abstract"; "become"; "box"; "do"; "final";
    "macro"; "override"; "priv"; "try"; "typeof"; "unsized"; "virtual"; "yield" ]%string.
Definition ident_start (c : char) : bool := is_upper c || is_lower c || N.eqb c c_under.
Definition ident_char (c : char) : bool := ident_start c || is_digit c.
Definition is_ident (s : str) : bool :=
  match s with
  | [] => false
  | c :: s' =>
      ident_start c && forallb ident_char s'
      && negb (str_eqb s (lit "_"))
      && negb (existsb (fun k => str_eqb (lit k) s) keywords)
  end.

(** Static path text that can stand in a doc comment and, as itself, in a
    [format!] string (gen/gen.rs:80-104 and 157-181). *)
Definition format_char (c : char) : bool :=
  negb (existsb (N.eqb c) [c_lbrace; c_rbrace; c_quote; c_backslash; c_cr; c_nl]).
Definition format_segment (s : PathSegment) : bool :=
  match s with Static t => forallb format_char t | Dynamic _ => true end.

(** Names that the generated code of a module uses: an item of the same name
    would be defined twice or take the place of the prelude one.  [to_path]
    mentions [String] (gen.rs:136, 250), optional fields [Option] (gen.rs:120);
    the root module defines [Match], [Error] and imports [fmt], and mentions
    [std], [Box], [AsRef] and [Result] (gen.rs:319-454). *)
Definition has_params (a : FlattenedAction) : bool :=
  match a_route_params a, a_query_params a with [], [] => false | _, _ => true end.
Definition used_names (root : bool) (actions : list FlattenedAction) : list str :=
  [lit "Route"; lit "String"]
  ++ (if root then [lit "Match"; lit "Error"; lit "fmt"; lit "std"; lit "Box"; lit "AsRef"; lit "Result"]
      else [])
  ++ (if existsb (fun a => match a_query_params a with [] => false | _ => true end) actions
      then [lit "Option"] else []).
(** Structs without fields are unit structs, which are values too. *)
Definition unit_names (actions : list FlattenedAction) : list str :=
  map (fun a => to_caps_case (a_name a)) (filter (fun a => negb (has_params a)) actions).

(** The items of a generated module are accepted: names are identifiers, no
    type name is defined twice or is one that the generated code uses, no enum
    variant twice, no struct field twice, no field pattern is a unit struct
    or a constructor of the prelude,
    [Ok] is not a unit struct at the root, path texts can be printed, and the
    [Route] enum is not empty ([match self {}] on a reference is rejected).
    Types named in the configuration are the user's business. *)
Fixpoint module_ok (root : bool) (m : FlattenedModule) : bool :=
  match m with
  | mkModule _ actions modules =>
      let structs := map (fun a => to_caps_case (a_name a)) actions in
      let mods := map (fun s => to_snake_case (m_name s)) modules in
      let variants := structs ++ map (fun s => to_caps_case (m_name s)) modules in
      match actions, modules with [], [] => false | _, _ => true end
      && forallb is_ident structs && forallb is_ident mods && forallb is_ident variants
      && nodup_strs (used_names root actions ++ structs ++ mods)
      && nodup_strs variants
      && forallb (fun a => let names := map fd_name (action_fields a) in
                           forallb (fun x => is_ident x && negb (prelude_ctor x)) names && nodup_strs names
                           && forallb (fun x => negb (existsb (str_eqb x) (unit_names actions))) names
                           && forallb format_segment (a_path a)) actions
      && (if root then negb (existsb (str_eqb (lit "Ok")) (unit_names actions)) else true)
      && forallb (module_ok false) modules
  end.

(** Type environment of the prologue (gen/gen.rs:455-461). *)
Definition prologue_tenv : tenv :=
  [ (s_i, (true, TUsize)); (s_len, (false, TUsize)); (s_path, (false, TBytes));
    (s_method, (false, TBytes)) ].

(** Doc comments cannot contain a carriage return (gen/gen.rs:302-304). *)
Definition doc_ok (c : RouteConfig) : bool :=
  forallb (fun x => negb (N.eqb x c_cr)) (routes_stringify 1 (c_routes c)).

(** Does rustc accept the generated module (given that headers and parameter
    types are fine)? *)
Definition compiles (c : RouteConfig) : bool :=
  match flattened_modules (c_routes c), gen_program c with
  | ROk root, ROk body =>
      module_ok true root && doc_ok c
      && match check_block (module_structs [] root) prologue_tenv body false with
         | Some d => d
         | None => false
         end
  | _, _ => false
  end.

(** ** Running the generated [match_route] *)

Section Run.
Context {T E : Type}.
Variable rt : runtime T E.

(** gen/gen.rs:455-461. *)
Definition prologue_env (path method : bytes) : env T :=
  [ (s_i, (true, VUsize (match path with
                         | b :: _ => if N.eqb b c_slash then 1 else 0
                         | [] => 0
                         end)));
    (s_len, (false, VUsize (length path)));
    (s_path, (false, VBytes path));
    (s_method, (false, VBytes method)) ].

(** Result of calling [match_route].  [None]: there is no program to run
    (generation failed, or rustc rejects it). *)
Inductive run_result :=
| RunResult (m : match_result T E)
| RunPanic.
Definition run_program (senv : struct_env) (body : list stmt) (path method : bytes)
    : option run_result :=
  match exec_block rt senv (S (length path)) (prologue_env path method) body with
  | ORet m => Some (RunResult m)
  | OPanic => Some RunPanic
  | _ => None
  end.
Definition match_route (c : RouteConfig) (path method : bytes) : option run_result :=
  match flattened_modules (c_routes c), gen_program c with
  | ROk root, ROk body =>
      if compiles c then run_program (module_structs [] root) body path method else None
  | _, _ => None
  end.
End Run.
Arguments run_result T E : clear implicits.
