(** * Property C68: the command line example prints what was matched *)
From Verif Require Import Base Core Flat MiniRust Gen Items ToPath Build Cli Spec SpecMatch SpecPath SpecCli CliFacts Examples
  PropMatch PropPath PropBack.

(** [derive(Debug)] of any value of a generated struct: the parameters of its
    path, in their order there, then the query parameters. *)
Theorem C68_debug {T} (debug : str -> T -> bytes) c pat q b r vals opts fs :
  compiles c = true -> block_at (c_routes c) pat q b -> In r (rt_resources b) -> r_is_redirect r = false ->
  struct_fields pat (q ++ r_query r) vals opts fs ->
  debug_route debug c (map to_caps_case (r_modules r)) (to_caps_case (r_name r)) fs =
  Some (route_text debug (map to_caps_case (r_modules r)) (to_caps_case (r_name r)) pat vals (q ++ r_query r) opts).
Proof. exact (debug_text debug c pat q b r vals opts fs). Qed.
Print Assumptions C68_debug.
(** Too few arguments, or one that is not Unicode. *)
Theorem C68_usage {T E} (debug : str -> T -> bytes) (debug_error : E -> bytes) (of_usize : nat -> T)
    (show : str -> T -> bytes) (rt : runtime T E) c args : compiles c = true ->
  (forall name, args = [name] -> utf8_valid name = true ->
     cli_main debug debug_error of_usize show rt c args = Some ([Stderr (lit "Usage: " ++ name ++ lit " ROUTE_TO_TEST" ++ [c_nl])], Finished tt)) /\
  (args = [] -> exists p, cli_main debug debug_error of_usize show rt c args = Some ([], Panicked p)) /\
  ((exists x, In x args /\ utf8_valid x = false) -> exists p, cli_main debug debug_error of_usize show rt c args = Some ([], Panicked p)).
Proof. exact (cli_usage debug debug_error of_usize show rt c args). Qed.
Print Assumptions C68_usage.
(** The two lines for each answer of [match_route]. *)
Theorem C68_route {T E} (debug : str -> T -> bytes) (debug_error : E -> bytes) (of_usize : nat -> T)
    (show : str -> T -> bytes) (rt : runtime T E) c name path rest v :
  runnable c -> forallb utf8_valid (name :: path :: rest) = true ->
  match_route rt c path (lit "GET") = Some (RunResult (MRoute v)) ->
  exists pat q b r segs a,
    block_at (c_routes c) pat q b /\ first_resource_for (lit "GET") b r /\ r_is_redirect r = false /\
    spells path segs /\ matches (rt_parse rt) pat segs a /\
    prints (cli_main debug debug_error of_usize show rt c (name :: path :: rest))
      (lit "Ok(Match::Route("
       ++ route_text debug (map to_caps_case (r_modules r)) (to_caps_case (r_name r)) pat (map snd a) (q ++ r_query r)
            (no_values (q ++ r_query r)) ++ lit "))")
      (lit "Route to /" ++ join (path_texts show pat (map snd a))).
Proof. exact (cli_route debug debug_error of_usize show rt c name path rest v). Qed.
Print Assumptions C68_route.
Theorem C68_redirect {T E} (debug : str -> T -> bytes) (debug_error : E -> bytes) (of_usize : nat -> T)
    (show : str -> T -> bytes) (rt : runtime T E) c name path rest v :
  runnable c -> forallb utf8_valid (name :: path :: rest) = true ->
  match_route rt c path (lit "GET") = Some (RunResult (MRedirect v)) ->
  exists pat segs a pat' q' b' r' vals,
    spells path segs /\ matches (rt_parse rt) pat segs a /\
    block_at (c_routes c) pat' q' b' /\ In r' (rt_resources b') /\ r_is_redirect r' = false /\
    rv_modules v = map to_caps_case (r_modules r') /\ rv_name v = to_caps_case (r_name r') /\
    Forall2 (fun p' x => exists p, In (p, x) a /\ p_name p = p_name p' /\ p_typ p = p_typ p') (path_params pat') vals /\
    prints (cli_main debug debug_error of_usize show rt c (name :: path :: rest))
      (lit "Ok(Match::Redirect("
       ++ route_text debug (map to_caps_case (r_modules r')) (to_caps_case (r_name r')) pat' vals (q' ++ r_query r')
            (no_values (q' ++ r_query r')) ++ lit "))")
      (lit "Redirect to /" ++ join (path_texts show pat' vals)).
Proof. exact (cli_redirect debug debug_error of_usize show rt c name path rest v). Qed.
Print Assumptions C68_redirect.
Theorem C68_others {T E} (debug : str -> T -> bytes) (debug_error : E -> bytes) (of_usize : nat -> T)
    (show : str -> T -> bytes) (rt : runtime T E) c name path rest :
  runnable c -> forallb utf8_valid (name :: path :: rest) = true ->
  (match_route rt c path (lit "GET") = Some (RunResult MNotFound) ->
     prints (cli_main debug debug_error of_usize show rt c (name :: path :: rest)) (lit "Ok(Match::NotFound)") (lit "No matching route.")) /\
  (match_route rt c path (lit "GET") = Some (RunResult MNotAllowed) ->
     prints (cli_main debug debug_error of_usize show rt c (name :: path :: rest)) (lit "Ok(Match::NotAllowed)") (lit "Route does not support method.")) /\
  (forall x e, match_route rt c path (lit "GET") = Some (RunResult (MError x e)) ->
     prints (cli_main debug debug_error of_usize show rt c (name :: path :: rest))
       (lit "Err(wayfinder::Error { param: """ ++ x ++ lit """, what: " ++ debug_error e ++ lit " })")
       (lit "Error: Error parsing '" ++ x ++ lit "' parameter " ++ debug_error e)) /\
  (match_route rt c path (lit "GET") = Some RunPanic ->
     exists p, cli_main debug debug_error of_usize show rt c (name :: path :: rest) = Some ([], Panicked p)).
Proof. exact (cli_others debug debug_error of_usize show rt c name path rest). Qed.
Print Assumptions C68_others.
(** It ends normally unless there is a static segment of one character that makes
    [match_route] panic (C38). *)
Theorem C68_finishes {T E} (debug : str -> T -> bytes) (debug_error : E -> bytes) (of_usize : nat -> T)
    (show : str -> T -> bytes) (rt : runtime T E) c name path rest :
  runnable c -> every_block no_short_static (c_routes c) -> forallb utf8_valid (name :: path :: rest) = true ->
  exists parsed line, prints (cli_main debug debug_error of_usize show rt c (name :: path :: rest)) parsed line.
Proof. exact (cli_finishes debug debug_error of_usize show rt c name path rest). Qed.
Print Assumptions C68_finishes.
(** If printing inverts parsing, asking again for the path that is printed gives
    the same output, unless the request ends in two slashes. *)
Theorem C68_again {T E} (debug : str -> T -> bytes) (debug_error : E -> bytes) (of_usize : nat -> T)
    (show : str -> T -> bytes) (rt : runtime T E) c name path rest v :
  runnable c -> every_block plain_statics (c_routes c) ->
  (forall t text x, rt_parse rt t text = inl x -> show t x = text) ->
  forallb utf8_valid (name :: path :: rest) = true -> (forall u, path <> u ++ [c_slash; c_slash]) ->
  match_route rt c path (lit "GET") = Some (RunResult (MRoute v)) ->
  exists parsed p, prints (cli_main debug debug_error of_usize show rt c (name :: path :: rest)) parsed (lit "Route to " ++ p) /\
    cli_main debug debug_error of_usize show rt c (name :: p :: rest) = cli_main debug debug_error of_usize show rt c (name :: path :: rest).
Proof. exact (cli_again debug debug_error of_usize show rt c name path rest v). Qed.
Print Assumptions C68_again.

Definition ex_debug (t : str) (v : bytes) : bytes := if str_eqb t (lit "String") then lit """" ++ v ++ lit """" else v.
Definition ex_debug_error (e : unit) : bytes := lit "ParseIntError { kind: InvalidDigit }".
Definition ex_cli (c : RouteConfig) (args : list string) : option (run unit) :=
  cli_main ex_debug ex_debug_error nat_str ex_show ex_rt c (map lit args).
Example C68_example :
  runnable shop /\ every_block no_short_static (c_routes shop) /\ every_block plain_statics (c_routes shop) /\
  prints (ex_cli shop ["cli"; "people/42/books/x/"]%string)
    (lit "Ok(Match::Route(People(Book(Book { id: 42, isbn: ""x"", lang: None }))))") (lit "Route to /people/42/books/x") /\
  prints (ex_cli shop ["cli"; "/people/42/books/x"]%string)
    (lit "Ok(Match::Route(People(Book(Book { id: 42, isbn: ""x"", lang: None }))))") (lit "Route to /people/42/books/x") /\
  prints (ex_cli shop ["cli"; "/people/me"]%string)
    (lit "Err(wayfinder::Error { param: ""id"", what: ParseIntError { kind: InvalidDigit } })")
    (lit "Error: Error parsing 'id' parameter ParseIntError { kind: InvalidDigit }") /\
  prints (ex_cli shop ["cli"; "/peoples"]%string) (lit "Ok(Match::NotFound)") (lit "No matching route.") /\
  ex_cli shop ["cli"]%string = Some ([Stderr (lit "Usage: cli ROUTE_TO_TEST" ++ [c_nl])], Finished tt).
Proof.
  split; [exact shop_runnable|]. split; [exact shop_no_short|]. split; [block_check plain_staticsb_ok|].
  repeat split; vm_compute; reflexivity.
Qed.
(** The fields of a redirect are printed in the order of the target. *)
Example C68_redirect_example :
  runnable moved /\
  prints (ex_cli moved ["cli"; "/old/hat/7"]%string)
    (lit "Ok(Match::Redirect(Item(Item { a: 7, b: ""hat"" })))") (lit "Redirect to /new/7/x/hat").
Proof. split; [apply runnableb_ok|]; vm_compute; reflexivity. Qed.
(** A request that ends in two slashes: the printed path is a different route. *)
Definition folder : RouteConfig := read
  [ "/"; "  files"; "    GET list"; "    {name: String}"; "      GET file" ]%string.
Theorem C68_again_refuted :
  runnable folder /\ every_block plain_statics (c_routes folder) /\
  (forall t text x, rt_parse ex_rt t text = inl x -> ex_show t x = text) /\
  prints (ex_cli folder ["cli"; "/files//"]%string)
    (lit "Ok(Match::Route(File(File { name: """" })))") (lit "Route to /files/") /\
  prints (ex_cli folder ["cli"; "/files/"]%string) (lit "Ok(Match::Route(List(List)))") (lit "Route to /files").
Proof.
  split; [apply runnableb_ok; vm_compute; reflexivity|]. split; [block_check plain_staticsb_ok|].
  split; [exact ex_inverse|]. split; vm_compute; reflexivity.
Qed.
Print Assumptions C68_again_refuted.
