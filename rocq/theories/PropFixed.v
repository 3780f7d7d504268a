(** * Property C72: the code that every generated module contains *)
From Verif Require Import Base Core Flat MiniRust Gen Items Cli Fixed SpecGen FixedFacts Examples PropCli.

(** C72.  The part of the generated text that does not depend on the
    configuration is the printed form of the types [Match] and [Error] and of the
    first statements of [match_route], with documentation; before it there are
    only the line that opens the module, documentation and attributes. *)
Theorem C72_text : exists docs,
  Forall (fun l => exists s, l = lit "    ///" ++ s) docs /\
  w_text (w_lines boilerplate) =
    unlines (flat_map pr_fixed fixed_code ++ docs ++ match_route_head ++ map pr_pstmt prologue ++ [[]]).
Proof. exact fixed_text. Qed.
Print Assumptions C72_text.
Theorem C72_preamble l : In l (preamble1 ++ preamble2) ->
  lit l = lit "pub mod routes {" \/ lit l = [] \/ (exists s, lit l = lit "    //!" ++ s) \/
  (exists s, lit l = lit "    #![allow(" ++ s ++ lit ")]").
Proof. exact (preamble_lines l). Qed.
Print Assumptions C72_preamble.
(** No struct of the configuration gets in the way of the variables, and the rest
    of the body is checked with the types that these statements give them. *)
Theorem C72_check c root body :
  flattened_modules (c_routes c) = ROk root -> gen_program c = ROk body ->
  let items := module_items true (c_headers c) root in
  compiles c = true <->
  items_ok true items = true /\ doc_ok c = true /\
  exists env, check_head (items_env items) [lit "path"; lit "method"] prologue = Some env /\
    check_block (items_env items) env body false = Some true.
Proof. exact (fixed_check c root body). Qed.
Print Assumptions C72_check.
(** The statements do not panic, also for the empty path; one leading slash is
    skipped.  The rest of the body starts from there. *)
Theorem C72_start {T E} (rt : runtime T E) path method : exists en : env T,
  exec_prologue rt [(lit "path", path); (lit "method", method)] [] prologue = ONext en /\
  lookup (lit "path") en = Some (false, VBytes path) /\
  lookup (lit "method") en = Some (false, VBytes method) /\
  lookup (lit "len") en = Some (false, VUsize (length path)) /\
  exists i, lookup (lit "i") en = Some (true, VUsize i) /\
    ((exists rest, path = c_slash :: rest) -> i = 1) /\ (~ (exists rest, path = c_slash :: rest) -> i = 0).
Proof. exact (prologue_start rt path method). Qed.
Print Assumptions C72_start.
Theorem C72_runs {T E} (rt : runtime T E) c root body path method : compiles c = true ->
  flattened_modules (c_routes c) = ROk root -> gen_program c = ROk body ->
  exists en,
    exec_prologue rt [(lit "path", path); (lit "method", method)] [] prologue = ONext en /\
    match_route rt c path method =
      match exec_block rt (items_env (module_items true (c_headers c) root)) (S (length path)) en body with
      | ORet m => Some (RunResult m)
      | OPanic => Some RunPanic
      | _ => None
      end.
Proof. exact (fixed_runs rt c root body path method). Qed.
Print Assumptions C72_runs.
(** [Debug] of [Match], and [Debug] and [Display] of the [Error] that
    [Error::fail] makes. *)
Theorem C72_match s :
  enum_debug fixed_code (lit "Match") (lit "NotFound") None = Some (lit "Match::NotFound") /\
  enum_debug fixed_code (lit "Match") (lit "NotAllowed") None = Some (lit "Match::NotAllowed") /\
  enum_debug fixed_code (lit "Match") (lit "Route") (Some s) = Some (lit "Match::Route(" ++ s ++ lit ")") /\
  enum_debug fixed_code (lit "Match") (lit "Redirect") (Some s) = Some (lit "Match::Redirect(" ++ s ++ lit ")").
Proof. exact (match_debug s). Qed.
Print Assumptions C72_match.
Theorem C72_error {E} (debug_error : E -> bytes) x e : exists v,
  make fixed_code (lit "Error") (lit "fail") [lit "param"; lit "what"] x debug_error e = Some v /\
  struct_debug fixed_code (lit "Error") v =
    Some (lit "wayfinder::Error { param: " ++ debug_string x ++ lit ", what: " ++ debug_error e ++ lit " }") /\
  struct_display fixed_code (lit "Error") v =
    Some (lit "Error parsing '" ++ utf8 x ++ lit "' parameter " ++ debug_error e).
Proof. exact (fail_value debug_error x e). Qed.
Print Assumptions C72_error.

Example C72_example :
  compiles shop = true /\
  exec_prologue ex_rt [(lit "path", []); (lit "method", lit "GET")] [] prologue = ONext (prologue_env [] (lit "GET")) /\
  exists v, make fixed_code (lit "Error") (lit "fail") [lit "param"; lit "what"] (lit "id") ex_debug_error tt = Some v /\
    struct_debug fixed_code (lit "Error") v =
      Some (lit "wayfinder::Error { param: ""id"", what: ParseIntError { kind: InvalidDigit } }") /\
    struct_display fixed_code (lit "Error") v =
      Some (lit "Error parsing 'id' parameter ParseIntError { kind: InvalidDigit }").
Proof.
  split; [vm_compute; reflexivity|]. split; [reflexivity|]. eexists. split; [reflexivity|]. split; vm_compute; reflexivity.
Qed.
(** The text before a value in [Debug] is the one given, not the name of the field. *)
Example C72_debug_example :
  struct_debug [FxStructDebug (lit "S") (lit "s") [(lit "shown", lit "field")]] (lit "S") [(lit "field", (None, Some (lit "7")))] =
    Some (lit "s { shown: 7 }") /\
  struct_debug [FxStructDebug (lit "S") (lit "s") [(lit "field", lit "shown")]] (lit "S") [(lit "field", (None, Some (lit "7")))] = None.
Proof. split; vm_compute; reflexivity. Qed.
(** Heads of functions that are rejected: a condition with a part that does not
    check, on either side; [as_ref] of a number, or of nothing declared; parameters
    that cannot be variables, or that are declared twice. *)
Example C72_head_example :
  let path := PAsRef (lit "path") (lit "path") in
  let good := PcSliceEq (lit "path") (ENat 0) (ENat 1) (lit "/") in
  let bad := PcSliceEq (lit "other") (ENat 0) (ENat 1) (lit "/") in
  let types := check_head [] [lit "path"] in
  types [path; PLetMutIf (lit "i") (PcAnd good good) 1 0] =
    Some [(lit "i", (true, TUsize)); (lit "path", (false, TBytes))] /\
  types [path; PLetMutIf (lit "i") (PcAnd good bad) 1 0] = None /\
  types [path; PLetMutIf (lit "i") (PcAnd bad good) 1 0] = None /\
  types [path; path] = Some [(lit "path", (false, TBytes)); (lit "path", (false, TBytes))] /\
  types [path; PLen (lit "len") (lit "path"); PAsRef (lit "x") (lit "len")] = None /\
  types [PAsRef (lit "x") (lit "other")] = None /\
  check_head [] [lit "path"; lit "path"] [] = None /\ check_head [] [lit "path"; lit "None"] [] = None.
Proof. repeat split; vm_compute; reflexivity. Qed.
