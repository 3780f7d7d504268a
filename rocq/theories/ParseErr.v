(** * ParseErr: parse/mod.rs with the errors it reports

    The functions of Parse.v again, over the combinators of NomErr.v. *)
From Verif Require Import Base Core Nom Parse Errors NomErr.

(** The sites of [err_str!] in parse/mod.rs and their messages (lines 47, 68, 81, 109,
    145 and 187). *)
Definition s_colon := 0.
Definition s_brace := 1.
Definition s_bracket := 2.
Definition s_newline := 3.
Definition s_content := 4.
Definition s_routes := 5.
Definition site_count := 6.
Definition site_message (s : nat) : str :=
  nth s [ lit "Expected "":"""; lit "Expected a ""}"""; lit "Expected a ""]"""; lit "Expected a newline";
          lit "Expected resources or child routes"; lit "In routes starting here" ] [].

Section ParseErr.
Variable ualnum : char -> bool.   (* as in Parse.v *)
Variable keep : bool.             (* as in NomErr.v *)
Variable code : nat -> N.         (* the code that [err_str!] gives at each site *)

Notation ident_char := (is_identifier_char ualnum).

(** parse/mod.rs:37-44 *)
Definition method_v : vparser Method :=
  valt (vtag_no_case (lit "get") ;;; vret Get)
  (valt (vtag_no_case (lit "post") ;;; vret Post)
  (valt (vtag_no_case (lit "put") ;;; vret Put)
        (vtag_no_case (lit "delete") ;;; vret Delete))).
(** parse/mod.rs:45-50 *)
Definition colon_v : vparser unit := vreturn_error (code s_colon) (vtag (lit ":")).
(** parse/mod.rs:52-59 *)
Definition param_v : vparser Param :=
  vdo name <- vtake_while1 ident_char;
  vws colon_v ;;;
  vdo typ <- vtake_while1 ident_char;
  vret (mkParam name typ).
(** parse/mod.rs:19-31 *)
Definition indent_v (level : nat) : vparser unit := vcount (vtag (lit "  ")) level.
(** parse/mod.rs:61-74 *)
Definition path_segment_v (level : nat) : vparser PathSegment :=
  indent_v level ;;;
  valt (vchar c_lbrace ;;;
        vdo param <- vws param_v;
        vreturn_error (code s_brace) (vchar c_rbrace) ;;;
        vret (Dynamic param))
       (vdo text <- vtake_while1 ident_char;
        vret (Static text)).
(** parse/mod.rs:76-83 *)
Definition query_parameter_v (level : nat) : vparser Param :=
  indent_v level ;;;
  vchar c_lbrack ;;;
  vdo param <- vws param_v;
  vreturn_error (code s_bracket) (vchar c_rbrack) ;;;
  vret param.
(** parse/mod.rs:85-105 *)
Definition modules_v : vparser (list str) :=
  vmany0 (vdo m <- vtake_while1 ident_char;
          vws (vtag (lit "::")) ;;;
          vret m).
Definition target_v : vparser (bool * list str * str) :=
  valt (vws (vtag (lit "->")) ;;;
        vdo modules <- modules_v;
        vdo action <- vtake_while1 ident_char;
        vret (true, modules, action))
       (vdo modules <- modules_v;
        vdo action <- vtake_while1 ident_char;
        vret (false, modules, action)).
(** parse/mod.rs:107-112 *)
Definition require_newline_v : vparser unit :=
  vreturn_error (code s_newline) (vdo _u <- vmany1 keep vline_ending; vret tt).
(** parse/mod.rs:114-137 *)
Definition resource_v (level : nat) : vparser Resource :=
  indent_v level ;;;
  vdo method <- method_v;
  vchar c_space ;;;
  vdo target <- target_v;
  require_newline_v ;;;
  vdo query <- vmany0 (vdo q <- query_parameter_v (S level); require_newline_v ;;; vret q);
  vret (mkResource method (snd (fst target)) (snd target) (fst (fst target)) query).
(** parse/mod.rs:139-158 *)
Definition resources_and_routes_v (nested : nat -> vparser NestedRoutes) (level : nat)
    : vparser (list Resource * list NestedRoutes) :=
  vreturn_error (code s_content)
    (valt (vdo resources <- vmany1 keep (resource_v level);
           vdo routes <- valt (vdo _u <- vmany0 vline_ending; vmany1 keep (nested level)) (vret []);
           vret (resources, routes))
          (vdo routes <- vmany1 keep (nested level);
           vret ([], routes))).
(** parse/mod.rs:160-175 *)
Definition routes_body_v (nested : nat -> vparser NestedRoutes) (level : nat) : vparser Routes :=
  vdo query <- vmany0 (vdo q <- query_parameter_v level; vdo _u <- vmany1 keep vline_ending; vret q);
  vdo rnr <- resources_and_routes_v nested level;
  vret (mkRoutes (fst rnr) (snd rnr) query).
(** parse/mod.rs:177-192 *)
Definition nested_body_v (routes : nat -> vparser Routes) (level : nat) : vparser NestedRoutes :=
  vdo seg <- path_segment_v level;
  vdo _u <- vmany1 keep vline_ending;
  vdo r <- vreturn_error (code s_routes) (routes (S level));
  vret (seg, r).
Fixpoint routes_v (fuel : nat) (level : nat) : vparser Routes :=
  fun i =>
    match fuel with
    | O => VFuel
    | S fuel' => routes_body_v (nested_body_v (routes_v fuel')) level i
    end.
(** parse/mod.rs:194-202 *)
Definition header_v : vparser Header :=
  vdo text <- vrecognize (vnot (vchar c_slash) ;;; vmany0 vnot_line_ending);
  vdo _u <- vmany1 keep vline_ending;
  vret (mkHeader text).
(** parse/mod.rs:204-222 *)
Definition route_config_v : vparser RouteConfig :=
  fun i =>
    (vdo headers <- vmany0 header_v;
     vdo _u <- vmany0 vline_ending;
     vchar c_slash ;;;
     vdo _u <- vmany1 keep vline_ending;
     vdo r <- routes_v (S (length i)) 1;
     veof ;;;
     vret (mkConfig (retain_headers headers) r)) i.
End ParseErr.

(** The result as [show_errors] receives it; [None] is the model's own fuel. *)
Definition as_result {A} (r : vres A) : option nom_result :=
  match r with
  | VOk _ _ => Some NOk
  | VErr c => Some (NError c)
  | VFail c => Some (NFailure c)
  | VFuel => None
  end.
(** What a build prints for a text that does not parse (build/mod.rs:172, with an
    empty prefix): [None] is a panic. *)
Definition diagnosis (ualnum : char -> bool) (keep : bool) (code : nat -> N)
    (debug_kind : error_kind -> str) (debug_context : context -> str)
    (errors : list str) (text prefix : str) : option str :=
  match as_result (route_config_v ualnum keep code text) with
  | Some r => show_errors debug_kind debug_context errors text r prefix
  | None => None
  end.
