(** * Parse: model of wayfinder/src/parse/mod.rs *)
From Verif Require Import Base Core Nom.

Section Parse.
(** [char::is_alphanumeric] outside ASCII: an oracle, quantified in every
    theorem. *)
Variable ualnum : char -> bool.

(** [char::is_alphanumeric]. *)
Definition is_alphanumeric (c : char) : bool :=
  if (c <? 128)%N then is_upper c || is_lower c || is_digit c else ualnum c.

(** parse/mod.rs:33-35 *)
Definition is_identifier_char (c : char) : bool :=
  is_alphanumeric c || N.eqb c c_under.

(** parse/mod.rs:37-44 *)
Definition method_p : parser Method :=
  alt (tag_no_case (lit "get") ;; pret Get)
  (alt (tag_no_case (lit "post") ;; pret Post)
  (alt (tag_no_case (lit "put") ;; pret Put)
       (tag_no_case (lit "delete") ;; pret Delete))).

(** parse/mod.rs:45-50 *)
Definition colon_p : parser unit := return_error (tag (lit ":")).

(** parse/mod.rs:52-59 *)
Definition param_p : parser Param :=
  do name <- take_while1 is_identifier_char;
  ws colon_p ;;
  do typ <- take_while1 is_identifier_char;
  pret (mkParam name typ).

(** parse/mod.rs:19-31, the prefix of [indented!]. *)
Definition indent_p (level : nat) : parser unit := pcount (tag (lit "  ")) level.

(** parse/mod.rs:61-74 *)
Definition path_segment_p (level : nat) : parser PathSegment :=
  indent_p level ;;
  alt (pchar c_lbrace ;;
       do param <- ws param_p;
       return_error (pchar c_rbrace) ;;
       pret (Dynamic param))
      (do text <- take_while1 is_identifier_char;
       pret (Static text)).

(** parse/mod.rs:76-83 *)
Definition query_parameter_p (level : nat) : parser Param :=
  indent_p level ;;
  pchar c_lbrack ;;
  do param <- ws param_p;
  return_error (pchar c_rbrack) ;;
  pret param.

(** parse/mod.rs:89-95 and 97-102: the module path and the action name. *)
Definition modules_p : parser (list str) :=
  many0 (do m <- take_while1 is_identifier_char;
         ws (tag (lit "::")) ;;
         pret m).

(** parse/mod.rs:85-105 *)
Definition target_p : parser (bool * list str * str) :=
  alt (ws (tag (lit "->")) ;;
       do modules <- modules_p;
       do action <- take_while1 is_identifier_char;
       pret (true, modules, action))
      (do modules <- modules_p;
       do action <- take_while1 is_identifier_char;
       pret (false, modules, action)).

(** parse/mod.rs:107-112 *)
Definition require_newline : parser unit :=
  return_error (do _u <- many1 line_ending; pret tt).

(** parse/mod.rs:114-137 *)
Definition resource_p (level : nat) : parser Resource :=
  indent_p level ;;
  do method <- method_p;
  pchar c_space ;;
  do target <- target_p;
  require_newline ;;
  do query <- many0 (do q <- query_parameter_p (S level); require_newline ;; pret q);
  pret (mkResource method (snd (fst target)) (snd target) (fst (fst target)) query).

(** parse/mod.rs:139-158; [nested] is [nested_routes]. *)
Definition resources_and_routes_p (nested : nat -> parser NestedRoutes) (level : nat)
    : parser (list Resource * list NestedRoutes) :=
  return_error
    (alt (do resources <- many1 (resource_p level);
          do routes <- alt (do _u <- many0 line_ending; many1 (nested level)) (pret []);
          pret (resources, routes))
         (do routes <- many1 (nested level);
          pret ([], routes))).

(** parse/mod.rs:160-175 *)
Definition routes_body_p (nested : nat -> parser NestedRoutes) (level : nat) : parser Routes :=
  do query <- many0 (do q <- query_parameter_p level; do _u <- many1 line_ending; pret q);
  do rnr <- resources_and_routes_p nested level;
  pret (mkRoutes (fst rnr) (snd rnr) query).

(** parse/mod.rs:177-192 *)
Definition nested_body_p (routes : nat -> parser Routes) (level : nat) : parser NestedRoutes :=
  do seg <- path_segment_p level;
  do _u <- many1 line_ending;
  do r <- return_error (routes (S level));
  pret (seg, r).

(** The recursion routes -> nested_routes -> routes (parse/mod.rs:160-192), on
    fuel. *)
Fixpoint routes_p (fuel : nat) (level : nat) : parser Routes :=
  fun i =>
    match fuel with
    | O => PFuel
    | S fuel' => routes_body_p (nested_body_p (routes_p fuel')) level i
    end.

(** parse/mod.rs:194-202 *)
Definition header_p : parser Header :=
  do text <- recognize (pnot (pchar c_slash) ;; many0 not_line_ending);
  do _u <- many1 line_ending;
  pret (mkHeader text).

(** parse/mod.rs:204-222.  [headers.retain(|h| h.text.len() != 0)]. *)
Definition retain_headers (l : list Header) : list Header :=
  filter (fun h => negb (Nat.eqb (length (h_text h)) 0)) l.

Definition route_config_p : parser RouteConfig :=
  fun i =>
    (do headers <- many0 header_p;
     do _u <- many0 line_ending;
     pchar c_slash ;;
     do _u <- many1 line_ending;
     do r <- routes_p (S (length i)) 1;
     eof ;;
     pret (mkConfig (retain_headers headers) r)) i.

End Parse.
