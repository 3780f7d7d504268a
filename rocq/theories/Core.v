(** * Core: model of wayfinder/src/core/mod.rs *)
From Verif Require Import Base.

(** core/mod.rs:44-54, [struct Header] and [Header::new] ([AsRef<str>] copies). *)
Record Header := mkHeader { h_text : str }.

(** core/mod.rs:222-236, [struct Param], [Param::new]. *)
Record Param := mkParam { p_name : str; p_typ : str }.

(** core/mod.rs:194-199, [enum PathSegment]. *)
Inductive PathSegment :=
| Static (s : str)
| Dynamic (p : Param).

(** core/mod.rs:245-253, [enum Method]. *)
Inductive Method := Get | Post | Put | Delete.

(** core/mod.rs:103-111, [struct Resource]. *)
Record Resource := mkResource {
  r_method : Method;
  r_modules : list str;
  r_name : str;
  r_is_redirect : bool;
  r_query : list Param
}.

(** core/mod.rs:56-62, [struct Routes], and core/mod.rs:166-171, [struct
    NestedRoutes].  Simplification: a [NestedRoutes] is the pair of its two
    fields, so that one nested inductive type suffices. *)
Inductive Routes :=
  mkRoutes (resources : list Resource)
           (routes : list (PathSegment * Routes))
           (query_parameters : list Param).
Definition NestedRoutes := (PathSegment * Routes)%type.

Definition rt_resources (r : Routes) := match r with mkRoutes a _ _ => a end.
Definition rt_routes (r : Routes) := match r with mkRoutes _ b _ => b end.
Definition rt_query (r : Routes) := match r with mkRoutes _ _ c => c end.

(** core/mod.rs:6-11, [struct RouteConfig]. *)
Record RouteConfig := mkConfig { c_headers : list Header; c_routes : Routes }.

(** core/mod.rs:261-270, [impl Display for Method]. *)
Definition method_display (m : Method) : str :=
  match m with
  | Get => lit "GET"
  | Post => lit "POST"
  | Put => lit "PUT"
  | Delete => lit "DELETE"
  end.

(** core/mod.rs:255-259, [Method::byte_str]. *)
Definition method_byte_str (m : Method) : str :=
  lit "b" ++ [c_quote] ++ method_display m ++ [c_quote].

(** core/mod.rs:237-243, [impl Display for Param]. *)
Definition param_display (p : Param) : str := p_name p ++ lit ": " ++ p_typ p.

(** core/mod.rs:213-220, [impl Display for PathSegment]: no braces. *)
Definition segment_display (s : PathSegment) : str :=
  match s with
  | Static t => t
  | Dynamic p => param_display p
  end.

(** core/mod.rs:64-76, [indent]. *)
Definition indent (level : nat) : str :=
  match level with
  | 0 => lit ""
  | 1 => lit "  "
  | 2 => lit "    "
  | 3 => lit "      "
  | 4 => lit "        "
  | 5 => lit "          "
  | 6 => lit "            "
  | 7 => lit "              "
  | _ => lit "              --"
  end.

(** core/mod.rs:139-163, [Resource::stringify]. *)
Definition resource_stringify (level : nat) (r : Resource) : str :=
  let params :=
    concat (map (fun p => [c_nl] ++ indent (S level) ++ lit "[" ++ param_display p ++ lit "]")
                (r_query r)) in
  let modules := concat (map (fun m => m ++ lit "::") (r_modules r)) in
  indent level ++ method_display (r_method r)
    ++ (if r_is_redirect r then lit " ->" else lit "")
    ++ lit " " ++ modules ++ r_name r ++ params ++ [c_nl].

(** core/mod.rs:185-188, the segment part of [NestedRoutes::stringify]. *)
Definition segment_stringify (s : PathSegment) : str :=
  match s with
  | Static t => t
  | Dynamic p => lit "{" ++ param_display p ++ lit "}"
  end.

(** core/mod.rs:78-101, [Routes::stringify], with core/mod.rs:181-191,
    [NestedRoutes::stringify], inlined. *)
Fixpoint routes_stringify (level : nat) (r : Routes) : str :=
  match r with
  | mkRoutes resources routes query =>
      let params :=
        concat (map (fun p => indent level ++ lit "[" ++ param_display p ++ lit "]" ++ [c_nl]) query) in
      let rs := concat (map (resource_stringify level) resources) in
      let nested :=
        concat (map (fun nr => match nr with
                               | (seg, child) =>
                                   indent level ++ segment_stringify seg ++ [c_nl]
                                     ++ routes_stringify (S level) child
                               end) routes) in
      params ++ rs ++ nested
  end.

(** core/mod.rs:181-191, [NestedRoutes::stringify]. *)
Definition nested_stringify (level : nat) (nr : NestedRoutes) : str :=
  match nr with
  | (seg, child) =>
      indent level ++ segment_stringify seg ++ [c_nl] ++ routes_stringify (S level) child
  end.

(** core/mod.rs:13-28, [RouteConfig::stringify]. *)
Definition config_stringify (c : RouteConfig) : str :=
  let headers := concat (map (fun h => h_text h ++ [c_nl]) (c_headers c)) in
  headers ++ (if str_eqb headers [] then [] else [c_nl]) ++ lit "/" ++ [c_nl]
    ++ routes_stringify 1 (c_routes c).

(** [itertools::Itertools::unique], used at core/mod.rs:36: keeps the first
    occurrence of each element.  [seen] are the elements yielded so far. *)
Fixpoint unique_headers (seen : list Header) (l : list Header) : list Header :=
  match l with
  | [] => []
  | h :: l' =>
      if existsb (fun h' => str_eqb (h_text h') (h_text h)) seen
      then unique_headers seen l'
      else h :: unique_headers (h :: seen) l'
  end.

(** core/mod.rs:30-40, [RouteConfig::mount]. *)
Definition mount (self : RouteConfig) (at_ : str) (config : RouteConfig) : RouteConfig :=
  let headers := unique_headers [] (c_headers self ++ c_headers config) in
  let routes :=
    mkRoutes (rt_resources (c_routes self))
             (rt_routes (c_routes self) ++ [(Static at_, c_routes config)])
             (rt_query (c_routes self)) in
  mkConfig headers routes.

(** core/mod.rs:113-137, [Resource::make].  [ms.remove(ms.len() - 1)] panics
    when [handler] is empty (subtraction underflow in debug builds, index out
    of range in release builds). *)
Definition resource_make (method : Method) (handler : list str) (is_redirect : bool)
    (query : list Param) : res Resource :=
  match rev handler with
  | [] => RPanic PanicRemove
  | n :: ms_rev =>
      ROk (mkResource method (rev ms_rev) n is_redirect query)
  end.
