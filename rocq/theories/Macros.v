(** * Macros: model of wayfinder/src/core/macros.rs and of the conversions of
      wayfinder/src/core/mod.rs

    A macro call is the list of its tokens.  A token [TExpr p] stands for the
    tokens of an expression with the value [p] (the fragment [$param:expr]); the
    others are themselves.  An identifier is written as [stringify!] gives it. *)
From Verif Require Import Base Core.

Inductive token :=
| TIdent (s : str)
| TColons                                                   (* [::] *)
| TComma
| TArrow                                                    (* [->] *)
| TExpr (p : Param).

(** [$(:: $nested:ident)*]: as many as there are, and what follows. *)
Fixpoint nested_idents (ts : list token) : list str * list token :=
  match ts with
  | TColons :: TIdent s :: ts' => let (l, rest) := nested_idents ts' in (s :: l, rest)
  | _ => ([], ts)
  end.
(** [$root:ident $(:: $nested:ident)*], as the list [$root $($nested)*]. *)
Definition path_idents (ts : list token) : option (list str * list token) :=
  match ts with
  | TIdent root :: ts' => let (l, rest) := nested_idents ts' in Some (root :: l, rest)
  | _ => None
  end.
(** [$(, $param: expr)*], up to the end of the call. *)
Fixpoint param_exprs (ts : list token) : option (list Param) :=
  match ts with
  | [] => Some []
  | TComma :: TExpr p :: ts' => option_map (cons p) (param_exprs ts')
  | _ => None
  end.

(** The second and third rule of [get!], [post!], [put!] and [delete!]; [k] is
    the first one.  [None]: no rule applies, the call does not compile. *)
Definition verb_rules (k : list str -> bool -> list Param -> res Resource) (ts : list token) : option (res Resource) :=
  match path_idents ts with
  | Some (modules, rest) => option_map (k modules false) (param_exprs rest)
  | None =>
      match ts with
      | TArrow :: ts' =>
          match path_idents ts' with
          | Some (modules, []) => Some (k modules true [])
          | _ => None
          end
      | _ => None
      end
  end.
(** core/macros.rs:60-82 *)
Definition get_macro := verb_rules (fun modules is_redirect params => resource_make Get modules is_redirect params).
(** core/macros.rs:125-147 *)
Definition post_macro := verb_rules (fun modules is_redirect params => resource_make Post modules is_redirect params).
(** core/macros.rs:190-212 *)
Definition put_macro := verb_rules (fun modules is_redirect params => resource_make Put modules is_redirect params).
(** core/macros.rs:255-277 *)
Definition delete_macro := verb_rules (fun modules is_redirect params => resource_make Delete modules is_redirect params).

(** core/macros.rs:287-294, with the text of the type. *)
Definition param_macro (name typ : str) : Param := mkParam name typ.
(** core/macros.rs:10-17, with the text of the items. *)
Definition header_macro (items : str) : Header := mkHeader items.

(** core/mod.rs:201-211, [From] for [PathSegment]. *)
Definition segment_from_str (s : str) : PathSegment := Static s.
Definition segment_from_param (p : Param) : PathSegment := Dynamic p.
(** core/mod.rs:173-179, [NestedRoutes::new], after [into]. *)
Definition nested_new (path_segment : PathSegment) (routes : Routes) : NestedRoutes := (path_segment, routes).
(** [Routes::default()] (derived, core/mod.rs:57). *)
Definition routes_default : Routes := mkRoutes [] [] [].

(** ** [http::Method] (feature [http])

    The methods of the http crate: the nine standard ones and extensions. *)
Inductive http_method :=
| HOptions | HGet | HPost | HPut | HDelete | HHead | HTrace | HConnect | HPatch
| HExtension (name : str).
(** [http::Method::as_str]. *)
Definition http_as_str (h : http_method) : str :=
  match h with
  | HOptions => lit "OPTIONS"
  | HGet => lit "GET"
  | HPost => lit "POST"
  | HPut => lit "PUT"
  | HDelete => lit "DELETE"
  | HHead => lit "HEAD"
  | HTrace => lit "TRACE"
  | HConnect => lit "CONNECT"
  | HPatch => lit "PATCH"
  | HExtension name => name
  end.
(** core/mod.rs:272-283; [None] is the panic of [unimplemented!]. *)
Definition method_from_http (h : http_method) : option Method :=
  match h with
  | HGet => Some Get
  | HPost => Some Post
  | HPut => Some Put
  | HDelete => Some Delete
  | _ => None
  end.
