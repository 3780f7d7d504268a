(** * SpecMacros: what the resource macros and the route file say *)
From Verif Require Import Base Core Macros.

(** [a::b::c], as tokens and as text. *)
Fixpoint path_tokens (names : list str) : list token :=
  match names with
  | [] => []
  | [n] => [TIdent n]
  | n :: names' => TIdent n :: TColons :: path_tokens names'
  end.
Fixpoint path_text (names : list str) : str :=
  match names with
  | [] => []
  | [n] => n
  | n :: names' => n ++ lit "::" ++ path_text names'
  end.
(** The arguments of a call without and with the redirect sigil. *)
Definition plain_call (names : list str) (params : list Param) : list token :=
  path_tokens names ++ flat_map (fun p => [TComma; TExpr p]) params.
Definition redirect_call (names : list str) : list token := TArrow :: path_tokens names.

(** The macro for a method. *)
Definition verb_macro (m : Method) : list token -> option (res Resource) :=
  match m with
  | Get => get_macro
  | Post => post_macro
  | Put => put_macro
  | Delete => delete_macro
  end.

(** The lines of a route file that say the same, [level] levels deep: two spaces
    per level. *)
Fixpoint margin (level : nat) : str :=
  match level with O => [] | S n => lit "  " ++ margin n end.
Definition resource_text (level : nat) (m : Method) (is_redirect : bool) (names : list str) (params : list Param) : str :=
  margin level ++ method_display m ++ lit " " ++ (if is_redirect then lit "-> " else []) ++ path_text names ++ [c_nl]
    ++ flat_map (fun p => margin (S level) ++ lit "[" ++ p_name p ++ lit ": " ++ p_typ p ++ lit "]" ++ [c_nl]) params.

(** An extension method is not one of the standard ones: the http crate reads
    those as themselves. *)
Definition http_standard : list str :=
  [lit "OPTIONS"; lit "GET"; lit "POST"; lit "PUT"; lit "DELETE"; lit "HEAD"; lit "TRACE"; lit "CONNECT"; lit "PATCH"].
Definition http_ok (h : http_method) : Prop :=
  match h with HExtension name => ~ In name http_standard | _ => True end.
