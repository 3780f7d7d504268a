(** * SpecSite: repeated slashes, in requests and in printed paths *)
From Verif Require Import Base Core MiniRust Gen Spec SpecMatch.

(** The path has two slashes in a row. *)
Definition repeated (path : bytes) : Prop := exists u w, path = u ++ c_slash :: c_slash :: w.
(** A reference of RFC 3986, 4.2, that starts with the name of a host. *)
Definition network_path (u : bytes) : Prop := exists w, u = c_slash :: c_slash :: w.
(** What parsing makes of a segment is printed as the segment. *)
Definition printed_back {T E} (rt : runtime T E) (show : str -> T -> bytes) : Prop :=
  forall t text x, rt_parse rt t text = inl x -> show t x = text.
(** No type has a value that is written as nothing. *)
Definition empty_refused {T E} (rt : runtime T E) : Prop := forall t x, rt_parse rt t [] <> inl x.
