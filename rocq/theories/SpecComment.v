(** * SpecComment: which characters can stand where in a route file *)
From Verif Require Import Base Core SpecParse.

(** The characters of the routes: those of names, white space, brackets, colons and arrows. *)
Definition route_char (ualnum : char -> bool) (c : char) : Prop :=
  ident_char ualnum c \/ is_space c = true \/ In c (lit "[]{}:->").
(** What comes next is at the beginning of a line. *)
Definition line_start (before : str) : Prop := before = [] \/ exists u, before = u ++ [c_nl].
