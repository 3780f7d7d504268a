(** * SpecEqual: when two answers of [match_route] are the same *)
From Coq Require Import Permutation.
From Verif Require Import Base Core MiniRust.

(** [==] of a type is equality. *)
Definition decides {T} (eqv : str -> T -> T -> bool) : Prop := forall t x y, eqv t x y = true <-> x = y.
Definition same_route {T} (v w : route_value T) : Prop :=
  rv_modules v = rv_modules w /\ rv_name v = rv_name w /\ Permutation (rv_fields v) (rv_fields w).
Inductive same_match {T E} : match_result T E -> match_result T E -> Prop :=
| same_not_found : same_match MNotFound MNotFound
| same_not_allowed : same_match MNotAllowed MNotAllowed
| same_routes v w : same_route v w -> same_match (MRoute v) (MRoute w)
| same_redirects v w : same_route v w -> same_match (MRedirect v) (MRedirect w).
Definition no_error {T E} (m : match_result T E) : Prop := forall x e, m <> MError x e.

(** Values of the same struct that are equal field by field. *)
Definition equal_values {T} (eqv : str -> T -> T -> bool) (ps : list Param) (vals vals' : list T) : Prop :=
  Forall2 (fun pv pw => eqv (p_typ (fst pv)) (snd pv) (snd pw) = true) (combine ps vals) (combine ps vals').
Inductive equal_option {T} (eqv : str -> T -> T -> bool) (t : str) : option T -> option T -> Prop :=
| equal_none : equal_option eqv t None None
| equal_some x y : eqv t x y = true -> equal_option eqv t (Some x) (Some y).
Definition equal_options {T} (eqv : str -> T -> T -> bool) (ps : list Param) (opts opts' : list (option T)) : Prop :=
  Forall2 (fun pv pw => equal_option eqv (p_typ (fst pv)) (snd pv) (snd pw)) (combine ps opts) (combine ps opts').
