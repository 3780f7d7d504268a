(** * SpecBack: a matched route as a value of its struct *)
From Verif Require Import Base Core MiniRust Items.

(** What [match_route] gives: a value per path parameter, and [None] for every
    query parameter. *)
Inductive same_field {T} : str * fval T -> str * field_value T -> Prop :=
| same_given x t v : same_field (x, FvVal t v) (x, Given v)
| same_none x : same_field (x, FvNone) (x, Query None).
Definition struct_value {T} (v : route_value T) (fs : fields T) : Prop := Forall2 same_field (rv_fields v) fs.
