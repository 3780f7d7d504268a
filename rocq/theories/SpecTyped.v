(** * SpecTyped: answers that fit the generated types *)
From Verif Require Import Base Core Flat MiniRust.

Section Typed.
Context {T E : Type}.
(** A value for a declared field: [None] for an optional one, a value of its
    type for another. *)
Definition field_fits (fd : field_decl) (v : fval T) : Prop :=
  match v with
  | FvNone => fd_opt fd = true
  | FvVal t _ => fd_opt fd = false /\ t = fd_typ fd
  | FvUsize _ => fd_opt fd = false /\ fd_typ fd = lit "usize"
  end.
(** A value of the struct with these fields: each of them once. *)
Definition struct_fits (fs : list field_decl) (l : list (str * fval T)) : Prop :=
  NoDup (map fst l) /\
  (forall fd, In fd fs -> In (fd_name fd) (map fst l)) /\
  (forall x v, In (x, v) l -> exists fd, lookup_field fs x = Some fd /\ field_fits fd v).
(** A value of type [Route]: a declared struct inside the variants of the
    modules that lead to it. *)
Definition route_fits (senv : struct_env) (r : route_value T) : Prop :=
  exists mods fs, lookup_struct senv mods (rv_name r) = Some fs /\ map snd mods = rv_modules r /\
    struct_fits fs (rv_fields r).
Definition answer_fits (senv : struct_env) (m : match_result T E) : Prop :=
  match m with MRoute r | MRedirect r => route_fits senv r | _ => True end.
End Typed.
