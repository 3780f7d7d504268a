(** * Equal: [==] on what [match_route] returns

    The generated structs and enums derive [PartialEq] and [Eq]
    (wayfinder/src/gen/gen.rs:105, 216 and 319).  Derived [==]: the same variant,
    and equal fields, in the order of the declaration. *)
From Verif Require Import Base Core Flat MiniRust Gen Items Cli Fixed.

Section Equal.
Context {T E : Type}.
(** [==] of the type with the given name. *)
Variable eqv : str -> T -> T -> bool.

Definition eq_field (t : ty) (v w : field_value T) : option bool :=
  match t, v, w with
  | TyUser t, Given v, Given w => Some (eqv t v w)
  | TyOption t, Query v, Query w =>
      Some match v, w with
           | Some v, Some w => eqv t v w
           | None, None => true
           | _, _ => false
           end
  | _, _, _ => None
  end.
Fixpoint eq_fields (decl : list (str * ty)) (fs gs : fields T) : option bool :=
  match decl with
  | [] => Some true
  | (x, t) :: decl' =>
      match lookup x fs, lookup x gs with
      | Some v, Some w =>
          match eq_field t v w, eq_fields decl' fs gs with
          | Some a, Some b => Some (a && b)
          | _, _ => None
          end
      | _, _ => None
      end
  end.
(** Two values of the struct [name], and two of the enum [enum], of the module
    [items]; values as for [run_enum]. *)
Definition eq_struct (items : list item) (name : str) (fs gs : fields T) : option bool :=
  match lookup name (structs_of items) with
  | Some decl => eq_fields decl fs gs
  | None => None
  end.
Fixpoint eq_enum (items : list item) (enum : str) (vs : list str) (fs : fields T) (ws : list str) (gs : fields T) : option bool :=
  match vs, ws with
  | v :: vs', w :: ws' =>
      match lookup enum (enums_of items) with
      | Some variants =>
          match lookup v variants, lookup w variants with
          | Some t, Some _ =>
              if str_eqb v w then
                match t with
                | TyItem [] n => match vs', ws' with [], [] => eq_struct items n fs gs | _, _ => None end
                | TyItem [m] n =>
                    match lookup m (mods_of items) with
                    | Some l => eq_enum l n vs' fs ws' gs
                    | None => None
                    end
                | _ => None
                end
              else Some false
          | _, _ => None
          end
      | None => None
      end
  | _, _ => None
  end.
(** Two values of [Route]. *)
Definition eq_route (c : RouteConfig) (mods : list str) (name : str) (fs : fields T) (mods' : list str) (name' : str) (gs : fields T)
    : option bool :=
  match flattened_modules (c_routes c) with
  | ROk root =>
      if compiles c then
        eq_enum (module_items true (c_headers c) root) (lit "Route") (mods ++ [name]) fs (mods' ++ [name']) gs
      else None
  | _ => None
  end.

(** Two values of [Match<Route>]; an [Error] has no [==], so that results are
    compared after [unwrap]. *)
Variable of_usize : nat -> T.
Definition match_variant (m : match_result T E) : option (str * option (route_value T)) :=
  match m with
  | MNotFound => Some (lit "NotFound", None)
  | MNotAllowed => Some (lit "NotAllowed", None)
  | MRoute v => Some (lit "Route", Some v)
  | MRedirect v => Some (lit "Redirect", Some v)
  | MError _ _ => None
  end.
Definition eq_match (c : RouteConfig) (m m' : match_result T E) : option bool :=
  match match_variant m, match_variant m' with
  | Some (x, Some v), Some (y, Some w) =>
      match eq_route c (rv_modules v) (rv_name v) (as_fields of_usize v) (rv_modules w) (rv_name w) (as_fields of_usize w) with
      | Some b => enum_eq fixed_code (lit "Match") (fun _ _ : unit => b) (x, Some tt) (y, Some tt)
      | None => None
      end
  | Some (x, v), Some (y, w) =>
      enum_eq fixed_code (lit "Match") (fun _ _ : unit => true) (x, option_map (fun _ => tt) v) (y, option_map (fun _ => tt) w)
  | _, _ => None
  end.
End Equal.
