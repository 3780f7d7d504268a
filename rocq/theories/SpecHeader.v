(** * SpecHeader: where header lines go *)
From Verif Require Import Base Core Flat Items SpecGen.

Definition is_line (it : item) : Prop := exists t, it = ItLine t.
(** The items of a module that begins with the lines [hs] and has no others. *)
Definition begins_with (hs : list Header) (items : list item) : Prop :=
  exists rest, items = map (fun h => ItLine (h_text h)) hs ++ (match hs with [] => [] | _ => [ItBlank] end) ++ rest /\
    Forall (fun it => ~ is_line it) rest.

(** The number of modules in a module, at any depth. *)
Fixpoint modules_in (m : FlattenedModule) : nat :=
  match m with mkModule _ _ mods => list_sum (map (fun s => S (modules_in s)) mods) end.

Definition copied_lines (ind : str) (hs : list Header) : str :=
  unlines (map (fun h => ind ++ h_text h) hs) ++ [c_nl].
(** [copies hs n t t']: [t'] is [t] with the lines [hs] and an empty one put in at the
    beginning of [n] modules, four spaces further in than the module. *)
Inductive copies (hs : list Header) : nat -> str -> str -> Prop :=
| copies_none t : copies hs 0 t t
| copies_next n u ind name t t' : copies hs n t t' ->
    copies hs (S n) (u ++ (ind ++ lit "pub mod " ++ name ++ lit " {" ++ [c_nl]) ++ t)
                    (u ++ (ind ++ lit "pub mod " ++ name ++ lit " {" ++ [c_nl]) ++ copied_lines (ind ++ lit "    ") hs ++ t').

(** A line that can be in a header. *)
Definition plain_line (l : str) : Prop :=
  ~ In c_nl l /\ ~ In c_cr l /\ hd_error l <> Some c_slash.
Definition not_empty (l : str) : bool := match l with [] => false | _ => true end.
