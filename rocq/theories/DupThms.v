(** * DupThms: which struct is declared twice *)
From Verif Require Import Base Core Flat MiniRust Gen Spec SpecGen BaseFacts FlatFacts GenThms.
From Coq Require Import Permutation.

Definition panic_for (modules : list str) : panic :=
  match modules with [] => PanicUnwrapNone | _ => PanicDuplicateAction end.
Lemma insert_all_which l : forall m p, hm_ok m -> insert_all m l = RPanic p ->
  exists x rest, Permutation (map entry_key (l ++ hactions m)) (x :: x :: rest) /\ p = panic_for (fst x).
Proof.
  induction l as [|[mods a] l IH]; intros m p Hok E; [discriminate E|]. cbn [insert_all] in E.
  destruct (hmodule_insert m mods (a_name a) a) as [m' dup] eqn:Ei.
  destruct (hmodule_insert_ok _ _ _ _ _ _ Hok eq_refl Ei) as [H1 H2]. destruct dup.
  - destruct (in_split _ _ (proj1 H1 eq_refl)) as (k1 & k2 & Hk). exists (mods, a_name a), (map entry_key l ++ k1 ++ k2).
    split; [|destruct mods; injection E as <-; reflexivity].
    cbn [app map]. change (entry_key (mods, a)) with (mods, a_name a). apply perm_skip. rewrite map_app, Hk.
    rewrite app_assoc, <- Permutation_middle, <- app_assoc. reflexivity.
  - destruct (H2 eq_refl) as [Hok' Hp]. destruct (IH m' p Hok' E) as (x & rest & Hx & ->). exists x, rest. split; [|reflexivity].
    rewrite <- Hx. apply Permutation_map. cbn [app]. rewrite Hp. apply Permutation_middle.
Qed.
Lemma flattened_which b p : flattened_modules b = RPanic p ->
  exists x rest, Permutation (struct_names b) (x :: x :: rest) /\ p = panic_for (fst x).
Proof.
  unfold flattened_modules. destruct (modules_loop_all (routes_size b) [(b, [], [])] hmodule_default) as (order & Hp & ->); [simpl; lia|].
  cbn [map concat] in Hp. rewrite app_nil_r, item_actions_root in Hp. intros E.
  destruct (insert_all hmodule_default order) as [m| |p'|] eqn:Ei; cbn [rbind] in E; try discriminate E. injection E as <-.
  destruct (insert_all_which order _ _ hm_default_ok Ei) as (x & rest & Hx & ->). exists x, rest. split; [|reflexivity].
  rewrite <- Hx. cbn [hactions hmodule_default]. rewrite struct_names_actions. apply Permutation_map.
  rewrite <- Hp. cbn. rewrite app_nil_r. reflexivity.
Qed.
Lemma twice_split {A} (l : list A) x rest : Permutation l (x :: x :: rest) -> exists l1 l2 l3, l = l1 ++ x :: l2 ++ x :: l3.
Proof.
  intros H. destruct (Permutation_vs_cons_inv H) as (l1 & l2 & ->).
  assert (Hx : In x (l1 ++ l2)).
  { apply (Permutation_in x (l := x :: rest)); [|left; reflexivity]. apply Permutation_cons_app_inv with (a := x). symmetry. exact H. }
  apply in_app_or in Hx as [Hx|Hx]; apply in_split in Hx as (k1 & k2 & ->).
  - exists k1, k2, l2. rewrite <- app_assoc. reflexivity.
  - exists l1, k1, k2. reflexivity.
Qed.
Lemma codegen_which c : ~ NoDup (struct_names (c_routes c)) ->
  exists modules name, declared_twice (c_routes c) (modules, name) /\ snd (codegen c) = RPanic (panic_for modules).
Proof.
  intros H. destruct (flattened_modules_names (c_routes c)) as [[_ H1]|[(p & Ep & _) _]]; [contradiction|].
  destruct (flattened_which _ _ Ep) as ([modules name] & rest & Hx & ->). exists modules, name.
  split; [exact (twice_split _ _ _ Hx)|]. unfold codegen. rewrite Ep. reflexivity.
Qed.
