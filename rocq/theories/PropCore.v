(** * Properties C10-C12: mounting and resources *)
From Coq Require Import Sorted.
From Verif Require Import Base Core Spec SpecCore CoreFacts Examples.

(** C10.  The route table of the host is unchanged; that of the guest follows,
    below the mount point. *)
Theorem C10_mount c at_ d :
  rt_resources (c_routes (mount c at_ d)) = rt_resources (c_routes c) /\
  rt_query (c_routes (mount c at_ d)) = rt_query (c_routes c) /\
  rt_routes (c_routes (mount c at_ d)) = rt_routes (c_routes c) ++ [(Static at_, c_routes d)].
Proof. exact (conj eq_refl (conj eq_refl eq_refl)). Qed.
Print Assumptions C10_mount.
Theorem C10_mount_table c at_ d :
  table (c_routes (mount c at_ d)) =
  table (c_routes c) ++ map (below (Static at_) (rt_query (c_routes c))) (table (c_routes d)).
Proof. exact (mount_table c at_ d). Qed.
Print Assumptions C10_mount_table.
Example C10_example :
  map (fun e : list PathSegment * list Param * list Resource => (length (fst (fst e)), length (snd e)))
      (table (c_routes (mount shop (lit "staff") mixed))) =
  [(0, 1); (1, 2); (2, 2); (3, 1); (4, 1); (3, 1); (1, 1); (1, 0); (2, 1); (3, 1); (3, 2)].
Proof. vm_compute. reflexivity. Qed.

(** C11.  No duplicates, none lost, ordered by first occurrence. *)
Theorem C11_mount_headers c at_ d :
  NoDup (c_headers (mount c at_ d)) /\
  (forall h, In h (c_headers (mount c at_ d)) <-> In h (c_headers c) \/ In h (c_headers d)) /\
  StronglySorted (fun a b => first_index a (c_headers c ++ c_headers d) < first_index b (c_headers c ++ c_headers d))
    (c_headers (mount c at_ d)).
Proof. exact (mount_headers c at_ d). Qed.
Print Assumptions C11_mount_headers.
Theorem C11_mount_twice c at1 at2 d :
  c_headers (mount (mount c at1 d) at2 d) = c_headers (mount c at1 d).
Proof. exact (mount_twice c at1 at2 d). Qed.
Print Assumptions C11_mount_twice.
Theorem C11_disjoint c at_ d :
  NoDup (c_headers c ++ c_headers d) -> c_headers (mount c at_ d) = c_headers c ++ c_headers d.
Proof. exact (mount_disjoint c at_ d). Qed.
Print Assumptions C11_disjoint.
Definition hd_config (l : list string) : RouteConfig :=
  mkConfig (map (fun s => mkHeader (lit s)) l) (c_routes mixed).
Example C11_example :
  c_headers (mount (hd_config ["use a;"; "use b;"; "use a;"]) (lit "x") (hd_config ["use c;"; "use b;"; "use d;"]))%string =
  map (fun s => mkHeader (lit s)) ["use a;"; "use b;"; "use c;"; "use d;"]%string.
Proof. reflexivity. Qed.
Example C11_disjoint_example :
  NoDup (c_headers (hd_config ["use a;"; "use b;"]%string) ++ c_headers (hd_config ["use c;"]%string)).
Proof. repeat constructor; simpl; intuition discriminate. Qed.

(** C12. *)
Theorem C12_make m handler redirect q :
  (handler = [] /\ exists p, resource_make m handler redirect q = RPanic p) \/
  (exists r, resource_make m handler redirect q = ROk r /\ r_modules r ++ [r_name r] = handler /\
     r_method r = m /\ r_is_redirect r = redirect /\ r_query r = q).
Proof. exact (make_spec m handler redirect q). Qed.
Print Assumptions C12_make.
Example C12_example :
  resource_make Put [lit "admin"; lit "people"; lit "update"] false [] =
  ROk (mkResource Put [lit "admin"; lit "people"] (lit "update") false []) /\
  exists p, resource_make Get [] true [] = RPanic p.
Proof. split; [reflexivity|eexists; reflexivity]. Qed.
