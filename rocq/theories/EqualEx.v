(** * EqualEx: requests with equal answers, for C73 *)
From Verif Require Import Base Core Flat MiniRust Gen Items Cli Fixed Equal Spec SpecMatch SpecPath SpecEqual BaseFacts Examples.

(** [FromStr] of numbers ignores leading zeros. *)
Fixpoint strip_zeros (s : bytes) : bytes :=
  match s with
  | c :: (_ :: _) as s' => if N.eqb c 48%N then strip_zeros s' else s
  | _ => s
  end.
Definition number_rt : runtime bytes unit :=
  mkRuntime (fun _ s => if match s with [] => false | _ => forallb is_digit s end then inl (strip_zeros s) else inr tt) (fun _ => 0).
Definition rooms : RouteConfig := read [ "/"; "  rooms"; "    {n: u32}"; "      [lang: String]"; "      GET room"; "      DELETE leave" ]%string.
Definition ex_eqv (t : str) (x y : bytes) : bool := str_eqb x y.
Definition room (n : string) : route_value bytes :=
  mkRoute [] (lit "Room") [(lit "n", FvVal (lit "u32") (lit n)); (lit "lang", FvNone)].
Lemma ex_decides : decides ex_eqv.
Proof. intros t x y. apply str_eqb_eq. Qed.
Lemma rooms_runnable : runnable rooms.
Proof. apply runnableb_ok; vm_compute; reflexivity. Qed.
Lemma rooms_7 : match_route number_rt rooms (lit "/rooms/7") (lit "GET") = Some (RunResult (MRoute (room "7"))).
Proof. vm_compute. reflexivity. Qed.
Lemma rooms_007 : match_route number_rt rooms (lit "/rooms/007") (lit "GET") = Some (RunResult (MRoute (room "7"))).
Proof. vm_compute. reflexivity. Qed.
Lemma equal_paths_differ : ~ forall (eqv : str -> bytes -> bytes -> bool) (of_usize : nat -> bytes) (rt : runtime bytes unit)
    c path method path' method' v w,
  runnable c -> decides eqv ->
  match_route rt c path method = Some (RunResult (MRoute v)) ->
  match_route rt c path' method' = Some (RunResult (MRoute w)) ->
  eq_match (E := unit) eqv of_usize c (MRoute v) (MRoute w) = Some true ->
  exists segs, spells path segs /\ spells path' segs.
Proof.
  intros H.
  destruct (H ex_eqv nat_str number_rt rooms _ _ _ _ _ _ rooms_runnable ex_decides rooms_7 rooms_007) as (segs & H1 & H2);
    [vm_compute; reflexivity|].
  destruct H1 as [H1|[N1 H1]], H2 as [H2|[N2 H2]].
  - rewrite <- H1 in H2. vm_compute in H2. discriminate.
  - rewrite <- H1 in H2. vm_compute in H2. discriminate.
  - rewrite <- H2 in H1. vm_compute in H1. discriminate.
  - assert (E : join segs ++ [c_slash] = lit "rooms/7") by (rewrite <- H1; reflexivity).
    apply (f_equal (fun l => last l 0%N)) in E. rewrite last_last in E. discriminate.
Qed.
