(** * Property C80: a matcher that compiles answers every request *)
From Verif Require Import Base Core Flat MiniRust Gen SpecTyped TypedFacts Examples PropMatch.

(** C80.  If the generated module compiles, then every call of [match_route]
    ends, with a panic or with a value of its type: a declared struct, inside
    the variants of its modules, with a value of the declared type for every
    field.  No condition on the names of parameters or on redirects. *)
Theorem C80_answers {T E} (rt : runtime T E) c path method : compiles c = true ->
  exists root r, flattened_modules (c_routes c) = ROk root /\ match_route rt c path method = Some r /\
    match r with RunResult m => answer_fits (module_structs [] root) m | RunPanic => True end.
Proof. exact (compiled_answers rt c path method). Qed.
Print Assumptions C80_answers.
(** Also where a parameter captures a variable of the matcher (C48). *)
Example C80_example :
  compiles captor_start = true /\
  match_route ex_rt captor_start (lit "/7/abc") (lit "GET") =
  Some (RunResult (MRoute {| rv_modules := []; rv_name := lit "More";
    rv_fields := [(lit "start", FvUsize 3); (lit "word", FvVal (lit "String") (lit "abc"))] |})) /\
  compiles captor = true /\ match_route ex_rt captor (lit "/9/mo") (lit "GET") = Some RunPanic.
Proof. repeat split; vm_compute; reflexivity. Qed.
(** What [answer_fits] leaves out: a field that is missing, of another type, or
    not declared. *)
Example C80_fits :
  let senv := [([], lit "Show", [mkField (lit "id") (lit "u32") false; mkField (lit "q") (lit "String") true])] in
  let show fs := mkRoute (T := bytes) [] (lit "Show") fs in
  let id := (lit "id", FvVal (lit "u32") (lit "1")) in
  let q := (lit "q", FvNone) in
  route_fits senv (show [id; q]) /\
  ~ route_fits senv (show [id]) /\ ~ route_fits senv (show [q]) /\
  ~ route_fits senv (show [(lit "id", FvVal (lit "String") (lit "1")); q]) /\
  ~ route_fits senv (show [(lit "id", FvUsize 1); q]) /\ ~ route_fits senv (show [(lit "id", FvNone); q]) /\
  ~ route_fits senv (show [id; q; (lit "r", FvNone)]).
Proof.
  intros senv show id q.
  assert (Hs : forall l, route_fits senv (show l) ->
            struct_fits [mkField (lit "id") (lit "u32") false; mkField (lit "q") (lit "String") true] l).
  { intros l ([|m mods] & fs & H & _ & G); [|vm_compute in H; discriminate]. vm_compute in H. injection H as <-. exact G. }
  split; [|repeat split; intros H; apply Hs in H; destruct H as (_ & H1 & H2)].
  - exists [], [mkField (lit "id") (lit "u32") false; mkField (lit "q") (lit "String") true].
    split; [reflexivity|]. split; [reflexivity|]. split; [|split].
    + apply TypedFacts.nodup_strs_nodup. reflexivity.
    + intros fd [<-|[<-|[]]]; cbn; auto.
    + intros x v [[= <- <-]|[[= <- <-]|[]]]; eexists; (split; [reflexivity|]); cbn; auto.
  - destruct (H1 _ (or_intror (or_introl eq_refl))) as [H|[]]. discriminate.
  - destruct (H1 _ (or_introl eq_refl)) as [H|[]]. discriminate.
  - destruct (H2 _ _ (or_introl eq_refl)) as (fd & [= <-] & _ & H). discriminate.
  - destruct (H2 _ _ (or_introl eq_refl)) as (fd & [= <-] & _ & H). discriminate.
  - destruct (H2 _ _ (or_introl eq_refl)) as (fd & [= <-] & H). discriminate.
  - destruct (H2 _ _ (or_intror (or_intror (or_introl eq_refl)))) as (fd & H & _). discriminate.
Qed.
