(** * Property C95: building again *)
From Verif Require Import Base Core Nom Parse Flat MiniRust Gen Build SpecGrammar SpecBuild SpecGen SpecDisk GrammarFacts GenThms BuildFacts DiskThms
  Examples BuildExamples.

(** After a build that finished, the target contains the generated code and nothing else,
    whatever it contained before; the other files are as they were. *)
Theorem C95_files wo missing d b es : build (on_disk wo missing d) b = (es, Finished tt) ->
  exists c, input_ok (on_disk wo missing d) b c /\
    (forall p, target_path b p -> after es d p = Some (w_text (codegen c))) /\
    (forall p, ~ target_path b p -> after es d p = d p).
Proof. exact (build_files wo missing d b es). Qed.
Print Assumptions C95_files.
(** If the source has not changed since, and the target is as the build left it, then
    another build changes nothing: Cargo can skip it. *)
Theorem C95_skipped wo missing d d' b es : build (on_disk wo missing d) b = (es, Finished tt) ->
  (forall p, source_path b p -> d' p = d p) -> (forall p, target_path b p -> d' p = after es d p) ->
  build (on_disk wo missing d') b = (es, Finished tt) /\ forall p, after es d' p = d' p.
Proof. exact (build_skipped wo missing d d' b es). Qed.
Print Assumptions C95_skipped.
(** So two builds in a row do what one does, ... *)
Theorem C95_twice wo missing d b es : build (on_disk wo missing d) b = (es, Finished tt) ->
  (forall p, source_path b p -> ~ target_path b p) ->
  build (on_disk wo missing (after es d)) b = (es, Finished tt) /\ forall p, after es (after es d) p = after es d p.
Proof. exact (build_twice wo missing d b es). Qed.
Print Assumptions C95_twice.
(** ... unless the target is the source: its routes are gone then, as generated code is
    never a route file, and a second build fails. *)
Theorem C95_never_routes ualnum c c' : snd (codegen c) = ROk tt -> ~ config_text ualnum c' (w_text (codegen c)).
Proof. exact (code_no_routes ualnum c c'). Qed.
Print Assumptions C95_never_routes.
Theorem C95_onto wo missing d b es p : build (on_disk wo missing d) b = (es, Finished tt) ->
  source_path b p -> target_path b p ->
  status (snd (build (on_disk wo missing (after es d)) b)) = Some 101 /\
  forall q, after (fst (build (on_disk wo missing (after es d)) b)) (after es d) q = after es d q.
Proof. exact (build_onto wo missing d b es p). Qed.
Print Assumptions C95_onto.

Definition before : disk := put (lit "/out/routes.rs") (lit "old") (put (lit "/src/app.routes") (file routes_text) (fun _ => None)).
Definition gone : str := lit "No such file or directory (os error 2)".
Example C95_example :
  let b := ex_builder "app.routes" "routes.rs" in
  let es := fst (build (on_disk ex_world gone before) b) in
  build (on_disk ex_world gone before) b = (es, Finished tt) /\
  source_path b (lit "/src/app.routes") /\ target_path b (lit "/out/routes.rs") /\
  (forall p, source_path b p -> ~ target_path b p) /\
  after es before (lit "/src/app.routes") = Some (file routes_text) /\
  after es before (lit "/out/routes.rs") = Some (w_text (codegen (read routes_text))) /\
  before (lit "/out/routes.rs") = Some (lit "old").
Proof.
  cbv zeta. split; [apply finished_events; vm_compute; reflexivity|].
  split; [eexists; split; [reflexivity|apply placed_iff; vm_compute; reflexivity]|].
  split; [eexists; split; [reflexivity|apply placed_iff; vm_compute; reflexivity]|].
  split; [|repeat split; vm_compute; reflexivity].
  intros p (f & H1 & H2) (g & G1 & G2). apply placed_iff in H2, G2. vm_compute in H1, G1. injection H1 as <-. injection G1 as <-.
  rewrite H2 in G2. vm_compute in G2. discriminate G2.
Qed.
(** Texts are written one after the other, from the beginning of the file. *)
Example C95_events_example :
  after [Create (lit "t"); Write (ToFile (lit "t")) (lit "ab"); Write (ToFile (lit "t")) (lit "cd")]
    (put (lit "t") (lit "old") (fun _ => None)) (lit "t") = Some (lit "abcd") /\
  after [Write (ToFile (lit "t")) (lit "ab"); Write ToStdout (lit "cd")] (fun _ => None) (lit "t") = None.
Proof. split; vm_compute; reflexivity. Qed.
(** That a build can always be repeated is false. *)
Definition before' : disk := put (lit "/out/app.routes") (file routes_text) (fun _ => None).
Example C95_onto_example : let b := ex_builder "/out/app.routes" "app.routes" in
  build (on_disk ex_world gone before') b = (fst (build (on_disk ex_world gone before') b), Finished tt) /\
  source_path b (lit "/out/app.routes") /\ target_path b (lit "/out/app.routes").
Proof.
  cbv zeta. split; [apply finished_events; vm_compute; reflexivity|].
  split; (eexists; split; [reflexivity|apply placed_iff; vm_compute; reflexivity]).
Qed.
Theorem C95_refuted : exists wo missing d b es,
  build (on_disk wo missing d) b = (es, Finished tt) /\ status (snd (build (on_disk wo missing (after es d)) b)) = Some 101.
Proof.
  destruct C95_onto_example as (H1 & H2 & H3). do 5 eexists. split; [exact H1|]. exact (proj1 (C95_onto _ _ _ _ _ _ H1 H2 H3)).
Qed.
Print Assumptions C95_refuted.
