(** * Property C89: files that are cut off *)
From Verif Require Import Base Core Nom Parse Spec SpecMatch SpecParse SpecGrammar SpecOutline SpecCut ParseFacts CutFacts Examples.

(** If a file is accepted, and the file without its end as well, wherever it ends now,
    then the shorter one says the beginning of what the longer one says: the same header,
    and the routes up to a place in one of the resources. *)
Theorem C89_cut ualnum text tail c1 c :
  route_config_p ualnum text = POk [] c1 -> route_config_p ualnum (text ++ tail) = POk [] c ->
  c_headers c1 = c_headers c /\ cut false (c_routes c1) (c_routes c).
Proof. exact (fun H1 H => let (Hh, Hc) := cut_file ualnum text tail c1 c H1 H in conj Hh (proj1 Hc)). Qed.
Print Assumptions C89_cut.
(** Handlers are whole, unless the rest goes on with a colon. *)
Theorem C89_whole ualnum text tail c1 c :
  route_config_p ualnum text = POk [] c1 -> route_config_p ualnum (text ++ tail) = POk [] c -> ~ resumes tail ->
  cut true (c_routes c1) (c_routes c).
Proof. exact (fun H1 H => proj2 (proj2 (cut_file ualnum text tail c1 c H1 H))). Qed.
Print Assumptions C89_whole.
(** All these beginnings, with whole handlers, are what a beginning of the file says. *)
Theorem C89_every ualnum text c b1 :
  route_config_p ualnum text = POk [] c -> cut true b1 (c_routes c) ->
  exists text1 tail, text = text1 ++ tail /\ route_config_p ualnum text1 = POk [] (mkConfig (c_headers c) b1).
Proof. exact (cut_written ualnum text c b1). Qed.
Print Assumptions C89_every.
(** Each block of a beginning is a block of the whole, at the same path and with the same
    query parameters, or the beginning of one. *)
Theorem C89_blocks whole b1 b pat q x1 : cut whole b1 b -> block_at b1 pat q x1 ->
  exists x, block_at b pat q x /\ (x1 = x \/ cut whole x1 x).
Proof. exact (fun H => cut_blocks whole b1 b H pat q x1). Qed.
Print Assumptions C89_blocks.

Definition all_lines : list string :=
  [ "use x;"; "/"; "  GET home"; "  people"; "    GET people::index"; "      [page: u32]"; "      [by: Key]"; "    POST people::add";
    "    {id: u32}"; "      GET people::show"; "  about"; "    GET about" ]%string.
Definition no_table (c : char) : bool := false.
Example C89_example :
  let text := file (firstn 6 all_lines) in
  let tail := file (skipn 6 all_lines) in
  let c1 := read (firstn 6 all_lines) in
  text ++ tail = file all_lines /\ route_config_p no_table text = POk [] c1 /\
  route_config_p no_table (text ++ tail) = POk [] (read all_lines) /\ ~ resumes tail /\
  c1 = mkConfig [mkHeader (lit "use x;")] (mkRoutes [mkResource Get [] (lit "home") false []]
    [(Static (lit "people"), mkRoutes [mkResource Get [lit "people"] (lit "index") false [mkParam (lit "page") (lit "u32")]] [] [])] []) /\
  block_at (c_routes c1) [Static (lit "people")] []
    (mkRoutes [mkResource Get [lit "people"] (lit "index") false [mkParam (lit "page") (lit "u32")]] [] []) /\
  (* without its last line, with the bare segment at the end, it is not a file *)
  route_config_p no_table (file (firstn 4 all_lines)) = PFail.
Proof.
  cbv zeta. split; [vm_compute; reflexivity|]. split; [vm_compute; reflexivity|]. split; [vm_compute; reflexivity|].
  split; [|split; [vm_compute; reflexivity|split; [|vm_compute; reflexivity]]].
  - intros (a & t & Ha & E). vm_compute in E. do 6 (destruct a as [|? a]; [discriminate E|injection E as <- E]).
    destruct a as [|? a]; [discriminate E|injection E as <- E]. inversion Ha; subst.
    repeat match goal with H : Forall _ (_ :: _) |- _ => inversion H; subst; clear H end. discriminate.
  - refine (block_step (c_routes (read (firstn 6 all_lines))) (Static (lit "people"))
      (mkRoutes [mkResource Get [lit "people"] (lit "index") false [mkParam (lit "page") (lit "u32")]] [] []) [] [] _ _ (block_root _)).
    vm_compute. left. reflexivity.
Qed.
(** The last resource, the one before it, and so on: *)
Example C89_every_example : cut true (c_routes (read (firstn 10 all_lines))) (c_routes (read all_lines)).
Proof.
  eapply (C89_whole no_table (file (firstn 10 all_lines)) (file (skipn 10 all_lines))); try (vm_compute; reflexivity).
  intros (a & t & Ha & E). vm_compute in E. do 3 (destruct a as [|? a]; [discriminate E|injection E as <- E]).
  inversion Ha; subst. repeat match goal with H : Forall _ (_ :: _) |- _ => inversion H; subst; clear H end. discriminate.
Qed.

(** That a file without its end is noticed is false, ... *)
Theorem C89_noticed_refuted : exists text tail c c1,
  route_config_p no_table (text ++ tail) = POk [] c /\ route_config_p no_table text = POk [] c1 /\ c1 <> c.
Proof.
  exists (file (firstn 3 all_lines)), (file (skipn 3 all_lines)), (read all_lines), (read (firstn 3 all_lines)).
  split; [vm_compute; reflexivity|]. split; [vm_compute; reflexivity|]. vm_compute. discriminate.
Qed.
Print Assumptions C89_noticed_refuted.
(** ... and also that its handlers are handlers of the whole file: a path may go on in the
    next line. *)
Theorem C89_handlers_refuted : exists text tail c c1 r,
  route_config_p no_table (text ++ tail) = POk [] c /\ route_config_p no_table text = POk [] c1 /\
  In r (rt_resources (c_routes c1)) /\ ~ exists r', In r' (rt_resources (c_routes c)) /\ handler r' = handler r.
Proof.
  exists (file ["/"; "  DELETE people"]%string), (file ["  ::remove"]%string), (read ["/"; "  DELETE people::remove"]%string),
    (read ["/"; "  DELETE people"]%string), (mkResource Delete [] (lit "people") false []).
  split; [vm_compute; reflexivity|]. split; [vm_compute; reflexivity|]. split; [vm_compute; left; reflexivity|].
  intros (r' & [<-|[]] & E). vm_compute in E. discriminate E.
Qed.
Print Assumptions C89_handlers_refuted.
