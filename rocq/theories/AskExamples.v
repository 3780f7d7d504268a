(** * AskExamples: a configuration for PropAsk.v *)
From Verif Require Import Base Core Flat MiniRust Gen Spec SpecMatch SpecAsk MatchFacts MatchThms Examples.

Definition rooms : RouteConfig := read
  [ "/"; "  GET home"; "  {floor: Floor}"; "    GET floor"; "    {room: Room}"; "      GET room"; "      edit"; "        GET edit" ]%string.
(** [Floor]s are one character, and everything is a [Room]. *)
Definition floors : runtime bytes unit := {| rt_parse := fun t seg =>
  if str_eqb t (lit "Floor") then match seg with [_] => inl seg | _ => inr tt end else inl seg; rt_usize := fun _ => 0%nat |}.
Lemma rooms_runnable : runnable rooms.
Proof. apply runnableb_ok. vm_compute. reflexivity. Qed.
Lemma rooms_plain : every_block plain_statics (c_routes rooms).
Proof. eapply every_blockb_ok; [exact plain_staticsb_ok|vm_compute; reflexivity]. Qed.
Lemma rooms_nowhere {T E} (rt : runtime T E) method : match_route rt rooms (lit "/40/12/nowhere") method =
  Some (RunResult (match rt_parse rt (lit "Floor") (lit "40") with
                   | inr e => MError (lit "floor") e
                   | inl _ => match rt_parse rt (lit "Room") (lit "12") with inr e => MError (lit "room") e | inl _ => MNotFound end
                   end)).
Proof.
  rewrite match_find by exact rooms_runnable. destruct rt as [f u]. vm_compute.
  match goal with |- context [f ?t ?s] => destruct (f t s) end; [|reflexivity].
  match goal with |- context [f ?t ?s] => destruct (f t s) end; reflexivity.
Qed.
Lemma asked_anyway : exists c path,
  runnable c /\ every_block plain_statics (c_routes c) /\
  (forall (T E : Type) (rt : runtime T E) method redirect v, match_route rt c path method <> Some (RunResult (hit redirect v))) /\
  exists (rt rt' : runtime bytes unit) method, match_route rt c path method <> match_route rt' c path method.
Proof.
  exists rooms, (lit "/40/12/nowhere"). split; [exact rooms_runnable|]. split; [exact rooms_plain|]. split.
  - intros T E rt method redirect v. rewrite rooms_nowhere.
    destruct (rt_parse rt (lit "Floor") (lit "40")); [destruct (rt_parse rt (lit "Room") (lit "12"))|]; destruct redirect; discriminate.
  - exists floors, ex_rt, (lit "GET"). vm_compute. discriminate.
Qed.
