(** * MatchThms: statements about [match_route] from those about the search *)
From Coq Require Import Permutation.
From Verif Require Import Base Core Trie Flat MiniRust Gen Spec SpecMatch BaseFacts NodeFacts RunFacts
  MatchFacts MatchProps.

Section Thms.
Context {T E : Type}.
Variable rt : runtime T E.
Let parse := rt_parse rt.

Lemma match_find c path method : runnable c ->
  match_route rt c path method =
  Some (finish method (tree_find parse (c_routes c) [] [] (no_slash path))).
Proof.
  intros (Hc & Hh & Hr). rewrite match_route_tree by auto. f_equal. apply run_find.
Qed.
Lemma match_eq c path method r : runnable c ->
  match_route rt c path method = Some r <->
  finish method (tree_find parse (c_routes c) [] [] (no_slash path)) = r.
Proof. intros Hc. rewrite match_find by exact Hc. split; [intros [= H]; exact H|intros ->; reflexivity]. Qed.

Lemma find_first method (rs : list Resource) :
  match find (fun r => str_eqb method (method_display (r_method r))) rs with
  | Some r => exists l1 l2, rs = l1 ++ r :: l2 /\ method_display (r_method r) = method /\
                forall r', In r' l1 -> method_display (r_method r') <> method
  | None => forall r, In r rs -> method_display (r_method r) <> method
  end.
Proof.
  induction rs as [|r rs IH]; simpl; [tauto|].
  destruct (str_eqb_spec method (method_display (r_method r))) as [Heq|Hne].
  - exists [], rs. repeat split; auto; intros r' [].
  - destruct (find _ rs) as [r'|].
    + destruct IH as (l1 & l2 & -> & H1 & H2). exists (r :: l1), l2. repeat split; auto.
      intros r0 [<-|Hin]; auto.
    + intros r0 [<-|Hin]; auto.
Qed.
Lemma answer_cases method b q (a : @args T) :
  (exists r, first_resource_for method b r /\
     answer (E := E) method (rt_resources b) q a = RunResult (hit (r_is_redirect r) (route_for r q a))) \/
  (no_resource_for method b /\ answer (E := E) method (rt_resources b) q a = RunResult MNotAllowed).
Proof.
  unfold answer. pose proof (find_first method (rt_resources b)) as H.
  destruct (find _ (rt_resources b)) as [r|].
  - left. exists r. split; [exact H|]. unfold hit. destruct (r_is_redirect r); reflexivity.
  - right. split; auto.
Qed.
Lemma hit_inj redirect redirect' (v v' : route_value T) :
  hit (E := E) redirect v = hit redirect' v' -> redirect = redirect' /\ v = v'.
Proof. unfold hit. destruct redirect, redirect'; intros [= ->]; auto. Qed.

(** C25 *)
Lemma sound c path method redirect v : runnable c ->
  match_route rt c path method = Some (RunResult (hit redirect v)) ->
  exists pat q b r segs a,
    block_at (c_routes c) pat q b /\ first_resource_for method b r /\ r_is_redirect r = redirect /\
    spells path segs /\ matches parse pat segs a /\ v = route_for r q a.
Proof.
  intros Hc H. apply match_eq in H; auto.
  destruct (tree_find parse (c_routes c) [] [] (no_slash path)) as [b q a| |p e|] eqn:Ef;
    cbn [finish] in H; try (unfold hit in H; destruct redirect; discriminate).
  destruct (find_sound parse _ _ _ _ _ _ _ Ef) as (_ & pat & segs & vals & q0 & H1 & H2 & H3 & H4 & H5).
  simpl in H2, H3. subst q0 vals.
  destruct (answer_cases method b q a) as [(r & Hr & Ha)|[_ Ha]]; rewrite Ha in H.
  - assert (Hh : hit (E := E) (r_is_redirect r) (route_for r q a) = hit redirect v) by congruence.
    apply hit_inj in Hh. destruct Hh as [Hh1 Hh2].
    exists pat, q, b, r, segs, a. repeat split; auto.
  - exfalso. unfold hit in H. destruct redirect; discriminate.
Qed.

(** C32 *)
Lemma not_allowed_iff c path method : runnable c ->
  match_route rt c path method = Some (RunResult MNotAllowed) <->
  exists b q a, tree_find parse (c_routes c) [] [] (no_slash path) = Found b q a /\
                no_resource_for method b.
Proof.
  intros Hc. rewrite match_eq by exact Hc. split.
  - intros H. destruct (tree_find parse (c_routes c) [] [] (no_slash path)) as [b q a| |p e|] eqn:Ef;
      try discriminate.
    exists b, q, a. split; auto. cbn [finish] in H.
    destruct (answer_cases method b q a) as [(r & Hr & Ha)|[Hn _]]; auto.
    rewrite Ha in H. unfold hit in H. destruct (r_is_redirect r); discriminate.
  - intros (b & q & a & -> & Hn). cbn [finish].
    destruct (answer_cases method b q a) as [(r & (l1 & l2 & Hl & Hm & _) & _)|[_ Ha]]; auto.
    exfalso. apply (Hn r); auto. rewrite Hl. apply in_or_app. right. left. reflexivity.
Qed.
Lemma not_found_iff c path method : runnable c ->
  match_route rt c path method = Some (RunResult MNotFound) <->
  tree_find parse (c_routes c) [] [] (no_slash path) = Nothing.
Proof.
  intros Hc. rewrite match_eq by exact Hc. split.
  - intros H. destruct (tree_find parse (c_routes c) [] [] (no_slash path)) as [b q a| |p e|] eqn:Ef;
      try discriminate; auto.
    cbn [finish] in H.
    destruct (answer_cases method b q a) as [(r & Hr & Ha)|[_ Ha]]; rewrite Ha in H;
      [unfold hit in H; destruct (r_is_redirect r)|]; discriminate.
  - intros ->. reflexivity.
Qed.
Lemma not_allowed_sound c path method : runnable c ->
  match_route rt c path method = Some (RunResult MNotAllowed) ->
  exists pat q b segs a,
    block_at (c_routes c) pat q b /\ rt_resources b <> [] /\ no_resource_for method b /\
    spells path segs /\ matches parse pat segs a.
Proof.
  intros Hc H. apply not_allowed_iff in H; auto. destruct H as (b & q & a & Hf & Hn).
  destruct (find_sound parse _ _ _ _ _ _ _ Hf) as (Hr & pat & segs & vals & q0 & H1 & H2 & H3 & H4 & H5).
  exists pat, q0, b, segs, vals. repeat split; auto.
Qed.
(** The method decides between the answers of one block. *)
Lemma method_only c path m1 m2 : runnable c ->
  (match_route rt c path m1 = Some (RunResult MNotFound) <->
   match_route rt c path m2 = Some (RunResult MNotFound)) /\
  (forall name e, match_route rt c path m1 = Some (RunResult (MError name e)) <->
   match_route rt c path m2 = Some (RunResult (MError name e))) /\
  (match_route rt c path m1 = Some RunPanic <-> match_route rt c path m2 = Some RunPanic).
Proof.
  intros Hc. rewrite !not_found_iff by exact Hc. split; [tauto|].
  split; [intros name e|]; rewrite !match_eq by exact Hc;
    destruct (tree_find parse (c_routes c) [] [] (no_slash path)) as [b q a| |p e'|]; cbn [finish]; try tauto;
    destruct (answer_cases m1 b q a) as [(r1 & _ & ->)|[_ ->]];
    destruct (answer_cases m2 b q a) as [(r2 & _ & ->)|[_ ->]];
    unfold hit; split; intros H; repeat match goal with H : context [if ?x then _ else _] |- _ => destruct x end;
    discriminate.
Qed.

(** C26 *)
Lemma request_ideal c path method : runnable c ->
  every_block plain_statics (c_routes c) -> utf8_valid path = true ->
  unaffected (request_segments path) (c_routes c) ->
  match_route rt c path method = Some (ideal_match parse method c path).
Proof.
  intros Hc Hp Hu Ha. rewrite match_find by exact Hc. unfold ideal_match, request_segments in *.
  rewrite find_ideal; auto. apply utf8_valid_no_slash. exact Hu.
Qed.
Lemma no_mixed_unaffected : forall segs b,
  every_block no_mixed b -> every_block dynamic_has_resources b -> unaffected segs b.
Proof.
  induction segs as [|seg segs IH]; intros b Hm Hd; cbn [unaffected].
  - apply (every_block_here _ _ Hd).
  - pose proof (every_block_here _ _ Hm) as Hmb. unfold no_mixed in Hmb.
    destruct (static_child seg (statics (rt_routes b))) as [child|] eqn:Es.
    + apply static_child_in in Es. split.
      * intros Hne. rewrite (Hmb Hne) in Es. destruct Es.
      * apply IH; eapply every_block_child; eauto; apply statics_In; exact Es.
    + destruct (least_dynamic (dynamic_children (rt_routes b))) as [[p child]|] eqn:El; auto.
      pose proof (least_in _ _ El) as Hin. apply dynamic_children_In in Hin. split.
      * rewrite Hmb by (eapply least_some; eauto). discriminate.
      * apply IH; eapply every_block_child; eauto.
Qed.
Lemma config_ideal c path method : runnable c ->
  every_block plain_statics (c_routes c) -> every_block no_mixed (c_routes c) ->
  every_block dynamic_has_resources (c_routes c) -> utf8_valid path = true ->
  match_route rt c path method = Some (ideal_match parse method c path).
Proof.
  intros. apply request_ideal; auto. apply no_mixed_unaffected; auto.
Qed.

(** C36 *)
Lemma no_panic c path method : runnable c ->
  every_block no_short_static (c_routes c) -> utf8_valid path = true ->
  match_route rt c path method <> Some RunPanic.
Proof.
  intros Hc Hb Hu H. apply match_eq in H; auto.
  destruct (tree_find parse (c_routes c) [] [] (no_slash path)) as [b q a| |p e'|] eqn:Ef; try discriminate.
  - cbn [finish] in H. destruct (answer_cases method b q a) as [(r1 & _ & Ha)|[_ Ha]]; rewrite Ha in H; discriminate.
  - eapply find_no_panic; [|exact Hb|exact Ef]. apply utf8_valid_no_slash. exact Hu.
Qed.
(** and an answer always comes. *)
Lemma answers c path method : runnable c -> exists r, match_route rt c path method = Some r.
Proof. intros Hc. rewrite match_find by exact Hc. eexists. reflexivity. Qed.

(** C39, C40 *)
Lemma leading_slash c path method : runnable c -> (forall p, path <> c_slash :: p) ->
  match_route rt c (c_slash :: path) method = match_route rt c path method.
Proof.
  intros Hc Hp. rewrite !match_find by exact Hc. f_equal. f_equal. f_equal.
  unfold no_slash at 1. rewrite N.eqb_refl. destruct path as [|b p]; auto.
  unfold no_slash. destruct (N.eqb_spec b c_slash) as [->|]; auto. exfalso. eapply Hp; reflexivity.
Qed.
Lemma no_slash_app path : path <> [] -> no_slash (path ++ [c_slash]) = no_slash path ++ [c_slash].
Proof. destruct path as [|b p]; [congruence|]. intros _. simpl. destruct (N.eqb b c_slash); reflexivity. Qed.
Lemma trailing_slash c path method : runnable c ->
  every_block plain_statics (c_routes c) -> every_block dynamic_has_resources (c_routes c) ->
  (forall p, path <> p ++ [c_slash]) ->
  match_route rt c (path ++ [c_slash]) method = match_route rt c path method.
Proof.
  intros Hc Hp Hd He. rewrite !match_find by exact Hc. f_equal. f_equal.
  destruct path as [|b p]; [reflexivity|].
  rewrite no_slash_app by discriminate. apply find_trailing; auto.
  - unfold no_slash. destruct (N.eqb_spec b c_slash) as [->|]; [|discriminate].
    intros ->. apply (He []). reflexivity.
  - intros u Hu. unfold no_slash in Hu. destruct (N.eqb_spec b c_slash) as [->|].
    + apply (He (c_slash :: u)). rewrite Hu. reflexivity.
    + apply (He u). exact Hu.
Qed.

(** C35 *)
Lemma error_sound c path method name e : runnable c ->
  match_route rt c path method = Some (RunResult (MError name e)) ->
  exists pat q b child p segs a seg tail,
    block_at (c_routes c) pat q b /\ In (Dynamic p, child) (rt_routes b) /\ p_name p = name /\
    matches parse pat segs a /\
    ~ In c_slash seg /\ utf8_valid seg = true /\ parse (p_typ p) seg = inr e /\
    no_slash path = join (segs ++ [seg]) ++ tail /\ (tail = [] \/ exists t, tail = c_slash :: t).
Proof.
  intros Hc H. apply match_eq in H; auto.
  destruct (tree_find parse (c_routes c) [] [] (no_slash path)) as [b q a| |p e'|] eqn:Ef; try discriminate.
  { cbn [finish] in H. destruct (answer_cases method b q a) as [(r1 & _ & Ha)|[_ Ha]]; rewrite Ha in H;
      [unfold hit in H; destruct (r_is_redirect r1)|]; discriminate. }
  injection H as Hn He. subst name e'.
  destruct (find_bad parse _ _ _ _ _ _ Ef)
    as (pat & segs & vals & q0 & b' & ch & seg & tail & H1 & H2 & H3 & H4 & H5 & H6 & H7 & H8).
  exists pat, q0, b', ch, p, segs, vals, seg, tail. repeat split; auto.
Qed.
Lemma error_stable c path method name e : runnable c ->
  every_block plain_statics (c_routes c) ->
  match_route rt c path method = Some (RunResult (MError name e)) ->
  exists u seg tail, path = u ++ seg ++ tail /\ ~ In c_slash seg /\
    (tail = [] \/ exists t, tail = c_slash :: t) /\
    forall tail' method', (tail' = [] \/ exists t, tail' = c_slash :: t) -> seg <> [] \/ tail' <> [] ->
      u <> [] \/ seg <> [] ->
      match_route rt c (u ++ seg ++ tail') method' = Some (RunResult (MError name e)).
Proof.
  intros Hc Hp H. apply match_eq in H; auto.
  destruct (tree_find parse (c_routes c) [] [] (no_slash path)) as [b q a| |p e'|] eqn:Ef; try discriminate.
  { cbn [finish] in H. destruct (answer_cases method b q a) as [(r1 & _ & Ha)|[_ Ha]]; rewrite Ha in H;
      [unfold hit in H; destruct (r_is_redirect r1)|]; discriminate. }
  injection H as Hn He. subst name e'.
  destruct (find_bad_tail parse _ _ _ _ _ _ Hp Ef) as (u & seg & tail & H1 & H2 & H3 & H4 & H5 & H6).
  unfold no_slash in H1.
  assert (Hpath : exists v, (v = [] \/ v = [c_slash]) /\ path = v ++ u ++ seg ++ tail /\
    (v = [] -> u ++ seg ++ tail <> [] -> exists b r, u ++ seg ++ tail = b :: r /\ b <> c_slash)).
  { destruct path as [|b p']; [exists []; repeat split; auto; rewrite <- H1; congruence|].
    destruct (N.eqb_spec b c_slash) as [->|Hb].
    - exists [c_slash]. rewrite <- H1. repeat split; auto. discriminate.
    - exists []. rewrite <- H1. repeat split; auto. intros _ _. eauto. }
  destruct Hpath as (v & Hv & Hpv & Hv2).
  exists (v ++ u), seg, tail. rewrite <- app_assoc. repeat split; auto.
  intros tail' method' Ht' Hor Hvu. rewrite match_find by exact Hc.
  assert (Hns : no_slash ((v ++ u) ++ seg ++ tail') = u ++ seg ++ tail').
  { destruct Hv as [->| ->]; [|reflexivity]. cbn [app].
    assert (Hne : exists b r, u ++ seg = b :: r /\ b <> c_slash).
    { destruct u as [|b u].
      - destruct seg as [|b seg]; [simpl in Hvu; destruct Hvu as [Hvu|Hvu]; congruence|].
        exists b, seg. split; auto. intros ->. apply H4. left. reflexivity.
      - destruct Hv2 as (b' & r & Heq & Hb); auto; [discriminate|]. injection Heq as <- <-.
        exists b, (u ++ seg). auto. }
    destruct Hne as (b & r & Heq & Hb). rewrite app_assoc, Heq. simpl.
    apply N.eqb_neq in Hb. rewrite Hb. reflexivity. }
  rewrite Hns. unfold parse. rewrite H6; auto.
Qed.

(** C27-C29: the children of the root *)
Lemma root_choose c path method : runnable c -> plain_statics (c_routes c) -> no_slash path <> [] ->
  match_route rt c path method =
  Some (finish method
    match choose (c_routes c) (fst (segment (no_slash path))) with
    | None => Nothing
    | Some (None, ch) =>
        go_in ch (tree_find parse ch) (rt_query (c_routes c)) [] (snd (segment (no_slash path)))
    | Some (Some p, ch) =>
        find_dyn parse p ch (tree_find parse ch) (rt_query (c_routes c)) [] (no_slash path)
    end).
Proof. intros Hc Hp Hn. rewrite match_find by exact Hc. rewrite find_choose by auto. reflexivity. Qed.
End Thms.

(** ** Completeness *)
Lemma compiles_paths c : compiles c = true ->
  NoDup (map (fun e : list PathSegment * list Param * Routes => path_iter (fst (fst e))) (blocks (c_routes c))).
Proof.
  intros H. unfold compiles in H. destruct (flattened_modules (c_routes c)); try discriminate.
  unfold gen_program in H. destruct (to_trie (flattened_routes (c_routes c))) as [t| | |] eqn:Et; try discriminate.
  assert (Hn : exists t, to_trie (flattened_routes (c_routes c)) = ROk t) by eauto.
  apply to_trie_nodup in Hn. rewrite <- (map_map f_path path_iter) in Hn.
  assert (Hp : map f_path (flattened_routes (c_routes c)) =
               map (fun e : list PathSegment * list Param * Routes => fst (fst e)) (blocks (c_routes c))).
  { pose proof (flattened_table (c_routes c)) as Ht.
    apply (f_equal (map (fun x : list PathSegment * list Param * list Resource => fst (fst x)))) in Ht.
    rewrite !map_map in Ht. simpl in Ht. etransitivity; [exact Ht|]. apply map_ext. intros [[p q] x]. reflexivity. }
  rewrite Hp, map_map in Hn. exact Hn.
Qed.
Definition block_paths (b : Routes) : list (list Charlike) :=
  map (fun e : list PathSegment * list Param * Routes => path_iter (fst (fst e))) (blocks b).
Lemma block_paths_eq b :
  block_paths b = [] :: concat (map (fun nr : PathSegment * Routes =>
                          map (app (segment_iter (fst nr))) (block_paths (snd nr))) (rt_routes b)).
Proof.
  destruct b as [rs ch qs]. unfold block_paths. cbn [blocks map rt_routes]. f_equal.
  rewrite concat_map, map_map. f_equal. apply map_ext. intros [seg child]. rewrite !map_map.
  apply map_ext. intros [[p q] x]. reflexivity.
Qed.
Lemma block_paths_nil b : In [] (block_paths b).
Proof. rewrite block_paths_eq. left. reflexivity. Qed.
Lemma block_paths_child b seg child :
  NoDup (block_paths b) -> In (seg, child) (rt_routes b) -> NoDup (block_paths child).
Proof.
  rewrite block_paths_eq. intros H Hin. inversion H as [|? ? _ Hn]; subst. clear H.
  induction (rt_routes b) as [|nr l IH]; [destruct Hin|]. cbn [map concat] in Hn.
  destruct Hin as [->|Hin].
  - apply NoDup_app_l in Hn. eapply NoDup_map_inv. exact Hn.
  - apply IH; auto. eapply NoDup_app_r; eauto.
Qed.
Lemma NoDup_app_disjoint {A} (l1 l2 : list A) x : NoDup (l1 ++ l2) -> In x l1 -> In x l2 -> False.
Proof.
  induction l1 as [|y l1 IH]; simpl; intros H H1 H2; [destruct H1|].
  inversion H as [|? ? Hy Hn]; subst. destruct H1 as [->|H1]; auto.
  apply Hy. apply in_or_app. right. exact H2.
Qed.
Lemma block_paths_segments b :
  NoDup (block_paths b) -> NoDup (map fst (rt_routes b)).
Proof.
  rewrite block_paths_eq. intros H. inversion H as [|? ? _ Hn]; subst. clear H.
  assert (Hin : forall l seg, In seg (map fst l) ->
    In (segment_iter seg) (concat (map (fun nr : PathSegment * Routes =>
      map (app (segment_iter (fst nr))) (block_paths (snd nr))) l))).
  { intros l seg Hs. apply in_map_iff in Hs. destruct Hs as (nr & <- & Hs).
    apply in_concat. eexists. split.
    - apply in_map_iff. exists nr. split; [reflexivity|exact Hs].
    - apply in_map_iff. exists []. rewrite app_nil_r. split; [reflexivity|apply block_paths_nil]. }
  induction (rt_routes b) as [|[seg child] l IH]; cbn [map concat fst snd] in *; [constructor|].
  constructor; [|eapply IH, NoDup_app_r; eauto].
  intros Hs. apply Hin in Hs. eapply NoDup_app_disjoint; [exact Hn| |exact Hs].
  apply in_map_iff. exists []. rewrite app_nil_r. split; [reflexivity|apply block_paths_nil].
Qed.
Lemma nodup_segments_statics l : NoDup (map fst l) -> NoDup (map fst (@statics Routes l)).
Proof.
  induction l as [|[[s|p] child] l IH]; cbn [statics map fst]; intros H; [constructor| |];
    inversion H as [|? ? H1 H2]; subst; auto.
  constructor; auto. intros Hs. apply H1. apply in_map_iff in Hs. destruct Hs as ([s' c'] & <- & Hs).
  apply statics_In in Hs. apply in_map_iff. exists (Static s', c'). auto.
Qed.
Lemma block_paths_statics b :
  NoDup (block_paths b) -> NoDup (map fst (statics (rt_routes b))).
Proof. intros H. apply nodup_segments_statics, block_paths_segments. exact H. Qed.
Lemma block_child_unique b seg child child' : NoDup (block_paths b) ->
  In (seg, child) (rt_routes b) -> In (seg, child') (rt_routes b) -> child = child'.
Proof.
  intros H H1 H2. apply block_paths_segments in H.
  assert (Heq : (seg, child) = (seg, child')) by (eapply (map_NoDup_eq fst); eauto). congruence.
Qed.
Lemma static_child_nodup s (child : Routes) l :
  NoDup (map fst l) -> In (s, child) l -> static_child s l = Some child.
Proof.
  induction l as [|[s' c'] l IH]; simpl; intros Hn Hin; [destruct Hin|].
  inversion Hn as [|? ? H1 H2]; subst. destruct Hin as [[= -> ->]|Hin].
  - rewrite str_eqb_refl. reflexivity.
  - destruct (str_eqb_spec s' s) as [->|]; auto. exfalso. apply H1. apply in_map_iff. exists (s, child). auto.
Qed.
Lemma pieces_spelled : forall segs l,
  spelled l segs -> Forall (fun s => ~ In c_slash s) segs -> last segs [c_slash] <> [] ->
  pieces l = segs.
Proof.
  induction segs as [|s segs IH]; intros l Hs Hf Hl.
  { destruct Hs as [->|[Hn _]]; [reflexivity|congruence]. }
  inversion Hf as [|? ? Hs0 Hf']; subst.
  destruct segs as [|s' segs].
  - simpl in Hl. destruct Hs as [->|[_ ->]]; cbn [join].
    + rewrite pieces_step by exact Hl. pose proof (segment_unique s [] Hs0 (or_introl eq_refl)) as Hu.
      rewrite app_nil_r in Hu. rewrite Hu. reflexivity.
    + rewrite pieces_step by (destruct s; discriminate).
      rewrite segment_unique by (auto; right; eexists; reflexivity). reflexivity.
  - assert (Hsp : exists l', l = s ++ c_slash :: l' /\ spelled l' (s' :: segs)).
    { destruct Hs as [->|[_ ->]].
      - exists (join (s' :: segs)). split; [reflexivity|left; reflexivity].
      - exists (join (s' :: segs) ++ [c_slash]). split; [|right; split; [discriminate|reflexivity]].
        rewrite join_cons by discriminate. rewrite <- app_assoc. reflexivity. }
    destruct Hsp as (l' & -> & Hl'). rewrite pieces_step by (destruct s; discriminate).
    rewrite segment_unique by (auto; right; eexists; reflexivity). cbn [fst snd].
    rewrite (IH l'); auto.
Qed.
Section Complete.
Context {T E : Type}.
Variable rt : runtime T E.
Let parse := rt_parse rt.
Lemma ideal_complete : forall pat segs (vals : @args T), matches parse pat segs vals ->
  forall b q0 x q a, block_at b pat q0 x ->
  NoDup (block_paths b) -> every_block no_mixed b -> every_block one_dynamic b ->
  ideal_find parse segs b q a = here x (q ++ q0) (a ++ vals).
Proof.
  intros pat segs vals Hm.
  induction Hm as [|s pat segs vals Hm IH|p v seg pat segs vals Hns Hu Hp Hm IH];
    intros b q0 x q a Hb Hn Hmix Hone.
  - inversion Hb; subst. cbn [ideal_find]. rewrite app_nil_r. reflexivity.
  - inversion Hb as [|? ? child ? q1 ? Hin Hb']; subst. cbn [ideal_find].
    rewrite (static_child_nodup s child).
    + rewrite (IH child q1 x (q ++ rt_query b) a); auto.
      * rewrite <- app_assoc. reflexivity.
      * eapply block_paths_child; eauto.
      * eapply every_block_child; eauto.
      * eapply every_block_child; eauto.
    + apply block_paths_statics. exact Hn.
    + apply statics_In. exact Hin.
  - inversion Hb as [|? ? child ? q1 ? Hin Hb']; subst. cbn [ideal_find].
    pose proof (proj2 (dynamic_children_In _ _ _) Hin) as Hd.
    pose proof (every_block_here _ _ Hmix) as Hm1. unfold no_mixed in Hm1.
    pose proof (every_block_here _ _ Hone) as Hm2. unfold one_dynamic in Hm2.
    destruct (dynamic_children (rt_routes b)) as [|d1 [|d2 ds]]; [destruct Hd| |simpl in Hm2; lia].
    destruct Hd as [->|[]]. rewrite Hm1 by discriminate. cbn [static_child least_dynamic]. rewrite Hp.
    rewrite (IH child q1 x (q ++ rt_query b) (a ++ [(p, v)])); auto.
    + rewrite <- !app_assoc. reflexivity.
    + eapply block_paths_child; eauto.
    + eapply every_block_child; eauto.
    + eapply every_block_child; eauto.
Qed.
Lemma matches_no_slash b pat q x segs (vals : @args T) :
  every_block plain_statics b -> block_at b pat q x -> matches parse pat segs vals ->
  Forall (fun s => ~ In c_slash s) segs.
Proof.
  intros Hp Hb Hm. revert b q Hp Hb.
  induction Hm as [|s pat segs vals Hm IH|p v seg pat segs vals Hns Hu Hpar Hm IH]; intros b q Hp Hb.
  - constructor.
  - inversion Hb as [|? ? child ? q1 ? Hin Hb']; subst. constructor.
    + apply (every_block_here _ _ Hp s child Hin).
    + eapply IH; [eapply every_block_child; eauto|exact Hb'].
  - inversion Hb as [|? ? child ? q1 ? Hin Hb']; subst. constructor; auto.
    eapply IH; [eapply every_block_child; eauto|exact Hb'].
Qed.
Lemma complete c path method pat q b r segs (a : @args T) : runnable c ->
  every_block plain_statics (c_routes c) -> every_block no_mixed (c_routes c) ->
  every_block dynamic_has_resources (c_routes c) -> every_block one_dynamic (c_routes c) ->
  utf8_valid path = true ->
  block_at (c_routes c) pat q b -> first_resource_for method b r ->
  spells path segs -> last segs [c_slash] <> [] -> matches parse pat segs a ->
  match_route rt c path method = Some (RunResult (hit (r_is_redirect r) (route_for r q a))).
Proof.
  intros Hc Hp Hm Hd Ho Hu Hb Hr Hs Hl Hma. rewrite config_ideal by auto. unfold ideal_match, request_segments.
  rewrite (pieces_spelled segs).
  - fold parse. rewrite (ideal_complete pat segs a Hma (c_routes c) q b [] []); auto.
    + cbn [app]. unfold here.
      destruct Hr as (l1 & l2 & Hr1 & Hr2 & Hr3).
      assert (Hne : rt_resources b <> []) by (rewrite Hr1; destruct l1; discriminate).
      destruct (rt_resources b) as [|r0 rs] eqn:Er; [congruence|]. cbn [finish]. rewrite Er.
      unfold answer. rewrite Hr1.
      assert (Hf : find (fun r => str_eqb method (method_display (r_method r))) (l1 ++ r :: l2) = Some r).
      { clear -Hr2 Hr3. induction l1 as [|r1 l1 IH]; simpl.
        - rewrite Hr2, str_eqb_refl. reflexivity.
        - destruct (str_eqb_spec method (method_display (r_method r1))) as [Heq|].
          + exfalso. apply (Hr3 r1); [left; reflexivity|auto].
          + apply IH. intros r' Hin. apply Hr3. right. exact Hin. }
      rewrite Hf. unfold hit. destruct (r_is_redirect r); reflexivity.
    + apply compiles_paths. apply Hc.
  - exact Hs.
  - eapply matches_no_slash; eauto.
  - exact Hl.
Qed.
End Complete.

(** ** The children of one block *)
Section Local.
Context {T E : Type}.
Variable rt : runtime T E.
Let parse := rt_parse rt.

Lemma static_child_wins c method s child rest : runnable c -> plain_statics (c_routes c) ->
  statics (rt_routes (c_routes c)) = [(s, child)] ->
  match_route rt c (c_slash :: s ++ c_slash :: rest) method =
  Some (tree_run parse method child (rt_query (c_routes c)) [] rest).
Proof.
  intros Hc Hp Hs. pose proof (plain_statics_in _ s child Hp) as Hps. rewrite Hs in Hps.
  destruct (Hps (or_introl eq_refl)) as [Hs0 Hs1].
  rewrite root_choose; auto; [|destruct s; simpl; congruence].
  change (no_slash (c_slash :: s ++ c_slash :: rest)) with (s ++ c_slash :: rest).
  rewrite segment_unique by (auto; right; eexists; reflexivity). cbn [fst snd].
  unfold choose. rewrite Hs.
  assert (Hst : strip s s = Some []) by (apply strip_Some; rewrite app_nil_r; reflexivity).
  rewrite run_find.
  destruct (least_dynamic (dynamic_children (rt_routes (c_routes c)))) as [[p ch]|].
  - rewrite Hst. cbn [go_in]. rewrite N.eqb_refl. reflexivity.
  - cbn [static_child]. rewrite str_eqb_refl. cbn [option_map go_in]. rewrite N.eqb_refl. reflexivity.
Qed.
Lemma dynamic_child_taken c method s child p dchild seg rest : runnable c -> plain_statics (c_routes c) ->
  statics (rt_routes (c_routes c)) = [(s, child)] ->
  dynamic_children (rt_routes (c_routes c)) = [(p, dchild)] ->
  seg <> [] -> ~ In c_slash seg -> utf8_valid seg = true -> strip s seg = None ->
  match_route rt c (c_slash :: seg ++ c_slash :: rest) method =
  Some match parse (p_typ p) seg with
       | inl v => tree_run parse method dchild (rt_query (c_routes c)) [(p, v)] rest
       | inr e => RunResult (MError (p_name p) e)
       end.
Proof.
  intros Hc Hp Hs Hd Hne Hns Hu Hst.
  rewrite root_choose; auto; [|destruct seg; simpl; congruence].
  change (no_slash (c_slash :: seg ++ c_slash :: rest)) with (seg ++ c_slash :: rest).
  unfold find_dyn.
  rewrite segment_unique by (auto; right; eexists; reflexivity). cbn [fst snd].
  unfold choose. rewrite Hs, Hd. cbn [least_dynamic]. rewrite Hst, Hu. fold parse.
  destruct (parse (p_typ p) seg) as [v|e]; [|reflexivity]. cbn [go_in]. rewrite N.eqb_refl.
  rewrite run_find. reflexivity.
Qed.
(** C28: a segment that begins with the static sibling's name is not found. *)
Lemma captured c method s child x t : runnable c -> plain_statics (c_routes c) ->
  statics (rt_routes (c_routes c)) = [(s, child)] ->
  dynamic_children (rt_routes (c_routes c)) <> [] -> x <> c_slash ->
  match_route rt c (c_slash :: s ++ x :: t) method = Some (RunResult MNotFound).
Proof.
  intros Hc Hp Hs Hd Hx. pose proof (plain_statics_in _ s child Hp) as Hps. rewrite Hs in Hps.
  destruct (Hps (or_introl eq_refl)) as [Hs0 Hs1].
  rewrite match_find by exact Hc.
  change (no_slash (c_slash :: s ++ x :: t)) with (s ++ x :: t).
  rewrite find_eq_ne by (destruct s; discriminate). rewrite Hs.
  destruct (least_dynamic (dynamic_children (rt_routes (c_routes c)))) as [[p ch]|] eqn:El.
  - rewrite (proj2 (strip_Some s (s ++ x :: t) (x :: t))) by reflexivity. cbn [go_in].
    apply N.eqb_neq in Hx. rewrite Hx. reflexivity.
  - apply least_none in El. congruence.
Qed.
(** C29: several static siblings are never reached. *)
Lemma statics_shadowed c method seg rest s1 s2 ss p dchild : runnable c ->
  statics (rt_routes (c_routes c)) = s1 :: s2 :: ss ->
  dynamic_children (rt_routes (c_routes c)) = [(p, dchild)] ->
  seg <> [] -> ~ In c_slash seg -> utf8_valid seg = true ->
  match_route rt c (c_slash :: seg ++ c_slash :: rest) method =
  Some match parse (p_typ p) seg with
       | inl v => tree_run parse method dchild (rt_query (c_routes c)) [(p, v)] rest
       | inr e => RunResult (MError (p_name p) e)
       end.
Proof.
  intros Hc Hs Hd Hne Hns Hu. rewrite match_find by exact Hc.
  change (no_slash (c_slash :: seg ++ c_slash :: rest)) with (seg ++ c_slash :: rest).
  rewrite find_eq_ne by (destruct seg; discriminate). rewrite Hs, Hd. cbn [least_dynamic].
  destruct s1 as [s1 c1]. unfold find_dyn.
  rewrite segment_unique by (auto; right; eexists; reflexivity). rewrite Hu. fold parse.
  destruct (parse (p_typ p) seg) as [v|e]; [|reflexivity]. cbn [go_in]. rewrite N.eqb_refl.
  rewrite run_find. reflexivity.
Qed.
(** C38 *)
Lemma short_static_panics c method x child : runnable c ->
  rt_resources (c_routes c) = [] -> statics (rt_routes (c_routes c)) = [([x], child)] ->
  dynamic_children (rt_routes (c_routes c)) <> [] ->
  match_route rt c [c_slash] method = Some RunPanic /\ match_route rt c [] method = Some RunPanic.
Proof.
  intros Hc Hr Hs Hd. rewrite !match_find by exact Hc.
  change (no_slash [c_slash]) with (@nil N). change (no_slash []) with (@nil N).
  rewrite find_eq, Hr, Hs.
  destruct (least_dynamic (dynamic_children (rt_routes (c_routes c)))) as [[p ch]|] eqn:El.
  - split; reflexivity.
  - apply least_none in El. congruence.
Qed.

(** C33 *)
Lemma method_verbs c path method redirect v : runnable c ->
  match_route rt c path method = Some (RunResult (hit redirect v)) ->
  In method [lit "GET"; lit "POST"; lit "PUT"; lit "DELETE"].
Proof.
  intros Hc H. destruct (sound rt _ _ _ _ _ Hc H) as (pat & q & b & r & segs & a & _ & (l1 & l2 & _ & Hm & _) & _).
  subst method. destruct (r_method r); simpl; tauto.
Qed.
Lemma root_answer c method : runnable c -> rt_resources (c_routes c) <> [] ->
  (forall r, first_resource_for method (c_routes c) r ->
     match_route rt c [c_slash] method =
     Some (RunResult (hit (r_is_redirect r) (route_for r (rt_query (c_routes c)) [])))) /\
  (no_resource_for method (c_routes c) ->
     match_route rt c [c_slash] method = Some (RunResult MNotAllowed)).
Proof.
  intros Hc Hr. rewrite match_find by exact Hc. change (no_slash [c_slash]) with (@nil N).
  rewrite find_eq. destruct (rt_resources (c_routes c)) as [|r0 rs] eqn:Er; [congruence|].
  cbn [finish app]. rewrite Er. unfold answer. pose proof (find_first rt method (r0 :: rs)) as Hf.
  destruct (find _ (r0 :: rs)) as [r1|]; split.
  - intros r (l1 & l2 & Hl & Hm & Hn). rewrite Er in Hl.
    destruct Hf as (k1 & k2 & Hk & Hm' & Hn').
    assert (r = r1); [|subst; unfold hit; destruct (r_is_redirect r1); reflexivity].
    rewrite Hl in Hk. clear -Hk Hm Hn Hm' Hn'. revert k1 Hk Hn'.
    induction l1 as [|x l1 IH]; intros [|y k1] Hk Hn'; simpl in Hk.
    + congruence.
    + injection Hk as <- _. exfalso. apply (Hn' r); [left; reflexivity|exact Hm].
    + injection Hk as -> _. exfalso. apply (Hn r1); [left; reflexivity|exact Hm'].
    + injection Hk as <- Hk. eapply IH; eauto.
      * intros r' Hin. apply Hn. right. exact Hin.
      * intros r' Hin. apply Hn'. right. exact Hin.
  - intros Hn. exfalso. destruct Hf as (k1 & k2 & Hk & Hm' & Hn'). apply (Hn r1); auto.
    rewrite Er, Hk. apply in_or_app. right. left. reflexivity.
  - intros r (l1 & l2 & Hl & Hm & Hn). exfalso. apply (Hf r); auto. rewrite Er in Hl. rewrite Hl.
    apply in_or_app. right. left. reflexivity.
  - intros _. reflexivity.
Qed.

Lemma method_first c path method redirect v : runnable c ->
  match_route rt c path method = Some (RunResult (hit redirect v)) ->
  exists pat q b r, block_at (c_routes c) pat q b /\ first_resource_for method b r /\
    r_is_redirect r = redirect /\ rv_modules v = map to_caps_case (r_modules r) /\
    rv_name v = to_caps_case (r_name r).
Proof.
  intros Hc H. destruct (sound rt _ _ _ _ _ Hc H)
    as (pat & q & b & r & segs & a & H1 & H2 & H3 & _ & _ & ->).
  exists pat, q, b, r. auto.
Qed.

(** C34 *)
Lemma matches_raw pat segs (a : @args T) : matches parse pat segs a -> forall i p seg,
  nth_error pat i = Some (Dynamic p) -> nth_error segs i = Some seg -> ~ In c_slash seg.
Proof.
  induction 1 as [|s pat segs a H IH|p v seg pat segs a Hn Hu Hp H IH]; intros [|i] p' seg' H1 H2;
    simpl in *; try discriminate; eauto. congruence.
Qed.
Lemma matches_params pat segs (a : @args T) : matches parse pat segs a ->
  length pat = length segs /\
  map (fun pv : Param * T => (p_name (fst pv), FvVal (p_typ (fst pv)) (snd pv))) a = param_values parse pat segs /\
  map fst a = path_params pat.
Proof.
  induction 1 as [|s pat segs a H (IH1 & IH2 & IH3)|p v seg pat segs a Hn Hu Hp H (IH1 & IH2 & IH3)];
    simpl; repeat split; auto.
  - rewrite Hp, IH2. reflexivity.
  - rewrite IH3. reflexivity.
Qed.
Lemma raw_params c path method redirect v : runnable c ->
  match_route rt c path method = Some (RunResult (hit redirect v)) ->
  exists pat q b r segs,
    block_at (c_routes c) pat q b /\ In r (rt_resources b) /\
    spells path segs /\ length pat = length segs /\
    (forall i p seg, nth_error pat i = Some (Dynamic p) -> nth_error segs i = Some seg -> ~ In c_slash seg) /\
    rv_fields v = param_values parse pat segs ++ map (fun p => (p_name p, FvNone)) (q ++ r_query r).
Proof.
  intros Hc H. destruct (sound rt _ _ _ _ _ Hc H)
    as (pat & q & b & r & segs & a & H1 & (l1 & l2 & Hl & _) & H3 & H4 & H5 & H6).
  destruct (matches_params _ _ _ H5) as (Hlen & Hv & _).
  exists pat, q, b, r, segs. repeat split; auto.
  - rewrite Hl. apply in_or_app. right. left. reflexivity.
  - exact (matches_raw _ _ _ H5).
  - subst v. cbn [route_for rv_fields]. rewrite Hv. reflexivity.
Qed.
(** C41 *)
Lemma query_none c path method redirect v : runnable c ->
  match_route rt c path method = Some (RunResult (hit redirect v)) ->
  exists pat q b r vals,
    block_at (c_routes c) pat q b /\ first_resource_for method b r /\
    map fst vals = map p_name (path_params pat) /\
    rv_fields v = map (fun xv : str * (str * T) => (fst xv, FvVal (fst (snd xv)) (snd (snd xv)))) vals
                  ++ map (fun p => (p_name p, FvNone)) (q ++ r_query r).
Proof.
  intros Hc H. destruct (sound rt _ _ _ _ _ Hc H)
    as (pat & q & b & r & segs & a & H1 & H2 & H3 & H4 & H5 & H6).
  destruct (matches_params _ _ _ H5) as (Hlen & Hv & Ha).
  exists pat, q, b, r, (map (fun pv : Param * T => (p_name (fst pv), (p_typ (fst pv), snd pv))) a).
  repeat split; auto.
  - rewrite <- Ha, !map_map. reflexivity.
  - subst v. cbn [route_for rv_fields]. rewrite map_map. reflexivity.
Qed.
(** C42 *)
Lemma redirect_kind c path method redirect v : runnable c ->
  match_route rt c path method = Some (RunResult (hit redirect v)) ->
  exists pat q b r,
    block_at (c_routes c) pat q b /\ In r (rt_resources b) /\ method = method_display (r_method r) /\
    r_is_redirect r = redirect /\
    rv_modules v = map to_caps_case (r_modules r) /\ rv_name v = to_caps_case (r_name r).
Proof.
  intros Hc H. destruct (sound rt _ _ _ _ _ Hc H)
    as (pat & q & b & r & segs & a & H1 & (l1 & l2 & Hl & Hm & _) & H3 & H4 & H5 & H6).
  exists pat, q, b, r. subst v. repeat split; auto. rewrite Hl. apply in_or_app. right. left. reflexivity.
Qed.
End Local.
