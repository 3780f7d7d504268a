(** * DepthThms: what happens in a block that is not the root *)
From Verif Require Import Base Core Trie Flat MiniRust Gen Spec SpecMatch SpecPath
  BaseFacts TrieFacts NodeFacts RunFacts FlatFacts MatchFacts MatchProps MatchThms PathThms SearchThms.

Section Depth.
Context {T E : Type}.
Variable rt : runtime T E.
Let parse := rt_parse rt.
Notation tfind := (tree_find parse).

Lemma find_below : forall pat segs (vals : @args T), matches parse pat segs vals ->
  forall b q0 x q a rest, block_at b pat q0 x -> uncaptured b pat segs ->
  NoDup (block_paths b) -> every_block plain_statics b ->
  exists q1, q0 = q1 ++ rt_query x /\ tfind b q a (under segs rest) = tfind x (q ++ q1) (a ++ vals) rest.
Proof.
  intros pat segs vals Hm.
  induction Hm as [|s pat segs vals Hm IH|p v seg pat segs vals Hns Hu Hp Hm IH];
    intros b q0 x q a rest Hb Hcap Hn Hpl.
  - inversion Hb; subst. exists []. split; [reflexivity|]. rewrite !app_nil_r. reflexivity.
  - inversion Hb as [|? ? child ? q1 ? Hin Hb']; subst.
    inversion Hcap as [|? ? child' ? ? Hin' Hone Hcap'|]; subst.
    pose proof (every_block_here _ _ Hpl) as Hpb.
    rewrite <- (block_child_unique _ _ _ _ Hn Hin Hin') in Hcap'.
    destruct (Hpb s child Hin) as [_ Hs2].
    rewrite under_cons, find_choose by (auto; destruct s; discriminate).
    rewrite segment_unique by (auto; right; eexists; reflexivity). cbn [fst snd].
    rewrite (choose_static b s child Hn Hpb Hin Hone). cbn [go_in]. rewrite N.eqb_refl.
    destruct (IH child q1 x (q ++ rt_query b) a rest) as (q2 & -> & ->); auto;
      [eapply block_paths_child|eapply every_block_child|]; eauto.
    exists (rt_query b ++ q2). rewrite <- !app_assoc. auto.
  - inversion Hb as [|? ? child ? q1 ? Hin Hb']; subst.
    inversion Hcap as [| |? ? child' ? ? ? Hdyn Hone Hcap']; subst.
    pose proof (every_block_here _ _ Hpl) as Hpb.
    pose proof (proj1 (dynamic_children_In _ _ _) (least_in _ _ Hdyn)) as Hin'.
    rewrite <- (block_child_unique _ _ _ _ Hn Hin Hin') in *.
    rewrite under_cons, find_choose by (auto; destruct seg; discriminate).
    rewrite segment_unique by (auto; right; eexists; reflexivity). cbn [fst snd].
    rewrite (choose_dynamic b p child seg Hdyn Hone).
    unfold find_dyn. rewrite segment_unique by (auto; right; eexists; reflexivity). rewrite Hu, Hp.
    cbn [go_in]. rewrite N.eqb_refl.
    destruct (IH child q1 x (q ++ rt_query b) (a ++ [(p, v)]) rest) as (q2 & -> & ->); auto;
      [eapply block_paths_child|eapply every_block_child|]; eauto.
    exists (rt_query b ++ q2). rewrite <- !app_assoc. auto.
Qed.

(** What is asked of the configuration and of the way to the block. *)
Variables (c : RouteConfig) (pat : list PathSegment) (q : list Param) (x : Routes) (segs : list bytes) (a : @args T).
Hypothesis Hc : runnable c.
Hypothesis Hp : every_block plain_statics (c_routes c).
Hypothesis Hb : block_at (c_routes c) pat q x.
Hypothesis Hm : matches parse pat segs a.
Hypothesis Hu : uncaptured (c_routes c) pat segs.
Lemma Hn : NoDup (block_paths (c_routes c)).
Proof. exact (compiles_paths c (proj1 Hc)). Qed.

Lemma match_below method rest :
  exists q1, q = q1 ++ rt_query x /\
    match_route rt c (c_slash :: under segs rest) method = Some (finish method (tfind x q1 a rest)).
Proof.
  destruct (find_below pat segs a Hm (c_routes c) q x [] [] rest Hb Hu Hn Hp) as (q1 & E1 & E2).
  exists q1. split; [exact E1|]. rewrite match_find by exact Hc. 
  change (no_slash (c_slash :: under segs rest)) with (under segs rest). fold parse. rewrite E2. reflexivity.
Qed.
Lemma plain_x : plain_statics x.
Proof. exact (Hp _ _ _ Hb). Qed.

Lemma static_wins_below method s child rest : statics (rt_routes x) = [(s, child)] ->
  match_route rt c (c_slash :: under segs (s ++ c_slash :: rest)) method =
  Some (tree_run parse method child q a rest).
Proof.
  intros Hs. pose proof plain_x as Hx. destruct (match_below method (s ++ c_slash :: rest)) as (q1 & -> & ->). f_equal.
  pose proof (plain_statics_in _ s child Hx) as Hps. rewrite Hs in Hps.
  destruct (Hps (or_introl eq_refl)) as [Hs0 Hs1].
  rewrite find_choose by (auto; destruct s; discriminate).
  rewrite segment_unique by (auto; right; eexists; reflexivity). cbn [fst snd].
  unfold choose. rewrite Hs.
  assert (Hst : strip s s = Some []) by (apply strip_Some; rewrite app_nil_r; reflexivity).
  rewrite run_find.
  destruct (least_dynamic (dynamic_children (rt_routes x))) as [[p ch]|].
  - rewrite Hst. cbn [go_in]. rewrite N.eqb_refl. reflexivity.
  - cbn [static_child]. rewrite str_eqb_refl. cbn [option_map go_in]. rewrite N.eqb_refl. reflexivity.
Qed.
Lemma dynamic_taken_below method p dchild seg rest :
  least_dynamic (dynamic_children (rt_routes x)) = Some (p, dchild) ->
  (forall s child, statics (rt_routes x) = [(s, child)] -> strip s seg = None) ->
  ~ In c_slash seg -> utf8_valid seg = true ->
  match_route rt c (c_slash :: under segs (seg ++ c_slash :: rest)) method =
  Some match parse (p_typ p) seg with
       | inl v => tree_run parse method dchild q (a ++ [(p, v)]) rest
       | inr e => RunResult (MError (p_name p) e)
       end.
Proof.
  intros Hd Hs Hns Hut. pose proof plain_x as Hx. destruct (match_below method (seg ++ c_slash :: rest)) as (q1 & -> & ->). f_equal.
  rewrite find_choose by (auto; destruct seg; discriminate).
  unfold find_dyn. rewrite segment_unique by (auto; right; eexists; reflexivity). cbn [fst snd].
  rewrite (choose_dynamic x p dchild seg Hd Hs), Hut.
  destruct (parse (p_typ p) seg) as [v|e]; [|reflexivity]. cbn [go_in]. rewrite N.eqb_refl.
  rewrite run_find. reflexivity.
Qed.
Lemma captured_below method s child y t : statics (rt_routes x) = [(s, child)] ->
  dynamic_children (rt_routes x) <> [] -> y <> c_slash ->
  match_route rt c (c_slash :: under segs (s ++ y :: t)) method = Some (RunResult MNotFound).
Proof.
  intros Hs Hd Hy. destruct (match_below method (s ++ y :: t)) as (q1 & -> & ->). f_equal.
  rewrite find_eq_ne by (destruct s; discriminate). rewrite Hs.
  destruct (least_dynamic (dynamic_children (rt_routes x))) as [[p ch]|] eqn:El.
  - rewrite (proj2 (strip_Some s (s ++ y :: t) (y :: t))) by reflexivity. cbn [go_in].
    apply N.eqb_neq in Hy. rewrite Hy. reflexivity.
  - apply least_none in El. congruence.
Qed.
End Depth.

Section Statements.
Context {T E : Type}.
Variable rt : runtime T E.
Lemma run_below c pat q x segs (a : @args T) method rest :
  runnable c -> every_block plain_statics (c_routes c) -> block_at (c_routes c) pat q x ->
  matches (rt_parse rt) pat segs a -> uncaptured (c_routes c) pat segs ->
  exists q', q = q' ++ rt_query x /\
    match_route rt c (c_slash :: concat (map (fun s => s ++ [c_slash]) segs) ++ rest) method =
    Some (tree_run (rt_parse rt) method x q' a rest).
Proof.
  intros H1 H2 H3 H4 H5. destruct (match_below rt c pat q x segs a H1 H2 H3 H4 H5 method rest) as (q1 & E1 & E2).
  exists q1. split; [exact E1|]. rewrite run_find. exact E2.
Qed.
Lemma dynamic_at c pat q x segs (a : @args T) method s child p dchild seg rest :
  runnable c -> every_block plain_statics (c_routes c) -> block_at (c_routes c) pat q x ->
  matches (rt_parse rt) pat segs a -> uncaptured (c_routes c) pat segs ->
  statics (rt_routes x) = [(s, child)] -> dynamic_children (rt_routes x) = [(p, dchild)] ->
  ~ In c_slash seg -> utf8_valid seg = true -> strip s seg = None ->
  match_route rt c (c_slash :: concat (map (fun s => s ++ [c_slash]) segs) ++ seg ++ c_slash :: rest) method =
  Some match rt_parse rt (p_typ p) seg with
       | inl v => tree_run (rt_parse rt) method dchild q (a ++ [(p, v)]) rest
       | inr e => RunResult (MError (p_name p) e)
       end.
Proof.
  intros H1 H2 H3 H4 H5 Hs Hd Hns Hut Hst. apply (dynamic_taken_below rt c pat q x segs a); auto.
  - rewrite Hd. reflexivity.
  - intros s' child' E'. rewrite Hs in E'. injection E' as <- <-. exact Hst.
Qed.
Lemma shadowed_at c pat q x segs (a : @args T) method seg rest s1 s2 ss p dchild :
  runnable c -> every_block plain_statics (c_routes c) -> block_at (c_routes c) pat q x ->
  matches (rt_parse rt) pat segs a -> uncaptured (c_routes c) pat segs ->
  statics (rt_routes x) = s1 :: s2 :: ss -> dynamic_children (rt_routes x) = [(p, dchild)] ->
  ~ In c_slash seg -> utf8_valid seg = true ->
  match_route rt c (c_slash :: concat (map (fun s => s ++ [c_slash]) segs) ++ seg ++ c_slash :: rest) method =
  Some match rt_parse rt (p_typ p) seg with
       | inl v => tree_run (rt_parse rt) method dchild q (a ++ [(p, v)]) rest
       | inr e => RunResult (MError (p_name p) e)
       end.
Proof.
  intros H1 H2 H3 H4 H5 Hs Hd Hns Hut. apply (dynamic_taken_below rt c pat q x segs a); auto.
  - rewrite Hd. reflexivity.
  - intros s' child' E'. congruence.
Qed.
End Statements.
