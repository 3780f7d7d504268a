(** * UnseenFacts: mistakes that code generation does not notice *)
From Coq Require Import Permutation.
From Verif Require Import Base Core Flat Gen Spec SpecGen SpecCompile SpecUnseen BaseFacts ExecFacts GenThms CompileFacts NodeFacts.

Definition block_view (e : list PathSegment * list Param * Routes) : list (str + str) * Routes :=
  (map untyped (fst (fst e)), snd e).
Definition seen_view (e : list PathSegment * list Param * Routes) : list (str + str) * Routes :=
  (map untyped (fst (fst e)), seen (snd e)).
Lemma untyped_seen s : untyped (seen_segment s) = untyped s.
Proof. destruct s; reflexivity. Qed.
Lemma blocks_seen : forall b, map block_view (blocks (seen b)) = map seen_view (blocks b).
Proof.
  induction b as [rs ch q IH] using Routes_ind'. cbn [seen blocks map]. f_equal.
  rewrite !concat_map, !map_map. f_equal. apply map_ext_in. intros [seg child] Hin. cbn beta iota.
  rewrite !map_map. rewrite Forall_forall in IH. specialize (IH _ Hin). cbn [snd] in IH.
  assert (E : forall e : list PathSegment * list Param * Routes,
    block_view (let '(p, q0, x) := e in (seen_segment seg :: p, seen_query q ++ q0, x)) =
    (untyped seg :: fst (block_view e), snd (block_view e))).
  { intros [[p q0] x]. unfold block_view. cbn [fst snd map]. rewrite untyped_seen. reflexivity. }
  assert (E' : forall e : list PathSegment * list Param * Routes,
    seen_view (let '(p, q0, x) := e in (seg :: p, q ++ q0, x)) = (untyped seg :: fst (seen_view e), snd (seen_view e))).
  { intros [[p q0] x]. reflexivity. }
  rewrite (map_ext _ _ E), (map_ext _ _ E'). rewrite <- (map_map block_view (fun v => (untyped seg :: fst v, snd v))),
    <- (map_map seen_view (fun v => (untyped seg :: fst v, snd v))), IH. reflexivity.
Qed.
Lemma paths_seen b : block_paths_untyped (seen b) = block_paths_untyped b.
Proof.
  unfold block_paths_untyped. pose proof (f_equal (map fst) (blocks_seen b)) as H. rewrite !map_map in H. exact H.
Qed.
Lemma names_seen b : struct_names (seen b) = struct_names b.
Proof.
  unfold struct_names. f_equal.
  pose proof (f_equal (map (fun v : list (str + str) * Routes => map (fun r => (r_modules r, r_name r))
    (filter (fun r => negb (r_is_redirect r)) (rt_resources (snd v))))) (blocks_seen b)) as H.
  rewrite !map_map in H. unfold block_view, seen_view in H. cbn [snd] in H.
  transitivity (map (fun e : list PathSegment * list Param * Routes => map (fun r => (r_modules r, r_name r))
    (filter (fun r => negb (r_is_redirect r)) (rt_resources (seen (snd e))))) (blocks b)); [exact H|].
  apply map_ext. intros [[p q] [rs ch qs]]. cbn [snd seen rt_resources].
  induction rs as [|r rs IH]; [reflexivity|]. cbn [map filter].
  assert (E : seen_resource r = if r_is_redirect r then mkResource Get [] [] true [] else mkResource Get (r_modules r) (r_name r) false [])
    by reflexivity.
  rewrite E. destruct (r_is_redirect r); cbn [r_is_redirect negb]; [exact IH|]. cbn [map r_modules r_name]. rewrite IH. reflexivity.
Qed.
Lemma empty_seen b : empty_block (seen b) <-> empty_block b.
Proof.
  destruct b as [rs ch q]. unfold empty_block. cbn [seen rt_query rt_resources rt_routes].
  destruct rs, ch, q; cbn; intuition discriminate.
Qed.
Lemma unseen c c' : seen (c_routes c) = seen (c_routes c') -> snd (codegen c) = ROk tt <-> snd (codegen c') = ROk tt.
Proof.
  intros H. assert (G : generates c <-> generates c').
  { unfold generates. rewrite <- (names_seen (c_routes c)), <- (names_seen (c_routes c')), <- (paths_seen (c_routes c)),
      <- (paths_seen (c_routes c')), <- (empty_seen (c_routes c)), <- (empty_seen (c_routes c')), H. reflexivity. }
  destruct (codegen_status c) as [[H1 E1]|[H1 (p & E1)]], (codegen_status c') as [[H2 E2]|[H2 (p' & E2)]]; rewrite E1, E2;
    split; intros X; try discriminate; try reflexivity; tauto.
Qed.
Lemma twice_named c ms a : In (ms, a) (config_actions (c_routes c)) -> ~ NoDup (fields a) -> compiles c = false.
Proof.
  intros Ha Hn. apply not_true_iff_false. intros H. apply compiles_names in H. apply Hn. exact (gn_fields_distinct _ H _ _ Ha).
Qed.
Lemma no_such_target c p q x r : separate c \/ redirects_typed c -> emitted (c_routes c) p q x ->
  In r (rt_resources x) -> r_is_redirect r = true ->
  (forall a, target c r a -> ~ (Permutation (map p_name (path_params p)) (map p_name (a_route_params a)) /\
                                Permutation (map p_name (q ++ r_query r)) (map p_name (a_query_params a)))) ->
  compiles c = false.
Proof.
  intros Hh Hx Hr Hd Hn. apply not_true_iff_false. intros H. apply (compiles_weak c Hh) in H. destruct H as (_ & _ & _ & M).
  destruct (mo_resource _ M _ _ _ _ Hx Hr) as (_ & _ & Ho). destruct (Ho Hd) as (a & Ha & P1 & P2). exact (Hn a Ha (conj P1 P2)).
Qed.
