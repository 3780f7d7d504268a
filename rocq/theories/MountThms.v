(** * MountThms: routing in a mounted configuration *)
From Verif Require Import Base Core Trie Flat MiniRust Gen Spec SpecMatch SpecMount BaseFacts
  NodeFacts RunFacts MatchFacts MatchProps MatchThms.

Lemma statics_app {X} (l l' : list (PathSegment * X)) : statics (l ++ l') = statics l ++ statics l'.
Proof. induction l as [|[[s|p] x] l IH]; simpl; auto. rewrite IH. reflexivity. Qed.
Lemma dynamic_children_app {X} (l l' : list (PathSegment * X)) :
  dynamic_children (l ++ l') = dynamic_children l ++ dynamic_children l'.
Proof. induction l as [|[[s|p] x] l IH]; simpl; auto. rewrite IH. reflexivity. Qed.
Lemma static_child_app seg (l l' : list (str * Routes)) :
  static_child seg (l ++ l') =
  match static_child seg l with Some c => Some c | None => static_child seg l' end.
Proof. induction l as [|[s x] l IH]; simpl; auto. destruct (str_eqb s seg); auto. Qed.

Section Mount.
Context {T E : Type}.
Variable rt : runtime T E.
Let parse := rt_parse rt.
Let tfind := @tree_find T E parse.

(** The search carries the query parameters and values of the way along. *)
Definition shift (q : list Param) (a : @args T) (f : found T E) : found T E :=
  match f with Found b q' a' => Found b (q ++ q') (a ++ a') | f => f end.
Lemma go_shift b q a q' a' tail :
  (forall q a q' a' rest, tfind b (q ++ q') (a ++ a') rest = shift q a (tfind b q' a' rest)) ->
  go_in b (tfind b) (q ++ q') (a ++ a') tail = shift q a (go_in b (tfind b) q' a' tail).
Proof.
  intros H. destruct tail as [|c t]; cbn [go_in].
  - unfold here. destruct (rt_resources b); [reflexivity|]. cbn [shift]. rewrite app_assoc. reflexivity.
  - destruct (N.eqb c c_slash); auto.
Qed.
Lemma dyn_shift p b q a q' a' rest :
  (forall q a q' a' rest, tfind b (q ++ q') (a ++ a') rest = shift q a (tfind b q' a' rest)) ->
  find_dyn parse p b (tfind b) (q ++ q') (a ++ a') rest = shift q a (find_dyn parse p b (tfind b) q' a' rest).
Proof.
  intros H. unfold find_dyn. destruct (segment rest) as [seg tail].
  destruct (utf8_valid seg); auto. destruct (parse (p_typ p) seg); auto.
  rewrite <- app_assoc. apply go_shift; auto.
Qed.
Lemma stat_shift ss q a q' a' rest :
  (forall s b, In (s, b) ss -> forall q a q' a' rest, tfind b (q ++ q') (a ++ a') rest = shift q a (tfind b q' a' rest)) ->
  find_stat (map (fun sx => (fst sx, fkid parse (snd sx))) ss) (q ++ q') (a ++ a') rest =
  shift q a (find_stat (map (fun sx => (fst sx, fkid parse (snd sx))) ss) q' a' rest).
Proof.
  induction ss as [|[s b] ss IH]; intros H; [reflexivity|]. cbn [map find_stat fst snd].
  unfold fkid at 1 3. destruct (after_segment s rest).
  - apply go_shift. apply (H s). left. reflexivity.
  - apply IH. intros s' b' Hin. apply (H s'). right. exact Hin.
Qed.
Lemma find_shift : forall b q a q' a' rest,
  tfind b (q ++ q') (a ++ a') rest = shift q a (tfind b q' a' rest).
Proof.
  induction b as [b IH] using Routes_children_ind. intros q a q' a' rest.
  unfold tfind. rewrite !find_eq. fold tfind. rewrite <- app_assoc.
  assert (Hd : forall p child, least_dynamic (dynamic_children (rt_routes b)) = Some (p, child) ->
     forall q a q' a' rest, tfind child (q ++ q') (a ++ a') rest = shift q a (tfind child q' a' rest)).
  { intros p child Hl. apply (IH (Dynamic p)). apply dynamic_children_In. apply least_in. exact Hl. }
  assert (Hss : forall s child, In (s, child) (statics (rt_routes b)) ->
     forall q a q' a' rest, tfind child (q ++ q') (a ++ a') rest = shift q a (tfind child q' a' rest)).
  { intros s child Hl. apply (IH (Static s)). apply statics_In. exact Hl. }
  destruct (rt_resources b) as [|r rs]; [|destruct rest as [|c rest]; [reflexivity|]];
    (destruct (least_dynamic (dynamic_children (rt_routes b))) as [[p child]|] eqn:El;
      [|apply stat_shift; exact Hss]);
    destruct (statics (rt_routes b)) as [|[s child'] [|? ?]] eqn:Es;
    try (apply dyn_shift; eapply Hd; reflexivity);
    (destruct ((length s =? 1) && _); [reflexivity|]);
    (destruct (strip s _) as [tail|];
       [apply go_shift; apply (Hss s); left; reflexivity | apply dyn_shift; eapply Hd; reflexivity]).
Qed.
Lemma find_query b q rest : tfind b q [] rest = shift q [] (tfind b [] [] rest).
Proof. rewrite <- (find_shift b q [] [] []), app_nil_r. reflexivity. Qed.

Lemma insert_fields (a : @args T) ns qs :
  insert_none ns (map (fun pv : Param * T => (p_name (fst pv), FvVal (p_typ (fst pv)) (snd pv))) a
                  ++ map (fun p => (p_name p, FvNone)) qs) =
  map (fun pv : Param * T => (p_name (fst pv), FvVal (p_typ (fst pv)) (snd pv))) a
    ++ map (fun n => (n, FvNone)) ns ++ map (fun p => (p_name p, FvNone)) qs.
Proof.
  induction a as [|[p v] a IH]; simpl.
  - destruct qs; simpl; [rewrite app_nil_r|]; reflexivity.
  - rewrite IH. reflexivity.
Qed.
Lemma finish_shift method q f :
  finish method (shift q [] f) = answer_with_query q (finish (E := E) method f).
Proof.
  destruct f as [b q' a| |p e|]; try reflexivity. cbn [shift finish app]. unfold answer.
  destruct (find _ (rt_resources b)) as [r|]; [|reflexivity].
  assert (H : route_for r (q ++ q') a = with_query q (route_for r q' a)).
  { unfold route_for, with_query. cbn [rv_modules rv_name rv_fields]. rewrite insert_fields.
    rewrite <- app_assoc, !map_app, map_map. reflexivity. }
  rewrite H. destruct (r_is_redirect r); reflexivity.
Qed.

(** The children of the mounted root. *)
Lemma mount_children c at_ d :
  statics (rt_routes (c_routes (mount c at_ d))) = statics (rt_routes (c_routes c)) ++ [(at_, c_routes d)] /\
  dynamic_children (rt_routes (c_routes (mount c at_ d))) = dynamic_children (rt_routes (c_routes c)).
Proof.
  cbn [mount c_routes rt_routes]. rewrite statics_app, dynamic_children_app. simpl. rewrite app_nil_r. auto.
Qed.
Lemma unmounted c at_ d path method : runnable (mount c at_ d) -> runnable c ->
  plain_statics (c_routes (mount c at_ d)) ->
  dynamic_children (rt_routes (c_routes c)) = [] \/
  statics (rt_routes (c_routes c)) = [] /\ strip at_ (first_segment path) = None /\ no_slash path <> [] ->
  first_segment path <> at_ ->
  match_route rt (mount c at_ d) path method = match_route rt c path method.
Proof.
  intros Hr Hc Hp Hd Hf. rewrite !match_find by auto. f_equal.
  assert (Hpc : plain_statics (c_routes c)).
  { intros s child Hin. apply (Hp s child). cbn [mount c_routes rt_routes]. apply in_or_app. left. exact Hin. }
  destruct (mount_children c at_ d) as [Hs Hdm].
  unfold first_segment in Hf, Hd.
  destruct (no_slash path) as [|x rest] eqn:En.
  - destruct Hd as [Hd|(_ & _ & Hd)]; [|congruence].
    rewrite !find_nil by auto. rewrite Hdm, Hd. cbn [mount c_routes rt_resources rt_query least_dynamic].
    destruct (rt_resources (c_routes c)) eqn:Er; [reflexivity|]. cbn [finish rt_resources]. rewrite Er. reflexivity.
  - rewrite !find_choose by (auto; discriminate).
    assert (Hch : choose (c_routes (mount c at_ d)) (fst (segment (x :: rest))) =
                  choose (c_routes c) (fst (segment (x :: rest)))).
    { unfold choose. rewrite Hs, Hdm. destruct Hd as [Hd|(Hd & Hst & _)].
      - rewrite Hd. cbn [least_dynamic]. rewrite static_child_app.
        destruct (static_child (fst (segment (x :: rest))) (statics (rt_routes (c_routes c)))); [reflexivity|].
        cbn [static_child]. destruct (str_eqb_spec at_ (fst (segment (x :: rest)))); [congruence|reflexivity].
      - rewrite Hd. cbn [app]. rewrite Hst.
        destruct (least_dynamic (dynamic_children (rt_routes (c_routes c)))) as [[p ch]|]; [reflexivity|].
        cbn [static_child option_map]. destruct (str_eqb_spec at_ (fst (segment (x :: rest)))); [congruence|reflexivity]. }
    rewrite Hch. destruct (choose (c_routes c) (fst (segment (x :: rest)))) as [[[p|] ch]|]; reflexivity.
Qed.
End Mount.
