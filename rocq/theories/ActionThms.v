(** * ActionThms: other names for resources *)
From Verif Require Import Base Core Trie Flat MiniRust Gen Spec SpecGen SpecMatch SpecAction BaseFacts
  NodeFacts RunFacts MatchFacts MatchProps MatchThms GenThms RenameThms MountsThms.

Section Action.
Variable f : list str * str -> list str * str.
Notation lab := (relabel f).
Definition lab_kid (x : PathSegment * Routes) : PathSegment * Routes := (fst x, lab (snd x)).
Lemma lab_eq rs ch q : lab (mkRoutes rs ch q) = mkRoutes (map (relabel_resource f) rs) (map lab_kid ch) q.
Proof. cbn [relabel]. f_equal. apply map_ext. intros [s c]. reflexivity. Qed.
Lemma lab_resources b : rt_resources (lab b) = map (relabel_resource f) (rt_resources b).
Proof. destruct b. reflexivity. Qed.
Lemma lab_routes b : rt_routes (lab b) = map lab_kid (rt_routes b).
Proof. destruct b. rewrite lab_eq. reflexivity. Qed.
Lemma lab_query b : rt_query (lab b) = rt_query b.
Proof. destruct b. reflexivity. Qed.
Section Find.
Context {T E : Type}.
Variable rt : runtime T E.
Let tfind := @tree_find T E (rt_parse rt).
Definition lab_found (x : found T E) : found T E := match x with Found b q a => Found (lab b) q a | _ => x end.
Definition same_run (b : Routes) : Prop := forall q a rest, tfind (lab b) q a rest = lab_found (tfind b q a rest).
Lemma here_lab b q a : here (lab b) q a = lab_found (here b q a) :> found T E.
Proof. unfold here. rewrite lab_resources. destruct (rt_resources b); reflexivity. Qed.
Lemma go_lab b q a tail : same_run b -> go_in (lab b) (tfind (lab b)) q a tail = lab_found (go_in b (tfind b) q a tail).
Proof.
  intros H. destruct tail as [|c tail]; cbn [go_in]; [rewrite lab_query; apply here_lab|]. destruct (N.eqb c c_slash); [apply H|reflexivity].
Qed.
Lemma dyn_lab p b q a rest : same_run b ->
  find_dyn (rt_parse rt) p (lab b) (tfind (lab b)) q a rest = lab_found (find_dyn (rt_parse rt) p b (tfind b) q a rest).
Proof.
  intros H. unfold find_dyn. destruct (segment rest) as [seg tail]. destruct (utf8_valid seg); [|reflexivity].
  destruct (rt_parse rt (p_typ p) seg); [apply go_lab; exact H|reflexivity].
Qed.
Lemma stat_lab ss q a rest : (forall s b, In (s, b) ss -> same_run b) ->
  find_stat (map (fun sx => (fst sx, fkid (rt_parse rt) (lab (snd sx)))) ss) q a rest =
  lab_found (find_stat (map (fun sx => (fst sx, fkid (rt_parse rt) (snd sx))) ss) q a rest).
Proof.
  intros H. induction ss as [|[s b] ss IH]; [reflexivity|]. cbn [map find_stat fst snd]. unfold fkid at 1 3.
  destruct (after_segment s rest); [apply go_lab, (H s); left; reflexivity|].
  apply IH. intros s' b' Hin. apply (H s'). right. exact Hin.
Qed.
Lemma find_lab b : same_run b.
Proof.
  induction b as [b IH] using Routes_children_ind. intros q a rest. unfold tfind. rewrite !find_eq. fold tfind.
  rewrite lab_resources, lab_routes, lab_query. unfold lab_kid. rewrite statics_map, dynamics_map, least_map.
  assert (Hd : forall p child, least_dynamic (dynamic_children (rt_routes b)) = Some (p, child) -> same_run child).
  { intros p child Hl. apply (IH (Dynamic p)). apply dynamic_children_In. apply least_in. exact Hl. }
  assert (Hss : forall s child, In (s, child) (statics (rt_routes b)) -> same_run child).
  { intros s child Hl. apply (IH (Static s)). apply statics_In. exact Hl. }
  destruct (rt_resources b) as [|r rs]; [|destruct rest as [|c rest]; [reflexivity|]]; cbn [map];
    (destruct (least_dynamic (dynamic_children (rt_routes b))) as [[p child]|] eqn:El; cbn [option_map fst snd];
      [|rewrite map_map; cbn [fst snd]; apply stat_lab; exact Hss]);
    destruct (statics (rt_routes b)) as [|[s child'] [|? ?]] eqn:Es; cbn [map fst snd];
    try (apply dyn_lab; eapply Hd; reflexivity);
    (destruct ((length s =? 1) && _); [reflexivity|]);
    (destruct (strip s _) as [tail|]; [apply go_lab, (Hss s); left; reflexivity|apply dyn_lab; eapply Hd; reflexivity]).
Qed.
Lemma resource_lab method rs :
  find (fun r => str_eqb method (method_display (r_method r))) (map (relabel_resource f) rs) =
  option_map (relabel_resource f) (find (fun r => str_eqb method (method_display (r_method r))) rs).
Proof.
  induction rs as [|r rs IH]; [reflexivity|]. cbn [map find].
  assert (E1 : r_method (relabel_resource f r) = r_method r) by (unfold relabel_resource; destruct (f _); reflexivity).
  rewrite E1. destruct (str_eqb _ _); [reflexivity|exact IH].
Qed.
Lemma finish_lab method x : relabelled_answer f (finish method x) (finish method (lab_found x)) .
Proof.
  assert (Hno : forall e : run_result T E, (forall redirect v, e <> RunResult (hit redirect v)) -> relabelled_answer f e e)
    by (intros e He; right; auto).
  destruct x as [b q a| |p e|]; cbn [lab_found finish]; try (apply Hno; intros [] v; discriminate).
  unfold answer. rewrite lab_resources, resource_lab. destruct (find _ (rt_resources b)) as [r|]; cbn [option_map];
    [|apply Hno; intros [] v; discriminate].
  left. exists (r_is_redirect r), (route_for r q a), (route_for (relabel_resource f r) q a).
  assert (E1 : r_is_redirect (relabel_resource f r) = r_is_redirect r) by (unfold relabel_resource; destruct (f _); reflexivity).
  rewrite E1. split; [destruct (r_is_redirect r); reflexivity|]. split; [destruct (r_is_redirect r); reflexivity|].
  unfold relabel_resource. destruct (f (r_modules r, r_name r)) as [ms n] eqn:Ef. split; [reflexivity|].
  exists (r_modules r, r_name r). rewrite Ef. repeat split.
Qed.
Lemma answers_lab c path method : runnable c -> runnable (relabel_config f c) ->
  exists r r', match_route rt c path method = Some r /\ match_route rt (relabel_config f c) path method = Some r' /\
    relabelled_answer f r r'.
Proof.
  intros H H'. rewrite !match_find by assumption. do 2 eexists. split; [reflexivity|]. split; [reflexivity|].
  cbn [relabel_config c_routes]. pose proof (find_lab (c_routes c) [] [] (no_slash path)) as E0. unfold tfind in E0. rewrite E0. apply finish_lab.
Qed.
End Find.
Lemma own_lab rs : own_names (map (relabel_resource f) rs) = map f (own_names rs).
Proof.
  unfold own_names. induction rs as [|r rs IH]; [reflexivity|]. cbn [map filter].
  assert (E1 : r_is_redirect (relabel_resource f r) = r_is_redirect r) by (unfold relabel_resource; destruct (f _); reflexivity).
  rewrite E1. destruct (r_is_redirect r); cbn [negb map]; [exact IH|]. rewrite IH. f_equal.
  unfold relabel_resource. destruct (f (r_modules r, r_name r)); reflexivity.
Qed.
Lemma names_lab b : struct_names (lab b) = map f (struct_names b).
Proof.
  induction b as [rs ch q IH] using Routes_ind'. rewrite lab_eq, !names_block, map_app, own_lab. f_equal.
  induction IH as [|[s c] ch H _ IHl]; [reflexivity|]. cbn [map concat lab_kid fst snd]. rewrite map_app, IHl. f_equal. exact H.
Qed.
Lemma paths_lab b : block_paths_untyped (lab b) = block_paths_untyped b.
Proof.
  induction b as [rs ch q IH] using Routes_ind'. rewrite lab_eq, !paths_block. f_equal. f_equal. f_equal.
  induction IH as [|[s c] ch H _ IHl]; [reflexivity|]. cbn [map lab_kid fst snd]. f_equal; [|exact IHl]. f_equal. exact H.
Qed.
Lemma empty_lab b : empty_block (lab b) <-> empty_block b.
Proof.
  unfold empty_block. rewrite lab_query, lab_resources, lab_routes.
  destruct (rt_resources b), (rt_routes b); cbn [map]; intuition discriminate.
Qed.
Lemma generates_lab c : (forall x y, In x (struct_names (c_routes c)) -> In y (struct_names (c_routes c)) -> f x = f y -> x = y) ->
  snd (codegen c) = ROk tt <-> snd (codegen (relabel_config f c)) = ROk tt.
Proof.
  intros H. rewrite !codegen_iff. unfold generates, relabel_config. cbn [c_routes]. rewrite names_lab, paths_lab, empty_lab.
  enough (Hn : NoDup (map f (struct_names (c_routes c))) <-> NoDup (struct_names (c_routes c))) by tauto.
  clear - H. split; [apply NoDup_map_inv|]. generalize dependent (struct_names (c_routes c)). intros l Hf Hn.
  induction Hn as [|x l Hx Hn IH]; [constructor|]. cbn [map]. constructor.
  - intros Hin. apply in_map_iff in Hin as (y & E & Hy). apply Hx. rewrite (Hf x y); [exact Hy|left; reflexivity|right; exact Hy|auto].
  - apply IH. intros y z Hy Hz. apply Hf; right; assumption.
Qed.
End Action.
