(** * TypesFacts: the generated program does not depend on the types of path
    parameters below which there are only redirects *)
From Coq Require Import Sorted Permutation.
From Verif Require Import Base Core Trie Flat MiniRust Gen Spec SpecCore SpecGen SpecMatch SpecCompile SpecTypes
  BaseFacts TrieFacts NodeFacts FlatFacts MatchFacts CoreFacts GenThms OrderFacts CompileFacts.

(** ** Tries with other data *)
Section Tmap.
Context {K V : Type}.
Variable cmp : K -> K -> comparison.
Variable f : V -> V.
Fixpoint tmap (t : Trie K V) : Trie K V :=
  match t with
  | mkTrie d ch => mkTrie (option_map f d) (map (fun kc => match kc with (k, c) => (k, tmap c) end) ch)
  end.
Notation kone := (fun kc : K * Trie K V => match kc with (k, c) => (k, tmap c) end).
Notation kmap := (map kone).
Lemma tmap_eq t : tmap t = mkTrie (option_map f (t_data t)) (kmap (t_children t)).
Proof. destruct t. reflexivity. Qed.
Lemma bsearch_tmap c l : forall fuel base size, bsearch_loop cmp fuel (kmap l) c base size = bsearch_loop cmp fuel l c base size.
Proof.
  induction fuel as [|n IH]; intros base size; [reflexivity|]. cbn [bsearch_loop]. destruct (1 <? size); [|reflexivity].
  rewrite nth_error_map. destruct (nth_error l (base + size / 2)) as [[k t]|]; cbn [option_map]; apply IH.
Qed.
Lemma binary_tmap c l : binary_search cmp (kmap l) c = binary_search cmp l c.
Proof.
  destruct l as [|x l]; [reflexivity|]. unfold binary_search. rewrite bsearch_tmap.
  cbn [map]. rewrite <- (map_cons (fun kc : K * Trie K V => match kc with (k, c0) => (k, tmap c0) end) x l).
  rewrite map_length, nth_error_map.
  destruct (nth_error (x :: l) _) as [[k t]|]; reflexivity.
Qed.
Lemma vec_insert_map {A B} (g : A -> B) i x l : vec_insert i (g x) (map g l) = map g (vec_insert i x l).
Proof. unfold vec_insert. rewrite map_app, <- firstn_map. cbn [map]. rewrite <- skipn_map. reflexivity. Qed.
Lemma vec_remove_map {A B} (g : A -> B) i l : vec_remove i (map g l) = map g (vec_remove i l).
Proof. unfold vec_remove. rewrite map_app, <- firstn_map, <- skipn_map. reflexivity. Qed.
Lemma trie_add_tmap : forall path t v,
  match trie_add cmp t path v, trie_add cmp (tmap t) path (f v) with
  | inl t1, inl t2 => t2 = tmap t1
  | inr _, inr _ => True
  | _, _ => False
  end.
Proof.
  induction path as [|k path IH]; intros t v; rewrite tmap_eq; cbn [trie_add t_data t_children].
  - destruct (t_data t); cbn [option_map]; reflexivity.
  - rewrite binary_tmap. destruct (binary_search cmp (t_children t) k) as [i|i].
    + rewrite nth_error_map. destruct (nth_error (t_children t) i) as [[k' t']|]; cbn [option_map]; [|exact I].
      specialize (IH t' v). destruct (trie_add cmp t' path v) as [t1|], (trie_add cmp (tmap t') path (f v)) as [t2|]; auto.
      subst t2. rewrite (tmap_eq (mkTrie _ _)). cbn [t_data t_children]. apply (f_equal (mkTrie _)).
      rewrite vec_remove_map. apply (vec_insert_map kone i (k, t1)).
    + specialize (IH trie_new v). change (tmap trie_new) with (@trie_new K V) in IH.
      destruct (trie_add cmp trie_new path v) as [t1|], (trie_add cmp trie_new path (f v)) as [t2|]; auto.
      subst t2. rewrite (tmap_eq (mkTrie _ _)). cbn [t_data t_children]. apply (f_equal (mkTrie _)).
      apply (vec_insert_map kone i (k, t1)).
Qed.
Lemma height_tmap : forall t, trie_height (tmap t) = trie_height t.
Proof.
  fix IH 1. intros [d ch]. cbn [tmap trie_height]. f_equal. induction ch as [|[k c] ch IHc]; [reflexivity|].
  cbn [map fold_right]. rewrite IH, IHc. reflexivity.
Qed.
End Tmap.

(** ** Paths without types *)
Definition erase_seg (s : PathSegment) : PathSegment :=
  match s with Static t => Static t | Dynamic d => Dynamic (mkParam (p_name d) []) end.
Definition erase (fr : FlattenedRoute) : FlattenedRoute :=
  mkFlat (map erase_seg (f_path fr)) (f_resources fr) (f_query fr).
Notation terase := (tmap erase).
Lemma erase_iter p : path_iter (map erase_seg p) = path_iter p.
Proof. unfold path_iter. rewrite map_map. f_equal. apply map_ext. intros [s|d]; reflexivity. Qed.
Lemma erase_names p : map p_name (dynamics (map erase_seg p)) = map p_name (dynamics p).
Proof. induction p as [|[s|d] p IH]; simpl; auto. rewrite IH. reflexivity. Qed.
Lemma erase_trie l : forall t,
  match to_trie_from t l, to_trie_from (terase t) (map erase l) with
  | ROk t1, ROk t2 => t2 = terase t1
  | RPanic a, RPanic b => a = b
  | _, _ => False
  end.
Proof.
  induction l as [|fr l IH]; intros t; cbn [to_trie_from map]; [reflexivity|].
  pose proof (trie_add_tmap charlike_cmp erase (path_iter (f_path fr)) t fr) as H.
  replace (path_iter (f_path (erase fr))) with (path_iter (f_path fr)) by (symmetry; apply erase_iter).
  destruct (trie_add charlike_cmp t _ fr) as [t1|], (trie_add charlike_cmp (terase t) _ (erase fr)) as [t2|]; try contradiction.
  - subst t2. apply IH.
  - reflexivity.
Qed.

(** ** The program *)
Notation kerase := (map (fun kc : Charlike * ctrie => match kc with (k, c) => (k, terase c) end)).
Lemma resource_ret_erase fr r : resource_ret (erase fr) r = resource_ret fr r.
Proof.
  unfold resource_ret, erase. cbn [f_path f_query]. do 2 f_equal.
  rewrite <- (map_map p_name (fun x => (x, FVar))), erase_names, map_map. reflexivity.
Qed.
Lemma methods_stmt_erase fr : methods_stmt (erase fr) = methods_stmt fr.
Proof.
  unfold methods_stmt. cbn [erase f_resources]. do 4 f_equal. apply map_ext. intros r.
  rewrite resource_ret_erase. reflexivity.
Qed.
Lemma has_resources_erase d : has_resources (option_map erase d) = option_map erase (has_resources d).
Proof. destruct d as [fr|]; [|reflexivity]. simpl. destruct (f_resources fr); reflexivity. Qed.
Lemma methods_erase d : methods_block (option_map erase d) = methods_block d.
Proof.
  unfold methods_block. rewrite has_resources_erase. destruct (has_resources d); [|reflexivity].
  cbn [option_map]. rewrite methods_stmt_erase. reflexivity.
Qed.
Lemma chase_erase : forall t, chase (terase t) = (fst (chase t), terase (snd (chase t))).
Proof.
  fix IH 1. intros [d [|[[ch|n|] t'] [|y l]]]; try reflexivity.
  cbn [tmap map chase]. rewrite IH. destruct (chase t') as [s t'']. reflexivity.
Qed.
Lemma unamb_erase : forall t, unamb (terase t) = (fst (unamb t), terase (snd (unamb t))).
Proof.
  fix IH 1. intros [d ch]. cbn [tmap unamb].
  assert (E1 : existsb (fun c : Charlike * ctrie => is_separator (fst c)) (kerase ch) =
               existsb (fun c : Charlike * ctrie => is_separator (fst c)) ch).
  { clear. induction ch as [|[k c] ch IHc]; simpl; auto. rewrite IHc. reflexivity. }
  assert (E2 : length (filter (fun c : Charlike * ctrie => is_static (fst c)) (kerase ch)) =
               length (filter (fun c : Charlike * ctrie => is_static (fst c)) ch)).
  { clear. induction ch as [|[k c] ch IHc]; simpl; auto. destruct (is_static k); simpl; rewrite IHc; reflexivity. }
  rewrite E1, E2. destruct (existsb _ ch); [reflexivity|]. destruct (_ =? 1); [|reflexivity].
  change (mkTrie (option_map erase d) (kerase ch)) with (terase (mkTrie d ch)).
  generalize (mkTrie d ch) as t0. clear E1 E2 d. intros t0.
  induction ch as [|[[c|n|] t'] ch IHc]; cbn [map]; [reflexivity| |exact IHc|exact IHc].
  rewrite IH. destruct (unamb t') as [[s n] t'']. reflexivity.
Qed.
Lemma find_dynamic_erase l :
  find_dynamic (kerase l) = option_map (fun nc => (fst nc, terase (snd nc))) (find_dynamic l).
Proof. induction l as [|[[c|n|] t] l IH]; simpl; auto. Qed.
Lemma gen_erase : forall fuel t, gen_trie fuel (terase t) = gen_trie fuel t.
Proof.
  induction fuel as [|n IH]; intros t; [reflexivity|]. cbn [gen_trie].
  rewrite tmap_eq. cbn [t_data]. rewrite methods_erase, <- tmap_eq.
  assert (Hd : forall c nm, gen_dynamic (gen_trie n) (terase c) nm = gen_dynamic (gen_trie n) c nm).
  { intros c nm. unfold gen_dynamic. rewrite IH, (tmap_eq _ c). cbn [t_children].
    destruct (t_children c) as [|[[x|x|] c'] [|y l]]; reflexivity. }
  assert (Ha : forall l, gen_arms (gen_trie n) (kerase l) = gen_arms (gen_trie n) l).
  { induction l as [|[[x|x|] c] l IHl]; cbn [map gen_arms]; [reflexivity| | |].
    - rewrite IH, IHl. reflexivity.
    - rewrite Hd. reflexivity.
    - rewrite IHl. reflexivity. }
  assert (Hm : gen_many (gen_trie n) (terase t) = gen_many (gen_trie n) t).
  { unfold gen_many. rewrite unamb_erase, (tmap_eq _ t). cbn [t_children]. rewrite find_dynamic_erase, Ha.
    destruct (unamb t) as [[u k] next]. cbn [fst snd]. rewrite IH.
    destruct (find_dynamic (t_children t)) as [[nm c]|]; cbn [option_map fst snd]; [rewrite Hd|]; reflexivity. }
  replace (gen_children (gen_trie n) (terase t)) with (gen_children (gen_trie n) t); [reflexivity|].
  symmetry. unfold gen_children. rewrite Hm, (tmap_eq _ t). cbn [t_children].
  destruct (t_children t) as [|[[x|x|] c] [|y l]]; cbn [map]; try reflexivity.
  - rewrite chase_erase. destruct (chase c) as [more c']. cbn [fst snd]. rewrite IH. reflexivity.
  - rewrite Hd. reflexivity.
  - rewrite IH, (tmap_eq _ c). cbn [t_data]. rewrite has_resources_erase.
    destruct (has_resources (t_data c)) as [fr|]; cbn [option_map]; [rewrite methods_stmt_erase|]; reflexivity.
Qed.
Lemma gen_program_erase c c' :
  map erase (flattened_routes (c_routes c)) = map erase (flattened_routes (c_routes c')) ->
  gen_program c = gen_program c'.
Proof.
  intros H. unfold gen_program, to_trie.
  pose proof (erase_trie (flattened_routes (c_routes c)) trie_new) as H1.
  pose proof (erase_trie (flattened_routes (c_routes c')) trie_new) as H2.
  change (terase trie_new) with (@trie_new Charlike FlattenedRoute) in *. rewrite <- H in H2.
  destruct (to_trie_from trie_new (map erase _)) as [t0| |p|];
    destruct (to_trie_from trie_new (flattened_routes (c_routes c))) as [t1| |p1|]; try contradiction;
    destruct (to_trie_from trie_new (flattened_routes (c_routes c'))) as [t2| |p2|]; try contradiction; cbn [rbind].
  - rewrite <- (gen_erase _ t1), <- (height_tmap erase t1), <- H1, H2, height_tmap, gen_erase. reflexivity.
  - congruence.
Qed.

(** ** Changing types *)
Section Retype.
Variable f : Param -> Routes -> str.
Definition retype_seg (seg : PathSegment) (child : Routes) : PathSegment :=
  match seg with
  | Static s => Static s
  | Dynamic d => Dynamic (mkParam (p_name d) (f d child))
  end.
Lemma retype_eq b :
  retype f b = mkRoutes (rt_resources b)
    (map (fun nr : PathSegment * Routes => (retype_seg (fst nr) (snd nr), retype f (snd nr))) (rt_routes b)) (rt_query b).
Proof.
  destruct b as [rs ch qs]. cbn [retype rt_resources rt_routes rt_query]. f_equal. apply map_ext.
  intros [[s|d] child]; reflexivity.
Qed.
Lemma retype_query b : rt_query (retype f b) = rt_query b.
Proof. destruct b; reflexivity. Qed.
Lemma retype_resources b : rt_resources (retype f b) = rt_resources b.
Proof. destruct b; reflexivity. Qed.
Lemma retype_child b seg' child' : In (seg', child') (rt_routes (retype f b)) <->
  exists seg child, In (seg, child) (rt_routes b) /\ seg' = retype_seg seg child /\ child' = retype f child.
Proof.
  rewrite retype_eq. cbn [rt_routes]. rewrite in_map_iff. split.
  - intros ([seg child] & [= <- <-] & H). exists seg, child. auto.
  - intros (seg & child & H & -> & ->). exists (seg, child). auto.
Qed.
Lemma erase_retype_seg seg child : erase_seg (retype_seg seg child) = erase_seg seg.
Proof. destruct seg; reflexivity. Qed.
Lemma flatten_retype : forall b p p' q, map erase_seg p = map erase_seg p' ->
  map erase (flatten (retype f b) p q) = map erase (flatten b p' q).
Proof.
  induction b as [rs ch qs IH] using Routes_ind'. intros p p' q Hp. rewrite Forall_forall in IH.
  rewrite retype_eq. cbn [flatten rt_resources rt_routes rt_query map].
  f_equal; [unfold erase; cbn [f_path f_resources f_query]; rewrite Hp; reflexivity|].
  rewrite !concat_map, !map_map. f_equal. apply map_ext_in. intros [seg child] Hin. cbn [fst snd].
  apply (IH _ Hin). rewrite !map_app. cbn [map]. rewrite Hp, erase_retype_seg. reflexivity.
Qed.
Lemma flattened_retype b : map erase (flattened_routes (retype f b)) = map erase (flattened_routes b).
Proof. apply flatten_retype. reflexivity. Qed.

(** The segments of a retyped path. *)
Inductive retyped : Routes -> list PathSegment -> list Param -> Routes -> list PathSegment -> Prop :=
| retyped_here b : retyped b [] (rt_query b) b []
| retyped_step b seg child p q x p' :
    In (seg, child) (rt_routes b) -> retyped child p q x p' ->
    retyped b (seg :: p) (rt_query b ++ q) x (retype_seg seg child :: p').
Lemma retyped_at b p q x p' : retyped b p q x p' -> block_at b p q x.
Proof. induction 1; econstructor; eauto. Qed.
Lemma at_retyped b p q x : block_at b p q x -> exists p', retyped b p q x p'.
Proof. induction 1 as [b|b seg child p q x Hin Hx [p' IH]]; eexists; econstructor; eauto. Qed.
Lemma block_retype b p' q x' : block_at (retype f b) p' q x' ->
  exists p x, retyped b p q x p' /\ x' = retype f x.
Proof.
  intros H. remember (retype f b) as b' eqn:Eb. revert b Eb.
  induction H as [b'|b' seg' child' p' q x' Hin Hx IH]; intros b ->.
  - rewrite retype_query. exists [], b. split; [constructor|reflexivity].
  - apply retype_child in Hin. destruct Hin as (seg & child & Hin & -> & ->).
    destruct (IH child eq_refl) as (p & x & Hr & ->). rewrite retype_query.
    exists (seg :: p), x. split; [econstructor; eauto|reflexivity].
Qed.
(** A parameter of a retyped path. *)
Lemma retyped_param b p q x p' d' : retyped b p q x p' -> In d' (path_params p') ->
  exists pre q1 y d child post q2, block_at b pre q1 y /\ In (Dynamic d, child) (rt_routes y) /\
    block_at child post q2 x /\ p = pre ++ Dynamic d :: post /\ q = q1 ++ q2 /\ d' = mkParam (p_name d) (f d child).
Proof.
  induction 1 as [b|b seg child p q x p' Hin Hr IH]; [intros []|]. intros Hd.
  assert (Hlater : In d' (path_params p') -> exists pre q1 y d child0 post q2,
     block_at b pre q1 y /\ In (Dynamic d, child0) (rt_routes y) /\ block_at child0 post q2 x /\
     seg :: p = pre ++ Dynamic d :: post /\ rt_query b ++ q = q1 ++ q2 /\ d' = mkParam (p_name d) (f d child0)).
  { intros H. destruct (IH H) as (pre & q1 & y & d & c0 & post & q2 & H1 & H2 & H3 & -> & -> & E).
    exists (seg :: pre), (rt_query b ++ q1), y, d, c0, post, q2. rewrite <- app_assoc.
    split; [econstructor; eauto|]. auto 10. }
  destruct seg as [s|d]; [apply Hlater; exact Hd|]. cbn [retype_seg path_params] in Hd.
  destruct Hd as [<-|Hd]; [|apply Hlater; exact Hd].
  exists [], (rt_query b), b, d, child, p, q. split; [constructor|]. split; [exact Hin|].
  split; [eapply retyped_at; eauto|]. auto.
Qed.

(** *** Actions *)
Lemma blocks_eq b : blocks b =
  ([], rt_query b, b) :: flat_map (fun nr : PathSegment * Routes =>
     map (fun e : list PathSegment * list Param * Routes => (fst nr :: fst (fst e), rt_query b ++ snd (fst e), snd e))
         (blocks (snd nr))) (rt_routes b).
Proof.
  destruct b as [rs ch qs]. cbn [blocks rt_query rt_routes]. f_equal. rewrite flat_map_concat_map. f_equal.
  apply map_ext. intros [seg child]. apply map_ext. intros [[p q] x]. reflexivity.
Qed.
Definition lower (seg : PathSegment) (qs : list Param) (ma : list str * FlattenedAction) : list str * FlattenedAction :=
  (fst ma, mkAction (a_name (snd ma)) (a_method (snd ma)) (seg :: a_path (snd ma))
             (path_params (seg :: a_path (snd ma))) (qs ++ a_query_params (snd ma))).
Lemma config_actions_eq b : config_actions b =
  map (action_of [] (rt_query b)) (filter (fun r => negb (r_is_redirect r)) (rt_resources b))
  ++ flat_map (fun nr : PathSegment * Routes => map (lower (fst nr) (rt_query b)) (config_actions (snd nr))) (rt_routes b).
Proof.
  unfold config_actions at 1. rewrite blocks_eq. cbn [map concat]. f_equal.
  induction (rt_routes b) as [|[seg child] l IH]; [reflexivity|].
  cbn [flat_map fst snd]. rewrite map_app, concat_app, IH. f_equal.
  unfold config_actions. rewrite concat_map, !map_map. f_equal. apply map_ext. intros [[p q] x].
  unfold block_actions. cbn [fst snd]. rewrite map_map. apply map_ext. intros r. unfold action_of, lower.
  cbn [fst snd a_name a_method a_path a_query_params]. rewrite app_assoc. reflexivity.
Qed.
Hypothesis Hf : forall d child, config_actions child <> [] -> f d child = p_typ d.
Lemma actions_retype : forall b, config_actions (retype f b) = config_actions b.
Proof.
  induction b as [rs ch qs IH] using Routes_ind'. rewrite Forall_forall in IH.
  rewrite (config_actions_eq (retype f _)), (config_actions_eq (mkRoutes rs ch qs)), retype_eq.
  cbn [rt_resources rt_routes rt_query]. f_equal. rewrite !flat_map_concat_map, map_map. f_equal.
  apply map_ext_in. intros [seg child] Hin. cbn [fst snd].
  pose proof (IH _ Hin) as IHc. cbn [snd] in IHc. rewrite IHc.
  destruct (config_actions child) as [|a l] eqn:E; [reflexivity|].
  replace (retype_seg seg child) with seg; [reflexivity|]. destruct seg as [s|d]; [reflexivity|].
  cbn [retype_seg]. rewrite Hf; [destruct d; reflexivity|congruence].
Qed.
End Retype.

Lemma modules_actions b b' : config_actions b = config_actions b' ->
  flattened_modules b = flattened_modules b' \/
  (forall r, flattened_modules b <> ROk r) /\ (forall r, flattened_modules b' <> ROk r).
Proof.
  intros HA.
  assert (Hone : forall b b' root, config_actions b = config_actions b' ->
     flattened_modules b = ROk root -> flattened_modules b' = ROk root).
  { clear. intros b b' root HA H1. destruct (flattened_modules_tree _ _ H1) as (N1 & T1 & P1 & D1).
    destruct (flattened_modules_names b') as [[[root' H2] _]|[_ H2]].
    - rewrite H2. f_equal. destruct (flattened_modules_tree _ _ H2) as (N2 & T2 & P2 & D2).
      apply module_unique; auto; [congruence|]. intros p a.
      assert (HPm : Permutation (module_actions root') (module_actions root)).
      { rewrite P1, P2, HA. reflexivity. }
      split; apply Permutation_in; auto using Permutation_sym.
    - exfalso. apply H2. rewrite struct_names_actions, <- HA. exact D1. }
  destruct (flattened_modules b) as [r| | |] eqn:E1.
  2-4: right; split; [congruence|]; intros r E2; apply (Hone b' b) in E2; [congruence|auto].
  left. symmetry. eapply Hone; eauto.
Qed.

(** ** The inferred types *)
Lemma resources_below_In b r : In r (resources_below b) <-> exists p q x, block_at b p q x /\ In r (rt_resources x).
Proof.
  unfold resources_below. rewrite in_flat_map. split.
  - intros ([[p q] x] & Hx & Hr). apply blocks_at in Hx. exists p, q, x. auto.
  - intros (p & q & x & Hx & Hr). apply blocks_at in Hx. exists (p, q, x). auto.
Qed.
Lemma actions_some_below b : config_actions b <> [] -> forallb r_is_redirect (resources_below b) = false.
Proof.
  intros H. apply not_true_iff_false. rewrite forallb_forall. intros Hall. apply H. unfold config_actions.
  assert (Hb : forall e, In e (blocks b) -> block_actions e = []).
  { intros [[p q] x] He. unfold block_actions. replace (filter _ (rt_resources x)) with (@nil Resource); [reflexivity|].
    symmetry. assert (Hr : forall r, In r (rt_resources x) -> r_is_redirect r = true).
    { intros r Hr. apply Hall. apply resources_below_In. apply blocks_at in He. exists p, q, x. auto. }
    clear -Hr. induction (rt_resources x) as [|r l IH]; [reflexivity|]. cbn [filter].
    rewrite (Hr r (or_introl eq_refl)). apply IH. intros r' H'. apply Hr. right. exact H'. }
  induction (blocks b) as [|e l IH]; [reflexivity|]. cbn [map concat]. rewrite (Hb e (or_introl eq_refl)).
  apply IH. intros e' He'. apply Hb. right. exact He'.
Qed.
Lemma parsed_own c d child : config_actions child <> [] -> parsed_as c d child = p_typ d.
Proof.
  intros H. unfold parsed_as. rewrite (actions_some_below _ H). destruct (resources_below child); reflexivity.
Qed.
Lemma same_strs_eq : forall a b, same_strs a b = true <-> a = b.
Proof.
  induction a as [|x a IH]; intros [|y b]; simpl; split; try discriminate; auto.
  - rewrite andb_true_iff, IH, str_eqb_eq. intros [-> ->]. reflexivity.
  - intros [= -> ->]. rewrite andb_true_iff, IH, str_eqb_eq. auto.
Qed.
Lemma builds_target c r ms a : In (ms, a) (config_actions (c_routes c)) -> builds r (ms, a) = true <->
  map to_snake_case ms = map to_snake_case (r_modules r) /\ map to_caps_case ms = map to_caps_case (r_modules r) /\
  to_caps_case (a_name a) = to_caps_case (r_name r).
Proof. intros _. unfold builds. cbn [fst snd]. rewrite !andb_true_iff, !same_strs_eq, str_eqb_eq. tauto. Qed.

Lemma block_app b p q x : block_at b p q x -> forall p' q' y seg child,
  In (seg, child) (rt_routes x) -> block_at child p' q' y -> block_at b (p ++ seg :: p') (q ++ q') y.
Proof.
  induction 1 as [b|b seg0 c0 p q x Hin Hx IH]; intros p' q' y seg child Hs Hy.
  - simpl. econstructor; eauto.
  - simpl. rewrite <- app_assoc. econstructor; eauto.
Qed.
Lemma path_params_app a b : path_params (a ++ b) = path_params a ++ path_params b.
Proof. rewrite !path_params_dynamics, RunFacts.dynamics_app. reflexivity. Qed.

Lemma one_first x d child : one_dynamic x -> In (Dynamic d, child) (rt_routes x) -> first_param x = Some (d, child).
Proof.
  intros H1 Hin. apply RunFacts.dynamic_children_In in Hin. unfold one_dynamic in H1. unfold first_param.
  destruct (dynamic_children (rt_routes x)) as [|y [|z l]]; cbn [length] in H1; [destruct Hin| |lia].
  destruct Hin as [->|[]]. reflexivity.
Qed.
Lemma one_emitted b p q x : every_block one_dynamic b -> block_at b p q x -> emitted b p q x.
Proof.
  intros Ho Hx. induction Hx as [b|b [s|d] child p q x Hin Hx IH].
  - constructor.
  - econstructor; eauto. apply IH. intros p' q' y Hy. eapply Ho. econstructor; eauto.
  - eapply emitted_dynamic; [apply one_first; [|exact Hin]|].
    + eapply Ho. constructor.
    + apply IH. intros p' q' y Hy. eapply Ho. econstructor; eauto.
Qed.

Section Infer.
Variables (c : RouteConfig) (root : FlattenedModule).
Hypothesis Hr : flattened_modules (c_routes c) = ROk root.
Hypothesis Hok : module_ok true root = true.
Hypothesis Hm : matcher_ok c.
Hypothesis Ho : every_block one_dynamic (c_routes c).

Lemma fits_resource p q x r : block_at (c_routes c) p q x -> In r (rt_resources x) ->
  exists a, target c r a /\ Permutation (map p_name (path_params p)) (map p_name (a_route_params a)) /\
    (r_is_redirect r = false -> a = snd (action_of p q r)).
Proof.
  intros Hx Hin. destruct (r_is_redirect r) eqn:Er.
  - pose proof (mo_resource _ Hm _ _ _ _ (one_emitted _ _ _ _ Ho Hx) Hin) as (_ & _ & H).
    destruct (H Er) as (a & Ha & P1 & _). exists a. split; auto. split; auto. discriminate.
  - destruct (own_fits c p q x r Hx Hin Er) as (Ha & P1 & _). eexists. split; [exact Ha|]. split; auto.
Qed.
Lemma parsed_type pre q1 y d child post q2 x r a d' :
  block_at (c_routes c) pre q1 y -> In (Dynamic d, child) (rt_routes y) ->
  block_at child post q2 x -> In r (rt_resources x) -> target c r a -> In d' (a_route_params a) ->
  p_name d' = p_name d -> p_typ d' = parsed_as c d child.
Proof.
  intros Hy Hin Hx Hrs Ha Hd' En.
  assert (Hch : every_block one_dynamic child).
  { intros p0 q0 z Hz. eapply Ho. eapply block_app; eauto. }
  assert (H1 : one_dynamic y) by (eapply Ho; eauto).
  destruct (mo_param _ Hm _ _ _ _ _ (one_emitted _ _ _ _ Ho Hy) (one_first _ _ _ H1 Hin)) as (_ & _ & _ & _ & T & _ & HT).
  assert (HT' : forall p q x r a d', block_at child p q x -> In r (rt_resources x) -> target c r a ->
     In d' (a_route_params a) -> p_name d' = p_name d -> p_typ d' = T).
  { intros p0 q0 z r0 a0 d0 Hz. apply (HT p0 q0 z). apply one_emitted; assumption. }
  rewrite (HT' _ _ _ _ _ _ Hx Hrs Ha Hd' En). clear Hx Hrs Ha Hd' En HT.
  (* the parameter occurs in the target of every resource below *)
  assert (Hall : forall p q x r, block_at child p q x -> In r (rt_resources x) ->
     exists a, target c r a /\ In (p_name d) (map p_name (a_route_params a)) /\
               (r_is_redirect r = false -> In d (a_route_params a))).
  { intros p q z r0 Hz Hr0. destruct (fits_resource _ _ _ _ (block_app _ _ _ _ Hy _ _ _ _ _ Hin Hz) Hr0) as (a0 & Ha0 & P & Own).
    exists a0. split; [exact Ha0|]. split.
    - apply (Permutation_in _ P). rewrite path_params_app, map_app. apply in_app_iff. right. left. reflexivity.
    - intros E. rewrite (Own E). cbn [action_of snd a_route_params]. rewrite path_params_app. apply in_app_iff.
      right. left. reflexivity. }
  unfold parsed_as. destruct (resources_below child) as [|r1 l] eqn:El.
  - exfalso. destruct (mo_param _ Hm _ _ _ _ _ (one_emitted _ _ _ _ Ho Hy) (one_first _ _ _ H1 Hin))
      as (_ & _ & _ & (p0 & q0 & z & r0 & Hz & Hr0) & _).
    assert (H : In r0 (resources_below child)).
    { apply resources_below_In. exists p0, q0, z. split; auto. apply emitted_block. exact Hz. }
    rewrite El in H. destruct H.
  - destruct (forallb r_is_redirect (r1 :: l)) eqn:Ef.
    + assert (H : In r1 (resources_below child)) by (rewrite El; left; reflexivity).
      apply resources_below_In in H. destruct H as (p0 & q0 & z & Hz & Hr1).
      destruct (Hall _ _ _ _ Hz Hr1) as (a1 & Ha1 & Hn & _). pose proof Ha1 as (ms & Hin1 & E1 & E2 & E3).
      unfold struct_type.
      destruct (find (builds r1) (config_actions (c_routes c))) as [[ms2 a2]|] eqn:Efd.
      * apply find_some in Efd. destruct Efd as [Hin2 Hb2].
        assert (Ha2 : target c r1 a2).
        { exists ms2. split; [exact Hin2|]. apply (builds_target c) in Hb2; auto. }
        rewrite (target_unique c root Hr Hok _ _ _ Ha2 Ha1).
        destruct (find (fun p => str_eqb (p_name p) (p_name d)) (a_route_params a1)) as [d2|] eqn:Ed; cbn [option_map].
        -- apply find_some in Ed. destruct Ed as [Hd2 En2]. apply str_eqb_eq in En2. symmetry.
           exact (HT' _ _ _ _ _ _ Hz Hr1 Ha1 Hd2 En2).
        -- exfalso. apply in_map_iff in Hn. destruct Hn as (d3 & En3 & Hd3).
           pose proof (find_none _ _ Ed _ Hd3) as H. cbv beta in H. rewrite En3, str_eqb_refl in H. discriminate.
      * exfalso. pose proof (find_none _ _ Efd _ Hin1) as H. apply not_true_iff_false in H. apply H.
        apply (builds_target c); auto.
    + apply not_true_iff_false in Ef. rewrite forallb_forall in Ef.
      assert (Hex : exists r0, In r0 (r1 :: l) /\ r_is_redirect r0 = false).
      { destruct (existsb (fun r0 => negb (r_is_redirect r0)) (r1 :: l)) eqn:Ex.
        - apply existsb_exists in Ex. destruct Ex as (r0 & H0 & E0). exists r0. split; auto.
          apply negb_true_iff. exact E0.
        - exfalso. apply Ef. intros r0 H0. destruct (r_is_redirect r0) eqn:E0; [reflexivity|].
          rewrite <- Ex. apply existsb_exists. exists r0. rewrite E0. auto. }
      destruct Hex as (r0 & H0 & E0). rewrite <- El in H0. apply resources_below_In in H0.
      destruct H0 as (p0 & q0 & z & Hz & Hr0). destruct (Hall _ _ _ _ Hz Hr0) as (a0 & Ha0 & _ & Own).
      symmetry. exact (HT' _ _ _ _ _ _ Hz Hr0 Ha0 (Own E0) eq_refl).
Qed.
Lemma actions_inferred : config_actions (c_routes (inferred c)) = config_actions (c_routes c).
Proof. apply actions_retype. intros d child. apply parsed_own. Qed.
Lemma inferred_typed : redirects_typed (inferred c).
Proof.
  intros path q b' r p mods a p' Hb Hrs Hred Hp Ha E1 E2 E3 Hp' En.
  rewrite actions_inferred in Ha. apply blocks_at in Hb. apply block_retype in Hb.
  destruct Hb as (p0 & x & Hx & ->). rewrite retype_resources in Hrs.
  destruct (retyped_param _ _ _ _ _ _ _ Hx Hp) as (pre & q1 & y & d & child & post & q2 & Hy & Hin & Hxc & Ep & Eq & ->).
  cbn [p_name p_typ] in *. assert (Hta : target c r a) by (exists mods; repeat split; assumption).
  destruct (fits_resource _ _ _ _ (retyped_at _ _ _ _ _ _ Hx) Hrs) as (a' & Ha' & P & _).
  rewrite (target_unique c root Hr Hok _ _ _ Ha' Hta) in P. clear a' Ha'.
  eapply parsed_type; eauto. apply in_app_iff in Hp'. destruct Hp' as [Hp'|Hp']; [exact Hp'|]. exfalso.
  pose proof (target_nodup c root Hr Hok _ _ Hta) as Hn. unfold fields in Hn. apply NoDup_app_iff in Hn.
  destruct Hn as (_ & _ & Hn). apply (Hn (p_name d)).
  - apply (Permutation_in _ P). rewrite Ep, path_params_app, map_app. apply in_app_iff. right. left. reflexivity.
  - rewrite <- En. apply in_map. exact Hp'.
Qed.
End Infer.

Lemma inferred_separate c : separate c -> separate (inferred c).
Proof.
  intros H path q b p Hb Hp. apply blocks_at in Hb. apply block_retype in Hb. destruct Hb as (p0 & x & Hx & ->).
  destruct (retyped_param _ _ _ _ _ _ _ Hx Hp) as (pre & q1 & y & d & child & post & q2 & Hy & Hin & Hxc & Ep & Eq & ->).
  cbn [p_name]. apply (H p0 q x d).
  - apply blocks_at. eapply retyped_at. exact Hx.
  - rewrite Ep, path_params_app. apply in_app_iff. right. left. reflexivity.
Qed.
Lemma separate_hygienic c : separate c -> hygienic c.
Proof.
  intros H path q b p Hb Hp _ Hin. apply (H _ _ _ _ Hb Hp). unfold position_names in Hin. unfold matcher_names.
  cbn [In] in *. tauto.
Qed.
Lemma param_somewhere b p q x d : block_at b p q x -> In d (path_params p) ->
  exists p' q' y, block_at b p' q' y /\ In (p_typ d) (block_texts y).
Proof.
  intros Hx Hd. destruct (at_retyped (fun d _ => p_typ d) _ _ _ _ Hx) as [p' Hp'].
  assert (Hd' : In d (path_params p')).
  { clear Hx. induction Hp' as [|b [s|e] child p q x p' Hin Hr IH]; auto. cbn [retype_seg path_params] in *.
    destruct Hd as [->|Hd]; [left; destruct d; reflexivity|right; auto]. }
  destruct (retyped_param _ _ _ _ _ _ _ Hp' Hd') as (pre & q1 & y & e & child & post & q2 & Hy & Hin & _ & _ & _ & E).
  exists pre, q1, y. split; [exact Hy|]. unfold block_texts. apply in_app_iff. right. apply in_app_iff. right.
  apply in_flat_map. exists (Dynamic e, child). split; [exact Hin|]. rewrite E. right. left. reflexivity.
Qed.
Lemma action_block b ms a : In (ms, a) (config_actions b) ->
  exists p q x, block_at b p q x /\ a_route_params a = path_params p.
Proof.
  unfold config_actions. intros H. apply in_concat in H. destruct H as (l & Hl & H). apply in_map_iff in Hl.
  destruct Hl as ([[p q] x] & <- & Hb). unfold block_actions in H. apply in_map_iff in H.
  destruct H as (r & E & _). unfold action_of in E. injection E as _ <-. exists p, q, x. apply blocks_at in Hb. auto.
Qed.
Lemma inferred_returns c : no_returns c -> no_returns (inferred c).
Proof.
  intros H p q x' s Hx Hs. apply block_retype in Hx. destruct Hx as (p0 & x & Hx & ->).
  apply retyped_at in Hx. unfold block_texts in Hs. rewrite retype_query, retype_resources in Hs.
  rewrite !in_app_iff in Hs. destruct Hs as [Hs|[Hs|Hs]].
  1, 2: apply (H p0 q x s Hx); unfold block_texts; rewrite !in_app_iff; auto.
  apply in_flat_map in Hs. destruct Hs as ([seg' child'] & Hc & Hs). apply retype_child in Hc.
  destruct Hc as (seg & child & Hc & -> & ->). cbn [fst] in Hs.
  assert (Hseg : forall s, In s (segment_texts seg) -> ~ In c_cr s).
  { intros s0 Hs0. apply (H p0 q x s0 Hx). unfold block_texts. rewrite !in_app_iff. right. right.
    apply in_flat_map. exists (seg, child). auto. }
  destruct seg as [t|d]; [apply Hseg; exact Hs|]. cbn [retype_seg segment_texts param_texts p_name p_typ In] in Hs.
  destruct Hs as [<-|[<-|[]]]; [apply Hseg; left; reflexivity|].
  assert (Hown : ~ In c_cr (p_typ d)) by (apply Hseg; right; left; reflexivity).
  unfold parsed_as. destruct (resources_below child) as [|r l]; [exact Hown|].
  destruct (forallb r_is_redirect (r :: l)); [|exact Hown]. unfold struct_type.
  destruct (find (builds r) (config_actions (c_routes c))) as [[ms a]|] eqn:E; [|exact Hown].
  apply find_some in E. destruct E as [Ha _]. destruct (action_block _ _ _ Ha) as (p1 & q1 & y & Hy & ->).
  destruct (find _ (path_params p1)) as [d'|] eqn:Ed; cbn [option_map]; [|exact Hown].
  apply find_some in Ed. destruct Ed as [Hd' _].
  destruct (param_somewhere _ _ _ _ _ Hy Hd') as (p2 & q2 & z & Hz & Ht). exact (H _ _ _ _ Hz Ht).
Qed.

Theorem inferred_program c : gen_program (inferred c) = gen_program c.
Proof. apply gen_program_erase. apply flattened_retype. Qed.
Lemma inferred_compiles c : compiles c = true -> compiles (inferred c) = true.
Proof.
  unfold compiles. rewrite inferred_program. destruct (modules_actions _ _ (actions_inferred c)) as [->|[_ H]].
  2: { destruct (flattened_modules (c_routes c)) as [r| | |]; [destruct (H r eq_refl)|discriminate..]. }
  destruct (flattened_modules (c_routes c)) as [root| | |]; try discriminate.
  destruct (gen_program c) as [body| | |]; try discriminate.
  rewrite !andb_true_iff, !doc_ok_iff. intros [[H1 H2] H3]. split; [|exact H3]. split; [exact H1|].
  apply inferred_returns. exact H2.
Qed.
Theorem match_route_inferred {T E} (rt : runtime T E) c path method :
  compiles c = true -> separate c -> every_block one_dynamic (c_routes c) ->
  match_route rt c path method = Some (tree_match (rt_parse rt) method (inferred c) path).
Proof.
  intros Hc Hs Ho.
  assert (Hm : matcher_ok c) by (apply (compiles_exactly c Hs) in Hc; tauto).
  assert (Em : match_route rt c path method = match_route rt (inferred c) path method).
  { unfold match_route. rewrite (inferred_compiles c Hc), Hc, inferred_program.
    unfold compiles in Hc. destruct (modules_actions _ _ (actions_inferred c)) as [->|[_ H]]; [reflexivity|].
    destruct (flattened_modules (c_routes c)) as [r| | |]; [destruct (H r eq_refl)|discriminate..]. }
  rewrite Em. apply match_route_tree.
  - apply inferred_compiles. exact Hc.
  - apply separate_hygienic, inferred_separate. exact Hs.
  - unfold compiles in Hc. destruct (flattened_modules (c_routes c)) as [root| | |] eqn:Hr; try discriminate.
    destruct (gen_program c) as [body| | |]; try discriminate. rewrite !andb_true_iff in Hc.
    eapply inferred_typed; eauto. apply Hc.
Qed.

(** ** Nothing changes exactly if redirects agree with their targets *)
Lemma retype_same f : forall b,
  (forall p q y d child, block_at b p q y -> In (Dynamic d, child) (rt_routes y) -> f d child = p_typ d) ->
  retype f b = b.
Proof.
  induction b as [rs ch qs IH] using Routes_ind'. rewrite Forall_forall in IH. intros H.
  rewrite retype_eq. cbn [rt_resources rt_routes rt_query]. f_equal.
  transitivity (map (fun x => x) ch); [|apply map_id]. apply map_ext_in. intros [seg child] Hin. cbn [fst snd]. f_equal.
  - destruct seg as [s|d]; [reflexivity|]. cbn [retype_seg].
    rewrite (H _ _ _ d child (block_root (mkRoutes rs ch qs)) Hin). destruct d; reflexivity.
  - apply (IH _ Hin). intros p q y d c' Hy. apply (H (seg :: p) (qs ++ q) y d c').
    apply (block_step (mkRoutes rs ch qs) seg child); assumption.
Qed.
Theorem inferred_same c : redirects_typed c -> inferred c = c.
Proof.
  intros Hred. destruct c as [h b]. unfold inferred. cbn [c_headers c_routes]. f_equal. apply retype_same.
  intros p q y d child Hy Hin. unfold parsed_as. destruct (resources_below child) as [|r l] eqn:El; [reflexivity|].
  destruct (forallb r_is_redirect (r :: l)) eqn:Ef; [|reflexivity]. unfold struct_type.
  destruct (find (builds r) (config_actions (c_routes (mkConfig h b)))) as [[ms a]|] eqn:E; [|reflexivity].
  apply find_some in E. destruct E as [Ha Hb].
  destruct (find _ (a_route_params a)) as [d'|] eqn:Ed; cbn [option_map]; [|reflexivity].
  apply find_some in Ed. destruct Ed as [Hd' En]. apply str_eqb_eq in En.
  assert (H : In r (resources_below child)) by (rewrite El; left; reflexivity).
  apply resources_below_In in H. destruct H as (p0 & q0 & x & Hx & Hr).
  pose proof (block_app _ _ _ _ Hy _ _ _ _ _ Hin Hx) as Hblk. apply blocks_at in Hblk.
  apply (builds_target (mkConfig h b)) in Hb; [|exact Ha]. destruct Hb as (E1 & E2 & E3).
  apply (Hred _ _ _ r d ms a d' Hblk); auto.
  - rewrite forallb_forall in Ef. apply Ef. left. reflexivity.
  - rewrite path_params_app. apply in_app_iff. right. left. reflexivity.
  - apply in_app_iff. auto.
Qed.
Theorem inferred_exactly c : compiles c = true -> separate c -> every_block one_dynamic (c_routes c) ->
  (inferred c = c <-> redirects_typed c).
Proof.
  intros Hc Hs Ho. split; [|apply inferred_same]. intros <-.
  assert (Hm : matcher_ok c) by (apply (compiles_exactly c Hs) in Hc; tauto).
  unfold compiles in Hc. destruct (flattened_modules (c_routes c)) as [root| | |] eqn:Hr; try discriminate.
  destruct (gen_program c) as [body| | |]; try discriminate. rewrite !andb_true_iff in Hc.
  eapply inferred_typed; eauto. apply Hc.
Qed.
Lemma parsed_own_resource c d child p q x r :
  block_at child p q x -> In r (rt_resources x) -> r_is_redirect r = false -> parsed_as c d child = p_typ d.
Proof.
  intros Hx Hr Er. apply parsed_own. apply blocks_at in Hx. pose proof (in_config_actions _ _ _ _ _ Hx Hr Er) as H.
  intros E. rewrite E in H. destruct H.
Qed.
