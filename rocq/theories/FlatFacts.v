(** * FlatFacts: the flattened route table and the module tree *)
From Coq Require Import Sorted Permutation.
From Verif Require Import Base Core Trie Flat Spec BaseFacts TrieFacts NodeFacts.

(** ** The route table *)
Lemma path_params_dynamics p : path_params p = dynamics p.
Proof. reflexivity. Qed.

Definition entry_route (e : list PathSegment * list Param * Routes) : FlattenedRoute :=
  let '(p, q, b) := e in mkFlat p (rt_resources b) q.
Lemma flatten_blocks : forall b path q,
  flatten b path q =
  map (fun e : list PathSegment * list Param * Routes =>
         let '(p, q', x) := e in mkFlat (path ++ p) (rt_resources x) (q ++ q')) (blocks b).
Proof.
  induction b as [rs ch qs IH] using Routes_ind'. intros path q.
  simpl. rewrite app_nil_r. f_equal. rewrite concat_map, map_map. f_equal.
  apply map_ext_in. intros [seg child] Hin. rewrite map_map.
  rewrite Forall_forall in IH. rewrite (IH _ Hin). simpl. apply map_ext. intros [[p q'] x].
  rewrite <- !app_assoc. reflexivity.
Qed.
Lemma flattened_routes_blocks b : flattened_routes b = map entry_route (blocks b).
Proof.
  unfold flattened_routes. rewrite flatten_blocks. apply map_ext. intros [[p q] x]. reflexivity.
Qed.

(** ** Collecting the actions *)
Notation entry := (list str * FlattenedAction)%type (only parsing).
Definition entry_key (e : entry) : list str * str := (fst e, a_name (snd e)).
Fixpoint hactions (m : HModule) : list entry :=
  match m with
  | mkHModule ms acts =>
      map (fun ka : str * FlattenedAction => ([], snd ka)) acts
      ++ concat (map (fun ks => match ks with (k, s) => map (pre k) (hactions s) end) ms)
  end.
Inductive hm_ok : HModule -> Prop :=
| hm_ok_intro ms acts :
    NoDup (map fst acts) -> NoDup (map fst ms) ->
    (forall k a, In (k, a) acts -> a_name a = k) ->
    (forall k s, In (k, s) ms -> hm_ok s) ->
    (forall k s, In (k, s) ms -> hactions s <> []) ->
    hm_ok (mkHModule ms acts).

Lemma assoc_get_Some {A} k (l : list (str * A)) a :
  assoc_get k l = Some a ->
  exists l1 l2, l = l1 ++ (k, a) :: l2 /\
    forall a', assoc_set k a' l = l1 ++ (k, a') :: l2.
Proof.
  induction l as [|[k0 a0] l IH]; simpl; [discriminate|].
  destruct (str_eqb_spec k0 k) as [->|Hn].
  - intros [= ->]. exists [], l. auto.
  - intros H. destruct (IH H) as (l1 & l2 & -> & Hs). exists ((k0, a0) :: l1), l2.
    split; auto. intros a'. rewrite Hs. reflexivity.
Qed.
Lemma assoc_get_None {A} k (l : list (str * A)) :
  assoc_get k l = None -> ~ In k (map fst l) /\ forall a', assoc_set k a' l = l ++ [(k, a')].
Proof.
  induction l as [|[k0 a0] l IH]; simpl; auto.
  destruct (str_eqb_spec k0 k) as [->|Hn]; [discriminate|].
  intros H. destruct (IH H) as [H1 H2]. split; [tauto|]. intros a'. rewrite H2. reflexivity.
Qed.
Lemma assoc_get_In {A} k (l : list (str * A)) a : assoc_get k l = Some a -> In (k, a) l.
Proof.
  intros H. destruct (assoc_get_Some _ _ _ H) as (l1 & l2 & -> & _). apply in_elt.
Qed.

Lemma hactions_eq ms acts :
  hactions (mkHModule ms acts) =
  map (fun ka : str * FlattenedAction => ([], snd ka)) acts
  ++ concat (map (fun ks : str * HModule => map (pre (fst ks)) (hactions (snd ks))) ms).
Proof. simpl. f_equal. f_equal. apply map_ext. intros []. reflexivity. Qed.

Lemma in_hactions_nil ms acts a :
  In ([], a) (hactions (mkHModule ms acts)) <-> exists k, In (k, a) acts.
Proof.
  rewrite hactions_eq, in_app_iff, in_map_iff. split.
  - intros [([k b] & [= <-] & H)|H]; [eauto|].
    apply in_concat in H. destruct H as (l & H1 & H2). apply in_map_iff in H1.
    destruct H1 as ([k s] & <- & _). apply in_map_iff in H2. destruct H2 as (? & ? & _). discriminate.
  - intros [k H]. left. exists (k, a). auto.
Qed.
Lemma in_hactions_cons ms acts k p a :
  In (k :: p, a) (hactions (mkHModule ms acts)) <-> exists s, In (k, s) ms /\ In (p, a) (hactions s).
Proof.
  rewrite hactions_eq, in_app_iff, in_map_iff. split.
  - intros [([k' b] & ? & _)|H]; [discriminate|].
    apply in_concat in H. destruct H as (l & H1 & H2). apply in_map_iff in H1.
    destruct H1 as ([k' s] & <- & H1). apply in_map_iff in H2. destruct H2 as ([p' a'] & E & H2).
    unfold pre in E. simpl in E. injection E as <- <- <-. eauto.
  - intros (s & H1 & H2). right. apply in_concat. exists (map (pre k) (hactions s)). split.
    + apply in_map_iff. exists (k, s). auto.
    + apply in_map_iff. exists (p, a). auto.
Qed.
Lemma in_keys (l : list entry) p n :
  In (p, n) (map entry_key l) <-> exists a, In (p, a) l /\ a_name a = n.
Proof.
  rewrite in_map_iff. split.
  - intros ([p' a] & E & H). unfold entry_key in E. simpl in E. injection E as <- <-. eauto.
  - intros (a & H & <-). exists (p, a). auto.
Qed.
Lemma NoDup_app_inv {A} (l1 l2 : list A) :
  NoDup (l1 ++ l2) -> NoDup l1 /\ NoDup l2 /\ forall x, In x l1 -> ~ In x l2.
Proof.
  induction l1 as [|x l1 IH]; simpl; intros H; [split; [constructor|auto]|].
  inversion H as [|? ? H1 H2]; subst. destruct (IH H2) as (H3 & H4 & H5).
  rewrite in_app_iff in H1. split; [constructor; tauto|]. split; auto.
  intros y [<-|Hy] Hin; [tauto|]. eapply H5; eauto.
Qed.

Lemma hmodule_insert_ok mods : forall m name a m' dup,
  hm_ok m -> a_name a = name -> hmodule_insert m mods name a = (m', dup) ->
  (dup = true <-> In (mods, name) (map entry_key (hactions m))) /\
  (dup = false -> hm_ok m' /\ Permutation (hactions m') ((mods, a) :: hactions m)).
Proof.
  induction mods as [|md mods IH]; intros m name a m' dup Hok Hname;
    destruct Hok as [ms acts H1 H2 H3 H4 H5]; simpl hmodule_insert.
  - intros [= <- <-]. rewrite in_keys. cbn [hm_actions hm_modules].
    destruct (assoc_get name acts) as [a0|] eqn:Eg.
    + split; [|discriminate]. split; auto. intros _. apply assoc_get_In in Eg.
      exists a0. rewrite in_hactions_nil. split; [eauto|]. eapply H3; eauto.
    + destruct (assoc_get_None _ _ Eg) as [Hn Hs]. rewrite Hs. split.
      * split; [discriminate|]. intros (b & Hb & Hbn). rewrite in_hactions_nil in Hb.
        destruct Hb as [k Hb]. exfalso. apply Hn. rewrite <- Hbn, (H3 _ _ Hb).
        apply (in_map fst) in Hb. exact Hb.
      * intros _. split.
        -- constructor; auto.
           ++ rewrite map_app. simpl. apply (Permutation_NoDup (l := name :: map fst acts)).
              { apply Permutation_cons_append. }
              constructor; auto.
           ++ intros k b Hin. apply in_app_iff in Hin. destruct Hin as [Hin|[[= <- <-]|[]]]; auto.
        -- rewrite !hactions_eq, map_app, <- app_assoc. simpl.
           symmetry. apply Permutation_middle.
  - cbn [hm_actions hm_modules].
    set (sub := match assoc_get md ms with Some s => s | None => hmodule_default end).
    assert (Hsub : hm_ok sub).
    { unfold sub. destruct (assoc_get md ms) eqn:E; [apply assoc_get_In in E; eauto|].
      constructor; simpl; try constructor; intros; contradiction. }
    destruct (hmodule_insert sub mods name a) as [sub' dup'] eqn:Ei. intros [= <- <-].
    destruct (IH _ _ _ _ _ Hsub Hname Ei) as [IH1 IH2].
    assert (Hin : In (mods, name) (map entry_key (hactions sub)) <->
                  In (md :: mods, name) (map entry_key (hactions (mkHModule ms acts)))).
    { rewrite !in_keys. split.
      - intros (b & Hb & Hbn). exists b. split; auto. rewrite in_hactions_cons.
        unfold sub in *. destruct (assoc_get md ms) as [s|] eqn:E; [|destruct Hb].
        exists s. split; auto. apply assoc_get_In; auto.
      - intros (b & Hb & Hbn). exists b. split; auto. rewrite in_hactions_cons in Hb.
        destruct Hb as (s & Hs & Hb). unfold sub.
        destruct (assoc_get md ms) as [s'|] eqn:E.
        + destruct (assoc_get_Some _ _ _ E) as (l1 & l2 & -> & _).
          apply in_elt_inv in Hs. destruct Hs as [[= <-]|Hs]; auto.
          exfalso. rewrite map_app in H2. simpl in H2. apply NoDup_remove_2 in H2.
          apply H2. rewrite <- map_app. apply (in_map fst) in Hs. exact Hs.
        + apply assoc_get_None in E. exfalso. apply (proj1 E). apply (in_map fst) in Hs. exact Hs. }
    split; [tauto|]. intros Hd. destruct (IH2 Hd) as [Hok' Hperm].
    assert (Hne : hactions sub' <> []).
    { intros E0. rewrite E0 in Hperm. apply Permutation_nil in Hperm. discriminate. }
    unfold sub in *. clear sub. destruct (assoc_get md ms) as [s|] eqn:E.
    + destruct (assoc_get_Some _ _ _ E) as (l1 & l2 & -> & Hs). rewrite Hs. split.
      * constructor; auto.
        -- rewrite map_app in *. exact H2.
        -- intros k s' Hk. apply in_elt_inv in Hk. destruct Hk as [[= <- <-]|Hk]; auto.
           eapply H4. apply in_app_iff in Hk. apply in_app_iff. simpl. tauto || (destruct Hk; eauto).
        -- intros k s' Hk. apply in_elt_inv in Hk. destruct Hk as [[= <- <-]|Hk]; auto.
           eapply H5. apply in_app_iff in Hk. apply in_app_iff. simpl. tauto || (destruct Hk; eauto).
      * rewrite !hactions_eq, !map_app, !concat_app. cbn [map concat fst snd].
        rewrite (Permutation_map (pre md) Hperm). cbn [map app].
        change (pre md (mods, a)) with ((md :: mods, a) : entry).
        rewrite !app_assoc. rewrite <- Permutation_middle. rewrite !app_assoc. reflexivity.
    + destruct (assoc_get_None _ _ E) as [Hn Hs]. rewrite Hs. split.
      * constructor; auto.
        -- rewrite map_app. simpl. apply (Permutation_NoDup (l := md :: map fst ms)).
           { apply Permutation_cons_append. } constructor; auto.
        -- intros k s' Hk. apply in_app_iff in Hk. destruct Hk as [Hk|[[= <- <-]|[]]]; eauto.
        -- intros k s' Hk. apply in_app_iff in Hk. destruct Hk as [Hk|[[= <- <-]|[]]]; eauto.
      * rewrite !hactions_eq, !map_app, !concat_app. cbn [map concat fst snd].
        rewrite (Permutation_map (pre md) Hperm). simpl.
        change (pre md (mods, a)) with ((md :: mods, a) : entry).
        rewrite app_assoc. symmetry. apply Permutation_cons_append.
Qed.

(** The loop inserts a list of entries, one after the other. *)
Fixpoint insert_all (m : HModule) (l : list entry) : res HModule :=
  match l with
  | [] => ROk m
  | (mods, a) :: l' =>
      let '(m', dup) := hmodule_insert m mods (a_name a) a in
      if dup then match mods with [] => RPanic PanicUnwrapNone | _ => RPanic PanicDuplicateAction end
      else insert_all m' l'
  end.
Lemma insert_all_app m l1 l2 : insert_all m (l1 ++ l2) = rbind (insert_all m l1) (fun m' => insert_all m' l2).
Proof.
  revert m. induction l1 as [|[mods a] l1 IH]; intros m; simpl; auto.
  destruct (hmodule_insert m mods (a_name a) a) as [m' [|]]; auto. destruct mods; reflexivity.
Qed.
Lemma insert_resources_all path query rs : forall m,
  insert_resources m path query rs =
  insert_all m (map (action_of path query) (filter (fun r => negb (r_is_redirect r)) rs)).
Proof.
  induction rs as [|r rs IH]; intros m; simpl; auto.
  destruct (r_is_redirect r); simpl; auto.
  destruct (hmodule_insert m (r_modules r) (r_name r) _) as [m' [|]]; auto.
Qed.

Definition item_actions (it : Routes * FlattenedPath * list Param) : list entry :=
  let '(b, path, q) := it in
  concat (map (fun e : list PathSegment * list Param * Routes =>
                 let '(p, q', x) := e in block_actions (path ++ p, q ++ q', x)) (blocks b)).
Definition item_size (it : Routes * FlattenedPath * list Param) : nat :=
  let '(b, _, _) := it in routes_size b.
Definition sum (l : list nat) : nat := fold_right Nat.add 0 l.
Lemma sum_cons x l : sum (x :: l) = x + sum l.
Proof. reflexivity. Qed.
Lemma sum_app a b : sum (a ++ b) = sum a + sum b.
Proof. induction a; simpl; auto. rewrite IHa. lia. Qed.
Lemma sum_perm a b : Permutation a b -> sum a = sum b.
Proof. induction 1; simpl; lia. Qed.

Definition pushed (b : Routes) (path : FlattenedPath) (q : list Param) :=
  map (fun nr : PathSegment * Routes => let '(seg, child) := nr in (child, path ++ [seg], q ++ rt_query b))
      (rt_routes b).
Lemma item_actions_eq b path q :
  item_actions (b, path, q) =
  block_actions (path, q ++ rt_query b, b) ++ concat (map item_actions (pushed b path q)).
Proof.
  destruct b as [rs ch qs]. unfold pushed. cbn [rt_query rt_routes].
  unfold item_actions at 1. cbn [blocks map concat]. rewrite app_nil_r. f_equal.
  rewrite concat_map, map_map, map_map.
  induction ch as [|[seg child] ch IH]; auto. cbn [map concat]. rewrite concat_app. f_equal.
  - unfold item_actions. rewrite map_map. f_equal. apply map_ext. intros [[p q'] x].
    rewrite <- !app_assoc. reflexivity.
  - exact IH.
Qed.
Lemma item_size_eq b path q : item_size (b, path, q) = S (sum (map item_size (pushed b path q))).
Proof.
  destruct b as [rs ch qs]. unfold pushed. simpl. f_equal. rewrite map_map. unfold sum. f_equal.
  apply map_ext. intros [seg child]. reflexivity.
Qed.

Lemma modules_loop_all fuel : forall stack m,
  sum (map item_size stack) <= fuel ->
  exists order, Permutation order (concat (map item_actions stack)) /\
    modules_loop fuel m stack = insert_all m order.
Proof.
  induction fuel as [|fuel IH]; intros stack m Hf.
  - destruct stack as [|[[b path] q] stack].
    + exists []. split; auto.
    + exfalso. cbn [map] in Hf. rewrite item_size_eq in Hf. simpl in Hf. lia.
  - destruct stack as [|[[b path] q] stack].
    + exists []. split; auto.
    + cbn [map] in Hf. rewrite item_size_eq, sum_cons in Hf.
      cbn [modules_loop]. rewrite insert_resources_all.
      assert (Hp : Permutation (rev (pushed b path q) ++ stack) (pushed b path q ++ stack)).
      { apply Permutation_app_tail. symmetry. apply Permutation_rev. }
      assert (Hf' : sum (map item_size (rev (pushed b path q) ++ stack)) <= fuel).
      { rewrite (sum_perm _ _ (Permutation_map item_size Hp)), map_app, sum_app. lia. }
      destruct (insert_all m (map (action_of path (q ++ rt_query b))
                  (filter (fun r => negb (r_is_redirect r)) (rt_resources b)))) as [m1| |pk|] eqn:Ei.
      * destruct (IH _ m1 Hf') as (order & Ho & Hl).
        exists (block_actions (path, q ++ rt_query b, b) ++ order). split.
        -- cbn [map concat]. rewrite item_actions_eq, <- app_assoc. apply Permutation_app_head.
           rewrite Ho. rewrite <- concat_app, <- map_app.
           rewrite <- !flat_map_concat_map. apply Permutation_flat_map. exact Hp.
        -- rewrite insert_all_app. unfold block_actions at 1. rewrite Ei. simpl. exact Hl.
      * destruct (IH (rev (pushed b path q) ++ stack) m Hf') as (order & Ho & Hl).
        exists (block_actions (path, q ++ rt_query b, b) ++ order). split.
        -- cbn [map concat]. rewrite item_actions_eq, <- app_assoc. apply Permutation_app_head.
           rewrite Ho. rewrite <- concat_app, <- map_app.
           rewrite <- !flat_map_concat_map. apply Permutation_flat_map. exact Hp.
        -- rewrite insert_all_app. unfold block_actions at 1. rewrite Ei. reflexivity.
      * destruct (IH (rev (pushed b path q) ++ stack) m Hf') as (order & Ho & Hl).
        exists (block_actions (path, q ++ rt_query b, b) ++ order). split.
        -- cbn [map concat]. rewrite item_actions_eq, <- app_assoc. apply Permutation_app_head.
           rewrite Ho. rewrite <- concat_app, <- map_app.
           rewrite <- !flat_map_concat_map. apply Permutation_flat_map. exact Hp.
        -- rewrite insert_all_app. unfold block_actions at 1. rewrite Ei. reflexivity.
      * destruct (IH (rev (pushed b path q) ++ stack) m Hf') as (order & Ho & Hl).
        exists (block_actions (path, q ++ rt_query b, b) ++ order). split.
        -- cbn [map concat]. rewrite item_actions_eq, <- app_assoc. apply Permutation_app_head.
           rewrite Ho. rewrite <- concat_app, <- map_app.
           rewrite <- !flat_map_concat_map. apply Permutation_flat_map. exact Hp.
        -- rewrite insert_all_app. unfold block_actions at 1. rewrite Ei. reflexivity.
Qed.

Lemma insert_all_ok l : forall m, hm_ok m -> NoDup (map entry_key (hactions m)) ->
  match insert_all m l with
  | ROk m' => hm_ok m' /\ Permutation (hactions m') (l ++ hactions m) /\
              NoDup (map entry_key (l ++ hactions m))
  | RPanic p => (p = PanicUnwrapNone \/ p = PanicDuplicateAction) /\
                ~ NoDup (map entry_key (l ++ hactions m))
  | _ => False
  end.
Proof.
  induction l as [|[mods a] l IH]; intros m Hok Hn; simpl; [auto|].
  destruct (hmodule_insert m mods (a_name a) a) as [m' dup] eqn:Ei.
  destruct (hmodule_insert_ok _ _ _ _ _ _ Hok eq_refl Ei) as [H1 H2].
  destruct dup.
  - assert (Hd : ~ NoDup (entry_key (mods, a) :: map entry_key (l ++ hactions m))).
    { inversion 1 as [|? ? H3 _]; subst. apply H3. rewrite map_app. apply in_app_iff. right.
      apply H1. reflexivity. }
    destruct mods; auto.
  - destruct (H2 eq_refl) as [Hok' Hp].
    assert (Hp2 : Permutation (map entry_key (l ++ hactions m'))
                    (entry_key (mods, a) :: map entry_key (l ++ hactions m))).
    { rewrite <- (map_cons entry_key). apply Permutation_map.
      rewrite Hp. symmetry. apply Permutation_middle. }
    assert (Hn' : NoDup (map entry_key (hactions m'))).
    { eapply Permutation_NoDup; [symmetry; apply (Permutation_map entry_key); exact Hp|].
      simpl. constructor; auto. intros Hin. apply H1 in Hin. discriminate. }
    specialize (IH m' Hok' Hn').
    destruct (insert_all m' l) as [m2| |p|]; auto.
    + destruct IH as (I1 & I2 & I3). split; auto. split.
      * rewrite I2, Hp. symmetry. apply Permutation_middle.
      * eapply Permutation_NoDup; eauto.
    + destruct IH as [I1 I2]. split; auto. intros Hd. apply I2.
      eapply Permutation_NoDup; [symmetry; exact Hp2|exact Hd].
Qed.

Lemma item_actions_root b : item_actions (b, [], []) = config_actions b.
Proof.
  reflexivity.
Qed.
Lemma hm_default_ok : hm_ok hmodule_default.
Proof. constructor; simpl; try constructor; intros; contradiction. Qed.

Lemma modules_loop_root b :
  match modules_loop (routes_size b) hmodule_default [(b, [], [])] with
  | ROk m => hm_ok m /\ Permutation (hactions m) (config_actions b) /\
             NoDup (map entry_key (config_actions b))
  | RPanic p => (p = PanicUnwrapNone \/ p = PanicDuplicateAction) /\
                ~ NoDup (map entry_key (config_actions b))
  | _ => False
  end.
Proof.
  destruct (modules_loop_all (routes_size b) [(b, [], [])] hmodule_default) as (order & Hp & ->).
  { simpl. lia. }
  cbn [map concat] in Hp. rewrite app_nil_r, item_actions_root in Hp.
  pose proof (insert_all_ok order hmodule_default hm_default_ok ltac:(constructor)) as H.
  assert (Hn : NoDup (map entry_key (order ++ hactions hmodule_default)) <->
               NoDup (map entry_key (config_actions b))).
  { simpl. rewrite app_nil_r. split; apply Permutation_NoDup; apply Permutation_map; auto using Permutation_sym. }
  destruct (insert_all hmodule_default order) as [m| |p|]; auto.
  - destruct H as (H1 & H2 & H3). simpl in H2. rewrite app_nil_r in H2. split; auto. split; [|tauto].
    rewrite H2. exact Hp.
  - destruct H as [H1 H2]. split; tauto.
Qed.

(** ** Sorting *)
Section Sort.
Context {A : Type} (key : A -> str).
Notation key_lt := (key_lt key).
Notation key_le := (key_le key).
Lemma sort_insert_perm x l : Permutation (sort_insert key x l) (x :: l).
Proof.
  induction l as [|y l IH]; simpl; auto. destruct (str_compare (key x) (key y)); auto.
  rewrite IH. constructor.
Qed.
Lemma sort_perm l : Permutation (sort_by_key key l) l.
Proof.
  induction l as [|x l IH]; simpl; auto. rewrite sort_insert_perm. auto.
Qed.
Lemma key_le_trans x y z : key_le x y -> key_le y z -> key_le x z.
Proof.
  unfold Spec.key_le. intros H1 H2 H3.
  destruct (str_compare (key x) (key y)) eqn:E1; [| |congruence].
  - apply str_compare_eq in E1. rewrite E1 in H3. congruence.
  - destruct (str_compare (key y) (key z)) eqn:E2; [| |congruence].
    + apply str_compare_eq in E2. rewrite E2 in E1. congruence.
    + rewrite (str_compare_trans _ _ _ E1 E2) in H3. discriminate.
Qed.
Lemma sort_insert_sorted x l : StronglySorted key_le l -> StronglySorted key_le (sort_insert key x l).
Proof.
  induction 1 as [|y l Hs IH Hf]; simpl; [constructor; constructor|].
  destruct (str_compare (key x) (key y)) eqn:E.
  - constructor; [constructor; auto|]. constructor; [unfold Spec.key_le; congruence|].
    rewrite Forall_forall in *. intros z Hz. apply key_le_trans with y; [unfold Spec.key_le; congruence|auto].
  - constructor; [constructor; auto|]. constructor; [unfold Spec.key_le; congruence|].
    rewrite Forall_forall in *. intros z Hz. apply key_le_trans with y; [unfold Spec.key_le; congruence|auto].
  - constructor; auto. rewrite (sort_insert_perm x l). constructor; auto.
    unfold Spec.key_le. rewrite str_compare_sym, E. discriminate.
Qed.
Lemma sort_sorted l : StronglySorted key_le (sort_by_key key l).
Proof. induction l; simpl; [constructor|apply sort_insert_sorted; auto]. Qed.

(** Sorted lists without equal keys are determined by their elements. *)
Lemma sorted_unique l : forall l',
  NoDup (map key l) -> Permutation l l' ->
  StronglySorted key_le l -> StronglySorted key_le l' -> l = l'.
Proof.
  induction l as [|x l IH]; intros l' Hn Hp H1 H2.
  - apply Permutation_nil in Hp. auto.
  - destruct l' as [|y l']; [apply Permutation_sym, Permutation_nil in Hp; discriminate|].
    apply StronglySorted_inv in H1. destruct H1 as [H1 F1].
    apply StronglySorted_inv in H2. destruct H2 as [H2 F2].
    simpl in Hn. inversion Hn as [|? ? Hx Hn']; subst.
    assert (x = y).
    { assert (Hy : In y (x :: l)) by (eapply Permutation_in; [symmetry; exact Hp|left; reflexivity]).
      assert (Hx' : In x (y :: l')) by (eapply Permutation_in; [exact Hp|left; reflexivity]).
      destruct Hy as [Hy|Hy]; auto. destruct Hx' as [Hx'|Hx']; auto.
      rewrite Forall_forall in F1, F2. pose proof (F1 _ Hy) as L1. pose proof (F2 _ Hx') as L2.
      exfalso. apply Hx. unfold Spec.key_le in L1, L2. rewrite str_compare_sym in L2.
      destruct (str_compare (key x) (key y)) eqn:E; simpl in L2; try congruence.
      apply str_compare_eq in E. rewrite E. apply in_map. exact Hy. }
    subst y. f_equal. apply IH; auto. apply Permutation_cons_inv in Hp. exact Hp.
Qed.
Lemma sorted_strict l : NoDup (map key l) -> StronglySorted key_le l -> StronglySorted key_lt l.
Proof.
  intros Hn. induction 1 as [|x l Hs IH Hf]; constructor.
  - apply IH. simpl in Hn. inversion Hn; auto.
  - simpl in Hn. inversion Hn as [|? ? Hx _]; subst. rewrite Forall_forall in *. intros y Hy.
    specialize (Hf y Hy). unfold Spec.key_le, Spec.key_lt in *. destruct (str_compare (key x) (key y)) eqn:E; auto.
    + apply str_compare_eq in E. exfalso. apply Hx. rewrite E. apply in_map; auto.
    + congruence.
Qed.
End Sort.

(** ** Finalisation *)
Definition FM_ind' (P : FlattenedModule -> Prop)
    (H : forall name acts mods, (forall s, In s mods -> P s) -> P (mkModule name acts mods)) :
  forall m, P m :=
  fix go (m : FlattenedModule) : P m :=
    match m with
    | mkModule name acts mods =>
        H name acts mods
          ((fix all (l : list FlattenedModule) : forall s, In s l -> P s :=
              match l with
              | [] => fun s f => match f with end
              | x :: l' => fun s f =>
                  match f with
                  | or_introl e => match e in _ = y return P y with eq_refl => go x end
                  | or_intror g => all l' s g
                  end
              end) mods)
    end.
Lemma HM_size_ind (P : HModule -> Prop)
    (H : forall ms acts, (forall k s, In (k, s) ms -> P s) -> P (mkHModule ms acts)) :
  forall m, P m.
Proof.
  fix go 1. intros [ms acts]. apply H.
  assert (Hall : forall (l : list (str * HModule)) k s, In (k, s) l -> P s).
  { fix all 1. intros [|[k0 s0] l] k s Hin.
    - destruct Hin.
    - destruct Hin as [E|Hin]; [|exact (all l k s Hin)].
      assert (P s0) by apply go. injection E as _ <-. assumption. }
  exact (Hall ms).
Qed.

Lemma finalize_name m name : m_name (finalize m name) = name.
Proof. destruct m; reflexivity. Qed.
Lemma finalize_eq ms acts name :
  finalize (mkHModule ms acts) name =
  mkModule name (sort_by_key a_name (map snd acts))
    (sort_by_key m_name (map (fun kv : str * HModule => finalize (snd kv) (fst kv)) ms)).
Proof. simpl. f_equal. f_equal. apply map_ext. intros []. reflexivity. Qed.

Lemma finalize_ok : forall m name, hm_ok m ->
  tree_ok (finalize m name) /\ Permutation (module_actions (finalize m name)) (hactions m).
Proof.
  induction m as [ms acts IH] using HM_size_ind. intros name Hok.
  inversion Hok as [? ? H1 H2 H3 H4 H5]; subst. rewrite finalize_eq.
  assert (Hna : NoDup (map a_name (map snd acts))).
  { rewrite map_map. erewrite map_ext_in; [exact H1|]. intros [k a] Hin. simpl. eauto. }
  assert (Hnm : NoDup (map m_name (map (fun kv : str * HModule => finalize (snd kv) (fst kv)) ms))).
  { rewrite map_map. erewrite map_ext; [exact H2|]. intros [k a]. apply finalize_name. }
  assert (Hsub : forall s, In s (sort_by_key m_name
            (map (fun kv : str * HModule => finalize (snd kv) (fst kv)) ms)) ->
          exists k h, In (k, h) ms /\ s = finalize h k).
  { intros s Hs. eapply Permutation_in in Hs; [|apply sort_perm]. apply in_map_iff in Hs.
    destruct Hs as ([k h] & <- & Hin). eauto. }
  split.
  - constructor.
    + apply sorted_strict; [|apply sort_sorted].
      eapply Permutation_NoDup; [apply Permutation_map; symmetry; apply sort_perm|exact Hna].
    + apply sorted_strict; [|apply sort_sorted].
      eapply Permutation_NoDup; [apply Permutation_map; symmetry; apply sort_perm|exact Hnm].
    + intros s Hs. destruct (Hsub s Hs) as (k & h & Hin & ->). apply (IH k h Hin); eauto.
    + intros s Hs. destruct (Hsub s Hs) as (k & h & Hin & ->).
      intros E. destruct (IH k h Hin k (H4 _ _ Hin)) as [_ Hp]. rewrite E in Hp.
      apply Permutation_nil in Hp. eapply H5; eauto.
  - rewrite hactions_eq. cbn [module_actions]. apply Permutation_app.
    + rewrite <- (map_map snd (fun a => ([] : list str, a))). apply Permutation_map, sort_perm.
    + rewrite <- flat_map_concat_map.
      rewrite (Permutation_flat_map (fun s => map (pre (m_name s)) (module_actions s))
                 (sort_perm m_name _)).
      rewrite flat_map_concat_map, map_map.
      clear -IH H4. induction ms as [|[k h] ms IHms]; simpl; auto.
      apply Permutation_app.
      * rewrite finalize_name. apply Permutation_map. apply (IH k h (or_introl eq_refl)).
        eapply H4; left; reflexivity.
      * apply IHms.
        -- intros k0 h0 Hin0. apply (IH k0 h0). right; exact Hin0.
        -- intros k0 h0 Hin0. apply (H4 k0 h0). right; exact Hin0.
Qed.

Lemma flattened_modules_ok b :
  match flattened_modules b with
  | ROk root => m_name root = lit "routes" /\ tree_ok root /\
                Permutation (module_actions root) (config_actions b) /\
                NoDup (map entry_key (config_actions b))
  | RPanic p => (p = PanicUnwrapNone \/ p = PanicDuplicateAction) /\
                ~ NoDup (map entry_key (config_actions b))
  | _ => False
  end.
Proof.
  unfold flattened_modules. pose proof (modules_loop_root b) as H.
  destruct (modules_loop _ _ _) as [m| |p|]; unfold rbind; auto.
  destruct H as (H1 & H2 & H3). split; [apply finalize_name|].
  destruct (finalize_ok m (lit "routes") H1) as [H4 H5]. split; auto. split; auto.
  rewrite H5. exact H2.
Qed.

Lemma finalize_finalizes : forall m name, finalizes m name (finalize m name).
Proof.
  induction m as [ms acts IH] using HM_size_ind. intros name. rewrite finalize_eq.
  eapply finalizes_intro.
  - apply sort_perm.
  - apply sort_sorted.
  - instantiate (1 := map (fun kv : str * HModule => finalize (snd kv) (fst kv)) ms).
    clear acts name. induction ms as [|[k h] ms IHms]; constructor.
    + apply (IH k h). left; reflexivity.
    + apply IHms. intros; eapply IH; right; eauto.
  - apply sort_perm.
  - apply sort_sorted.
Qed.
Lemma finalizes_unique : forall m, hm_ok m -> forall name f, finalizes m name f -> f = finalize m name.
Proof.
  induction m as [ms acts IH] using HM_size_ind. intros Hok name f Hf.
  inversion Hok as [? ? H1 H2 H3 H4 H5]; subst.
  inversion Hf as [? ? ? acts' subs mods' P1 S1 F P2 S2]; subst. rewrite finalize_eq.
  assert (Hsubs : subs = map (fun kv : str * HModule => finalize (snd kv) (fst kv)) ms).
  { clear -F IH H4. revert IH H4. induction F as [|[k h] s ms subs Hx F IHF]; intros IH H4; auto.
    simpl. f_equal.
    - apply (IH k h (or_introl eq_refl)); auto. eapply H4; left; reflexivity.
    - apply IHF; intros; [eapply IH; [right|..]; eauto | eapply H4; right; eauto]. }
  subst subs. f_equal.
  - apply (sorted_unique a_name); auto.
    + eapply Permutation_NoDup; [apply Permutation_map; symmetry; exact P1|].
      rewrite map_map. erewrite map_ext_in; [exact H1|]. intros [k a] Hin. simpl. eauto.
    + rewrite P1. symmetry. apply sort_perm.
    + apply sort_sorted.
  - apply (sorted_unique m_name); auto.
    + eapply Permutation_NoDup; [apply Permutation_map; symmetry; exact P2|].
      rewrite map_map. erewrite map_ext; [exact H2|]. intros [k a]. apply finalize_name.
    + rewrite P2. symmetry. apply sort_perm.
    + apply sort_sorted.
Qed.
