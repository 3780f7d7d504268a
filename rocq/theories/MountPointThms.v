(** * MountPointThms: any text as a mount point *)
From Verif Require Import Base Core Trie Flat MiniRust Gen Spec SpecMatch SpecMount SpecMountPoint SpecCompile BaseFacts
  NodeFacts RunFacts MatchFacts MatchProps MatchThms MountThms CompileFacts.

Lemma in_statics {X} (l : list (PathSegment * X)) s x : In (s, x) (statics l) -> In (Static s, x) l.
Proof.
  induction l as [|[[s'|p] y] l IH]; cbn; [tauto| |intros H; right; exact (IH H)].
  intros [[= -> ->]|H]; [left; reflexivity|right; exact (IH H)].
Qed.
Lemma after_iff s rest tail : after_segment s rest = Some tail <-> rest = s ++ tail /\ (tail = [] \/ exists t, tail = c_slash :: t).
Proof.
  unfold after_segment. split.
  - destruct (strip s rest) as [[|c t]|] eqn:E; try discriminate; apply strip_Some in E; subst rest.
    + intros [= <-]. auto.
    + destruct (N.eqb_spec c c_slash) as [->|]; [|discriminate]. intros [= <-]. split; [reflexivity|right; eauto].
  - intros [-> H]. rewrite (proj2 (strip_Some s (s ++ tail) tail) eq_refl). destruct H as [->|[t ->]]; reflexivity.
Qed.
(** A name beside the mount point neither begins with it nor the other way round. *)
Lemma apart c at_ d s x : runnable (mount c at_ d) -> In (s, x) (statics (rt_routes (c_routes c))) ->
  forall t u, s ++ t = at_ ++ u -> False.
Proof.
  intros (Hc & Hh & Ht) Hin t u E. destruct (mount_children c at_ d) as [Hs _].
  assert (Hn : NoDup (map fst (statics (rt_routes (c_routes c)) ++ [(at_, c_routes d)]))).
  { rewrite <- Hs. apply block_paths_statics, compiles_paths. exact Hc. }
  rewrite map_app in Hn. cbn [map fst] in Hn. apply NoDup_remove_2 in Hn. rewrite app_nil_r in Hn.
  assert (Hs' : In (Static s, x) (rt_routes (c_routes (mount c at_ d)))).
  { cbn [mount c_routes rt_routes]. apply in_or_app. left. exact (in_statics _ _ _ Hin). }
  assert (Ha : In (Static at_, c_routes d) (rt_routes (c_routes (mount c at_ d)))).
  { cbn [mount c_routes rt_routes]. apply in_or_app. right. left. reflexivity. }
  apply app_eq_app in E. destruct E as [l [[E _]|[E _]]]; destruct l as [|y l];
    try (rewrite app_nil_r in E; subst; apply Hn; exact (in_map fst _ _ Hin)); rewrite E in *.
  - rewrite (prefix_sibling _ _ _ _ _ _ _ _ (or_intror Ht) (emitted_here _) Ha Hs') in Hc; [discriminate Hc|discriminate].
  - rewrite (prefix_sibling _ _ _ _ _ _ _ _ (or_intror Ht) (emitted_here _) Hs' Ha) in Hc; [discriminate Hc|discriminate].
Qed.

Section Points.
Context {T E : Type}.
Variable rt : runtime T E.
Let parse := rt_parse rt.
Let tfind := @tree_find T E parse.
Notation kids l := (map (fun sx : str * Routes => (fst sx, (snd sx, tfind (snd sx)))) l).

Lemma find_stat_app (l l' : list (str * (Routes * @finder T E))) q a rest :
  (forall s x, In (s, x) l -> after_segment s rest = None) -> find_stat (l ++ l') q a rest = find_stat l' q a rest.
Proof.
  induction l as [|[s [b run]] l IH]; intros H; [reflexivity|]. cbn [app find_stat].
  rewrite (H s (b, run)) by (left; reflexivity). apply IH. intros s' x Hin. exact (H s' x (or_intror Hin)).
Qed.
Lemma find_stat_last (l : list (str * (Routes * @finder T E))) s x q a rest :
  after_segment s rest = None -> find_stat (l ++ [(s, x)]) q a rest = find_stat l q a rest.
Proof.
  intros H. destruct x as [b run]. induction l as [|[s' [b' run']] l IH]; cbn [app find_stat]; [rewrite H; reflexivity|].
  destruct (after_segment s' rest); [reflexivity|exact IH].
Qed.
Lemma find_stat_none (l : list (str * (Routes * @finder T E))) q a rest :
  (forall s x, In (s, x) l -> after_segment s rest = None) -> find_stat l q a rest = Nothing.
Proof. intros H. rewrite <- (app_nil_r l). rewrite find_stat_app by exact H. reflexivity. Qed.

(** Below the mount point. *)
Lemma find_under c at_ d tail : runnable (mount c at_ d) -> no_mixed (c_routes c) ->
  at_ ++ tail <> [] \/ rt_resources (c_routes c) = [] /\ dynamic_children (rt_routes (c_routes c)) = [] ->
  tail = [] \/ (exists t, tail = c_slash :: t) ->
  tfind (c_routes (mount c at_ d)) [] [] (at_ ++ tail) =
  go_in (c_routes d) (tfind (c_routes d)) (rt_query (c_routes c)) [] tail.
Proof.
  intros Hr Hm Hne Ht. destruct (mount_children c at_ d) as [Hs Hd].
  assert (Ef : tfind (c_routes (mount c at_ d)) [] [] (at_ ++ tail) =
    match least_dynamic (dynamic_children (rt_routes (c_routes c))), statics (rt_routes (c_routes c)) ++ [(at_, c_routes d)] with
    | None, ss => find_stat (kids ss) (rt_query (c_routes c)) [] (at_ ++ tail)
    | Some (p, child), [(s, child')] =>
        match strip s (at_ ++ tail) with
        | Some tail => go_in child' (tfind child') (rt_query (c_routes c)) [] tail
        | None => find_dyn parse p child (tfind child) (rt_query (c_routes c)) [] (at_ ++ tail)
        end
    | Some (p, child), _ => find_dyn parse p child (tfind child) (rt_query (c_routes c)) [] (at_ ++ tail)
    end).
  { unfold tfind at 1. destruct Hne as [Hne|[Hne Hd0]].
    - rewrite find_eq_ne by exact Hne. rewrite Hs, Hd. reflexivity.
    - rewrite find_eq, Hs, Hd, Hd0. cbn [mount c_routes rt_resources least_dynamic]. rewrite Hne. reflexivity. }
  rewrite Ef. clear Ef.
  assert (Ha : after_segment at_ (at_ ++ tail) = Some tail) by (apply after_iff; auto).
  destruct (least_dynamic (dynamic_children (rt_routes (c_routes c)))) as [[p child]|] eqn:El.
  - rewrite (Hm (least_some _ _ El)). cbn [app]. rewrite (proj2 (strip_Some at_ (at_ ++ tail) tail) eq_refl). reflexivity.
  - rewrite map_app. rewrite find_stat_app.
    + cbn [map find_stat fst snd]. rewrite Ha. reflexivity.
    + intros s x Hin. apply in_map_iff in Hin. destruct Hin as [[s' x'] [[= <- _] Hin]]. cbn [fst].
      destruct (after_segment s' (at_ ++ tail)) as [t'|] eqn:Es; [|reflexivity]. exfalso.
      apply after_iff in Es. destruct Es as [Es _]. exact (apart _ _ _ _ _ Hr Hin _ _ (eq_sym Es)).
Qed.
(** Elsewhere. *)
Lemma find_elsewhere c at_ d method rest : dynamic_children (rt_routes (c_routes c)) = [] -> after_segment at_ rest = None ->
  finish method (tfind (c_routes (mount c at_ d)) [] [] rest) = finish method (tfind (c_routes c) [] [] rest).
Proof.
  intros Hd Ha. unfold tfind. rewrite !find_eq. fold tfind. destruct (mount_children c at_ d) as [Hs Hdm].
  rewrite Hs, Hdm, Hd. cbn [least_dynamic mount c_routes rt_resources rt_query]. rewrite !map_app. cbn [map fst snd].
  rewrite !find_stat_last by exact Ha.
  destruct (rt_resources (c_routes c)) as [|r rs] eqn:Er; [reflexivity|]. destruct rest; [|reflexivity].
  cbn [finish rt_resources]. rewrite Er. reflexivity.
Qed.

Lemma point_served c at_ d p method : runnable (mount c at_ d) -> runnable d -> no_mixed (c_routes c) ->
  match_route rt (mount c at_ d) (c_slash :: at_ ++ c_slash :: p) method =
  option_map (answer_with_query (rt_query (c_routes c))) (match_route rt d (c_slash :: p) method).
Proof.
  intros Hr Hd Hm. rewrite !match_find by auto. cbn [option_map no_slash]. rewrite !N.eqb_refl. fold parse. fold tfind.
  rewrite find_under; [|exact Hr|exact Hm|left; destruct at_; discriminate|right; eauto].
  cbn [go_in]. rewrite N.eqb_refl. unfold tfind, parse. rewrite find_query, finish_shift. reflexivity.
Qed.
Lemma point_root c at_ d method : runnable (mount c at_ d) -> runnable d -> no_mixed (c_routes c) -> at_ <> [] ->
  plain_statics (c_routes d) -> dynamic_has_resources (c_routes d) ->
  match_route rt (mount c at_ d) (c_slash :: at_) method =
  option_map (answer_with_query (rt_query (c_routes c))) (match_route rt d [c_slash] method).
Proof.
  intros Hr Hd Hm Hne Hpd Hdd. rewrite !match_find by auto. cbn [option_map no_slash]. rewrite !N.eqb_refl. fold parse. fold tfind.
  pose proof (find_under c at_ d [] Hr Hm) as Hf. rewrite app_nil_r in Hf. rewrite Hf; [|left; exact Hne|left; reflexivity].
  cbn [go_in]. unfold tfind. rewrite find_nil by exact Hpd. unfold here, dynamic_has_resources in *.
  destruct (rt_resources (c_routes d)) eqn:Er.
  - destruct (least_dynamic (dynamic_children (rt_routes (c_routes d)))) as [[p ch]|] eqn:El; [|reflexivity].
    exfalso. apply (Hdd (least_some _ _ El)). reflexivity.
  - rewrite <- finish_shift. cbn [shift app]. reflexivity.
Qed.
Lemma not_under at_ path : ~ under at_ path -> after_segment at_ (no_slash path) = None.
Proof.
  intros H. destruct (after_segment at_ (no_slash path)) as [t|] eqn:Ea; [|reflexivity]. exfalso. apply H.
  exists t. apply after_iff. exact Ea.
Qed.
Lemma point_elsewhere c at_ d path method : runnable (mount c at_ d) -> runnable c ->
  dynamic_children (rt_routes (c_routes c)) = [] -> ~ under at_ path ->
  match_route rt (mount c at_ d) path method = match_route rt c path method.
Proof.
  intros Hr Hc Hd Hu. rewrite !match_find by auto. f_equal. apply find_elsewhere; [exact Hd|exact (not_under _ _ Hu)].
Qed.
Lemma point_leading c a d x p method : runnable (mount c (c_slash :: a) d) -> runnable c ->
  dynamic_children (rt_routes (c_routes c)) = [] -> x <> c_slash ->
  match_route rt (mount c (c_slash :: a) d) (c_slash :: x :: p) method = match_route rt c (c_slash :: x :: p) method.
Proof.
  intros Hr Hc Hd Hx. apply point_elsewhere; auto. intros (t & Et & _). cbn [no_slash] in Et. rewrite N.eqb_refl in Et.
  injection Et as Et _. exact (Hx Et).
Qed.
Lemma point_trailing c a d x p method : runnable (mount c (a ++ [c_slash]) d) -> runnable c ->
  dynamic_children (rt_routes (c_routes c)) = [] -> x <> c_slash ->
  match_route rt (mount c (a ++ [c_slash]) d) (c_slash :: a ++ c_slash :: x :: p) method =
  match_route rt c (c_slash :: a ++ c_slash :: x :: p) method.
Proof.
  intros Hr Hc Hd Hx. apply point_elsewhere; auto. intros (t & Et & Ht). cbn [no_slash] in Et. rewrite N.eqb_refl, <- app_assoc in Et.
  apply app_inv_head in Et. injection Et as Et. destruct Ht as [->|[u ->]]; [discriminate Et|]. injection Et as Et _. exact (Hx Et).
Qed.
(** Several segments. *)
Lemma point_segments c a b d path method : runnable (mount c (a ++ c_slash :: b) d) -> runnable (mount c a (only b d)) ->
  dynamic_children (rt_routes (c_routes c)) = [] ->
  match_route rt (mount c (a ++ c_slash :: b) d) path method = match_route rt (mount c a (only b d)) path method.
Proof.
  intros H1 H2 Hd. rewrite !match_find by auto. f_equal. fold parse. fold tfind. generalize (no_slash path). intros rest.
  assert (Hm : no_mixed (c_routes c)) by (intros Hn; destruct (Hn Hd)).
  assert (Hcase : (rest = [] /\ rt_resources (c_routes c) <> []) \/ (rest <> [] \/ rt_resources (c_routes c) = [])).
  { destruct rest; [|right; left; discriminate]. destruct (rt_resources (c_routes c)); [right; right; reflexivity|left; split; [reflexivity|discriminate]]. }
  destruct Hcase as [[-> Hres]|Hne].
  { unfold tfind. rewrite !find_eq. cbn [mount c_routes rt_resources]. destruct (rt_resources (c_routes c)) as [|r rs] eqn:Er; [destruct (Hres eq_refl)|].
    cbn [finish rt_resources rt_query]. reflexivity. }
  assert (Hn : forall a' tail, rest = a' ++ tail ->
    a' ++ tail <> [] \/ rt_resources (c_routes c) = [] /\ dynamic_children (rt_routes (c_routes c)) = []).
  { intros a' tail <-. destruct Hne as [Hne|Hne]; [left; exact Hne|right; auto]. }
  destruct (after_segment a rest) as [tail|] eqn:Ea.
  - apply after_iff in Ea. destruct Ea as [Er Ht]. pose proof (Hn a tail Er) as Hn'. subst rest.
    rewrite (find_under c a (only b d) tail H2 Hm Hn' Ht).
    destruct (after_segment (a ++ c_slash :: b) (a ++ tail)) as [tail'|] eqn:Eb.
    + apply after_iff in Eb. destruct Eb as [Eb Ht']. rewrite Eb. rewrite find_under; [|exact H1|exact Hm|rewrite <- Eb; exact Hn'|exact Ht'].
      rewrite <- app_assoc in Eb. apply app_inv_head in Eb. subst tail. cbn [app go_in]. rewrite N.eqb_refl.
      unfold tfind at 2. rewrite find_eq. cbn [only mount c_routes rt_resources rt_routes rt_query app dynamic_children statics least_dynamic map fst snd].
      rewrite app_nil_r.
      assert (Ea : after_segment b (b ++ tail') = Some tail') by (apply after_iff; auto).
      cbn [find_stat]. rewrite Ea. reflexivity.
    + assert (Hr : finish method (go_in (c_routes (only b d)) (tfind (c_routes (only b d))) (rt_query (c_routes c)) [] tail) = RunResult MNotFound).
      { destruct Ht as [->|[t ->]]; [reflexivity|]. cbn [go_in]. rewrite N.eqb_refl.
        unfold tfind. rewrite find_eq. cbn [only mount c_routes rt_resources rt_routes rt_query app dynamic_children statics least_dynamic map fst snd find_stat].
        destruct (after_segment b t) as [u|] eqn:Eu; [|reflexivity]. exfalso. apply after_iff in Eu. destruct Eu as [-> Hu].
        assert (Hc : after_segment (a ++ c_slash :: b) (a ++ c_slash :: b ++ u) = Some u).
        { apply after_iff. split; [rewrite <- app_assoc; reflexivity|exact Hu]. }
        rewrite Hc in Eb. discriminate Eb. }
      rewrite Hr. unfold tfind. rewrite find_eq. fold tfind. destruct (mount_children c (a ++ c_slash :: b) d) as [Hs Hdm]. rewrite Hs, Hdm, Hd.
      cbn [least_dynamic mount c_routes rt_resources rt_query].
      assert (Hf : find_stat (map (fun sx : str * Routes => (fst sx, fkid parse (snd sx))) (statics (rt_routes (c_routes c)) ++ [(a ++ c_slash :: b, c_routes d)]))
                     ([] ++ rt_query (c_routes c)) [] (a ++ tail) = Nothing).
      { apply find_stat_none. intros s x Hin. apply in_map_iff in Hin. destruct Hin as [[s' x'] [[= <- _] Hin]]. cbn [fst].
        apply in_app_or in Hin. destruct Hin as [Hin|[[= <- _]|[]]]; [|exact Eb].
        destruct (after_segment s' (a ++ tail)) as [t'|] eqn:Es; [|reflexivity]. exfalso.
        apply after_iff in Es. destruct Es as [Es _]. exact (apart _ _ _ _ _ H2 Hin _ _ (eq_sym Es)). }
      rewrite Hf. destruct (rt_resources (c_routes c)) as [|r rs]; [reflexivity|].
      destruct (a ++ tail); [|reflexivity]. destruct Hne as [Hne|Hne]; [destruct (Hne eq_refl)|discriminate Hne].
  - rewrite (find_elsewhere c a (only b d)) by assumption. apply find_elsewhere; [exact Hd|].
    destruct (after_segment (a ++ c_slash :: b) rest) as [t|] eqn:Eb; [|reflexivity]. apply after_iff in Eb. destruct Eb as [-> _].
    assert (Hc : after_segment a ((a ++ c_slash :: b) ++ t) = Some (c_slash :: b ++ t)).
    { apply after_iff. rewrite <- app_assoc. split; [reflexivity|right; eauto]. }
    rewrite Hc in Ea. discriminate Ea.
Qed.
End Points.
