(** * TogetherThms: a mounted configuration compiles *)
From Coq Require Import Permutation.
From Verif Require Import Base Core Flat MiniRust Gen Spec SpecCore SpecGen SpecCompile SpecMounts BaseFacts NodeFacts CoreFacts MatchFacts
  SpecMatch SpecMount SpecMountPoint RunFacts MatchProps CompileFacts GenThms TypesFacts OrderFacts MountPointThms MountsThms.

Section Together.
Variables (c : RouteConfig) (at_ : str) (d : RouteConfig) (k : str).
Hypothesis G : goes_with c at_ d k.
Let m := mount c at_ d.
Definition sunk (a : FlattenedAction) : FlattenedAction :=
  mkAction (a_name a) (a_method a) (Static at_ :: a_path a) (a_route_params a) (a_query_params a).

Lemma mount_actions ms a : in_module m ms a <-> in_module c ms a \/ exists a0, in_module d ms a0 /\ a = sunk a0.
Proof.
  unfold in_module, m. rewrite !config_actions_table, mount_table, flat_map_app, in_app_iff, (gw_query _ _ _ _ G).
  assert (E : flat_map (fun e : list PathSegment * list Param * list Resource =>
      let '(p, q, rs) := e in map (action_of p q) (filter (fun r => negb (r_is_redirect r)) rs))
      (map (below (Static at_) []) (table (c_routes d))) =
    map (fun e => (fst e, sunk (snd e))) (flat_map (fun e : list PathSegment * list Param * list Resource =>
      let '(p, q, rs) := e in map (action_of p q) (filter (fun r => negb (r_is_redirect r)) rs)) (table (c_routes d)))).
  { induction (table (c_routes d)) as [|[[p q] rs] l IH]; [reflexivity|]. cbn [map flat_map below]. rewrite map_app, IH, map_map. reflexivity. }
  rewrite E, in_map_iff. split; (intros [H|H]; [left; exact H|right]).
  - destruct H as ([ms0 a0] & [= <- <-] & H). exists a0. auto.
  - destruct H as (a0 & H & ->). exists (ms, a0). auto.
Qed.
Lemma host_in ms a : in_module c ms a -> in_module m ms a.
Proof. intros H. apply mount_actions. auto. Qed.
Lemma guest_in ms a : in_module d ms a -> in_module m ms (sunk a).
Proof. intros H. apply mount_actions. eauto. Qed.
Lemma mount_sub ms k' : sub_module m ms k' <-> sub_module c ms k' \/ sub_module d ms k'.
Proof.
  unfold sub_module. split.
  - intros (rest & a & H). apply mount_actions in H as [H|(a0 & H & _)]; [left|right]; eauto.
  - intros [(rest & a & H)|(rest & a & H)]; exists rest; eauto using host_in, guest_in.
Qed.
(** The host has nothing in the module. *)
Lemma host_out ms a rest : in_module c ms a -> map to_snake_case ms <> map to_snake_case (k :: rest).
Proof.
  intros H E. destruct ms as [|k0 ms]; [discriminate E|]. cbn [map] in E. injection E as E _.
  apply (proj1 (gw_module _ _ _ _ G k0 (ex_intro _ ms (ex_intro _ a H))) E).
Qed.
Lemma guest_sub ms k' : sub_module d ms k' -> ms = [] /\ k' = k \/ exists rest, ms = k :: rest.
Proof.
  intros (rest & a & H). destruct (gw_inside _ _ _ _ G _ _ H) as [r E]. destruct ms as [|x ms]; injection E; intros; subst; eauto.
Qed.
Lemma host_sub ms k' rest : sub_module c ms k' -> ms <> k :: rest.
Proof. intros (r & a & H) ->. apply (host_out _ _ (rest ++ k' :: r) H). reflexivity. Qed.
Lemma host_sub_nil k' : sub_module c [] k' -> k' <> k.
Proof. intros H ->. apply (proj1 (gw_module _ _ _ _ G k H) eq_refl). Qed.
Lemma host_module ms a rest : in_module c ms a -> ms <> k :: rest.
Proof. intros H ->. apply (host_out _ _ rest H). reflexivity. Qed.
Lemma unit_host ms x : (forall rest, ms <> k :: rest) -> unit_in m ms x -> unit_in c ms x.
Proof.
  intros Hk (a & H & Hu & E). apply mount_actions in H as [H|(a0 & H & ->)]; [exists a; auto|].
  destruct (gw_inside _ _ _ _ G _ _ H) as [r Hr]. destruct (Hk r Hr).
Qed.
Lemma unit_guest rest x : unit_in m (k :: rest) x -> unit_in d (k :: rest) x.
Proof.
  intros (a & H & Hu & E). apply mount_actions in H as [H|(a0 & H & ->)]; [destruct (host_module _ _ rest H eq_refl)|]. exists a0. auto.
Qed.
Lemma taken_host ms x : (forall rest, ms <> k :: rest) -> taken m ms x -> taken c ms x.
Proof.
  intros Hk [H|[H|(-> & a & H & Hq)]]; [left; exact H|right; left; exact H|]. right. right. split; [reflexivity|].
  apply mount_actions in H as [H|(a0 & H & ->)]; [exists a; auto|]. destruct (gw_inside _ _ _ _ G _ _ H) as [r Hr]. destruct (Hk r Hr).
Qed.
Lemma taken_guest rest x : taken m (k :: rest) x -> taken d (k :: rest) x.
Proof.
  intros [H|[H|(-> & a & H & Hq)]]; [left; exact H|right; left; exact H|]. right. right. split; [reflexivity|].
  apply mount_actions in H as [H|(a0 & H & ->)]; [destruct (host_module _ _ rest H eq_refl)|exists a0; auto].
Qed.
Lemma mount_good : good_names c -> good_names d -> good_names m.
Proof.
  intros C D. constructor.
  - intros E. destruct (config_actions (c_routes c)) as [|[ms a] l] eqn:El; [exact (gn_some _ C El)|].
    assert (H : in_module c ms a) by (unfold in_module; rewrite El; left; reflexivity). apply host_in in H. unfold in_module in H.
    rewrite E in H. exact H.
  - intros ms a H. apply mount_actions in H as [H|(a0 & H & ->)]; [exact (gn_action _ C _ _ H)|exact (gn_action _ D _ _ H)].
  - intros ms a H Ht. apply mount_actions in H as [H|(a0 & H & ->)].
    + apply (gn_taken _ C _ _ H). apply taken_host; [|exact Ht]. intros rest. exact (host_module _ _ rest H).
    + destruct (gw_inside _ _ _ _ G _ _ H) as [r ->]. apply (gn_taken _ D _ _ H). apply taken_guest. exact Ht.
  - intros ms a a' H H' E. apply mount_actions in H as [H|(a0 & H & ->)], H' as [H'|(a1 & H' & ->)].
    + exact (gn_distinct _ C _ _ _ H H' E).
    + destruct (gw_inside _ _ _ _ G _ _ H') as [r ->]. destruct (host_module _ _ r H eq_refl).
    + destruct (gw_inside _ _ _ _ G _ _ H) as [r ->]. destruct (host_module _ _ r H' eq_refl).
    + exact (gn_distinct _ D _ _ _ H H' E).
  - intros ms a x H Hx. apply mount_actions in H as [H|(a0 & H & ->)].
    + destruct (gn_fields _ C _ _ _ H Hx) as (F1 & F2 & F3). repeat split; auto. intros Hu. apply F2.
      apply unit_host; [|exact Hu]. intros rest. exact (host_module _ _ rest H).
    + destruct (gn_fields _ D _ _ x H Hx) as (F1 & F2 & F3). repeat split; auto. intros Hu. apply F2.
      destruct (gw_inside _ _ _ _ G _ _ H) as [r ->]. apply unit_guest. exact Hu.
  - intros ms a H. apply mount_actions in H as [H|(a0 & H & ->)]; [exact (gn_fields_distinct _ C _ _ H)|exact (gn_fields_distinct _ D _ _ H)].
  - intros ms a s x H Hs Hx. apply mount_actions in H as [H|(a0 & H & ->)]; [exact (gn_path _ C _ _ _ _ H Hs Hx)|].
    cbn [sunk a_path] in Hs. destruct Hs as [[= <-]|Hs]; [apply (gw_text _ _ _ _ G x Hx)|exact (gn_path _ D _ _ _ _ H Hs Hx)].
  - intros Hu. apply (gn_ok _ C). apply unit_host; [discriminate|exact Hu].
  - intros ms k' H. apply mount_sub in H as [H|H]; [exact (gn_module _ C _ _ H)|exact (gn_module _ D _ _ H)].
  - intros ms k' H Ht. apply mount_sub in H as [H|H].
    + apply (gn_module_taken _ C _ _ H). apply taken_host; [|exact Ht]. intros rest. exact (host_sub _ _ rest H).
    + destruct (guest_sub _ _ H) as [[-> ->]|[rest ->]].
      * apply (gn_module_taken _ D _ _ H). destruct Ht as [Ht|[Ht|[Ht _]]]; [left; exact Ht|right; left; exact Ht|].
        assert (Hu : is_upper 79%N = false) by (apply (snake_no_upper k); rewrite Ht; left; reflexivity). discriminate Hu.
      * apply (gn_module_taken _ D _ _ H). apply taken_guest. exact Ht.
  - intros ms k1 k2 H1 H2 E. apply mount_sub in H1, H2. destruct H1 as [H1|H1], H2 as [H2|H2].
    + exact (gn_module_distinct _ C _ _ _ H1 H2 E).
    + destruct (guest_sub _ _ H2) as [[-> ->]|[rest ->]]; [|destruct (host_sub _ _ rest H1 eq_refl)].
      destruct (gw_module _ _ _ _ G _ H1). tauto.
    + destruct (guest_sub _ _ H1) as [[-> ->]|[rest ->]]; [|destruct (host_sub _ _ rest H2 eq_refl)].
      destruct (gw_module _ _ _ _ G _ H2) as [N1 N2]. destruct E as [E|E]; [destruct N1|destruct N2]; auto.
    + exact (gn_module_distinct _ D _ _ _ H1 H2 E).
  - intros ms k' a H1 H2. apply mount_sub in H1. apply mount_actions in H2 as [H2|(a0 & H2 & ->)].
    + destruct H1 as [H1|H1]; [exact (gn_module_action _ C _ _ _ H1 H2)|].
      destruct (guest_sub _ _ H1) as [[-> ->]|[rest ->]]; [|destruct (host_module _ _ rest H2 eq_refl)]. exact (gw_struct _ _ _ _ G _ H2).
    + destruct (gw_inside _ _ _ _ G _ _ H2) as [r ->]. destruct H1 as [H1|H1]; [destruct (host_sub _ _ r H1 eq_refl)|].
      exact (gn_module_action _ D _ _ _ H1 H2).
Qed.

(** ** Blocks *)
Lemma mount_block p q x : block_at (c_routes m) p q x ->
  (p = [] /\ q = [] /\ x = c_routes m) \/ (p <> [] /\ block_at (c_routes c) p q x) \/
  (exists p', p = Static at_ :: p' /\ block_at (c_routes d) p' q x).
Proof.
  intros H. inversion H as [|b seg child p' q' x' Hin Hb]; subst.
  - left. split; [reflexivity|]. split; [exact (gw_query _ _ _ _ G)|reflexivity].
  - cbn [m mount c_routes rt_routes rt_query] in Hin |- *. right. apply in_app_or in Hin as [Hin|[[= <- <-]|[]]].
    + left. split; [discriminate|]. exact (block_step _ _ _ _ _ _ Hin Hb).
    + right. rewrite (gw_query _ _ _ _ G). eauto.
Qed.
Lemma mount_emitted p q x : emitted (c_routes m) p q x ->
  (p = [] /\ q = [] /\ x = c_routes m) \/ emitted (c_routes c) p q x \/
  (exists p', p = Static at_ :: p' /\ emitted (c_routes d) p' q x).
Proof.
  intros H. inversion H as [|b s child p' q' x' Hin Hb|b y child p' q' x' Hf Hb]; subst.
  - left. split; [reflexivity|]. split; [exact (gw_query _ _ _ _ G)|reflexivity].
  - cbn [m mount c_routes rt_routes rt_query] in Hin |- *. right. apply in_app_or in Hin as [Hin|[[= <- <-]|[]]].
    + left. exact (emitted_static _ _ _ _ _ _ Hin Hb).
    + right. rewrite (gw_query _ _ _ _ G). eauto.
  - exfalso. unfold first_param in Hf. apply least_in in Hf. apply dynamic_children_In in Hf.
    cbn [m mount c_routes rt_routes] in Hf. apply in_app_or in Hf as [Hf|[Hf|[]]]; [exact (gw_dynamic _ _ _ _ G _ _ Hf)|discriminate Hf].
Qed.
Lemma no_first child y : first_param (c_routes m) <> Some (y, child).
Proof.
  intros Hf. unfold first_param in Hf. apply least_in in Hf. apply dynamic_children_In in Hf.
  cbn [m mount c_routes rt_routes] in Hf. apply in_app_or in Hf as [Hf|[Hf|[]]]; [exact (gw_dynamic _ _ _ _ G _ _ Hf)|discriminate Hf].
Qed.
Lemma emitted_below b p q x y child p' q' x' : emitted b p q x -> first_param x = Some (y, child) -> emitted child p' q' x' ->
  exists q'', emitted b (p ++ Dynamic y :: p') q'' x'.
Proof.
  intros H Hf H'. induction H as [b|b s ch p q x Hin _ IH|b y0 ch p q x Hf0 _ IH].
  - eexists. exact (emitted_dynamic _ _ _ _ _ _ Hf H').
  - destruct (IH Hf) as [q'' Hq]. eexists. exact (emitted_static _ _ _ _ _ _ Hin Hq).
  - destruct (IH Hf) as [q'' Hq]. eexists. exact (emitted_dynamic _ _ _ _ _ _ Hf0 Hq).
Qed.
(** Every resource in the matcher names a struct. *)
Lemma has_target e p q x r : matcher_ok e -> emitted (c_routes e) p q x -> In r (rt_resources x) -> exists a, target e r a.
Proof.
  intros M H Hr. destruct (r_is_redirect r) eqn:Er.
  - destruct (mo_resource _ M _ _ _ _ H Hr) as (_ & _ & Ht). destruct (Ht Er) as (a & Ha & _). eauto.
  - apply emitted_block in H. apply blocks_at in H. pose proof (in_config_actions _ _ _ _ _ H Hr Er) as Ha.
    unfold action_of in Ha. eexists. exists (r_modules r). split; [exact Ha|]. repeat split.
Qed.
Lemma target_host r a a0 : target c r a0 -> target m r a -> target c r a.
Proof.
  intros (ms0 & H0 & S0 & _) (ms & H & S1 & S2 & S3). apply mount_actions in H as [H|(a1 & H & ->)]; [exists ms; auto|].
  destruct (gw_inside _ _ _ _ G _ _ H) as [rest ->]. exfalso. apply (host_out _ _ rest H0). congruence.
Qed.
Lemma target_guest r a a0 : target d r a0 -> target m r a -> exists a1, target d r a1 /\ a = sunk a1.
Proof.
  intros (ms0 & H0 & S0 & _) (ms & H & S1 & S2 & S3). apply mount_actions in H as [H|(a1 & H & ->)].
  - destruct (gw_inside _ _ _ _ G _ _ H0) as [rest ->]. exfalso. apply (host_out _ _ rest H). congruence.
  - exists a1. split; [exists ms; auto|reflexivity].
Qed.
Lemma mount_matcher : matcher_ok c -> matcher_ok d -> matcher_ok m.
Proof.
  intros C D. constructor.
  - intros p q x H. apply mount_emitted in H as [(_ & _ & ->)|[H|(p' & _ & H)]];
      [|exact (mo_shape _ C _ _ _ H)|exact (mo_shape _ D _ _ _ H)].
    pose proof (mo_shape _ C _ _ _ (emitted_here (c_routes c))) as S. constructor; cbn [m mount c_routes rt_routes].
    + intros s child Hin. apply in_app_or in Hin as [Hin|[[= <- <-]|[]]]; [exact (so_plain _ S _ _ Hin)|].
      intros x Hx. destruct (gw_text _ _ _ _ G x Hx) as [H1 H2]. cbn [In] in H2. intuition congruence.
    + intros s t b b' H1 H2. apply in_app_or in H1 as [H1|[[= <- <-]|[]]]; apply in_app_or in H2 as [H2|[E|[]]].
      * exact (so_prefix _ S _ _ _ _ H1 H2).
      * injection E as E _. destruct (proj1 (gw_prefix _ _ _ _ G _ _ H1)). exists t. exact E.
      * destruct (proj2 (gw_prefix _ _ _ _ G _ _ H2)). exists t. reflexivity.
      * injection E as E _. apply (app_inv_head at_). rewrite <- E, app_nil_r. reflexivity.
    + intros Hd. exfalso. apply Hd. destruct (dynamic_children _) as [|[y b] l] eqn:E; [reflexivity|].
      assert (Hin : In (y, b) (dynamic_children (rt_routes (c_routes c) ++ [(Static at_, c_routes d)]))) by (rewrite E; left; reflexivity).
      apply dynamic_children_In in Hin. apply in_app_or in Hin as [Hin|[Hin|[]]]; [destruct (gw_dynamic _ _ _ _ G _ _ Hin)|discriminate Hin].
  - assert (HC : forall p q x r, emitted (c_routes c) p q x -> In r (rt_resources x) -> resource_ok m p q r).
    { intros p q x r H Hr. destruct (mo_resource _ C _ _ _ _ H Hr) as (R1 & R2 & R3). split; [exact R1|]. split.
      - intros Hq Hu. apply (R2 Hq). apply unit_host; [discriminate|exact Hu].
      - intros Er. destruct (R3 Er) as (a & (ms & Ha & Ht) & Hp). exists a. split; [|exact Hp]. exists ms. split; [apply host_in, Ha|exact Ht]. }
    intros p q x r H Hr. apply mount_emitted in H as [(-> & -> & ->)|[H|(p' & -> & H)]]; [|exact (HC _ _ _ _ H Hr)|].
    + pose proof (HC _ _ _ r (emitted_here (c_routes c)) Hr) as H0. rewrite (gw_query _ _ _ _ G) in H0. exact H0.
    + destruct (mo_resource _ D _ _ _ _ H Hr) as (R1 & R2 & R3). split; [exact R1|]. split.
      * intros _ Hu. apply (gw_none _ _ _ _ G). apply unit_host; [discriminate|exact Hu].
      * intros Er. destruct (R3 Er) as (a & (ms & Ha & Ht) & Hp). exists (sunk a). split; [|exact Hp]. exists ms. split; [apply guest_in, Ha|exact Ht].
  - intros p q x y child H Hf. apply mount_emitted in H as [(_ & _ & ->)|[H|(p' & -> & H)]]; [destruct (no_first _ _ Hf)| |].
    + destruct (mo_param _ C _ _ _ _ _ H Hf) as (P1 & P2 & P3 & P4 & T & P5 & P6).
      split; [intros Hu; apply P1, unit_host; [discriminate|exact Hu]|]. split; [exact P2|]. split; [exact P3|]. split; [exact P4|].
      exists T. split; [exact P5|]. intros p1 q1 x1 r a y' He Hr Ht. destruct (emitted_below _ _ _ _ _ _ _ _ _ H Hf He) as [q2 He2].
      destruct (has_target c _ _ _ _ C He2 Hr) as [a0 Ha0]. exact (P6 _ _ _ _ _ _ He Hr (target_host _ _ _ Ha0 Ht)).
    + destruct (mo_param _ D _ _ _ _ _ H Hf) as (P1 & P2 & P3 & P4 & T & P5 & P6). split.
      { intros Hu. apply (unit_host [] _) in Hu; [|discriminate]. revert Hu. apply (gw_params _ _ _ _ G _ _ x y child (emitted_block _ _ _ _ H)).
        apply dynamic_children_In, least_in, Hf. }
      split; [exact P2|]. split; [exact P3|]. split; [exact P4|].
      exists T. split; [exact P5|]. intros p1 q1 x1 r a y' He Hr Ht. destruct (emitted_below _ _ _ _ _ _ _ _ _ H Hf He) as [q2 He2].
      destruct (has_target d _ _ _ _ D He2 Hr) as [a0 Ha0]. destruct (target_guest _ _ _ Ha0 Ht) as (a1 & Ha1 & ->).
      exact (P6 _ _ _ _ _ _ He Hr Ha1).
Qed.
Lemma mount_separate : separate c -> separate d -> separate m.
Proof.
  intros C D path q b p H Hp. apply blocks_at in H. apply mount_block in H as [(-> & _)|[[_ H]|(p' & -> & H)]]; [contradiction| |].
  - apply blocks_at in H. exact (C _ _ _ _ H Hp).
  - apply blocks_at in H. exact (D _ _ _ _ H Hp).
Qed.
Lemma mount_returns : no_returns c -> no_returns d -> no_returns m.
Proof.
  intros C D p q x s H Hs. apply mount_block in H as [(_ & _ & ->)|[[_ H]|(p' & _ & H)]];
    [|exact (C _ _ _ _ H Hs)|exact (D _ _ _ _ H Hs)].
  unfold block_texts in Hs. cbn [m mount c_routes rt_routes rt_query rt_resources] in Hs. rewrite flat_map_app, !app_assoc, in_app_iff, <- app_assoc in Hs.
  destruct Hs as [Hs|Hs]; [exact (C _ _ _ _ (block_root (c_routes c)) Hs)|].
  cbn in Hs. destruct Hs as [<-|[]]. intros Hx. destruct (gw_text _ _ _ _ G _ Hx) as [_ H]. cbn [In] in H. tauto.
Qed.
Lemma names_in e ms n : In (ms, n) (struct_names (c_routes e)) <-> exists a, in_module e ms a /\ a_name a = n.
Proof.
  rewrite struct_names_actions, in_map_iff. split.
  - intros ([ms0 a] & [= <- <-] & H). exists a. auto.
  - intros (a & H & <-). exists (ms, a). auto.
Qed.
Lemma mount_gen : generates c -> generates d -> generates m.
Proof.
  intros C D. apply codegen_iff. apply mount_generates. split; [left; apply codegen_iff, C|]. split; [left; apply codegen_iff, D|]. split.
  - intros [ms n] H1 H2. apply names_in in H1 as (a1 & H1 & _), H2 as (a2 & H2 & _).
    destruct (gw_inside _ _ _ _ G _ _ H2) as [rest ->]. exact (host_module _ _ rest H1 eq_refl).
  - intros (b & Hb). destruct (proj1 (gw_prefix _ _ _ _ G _ _ Hb)). exists []. rewrite app_nil_r. reflexivity.
Qed.
Lemma mount_compiles : separate c -> separate d -> compiles c = true -> compiles d = true ->
  compiles m = true /\ separate m.
Proof.
  intros Sc Sd C D. apply (compiles_exactly c Sc) in C as (C1 & C2 & C3 & C4). apply (compiles_exactly d Sd) in D as (D1 & D2 & D3 & D4).
  pose proof (mount_separate Sc Sd) as Sm. split; [|exact Sm]. apply (compiles_exactly m Sm).
  split; [apply mount_gen; assumption|]. split; [apply mount_returns; assumption|].
  split; [apply mount_good; assumption|apply mount_matcher; assumption].
Qed.
Lemma mount_typed : matcher_ok c -> matcher_ok d -> every_block one_dynamic (c_routes c) -> every_block one_dynamic (c_routes d) ->
  redirects_typed c -> redirects_typed d -> redirects_typed m.
Proof.
  intros C D Oc Od Tc Td path q b r p mods a p' Hb Hr Er Hp Ha E1 E2 E3 Hp' En.
  assert (Ht : target m r a) by (exists mods; auto). apply blocks_at in Hb. apply mount_block in Hb as [(-> & _)|[[_ Hb]|(p0 & -> & Hb)]]; [contradiction| |].
  - destruct (has_target c _ _ _ _ C (one_emitted _ _ _ _ Oc Hb) Hr) as [a0 Ha0].
    destruct (target_host _ _ _ Ha0 Ht) as (ms & Hm & S1 & S2 & S3). apply blocks_at in Hb.
    exact (Tc _ _ _ _ _ _ _ _ Hb Hr Er Hp Hm S1 S2 S3 Hp' En).
  - destruct (has_target d _ _ _ _ D (one_emitted _ _ _ _ Od Hb) Hr) as [a0 Ha0].
    destruct (target_guest _ _ _ Ha0 Ht) as (a1 & (ms & Hm & S1 & S2 & S3) & ->). apply blocks_at in Hb.
    exact (Td _ _ _ _ _ _ _ _ Hb Hr Er Hp Hm S1 S2 S3 Hp' En).
Qed.
Lemma separate_hygienic e : separate e -> hygienic e.
Proof. intros H path q b p Hb Hp _ Hn. apply (H _ _ _ _ Hb Hp). unfold position_names, matcher_names in *. cbn [In] in *. tauto. Qed.
Lemma mount_runnable : separate c -> separate d -> every_block one_dynamic (c_routes c) -> every_block one_dynamic (c_routes d) ->
  runnable c -> runnable d -> runnable m.
Proof.
  intros Sc Sd Oc Od (C & _ & Tc) (D & _ & Td). destruct (mount_compiles Sc Sd C D) as [M Sm]. split; [exact M|].
  split; [apply separate_hygienic, Sm|]. apply (compiles_exactly c Sc) in C as (_ & _ & _ & C4).
  apply (compiles_exactly d Sd) in D as (_ & _ & _ & D4). apply mount_typed; assumption.
Qed.
Lemma no_dynamics : dynamic_children (rt_routes (c_routes c)) = [].
Proof.
  destruct (dynamic_children (rt_routes (c_routes c))) as [|[y b] l] eqn:E; [reflexivity|].
  assert (Hin : In (y, b) (dynamic_children (rt_routes (c_routes c)))) by (rewrite E; left; reflexivity).
  apply dynamic_children_In in Hin. destruct (gw_dynamic _ _ _ _ G _ _ Hin).
Qed.
Lemma mount_one : every_block one_dynamic (c_routes c) -> every_block one_dynamic (c_routes d) -> every_block one_dynamic (c_routes m).
Proof.
  intros Oc Od p q x H. apply mount_block in H as [(_ & _ & ->)|[[_ H]|(p' & _ & H)]]; [|exact (Oc _ _ _ H)|exact (Od _ _ _ H)].
  unfold one_dynamic. destruct (dynamic_children (rt_routes (c_routes m))) as [|[y b] l] eqn:E; [cbn; lia|].
  assert (Hin : In (y, b) (dynamic_children (rt_routes (c_routes m)))) by (rewrite E; left; reflexivity).
  apply dynamic_children_In in Hin. cbn [m mount c_routes rt_routes] in Hin.
  apply in_app_or in Hin as [Hin|[Hin|[]]]; [destruct (gw_dynamic _ _ _ _ G _ _ Hin)|discriminate Hin].
Qed.
Lemma with_no_query {T E} (x : option (run_result T E)) : option_map (answer_with_query []) x = x.
Proof.
  assert (H : forall v : route_value T, with_query [] v = v).
  { intros [ms n fs]. unfold with_query. cbn [rv_modules rv_name rv_fields map]. f_equal.
    induction fs as [|[y [?|?|]] fs IH]; cbn [insert_none map app]; congruence. }
  destruct x as [[[]|]|]; cbn [option_map answer_with_query]; try rewrite H; reflexivity.
Qed.
Lemma mount_serves {T E} (rt : runtime T E) : separate c -> separate d ->
  every_block one_dynamic (c_routes c) -> every_block one_dynamic (c_routes d) -> runnable c -> runnable d ->
  (runnable m /\ separate m /\ every_block one_dynamic (c_routes m)) /\ forall path method,
    (forall p, path = c_slash :: at_ ++ c_slash :: p -> match_route rt m path method = match_route rt d (c_slash :: p) method) /\
    (~ under at_ path -> match_route rt m path method = match_route rt c path method).
Proof.
  intros Sc Sd Oc Od Rc Rd. pose proof (mount_runnable Sc Sd Oc Od Rc Rd) as Rm.
  split; [split; [exact Rm|split; [apply mount_separate; assumption|apply mount_one; assumption]]|]. intros path method. split.
  - intros p ->. unfold m. rewrite (point_served rt c at_ d p method Rm Rd); [|intros Hd; destruct (Hd no_dynamics)].
    rewrite (gw_query _ _ _ _ G). apply with_no_query.
  - intros Hu. apply point_elsewhere; auto using no_dynamics.
Qed.
End Together.
