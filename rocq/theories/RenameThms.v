(** * RenameThms: other names of parameters *)
From Verif Require Import Base Core Flat MiniRust Gen Spec SpecMatch SpecRename BaseFacts NodeFacts MatchFacts MatchThms MatchProps SpecGen CompileFacts GenThms.

Section Rename.
Variable R : str -> str -> Prop.
Notation ren_param := (renamed_param R).
Notation ren_res := (renamed_resource R).
Section Kids.
Context {X : Type}.
Variable Q : X -> X -> Prop.
Definition renkid (x y : PathSegment * X) : Prop := renamed_segment R (fst x) (fst y) /\ Q (snd x) (snd y).
Lemma renkid_statics l l' : Forall2 renkid l l' -> Forall2 (fun x y : str * X => fst x = fst y /\ Q (snd x) (snd y)) (statics l) (statics l').
Proof.
  induction 1 as [|[s c] [s' c'] l l' [E H] _ IH]; [constructor|]. cbn [fst snd] in E, H.
  destruct E; cbn [statics]; [constructor; auto|exact IH].
Qed.
Lemma renkid_dynamics l l' : Forall2 renkid l l' ->
  Forall2 (fun x y : Param * X => ren_param (fst x) (fst y) /\ Q (snd x) (snd y)) (dynamic_children l) (dynamic_children l').
Proof.
  induction 1 as [|[s c] [s' c'] l l' [E H] _ IH]; [constructor|]. cbn [fst snd] in E, H.
  destruct E; cbn [dynamic_children]; [exact IH|constructor; auto].
Qed.
Lemma renkid_least l l' : length l <= 1 ->
  Forall2 (fun x y : Param * X => ren_param (fst x) (fst y) /\ Q (snd x) (snd y)) l l' ->
  match least_dynamic l, least_dynamic l' with
  | Some x, Some y => ren_param (fst x) (fst y) /\ Q (snd x) (snd y)
  | None, None => True
  | _, _ => False
  end.
Proof.
  intros Hl Hf. inversion Hf as [|[p x] [p' x'] l0 l0' H Hf']; subst; [exact I|].
  inversion Hf'; subst; [exact H|]. cbn [length] in Hl. lia.
Qed.
End Kids.

Section Search.
Context {T E : Type}.
Variable parse : str -> bytes -> T + E.
Notation tfind := (tree_find parse).
Definition ren_args (a a' : @args T) : Prop :=
  Forall2 (fun x y : Param * T => ren_param (fst x) (fst y) /\ snd x = snd y) a a'.
Lemma ren_args_app a a' b b' : ren_args a a' -> ren_args b b' -> ren_args (a ++ b) (a' ++ b').
Proof. apply Forall2_app. Qed.
Definition ren_found (f f' : found T E) : Prop :=
  match f, f' with
  | Found b q a, Found b' q' a' =>
      Forall2 ren_res (rt_resources b) (rt_resources b') /\ Forall2 ren_param q q' /\ ren_args a a'
  | Nothing, Nothing | Stop, Stop => True
  | Bad p e, Bad p' e' => ren_param p p' /\ e = e'
  | _, _ => False
  end.
Lemma ren_route r r' q q' a a' : ren_res r r' -> Forall2 ren_param q q' -> ren_args a a' ->
  renamed_value R (route_for r q a) (route_for r' q' a').
Proof.
  intros (_ & E2 & E3 & _ & Hq') Hq Ha. unfold route_for, renamed_value. cbn [rv_modules rv_name rv_fields].
  rewrite E2, E3. split; [reflexivity|]. split; [reflexivity|]. apply Forall2_app.
  - induction Ha as [|[p x] [p' x'] a a' [[H1 H2] H3] _ IH]; [constructor|]. cbn [map fst snd] in *. constructor; [|exact IH].
    cbn [fst snd]. rewrite H2, H3. auto.
  - assert (H : Forall2 ren_param (q ++ r_query r) (q' ++ r_query r')) by (apply Forall2_app; assumption).
    induction H as [|p p' l l' [H1 _] _ IH]; [constructor|]. cbn [map]. constructor; [auto|exact IH].
Qed.
Lemma ren_answer method rs rs' q q' a a' : Forall2 ren_res rs rs' -> Forall2 ren_param q q' -> ren_args a a' ->
  renamed_answer (E := E) R (answer method rs q a) (answer method rs' q' a').
Proof.
  intros Hr Hq Ha. unfold answer. induction Hr as [|r r' rs rs' H _ IH]; [exact I|]. cbn [find].
  pose proof H as (E1 & _ & _ & E4 & _). rewrite <- E1. destruct (str_eqb method (method_display (r_method r))); [|exact IH].
  rewrite <- E4. destruct (r_is_redirect r); cbn [renamed_answer]; apply ren_route; assumption.
Qed.
Lemma ren_finish method f f' : ren_found f f' -> renamed_answer R (finish method f) (finish method f').
Proof.
  destruct f as [b q a| |p e|], f' as [b' q' a'| |p' e'|]; cbn [ren_found finish]; try contradiction; auto;
    [|intros [[H _] ->]; split; [exact H|reflexivity]].
  intros (H1 & H2 & H3). apply ren_answer; assumption.
Qed.
Definition ren_rel (x y : Routes * finder) : Prop :=
  Forall2 ren_res (rt_resources (fst x)) (rt_resources (fst y)) /\ Forall2 ren_param (rt_query (fst x)) (rt_query (fst y)) /\
  forall q q' a a' rest, Forall2 ren_param q q' -> ren_args a a' -> ren_found (snd x q a rest) (snd y q' a' rest).
Lemma ren_go x y q q' a a' tail : ren_rel x y -> Forall2 ren_param q q' -> ren_args a a' ->
  ren_found (go_in (fst x) (snd x) q a tail) (go_in (fst y) (snd y) q' a' tail).
Proof.
  intros (H1 & H2 & H3) Hq Ha. destruct tail as [|c t]; cbn [go_in].
  - unfold here. pose proof (Forall2_app Hq H2) as Hq2.
    destruct (rt_resources (fst x)) as [|r l] eqn:Ex, (rt_resources (fst y)) as [|r' l'] eqn:Ey; try solve [inversion H1];
      [exact I|]. cbn [ren_found]. rewrite Ex, Ey. auto.
  - destruct (N.eqb c c_slash); [apply H3; assumption|exact I].
Qed.
Lemma ren_dyn p p' x y q q' a a' rest : ren_param p p' -> ren_rel x y -> Forall2 ren_param q q' -> ren_args a a' ->
  ren_found (find_dyn parse p (fst x) (snd x) q a rest) (find_dyn parse p' (fst y) (snd y) q' a' rest).
Proof.
  intros Hp H Hq Ha. unfold find_dyn. destruct (segment rest) as [seg tail]. destruct (utf8_valid seg); [|exact I].
  pose proof Hp as [_ Ht]. rewrite <- Ht. destruct (parse (p_typ p) seg); [|split; [exact Hp|reflexivity]].
  apply ren_go; [exact H|exact Hq|]. apply ren_args_app; [exact Ha|]. constructor; [auto|constructor].
Qed.
Lemma ren_stat l l' q q' a a' rest : Forall2 ren_param q q' -> ren_args a a' ->
  Forall2 (fun x y : str * (Routes * finder) => fst x = fst y /\ ren_rel (snd x) (snd y)) l l' ->
  ren_found (find_stat l q a rest) (find_stat l' q' a' rest).
Proof.
  intros Hq Ha. induction 1 as [|[s [c f]] [s' [c' f']] l l' [E1 H] _ IH]; [exact I|]. cbn [fst snd] in E1, H. subst s'.
  cbn [find_stat]. destruct (after_segment s rest) as [tail|]; [exact (ren_go _ _ q q' a a' tail H Hq Ha)|exact IH].
Qed.
Lemma find_renamed : forall b b', every_block one_dynamic b -> renamed R b b' -> forall q q' a a' rest,
  Forall2 ren_param q q' -> ren_args a a' -> ren_found (tfind b q a rest) (tfind b' q' a' rest).
Proof.
  induction b as [rs ch qs IH] using Routes_ind'. intros b' Ho H q q' a a' rest Hq Ha.
  inversion H as [? rs' ? qs' ? ch' HP HQ HF]; subst.
  set (step := fun nr : PathSegment * Routes => match nr with (seg, child) => (seg, (child, tfind child)) end).
  assert (Hone : length (dynamic_children (map step ch)) <= 1).
  { pose proof (every_block_here _ _ Ho) as H1. unfold one_dynamic in H1. cbn [rt_routes] in H1.
    replace (length (dynamic_children (map step ch))) with (length (dynamic_children ch)); [exact H1|].
    clear. induction ch as [|[[s|p] c] ch IH]; [reflexivity|exact IH|]. cbn. f_equal. exact IH. }
  assert (HK : Forall2 (renkid ren_rel) (map step ch) (map step ch')).
  { assert (Ho' : forall s c, In (s, c) ch -> every_block one_dynamic c) by (intros s c Hin; exact (every_block_child _ _ _ _ Ho Hin)).
    clear - IH HF Ho'. revert ch' HF. induction IH as [|[s c] ch Hx _ IHch]; intros ch' HF.
    - inversion HF. constructor.
    - inversion HF as [|? [s' c'] ? l [E1 E2] HF']; subst. cbn [fst snd] in *. constructor.
      + split; [exact E1|]. cbn [snd fst]. pose proof (Hx _ (Ho' s c (or_introl eq_refl)) E2) as Hx'.
        inversion E2; subst. split; [assumption|]. split; [assumption|]. exact Hx'.
      + apply IHch; [|exact HF']. intros s0 c0 Hin. apply (Ho' s0 c0 (or_intror Hin)). }
  cbn [tree_find]. fold step. set (K := map step ch) in *. set (K' := map step ch') in *. clearbody K K'. clear - HP HQ HK Hone Hq Ha.
  pose proof (renkid_least _ _ _ Hone (renkid_dynamics _ _ _ HK)) as Hd. pose proof (renkid_statics _ _ _ HK) as Hs.
  pose proof (Forall2_app Hq HQ) as Hq2. unfold finder in *.
  assert (Hrest : ren_found
    match least_dynamic (dynamic_children K), statics K with
    | None, ss => find_stat ss (q ++ qs) a rest
    | Some (p, (child, run)), [(s, (child', run'))] =>
        if (length s =? 1)%nat && (length rest =? 0)%nat then Stop
        else match strip s rest with Some tail => go_in child' run' (q ++ qs) a tail | None => find_dyn parse p child run (q ++ qs) a rest end
    | Some (p, (child, run)), _ => find_dyn parse p child run (q ++ qs) a rest
    end
    match least_dynamic (dynamic_children K'), statics K' with
    | None, ss => find_stat ss (q' ++ qs') a' rest
    | Some (p, (child, run)), [(s, (child', run'))] =>
        if (length s =? 1)%nat && (length rest =? 0)%nat then Stop
        else match strip s rest with Some tail => go_in child' run' (q' ++ qs') a' tail | None => find_dyn parse p child run (q' ++ qs') a' rest end
    | Some (p, (child, run)), _ => find_dyn parse p child run (q' ++ qs') a' rest
    end).
  { destruct (least_dynamic (dynamic_children K)) as [[p [c f]]|], (least_dynamic (dynamic_children K')) as [[p' [c' f']]|];
      try contradiction; [|apply ren_stat; assumption]. destruct Hd as [Hp Hd]. cbn [fst] in Hp.
    pose proof (ren_dyn p p' _ _ _ _ a a' rest Hp Hd Hq2 Ha) as Hdyn. cbn [fst snd] in Hdyn.
    destruct Hs as [|[s [c1 f1]] [s' [c1' f1']] l l' [E1 H1] Hs]; [exact Hdyn|]. cbn [fst snd] in E1, H1. subst s'.
    destruct Hs; [|exact Hdyn]. destruct ((length s =? 1)%nat && (length rest =? 0)%nat); [exact I|].
    destruct (strip s rest) as [tail|]; [exact (ren_go _ _ _ _ a a' tail H1 Hq2 Ha)|exact Hdyn]. }
  destruct rest; [|destruct HP; exact Hrest]. pose proof HP as HP'. destruct HP; [exact Hrest|]. cbn [ren_found rt_resources]. auto.
Qed.
End Search.
Lemma match_renamed {T E} (rt : runtime T E) c c' path method : runnable c -> runnable c' ->
  every_block one_dynamic (c_routes c) -> renamed R (c_routes c) (c_routes c') ->
  exists r r', match_route rt c path method = Some r /\ match_route rt c' path method = Some r' /\ renamed_answer R r r'.
Proof.
  intros Hc Hc' Ho H. rewrite !match_find by assumption. eexists _, _. split; [reflexivity|]. split; [reflexivity|].
  apply ren_finish, find_renamed; [assumption|assumption|constructor|constructor].
Qed.
End Rename.

(** ** Whether code is generated *)
Lemma keyed_nodup {K} (l : list (K * list (list K))) : (forall kl, In kl l -> In [] (snd kl)) ->
  NoDup (concat (map (fun kl => map (cons (fst kl)) (snd kl)) l)) <->
  NoDup (map fst l) /\ Forall (fun kl => NoDup (snd kl)) l.
Proof.
  induction l as [|[k L] l IH]; intros H0; cbn [map concat fst snd].
  - split; [intros _; split; constructor|constructor].
  - rewrite NoDup_app_iff, IH by (intros kl Hkl; apply H0; right; exact Hkl).
    assert (Hin : forall w, In w (concat (map (fun kl => map (cons (fst kl)) (snd kl)) l)) <->
                     exists k' L' v, In (k', L') l /\ In v L' /\ w = k' :: v).
    { intros w. rewrite in_concat. split.
      - intros (x & Hx & Hw). apply in_map_iff in Hx as ([k' L'] & <- & Hl). cbn [fst snd] in Hw.
        apply in_map_iff in Hw as (v & <- & Hv). exists k', L', v. auto.
      - intros (k' & L' & v & Hl & Hv & ->). exists (map (cons k') L'). split; [|apply in_map, Hv].
        apply in_map_iff. exists (k', L'). auto. }
    split.
    + intros (H1 & (H2 & H3) & H4). split.
      * constructor; [|exact H2]. intros Hk. apply in_map_iff in Hk as ([k' L'] & E & Hl). cbn [fst] in E. subst k'.
        apply (H4 [k]); [apply (in_map (cons k)), (H0 (k, L)); left; reflexivity|]. apply Hin. exists k, L', [].
        split; [exact Hl|]. split; [apply (H0 (k, L')); right; exact Hl|reflexivity].
      * constructor; [|exact H3]. cbn [snd]. exact (NoDup_map_inv _ _ H1).
    + intros (H1 & H2). inversion H1 as [|? ? Hk H1']; subst. inversion H2 as [|? ? Hl H2']; subst. cbn [snd] in Hl.
      split; [|split; [split; assumption|]].
      * apply FinFun.Injective_map_NoDup; [|exact Hl]. intros x y E. injection E as E. exact E.
      * intros w Hw Hw'. apply in_map_iff in Hw as (v & <- & _). apply Hin in Hw' as (k' & L' & v' & Hl' & _ & E).
        injection E as -> _. apply Hk. apply (in_map fst) in Hl'. exact Hl'.
Qed.
Lemma paths_block rs ch qs : block_paths_untyped (mkRoutes rs ch qs) =
  [] :: concat (map (fun kl => map (cons (fst kl)) (snd kl))
                 (map (fun nr : PathSegment * Routes => (untyped (fst nr), block_paths_untyped (snd nr))) ch)).
Proof.
  unfold block_paths_untyped. cbn [blocks map fst]. f_equal. rewrite concat_map, !map_map. f_equal. apply map_ext.
  intros [s c]. rewrite !map_map. cbn [fst snd]. rewrite map_map. apply map_ext. intros [[p q] x]. reflexivity.
Qed.
Lemma paths_root b : In [] (block_paths_untyped b).
Proof. destruct b as [rs ch qs]. rewrite paths_block. left. reflexivity. Qed.
Lemma paths_nodup rs ch qs : NoDup (block_paths_untyped (mkRoutes rs ch qs)) <->
  NoDup (map (fun nr : PathSegment * Routes => untyped (fst nr)) ch) /\
  Forall (fun nr : PathSegment * Routes => NoDup (block_paths_untyped (snd nr))) ch.
Proof.
  rewrite paths_block, NoDup_cons_iff.
  set (l := map (fun nr : PathSegment * Routes => (untyped (fst nr), block_paths_untyped (snd nr))) ch).
  assert (Hr : forall kl, In kl l -> In [] (snd kl)).
  { intros kl Hkl. apply in_map_iff in Hkl as (nr & <- & _). apply paths_root. }
  rewrite (keyed_nodup l Hr). unfold l at 2 3. rewrite map_map, Forall_map. cbn [fst snd]. split; [tauto|].
  intros H. split; [|exact H]. rewrite in_concat. intros (x & Hx & Hw). apply in_map_iff in Hx as (kl & <- & _).
  apply in_map_iff in Hw as (v & E & _). discriminate E.
Qed.
Section Generated.
Variable R : str -> str -> Prop.
Notation back := (fun x y => R y x).
Lemma renamed_untyped {X} (l l' : list (PathSegment * X)) : length (dynamic_children l) <= 1 ->
  Forall2 (fun x y => renamed_segment R (fst x) (fst y)) l l' ->
  NoDup (map (fun nr => untyped (fst nr)) l) -> NoDup (map (fun nr => untyped (fst nr)) l').
Proof.
  intros Ho H. induction H as [|[s c] [s' c'] l l' Hs Hl IH]; intros Hn; [constructor|]. cbn [map fst] in *.
  inversion Hn as [|? ? Hi Hn']; subst.
  assert (Hst : forall t, In (inl t) (map (fun nr => untyped (fst nr)) l') -> In (inl t) (map (fun nr => untyped (fst nr)) l)).
  { clear - Hl. induction Hl as [|[s c] [s' c'] l l' Hs Hl IH]; intros t Ht; [contradiction|]. cbn [map fst] in *.
    destruct Ht as [E|Ht]; [|right; apply IH, Ht]. left. destruct Hs; [exact E|discriminate E]. }
  destruct Hs as [t|p p' Hp]; cbn [dynamic_children length] in Ho.
  - constructor; [intros Ht; apply Hi, Hst, Ht|apply IH; assumption].
  - constructor; [|apply IH; [lia|exact Hn']]. assert (Hd : dynamic_children l = []) by (destruct (dynamic_children l); [reflexivity|cbn in Ho; lia]).
    clear - Hl Hd. intros Hin. induction Hl as [|[s c] [s' c'] l l' Hs Hl IH]; [contradiction|]. cbn [map fst] in *.
    destruct Hs; [|discriminate Hd]. destruct Hin as [E|Hin]; [discriminate E|exact (IH Hd Hin)].
Qed.
Lemma renamed_paths : forall b b', every_block one_dynamic b -> renamed R b b' ->
  NoDup (block_paths_untyped b) -> NoDup (block_paths_untyped b').
Proof.
  induction b as [rs ch qs IH] using Routes_ind'. intros b' Ho H Hn. inversion H as [? rs' ? qs' ? ch' _ _ HF]; subst.
  rewrite paths_nodup in Hn |- *. destruct Hn as [H1 H2].
  pose proof (every_block_here _ _ Ho) as Hh. unfold one_dynamic in Hh. cbn [rt_routes] in Hh. split.
  - refine (renamed_untyped ch ch' Hh _ H1). clear - HF. induction HF as [|x y l l' [Hx _] _ IH]; constructor; assumption.
  - assert (Ho' : forall s c, In (s, c) ch -> every_block one_dynamic c) by (intros s c Hin; exact (every_block_child _ _ _ _ Ho Hin)).
    clear - IH HF H2 Ho'. revert H2. induction HF as [|[s c] [s' c'] l l' [_ Hx] _ IHl]; intros H2; [constructor|].
    inversion IH as [|? ? I1 I2]; subst. inversion H2 as [|? ? N1 N2]; subst. constructor; cbn [fst snd] in *.
    + apply (I1 _ (Ho' s c (or_introl eq_refl)) Hx N1).
    + apply IHl; [exact I2| |exact N2]. intros s0 c0 Hin. exact (Ho' s0 c0 (or_intror Hin)).
Qed.
Lemma renamed_blocks : forall b b', renamed R b b' -> Forall2 (fun e e' => renamed R (snd e) (snd e')) (blocks b) (blocks b').
Proof.
  induction b as [rs ch qs IH] using Routes_ind'. intros b' H. pose proof H as Hb. inversion H as [? rs' ? qs' ? ch' _ _ HF]; subst.
  cbn [blocks]. constructor; [exact Hb|]. clear - IH HF. revert IH.
  induction HF as [|[s c] [s' c'] l l' [_ Hx] _ IHl]; intros IH; cbn [map concat]; [constructor|].
  inversion IH as [|? ? I1 I2]; subst. apply Forall2_app; [|apply IHl, I2]. cbn [snd] in *. specialize (I1 _ Hx).
  clear - I1. induction I1 as [|[[p q] x] [[p' q'] x'] l l' H _ IH]; cbn [map]; [constructor|]. constructor; assumption.
Qed.
Lemma renamed_names b b' : renamed R b b' -> struct_names b = struct_names b'.
Proof.
  intros H. unfold struct_names. apply renamed_blocks in H. f_equal.
  induction H as [|[pq x] [pq' x'] l l' Hx _ IH]; [reflexivity|]. cbn [map snd] in *. f_equal; [|exact IH].
  destruct Hx as [rs rs' ? ? ? ? Hr _ _]. cbn [rt_resources]. clear - Hr.
  induction Hr as [|r r' rs rs' (_ & E2 & E3 & E4 & _) _ IH]; [reflexivity|]. cbn [filter]. rewrite <- E4.
  destruct (r_is_redirect r); cbn [negb map]; rewrite ?E2, ?E3; [exact IH|f_equal; exact IH].
Qed.
Lemma renamed_generates c c' : every_block one_dynamic (c_routes c) -> renamed R (c_routes c) (c_routes c') ->
  generates c -> generates c'.
Proof.
  intros Ho H (H1 & H2 & H3). split; [|split].
  - rewrite <- (renamed_names _ _ H). exact H1.
  - exact (renamed_paths _ _ Ho H H2).
  - intros (E1 & E2 & E3). apply H3. clear - H E1 E2 E3. unfold empty_block.
    inversion H as [rs rs' qs qs' ch ch' Hr Hq Hc Ex Ey]. rewrite <- Ey in *. cbn [rt_query rt_resources rt_routes] in *.
    subst. inversion Hr. inversion Hq. inversion Hc. auto.
Qed.
Lemma renamed_sym : forall b b', renamed R b b' -> renamed back b' b.
Proof.
  assert (Hps : forall qs qs', Forall2 (renamed_param R) qs qs' -> Forall2 (renamed_param back) qs' qs).
  { induction 1 as [|p p' l l' [H1 H2] _ IH]; constructor; [split; [exact H1|symmetry; exact H2]|exact IH]. }
  induction b as [rs ch qs IH] using Routes_ind'. intros b' H. inversion H as [? rs' ? qs' ? ch' Hr Hq HF]; subst.
  constructor; [|apply Hps, Hq|].
  - clear - Hr Hps. induction Hr as [|r r' l l' (E1 & E2 & E3 & E4 & E5) _ IH]; constructor; [|exact IH].
    unfold renamed_resource. rewrite E1, E2, E3, E4. auto 6.
  - clear - IH HF. revert IH. induction HF as [|[s c] [s' c'] l l' [Hs Hx] _ IHl]; intros IH; [constructor|].
    inversion IH as [|? ? I1 I2]; subst. constructor; [|apply IHl, I2]. cbn [fst snd] in *. split; [|apply I1, Hx].
    destruct Hs as [t|p p' [H1 H2]]; constructor. split; [exact H1|symmetry; exact H2].
Qed.
Lemma renamed_one : forall b b', renamed R b b' -> every_block one_dynamic b -> every_block one_dynamic b'.
Proof.
  intros b b' H Ho p q x Hx. apply blocks_at in Hx. apply renamed_blocks in H.
  assert (Hy : exists e, In e (blocks b) /\ renamed R (snd e) x).
  { clear - Hx H. induction H as [|e e' l l' He _ IH]; [contradiction|]. destruct Hx as [->|Hx].
    - exists e. split; [left; reflexivity|exact He].
    - destruct (IH Hx) as (y & Hy & Hr). exists y. split; [right; exact Hy|exact Hr]. }
  destruct Hy as ([[p0 q0] y] & Hy & Hr). cbn [snd] in Hr. apply blocks_at in Hy. specialize (Ho _ _ _ Hy).
  unfold one_dynamic in *. destruct Hr as [? ? ? ? ch ch' _ _ HF]. cbn [rt_routes] in *.
  replace (length (dynamic_children ch')) with (length (dynamic_children ch)); [exact Ho|]. clear - HF.
  induction HF as [|[s c] [s' c'] l l' [Hs _] _ IH]; [reflexivity|]. cbn [fst] in Hs.
  destruct Hs; cbn [dynamic_children length]; [exact IH|f_equal; exact IH].
Qed.
End Generated.
Lemma renamed_codegen R c c' : every_block one_dynamic (c_routes c) -> renamed R (c_routes c) (c_routes c') ->
  snd (codegen c) = ROk tt <-> snd (codegen c') = ROk tt.
Proof.
  assert (G : forall R c c', every_block one_dynamic (c_routes c) -> renamed R (c_routes c) (c_routes c') ->
    snd (codegen c) = ROk tt -> snd (codegen c') = ROk tt).
  { clear. intros R c c' Ho H Hc. destruct (codegen_status c) as [[Hg _]|[_ (p & Hp)]]; [|congruence].
    destruct (codegen_status c') as [[_ Hg']|[Hg' _]]; [exact Hg'|]. destruct Hg'. exact (renamed_generates R c c' Ho H Hg). }
  intros Ho H. split; [exact (G R c c' Ho H)|]. exact (G _ c' c (renamed_one R _ _ H Ho) (renamed_sym R _ _ H)).
Qed.
