(** * VerbThms: the order of the resources of a block *)
From Coq Require Import Permutation.
From Verif Require Import Base Core Flat MiniRust Gen Spec SpecMatch SpecGen SpecCompile SpecVerbs BaseFacts NodeFacts
  MatchFacts MatchThms CompileFacts FlatFacts GenThms.

(** ** Resources by verb *)
Lemma by_verb_permutation rs rs' : same_by_verb rs rs' -> Permutation rs rs'.
Proof.
  intros H.
  assert (G : forall l, Permutation l (filter (for_verb Get) l ++ filter (for_verb Post) l ++ filter (for_verb Put) l ++ filter (for_verb Delete) l)).
  { induction l as [|r l IH]; [constructor|]. cbn [filter].
    assert (Hf : forall m, for_verb m r =
      match m, r_method r with Get, Get | Post, Post | Put, Put | Delete, Delete => true | _, _ => false end) by reflexivity.
    rewrite !Hf. clear Hf. destruct (r_method r); cbn [app].
    - apply perm_skip, IH.
    - apply Permutation_cons_app, IH.
    - rewrite app_assoc. apply Permutation_cons_app. rewrite <- app_assoc. apply IH.
    - rewrite !app_assoc. apply Permutation_cons_app. rewrite <- !app_assoc. apply IH. }
  rewrite (G rs), (G rs'), !H. apply Permutation_refl.
Qed.
Lemma related_mono (P Q : list Resource -> list Resource -> Prop) : (forall rs rs', P rs rs' -> Q rs rs') ->
  forall b b', related P b b' -> related Q b b'.
Proof.
  intros HPQ. induction b as [rs ch qs IH] using Routes_ind'. intros b' H. inversion H as [? rs' ? ? ch' HP HF]; subst.
  constructor; [apply HPQ, HP|]. clear - IH HF. revert ch' HF. induction IH as [|x ch Hx _ IHch]; intros ch' HF.
  - inversion HF. constructor.
  - inversion HF as [|? y ? l [E1 E2] HF']; subst. constructor; [split; [exact E1|apply Hx, E2]|apply IHch, HF'].
Qed.
Lemma related_sym (P : list Resource -> list Resource -> Prop) : (forall rs rs', P rs rs' -> P rs' rs) ->
  forall b b', related P b b' -> related P b' b.
Proof.
  intros HP. induction b as [rs ch qs IH] using Routes_ind'. intros b' H. inversion H as [? rs' ? ? ch' Hr HF]; subst.
  constructor; [apply HP, Hr|]. clear - IH HF. revert ch' HF. induction IH as [|x ch Hx _ IHch]; intros ch' HF.
  - inversion HF. constructor.
  - inversion HF as [|? y ? l [E1 E2] HF']; subst. constructor; [split; [symmetry; exact E1|apply Hx, E2]|apply IHch, HF'].
Qed.
Lemma find_filter {A} (f : A -> bool) l : find f l = hd_error (filter f l).
Proof. induction l as [|x l IH]; [reflexivity|]. cbn [find filter]. destruct (f x); [reflexivity|exact IH]. Qed.
Lemma by_verb_first rs rs' : same_by_verb rs rs' -> same_first rs rs'.
Proof. intros H m. rewrite !find_filter, H. reflexivity. Qed.
Lemma verb_of (method : bytes) : (exists m, method = method_display m) \/ forall m, str_eqb method (method_display m) = false.
Proof.
  destruct (str_eqb_spec method (method_display Get)) as [->|N1]; [left; exists Get; reflexivity|].
  destruct (str_eqb_spec method (method_display Post)) as [->|N2]; [left; exists Post; reflexivity|].
  destruct (str_eqb_spec method (method_display Put)) as [->|N3]; [left; exists Put; reflexivity|].
  destruct (str_eqb_spec method (method_display Delete)) as [->|N4]; [left; exists Delete; reflexivity|].
  right. intros m. destruct (str_eqb_spec method (method_display m)) as [E|]; [|reflexivity]. destruct m; contradiction.
Qed.
Lemma answer_by_verb {T E} method rs rs' q (a : @args T) : same_first rs rs' ->
  answer (E := E) method rs q a = answer method rs' q a.
Proof.
  intros H. unfold answer. replace (find (fun r => str_eqb method (method_display (r_method r))) rs)
    with (find (fun r => str_eqb method (method_display (r_method r))) rs'); [reflexivity|].
  destruct (verb_of method) as [(m & ->)|Hn].
  - assert (G : forall l, find (fun r => str_eqb (method_display m) (method_display (r_method r))) l = find (for_verb m) l).
    { induction l as [|r l IH]; [reflexivity|]. cbn [find]. rewrite IH.
      replace (str_eqb (method_display m) (method_display (r_method r))) with (for_verb m r); [reflexivity|].
      unfold for_verb. destruct m, (r_method r); reflexivity. }
    rewrite !G, H. reflexivity.
  - assert (G : forall l, find (fun r => str_eqb method (method_display (r_method r))) l = None).
    { induction l as [|r l IH]; [reflexivity|]. cbn [find]. rewrite Hn. exact IH. }
    rewrite !G. reflexivity.
Qed.

(** ** The search *)
Section Kids.
Context {X : Type}.
Variable R : X -> X -> Prop.
Definition kid (x y : PathSegment * X) : Prop := fst x = fst y /\ R (snd x) (snd y).
Lemma kid_statics l l' : Forall2 kid l l' -> Forall2 (fun x y : str * X => fst x = fst y /\ R (snd x) (snd y)) (statics l) (statics l').
Proof.
  induction 1 as [|[s c] [s' c'] l l' [E H] _ IH]; [constructor|]. cbn [fst snd] in E, H. subst s'.
  destruct s as [s|p]; cbn [statics]; [constructor; auto|exact IH].
Qed.
Lemma kid_dynamics l l' : Forall2 kid l l' ->
  Forall2 (fun x y : Param * X => fst x = fst y /\ R (snd x) (snd y)) (dynamic_children l) (dynamic_children l').
Proof.
  induction 1 as [|[s c] [s' c'] l l' [E H] _ IH]; [constructor|]. cbn [fst snd] in E, H. subst s'.
  destruct s as [s|p]; cbn [dynamic_children]; [exact IH|constructor; auto].
Qed.
Lemma kid_least l l' : Forall2 (fun x y : Param * X => fst x = fst y /\ R (snd x) (snd y)) l l' ->
  match least_dynamic l, least_dynamic l' with
  | None, None => True
  | Some (p, c), Some (p', c') => p = p' /\ R c c'
  | _, _ => False
  end.
Proof.
  induction 1 as [|[s c] [s' c'] l l' [E H] _ IH]; [exact I|]. cbn [fst snd] in E, H. subst s'. cbn [least_dynamic].
  destruct (least_dynamic l) as [[p1 c1]|], (least_dynamic l') as [[p1' c1']|]; try contradiction; [|auto].
  destruct IH as [<- IH]. destruct (str_compare (p_name p1) (p_name s)); auto.
Qed.
End Kids.

Section Search.
Context {T E : Type}.
Variable parse : str -> bytes -> T + E.
Notation tfind := (tree_find parse).
(** The searches end alike. *)
Definition alike (f f' : found T E) : Prop :=
  match f, f' with
  | Found b q a, Found b' q' a' => same_first (rt_resources b) (rt_resources b') /\ q = q' /\ a = a'
  | Nothing, Nothing | Stop, Stop => True
  | Bad p e, Bad p' e' => p = p' /\ e = e'
  | _, _ => False
  end.
Lemma alike_finish method f f' : alike f f' -> finish method f = finish method f'.
Proof.
  destruct f as [b q a| |p e|], f' as [b' q' a'| |p' e'|]; cbn; try contradiction; auto.
  - intros (H & -> & ->). apply answer_by_verb, H.
  - intros [-> ->]. reflexivity.
Qed.
Definition child_rel (x y : Routes * finder) : Prop :=
  same_first (rt_resources (fst x)) (rt_resources (fst y)) /\ rt_query (fst x) = rt_query (fst y) /\
  forall q a rest, alike (snd x q a rest) (snd y q a rest).
Lemma by_verb_nil rs rs' : same_first rs rs' -> rs = [] -> rs' = [].
Proof.
  intros H ->. destruct rs' as [|r rs']; [reflexivity|]. specialize (H (r_method r)). cbn [find] in H.
  unfold for_verb in H. destruct (r_method r); discriminate H.
Qed.
Lemma alike_go x y q a tail : child_rel x y -> alike (go_in (fst x) (snd x) q a tail) (go_in (fst y) (snd y) q a tail).
Proof.
  intros (H1 & H2 & H3). destruct tail as [|c t]; cbn [go_in].
  - rewrite H2. unfold here. destruct (rt_resources (fst x)) eqn:Ex, (rt_resources (fst y)) eqn:Ey; cbn.
    + exact I.
    + pose proof (by_verb_nil _ _ H1 eq_refl) as Hn. discriminate Hn.
    + pose proof (by_verb_nil _ _ (fun m => eq_sym (H1 m)) eq_refl) as Hn. discriminate Hn.
    + rewrite Ex, Ey. auto.
  - destruct (N.eqb c c_slash); [apply H3|exact I].
Qed.
Lemma alike_dyn p x y q a rest : child_rel x y ->
  alike (find_dyn parse p (fst x) (snd x) q a rest) (find_dyn parse p (fst y) (snd y) q a rest).
Proof.
  intros H. unfold find_dyn. destruct (segment rest) as [seg tail]. destruct (utf8_valid seg); [|exact I].
  destruct (parse (p_typ p) seg); [apply alike_go, H|cbn; auto].
Qed.
Lemma alike_stat l l' q a rest :
  Forall2 (fun x y : str * (Routes * finder) => fst x = fst y /\ child_rel (snd x) (snd y)) l l' ->
  alike (find_stat l q a rest) (find_stat l' q a rest).
Proof.
  induction 1 as [|[s [c f]] [s' [c' f']] l l' [E1 H] _ IH]; [exact I|]. cbn [fst snd] in E1, H. subst s'. cbn [find_stat].
  destruct (after_segment s rest) as [tail|]; [exact (alike_go _ _ q a tail H)|exact IH].
Qed.
Lemma find_by_verb : forall b b', related same_first b b' -> forall q a rest, alike (tfind b q a rest) (tfind b' q a rest).
Proof.
  induction b as [rs ch qs IH] using Routes_ind'. intros b' H q a rest. inversion H as [? rs' ? ? ch' HP HF]; subst.
  assert (HK : Forall2 (kid child_rel)
    (map (fun nr : PathSegment * Routes => match nr with (seg, child) => (seg, (child, tfind child)) end) ch)
    (map (fun nr : PathSegment * Routes => match nr with (seg, child) => (seg, (child, tfind child)) end) ch')).
  { clear - IH HF. revert ch' HF. induction IH as [|[s c] ch Hx _ IHch]; intros ch' HF.
    - inversion HF. constructor.
    - inversion HF as [|? [s' c'] ? l [E1 E2] HF']; subst. cbn [fst snd] in *. subst s'. constructor; [|apply IHch, HF'].
      split; [reflexivity|]. cbn [snd fst]. inversion E2; subst. repeat split; auto. apply Hx, E2. }
  cbn [tree_find]. set (K := map _ ch) in *. set (K' := map _ ch') in *. clearbody K K'. clear - HP HK.
  pose proof (kid_least _ _ _ (kid_dynamics _ _ _ HK)) as Hd. pose proof (kid_statics _ _ _ HK) as Hs.
  unfold finder in *.
  assert (Hrest : alike
    match least_dynamic (dynamic_children K), statics K with
    | None, ss => find_stat ss (q ++ qs) a rest
    | Some (p, (child, run)), [(s, (child', run'))] =>
        if (length s =? 1)%nat && (length rest =? 0)%nat then Stop
        else match strip s rest with Some tail => go_in child' run' (q ++ qs) a tail | None => find_dyn parse p child run (q ++ qs) a rest end
    | Some (p, (child, run)), _ => find_dyn parse p child run (q ++ qs) a rest
    end
    match least_dynamic (dynamic_children K'), statics K' with
    | None, ss => find_stat ss (q ++ qs) a rest
    | Some (p, (child, run)), [(s, (child', run'))] =>
        if (length s =? 1)%nat && (length rest =? 0)%nat then Stop
        else match strip s rest with Some tail => go_in child' run' (q ++ qs) a tail | None => find_dyn parse p child run (q ++ qs) a rest end
    | Some (p, (child, run)), _ => find_dyn parse p child run (q ++ qs) a rest
    end).
  { destruct (least_dynamic (dynamic_children K)) as [[p [c f]]|], (least_dynamic (dynamic_children K')) as [[p' [c' f']]|];
      try contradiction; [|apply alike_stat, Hs]. destruct Hd as [<- Hd].
    pose proof (alike_dyn p _ _ (q ++ qs) a rest Hd) as Hdyn. cbn [fst snd] in Hdyn.
    destruct Hs as [|[s [c1 f1]] [s' [c1' f1']] l l' [E1 H1] Hs]; [exact Hdyn|]. cbn [fst snd] in E1, H1. subst s'.
    destruct Hs; [|exact Hdyn]. destruct ((length s =? 1)%nat && (length rest =? 0)%nat); [exact I|].
    destruct (strip s rest) as [tail|]; [exact (alike_go _ _ (q ++ qs) a tail H1)|exact Hdyn]. }
  destruct rs as [|r rs], rs' as [|r' rs'].
  - exact Hrest.
  - pose proof (by_verb_nil _ _ HP eq_refl) as Hn. discriminate Hn.
  - pose proof (by_verb_nil _ _ (fun m => eq_sym (HP m)) eq_refl) as Hn. discriminate Hn.
  - destruct rest; [|exact Hrest]. cbn [alike rt_resources]. auto.
Qed.
End Search.
Lemma match_by_verb {T E} (rt : runtime T E) c c' path method : runnable c -> runnable c' ->
  related same_first (c_routes c) (c_routes c') -> match_route rt c path method = match_route rt c' path method.
Proof.
  intros Hc Hc' H. rewrite !match_find by assumption. f_equal. apply alike_finish, find_by_verb, H.
Qed.

(** ** What compiles *)
Notation shuffled := (related (@Permutation Resource)).
Lemma Forall2_In_l {A B} (R : A -> B -> Prop) l l' : Forall2 R l l' -> forall x, In x l -> exists y, In y l' /\ R x y.
Proof.
  induction 1 as [|x y l l' H _ IH]; intros z Hz; [destruct Hz|]. destruct Hz as [->|Hz].
  - exists y. split; [left; reflexivity|exact H].
  - destruct (IH z Hz) as (w & Hw & Hr). exists w. split; [right; exact Hw|exact Hr].
Qed.
Definition entry_rel (e e' : list PathSegment * list Param * Routes) : Prop := fst e = fst e' /\ shuffled (snd e) (snd e').
Lemma shuffled_blocks : forall b b', shuffled b b' -> Forall2 entry_rel (blocks b) (blocks b').
Proof.
  induction b as [rs ch qs IH] using Routes_ind'. intros b' H. pose proof H as H0. inversion H as [? rs' ? ? ch' HP HF]; subst.
  cbn [blocks]. constructor; [split; [reflexivity|exact H0]|]. clear - IH HF. revert ch' HF.
  induction IH as [|[s c] ch Hx _ IHch]; intros ch' HF.
  - inversion HF. constructor.
  - inversion HF as [|? [s' c'] ? l [E1 E2] HF']; subst. cbn [fst snd] in *. subst s'. cbn [map concat].
    apply Forall2_app; [|apply IHch, HF']. specialize (Hx _ E2). clear - Hx.
    induction Hx as [|[[p q] x] [[p' q'] x'] l l' [E1 E2] _ IH]; constructor; [|exact IH].
    cbn [fst snd] in *. injection E1 as <- <-. split; [reflexivity|exact E2].
Qed.
Lemma shuffled_sym b b' : shuffled b b' -> shuffled b' b.
Proof. apply related_sym. intros rs rs' H. symmetry. exact H. Qed.
Lemma shuffled_block_at b b' p q x : shuffled b b' -> block_at b p q x -> exists x', block_at b' p q x' /\ shuffled x x'.
Proof.
  intros H Hb. apply blocks_at in Hb. destruct (Forall2_In_l _ _ _ (shuffled_blocks _ _ H) _ Hb) as ([[p' q'] x'] & Hi & E1 & E2).
  cbn [fst snd] in *. injection E1 as <- <-. exists x'. split; [apply blocks_at; exact Hi|exact E2].
Qed.
Lemma shuffled_parts b b' : shuffled b b' ->
  Permutation (rt_resources b) (rt_resources b') /\ rt_query b = rt_query b' /\
  Forall2 (fun x y => fst x = fst y /\ shuffled (snd x) (snd y)) (rt_routes b) (rt_routes b').
Proof. intros H. inversion H; subst. auto. Qed.
Lemma Forall2_weaken {A B} (R S : A -> B -> Prop) l l' : (forall x y, R x y -> S x y) -> Forall2 R l l' -> Forall2 S l l'.
Proof. intros H. induction 1; constructor; auto. Qed.
Lemma concat_perm {A} (l l' : list (list A)) : Forall2 (@Permutation A) l l' -> Permutation (concat l) (concat l').
Proof. induction 1 as [|x y l l' H _ IH]; cbn [concat]; [constructor|]. apply Permutation_app; assumption. Qed.
Lemma Forall2_map2 {A B C D} (f : A -> C) (g : B -> D) (R : C -> D -> Prop) l l' :
  Forall2 (fun x y => R (f x) (g y)) l l' -> Forall2 R (map f l) (map g l').
Proof. induction 1; constructor; auto. Qed.
Lemma filter_permutation {A} (f : A -> bool) l l' : Permutation l l' -> Permutation (filter f l) (filter f l').
Proof.
  induction 1 as [|x l l' H IH|x y l|l1 l2 l3 H1 IH1 H2 IH2]; cbn [filter].
  - constructor.
  - destruct (f x); [apply perm_skip|]; exact IH.
  - destruct (f x), (f y); try apply Permutation_refl. apply perm_swap.
  - eapply perm_trans; eassumption.
Qed.
Lemma shuffled_names b b' : shuffled b b' -> Permutation (struct_names b) (struct_names b').
Proof.
  intros H. apply concat_perm, Forall2_map2. eapply Forall2_weaken; [|apply shuffled_blocks, H].
  intros [pq x] [pq' x'] [_ Hx]. cbn [snd]. apply Permutation_map, filter_permutation, (shuffled_parts _ _ Hx).
Qed.
Lemma shuffled_actions b b' : shuffled b b' -> Permutation (config_actions b) (config_actions b').
Proof.
  intros H. apply concat_perm, Forall2_map2. eapply Forall2_weaken; [|apply shuffled_blocks, H].
  intros [[p q] x] [[p' q'] x'] [E1 Hx]. cbn [fst snd] in *. injection E1 as <- <-. cbn [block_actions].
  apply Permutation_map, filter_permutation, (shuffled_parts _ _ Hx).
Qed.
Lemma shuffled_paths b b' : shuffled b b' -> block_paths_untyped b = block_paths_untyped b'.
Proof.
  intros H. unfold block_paths_untyped. apply shuffled_blocks in H.
  induction H as [|e e' l l' [E1 _] _ IH]; [reflexivity|]. cbn [map]. rewrite E1, IH. reflexivity.
Qed.
Lemma shuffled_generates c c' : shuffled (c_routes c) (c_routes c') -> generates c -> generates c'.
Proof.
  intros H (H1 & H2 & H3). split; [|split].
  - eapply Permutation_NoDup; [apply shuffled_names, H|exact H1].
  - rewrite <- (shuffled_paths _ _ H). exact H2.
  - intros (E1 & E2 & E3). apply H3. destruct (shuffled_parts _ _ H) as (P1 & P2 & P3). unfold empty_block.
    rewrite P2. split; [exact E1|]. rewrite E2 in P1. rewrite E3 in P3. split.
    + apply Permutation_nil. symmetry. exact P1.
    + inversion P3. reflexivity.
Qed.
Lemma shuffled_codegen c c' : shuffled (c_routes c) (c_routes c') ->
  snd (codegen c) = ROk tt <-> snd (codegen c') = ROk tt.
Proof.
  assert (G : forall c c', shuffled (c_routes c) (c_routes c') -> snd (codegen c) = ROk tt -> snd (codegen c') = ROk tt).
  { clear. intros c c' H Hc. destruct (codegen_status c) as [[Hg _]|[_ (p & Hp)]]; [|congruence].
    destruct (codegen_status c') as [[_ Hg']|[Hg' _]]; [exact Hg'|]. destruct Hg'. exact (shuffled_generates c c' H Hg). }
  intros H. split; apply G; [exact H|apply shuffled_sym, H].
Qed.

Section Compiles.
Variables c c' : RouteConfig.
Hypothesis H : shuffled (c_routes c) (c_routes c').
Lemma shuffled_module ms a : in_module c ms a <-> in_module c' ms a.
Proof.
  unfold in_module. split; apply Permutation_in; [|symmetry]; apply shuffled_actions, H.
Qed.
Lemma shuffled_sub ms k : sub_module c ms k <-> sub_module c' ms k.
Proof. unfold sub_module. split; intros (rest & a & Ha); exists rest, a; apply shuffled_module; exact Ha. Qed.
Lemma shuffled_unit ms x : unit_in c ms x <-> unit_in c' ms x.
Proof. unfold unit_in. split; intros (a & Ha & Hb); exists a; (split; [apply shuffled_module; exact Ha|exact Hb]). Qed.
Lemma shuffled_taken ms x : taken c ms x <-> taken c' ms x.
Proof.
  unfold taken. split; (intros [Hx|[Hx|[Hx (a & Ha & Hb)]]]; [left; exact Hx|right; left; exact Hx|right; right]);
    (split; [exact Hx|]); exists a; (split; [apply shuffled_module; exact Ha|exact Hb]).
Qed.
Lemma shuffled_target r a : target c r a <-> target c' r a.
Proof. unfold target. split; intros (ms & Ha & Hb); exists ms; (split; [apply shuffled_module; exact Ha|exact Hb]). Qed.
Lemma shuffled_good : good_names c -> good_names c'.
Proof.
  intros [G1 G2 G3 G4 G5 G6 G7 G8 G9 G10 G11 G12]. constructor.
  - intros E. apply G1. apply Permutation_nil. rewrite <- E. symmetry. apply shuffled_actions, H.
  - intros ms a Ha. apply (G2 ms a). apply shuffled_module, Ha.
  - intros ms a Ha Ht. apply (G3 ms a); [apply shuffled_module, Ha|apply shuffled_taken, Ht].
  - intros ms a a' Ha Ha'. apply (G4 ms); apply shuffled_module; assumption.
  - intros ms a x Ha Hx. destruct (G5 ms a x) as (X1 & X2 & X3); [apply shuffled_module, Ha|exact Hx|].
    split; [exact X1|]. split; [|exact X3]. intros Hu. apply X2, shuffled_unit, Hu.
  - intros ms a Ha. apply (G6 ms). apply shuffled_module, Ha.
  - intros ms a s x Ha. apply (G7 ms a s x). apply shuffled_module, Ha.
  - intros Hu. apply G8, shuffled_unit, Hu.
  - intros ms k Hk. apply (G9 ms). apply shuffled_sub, Hk.
  - intros ms k Hk Ht. apply (G10 ms k); [apply shuffled_sub, Hk|apply shuffled_taken, Ht].
  - intros ms k k' Hk Hk'. apply (G11 ms); apply shuffled_sub; assumption.
  - intros ms k a Hk Ha. apply (G12 ms k a); [apply shuffled_sub, Hk|apply shuffled_module, Ha].
Qed.
End Compiles.

Lemma shuffled_in b b' seg child : shuffled b b' -> In (seg, child) (rt_routes b) ->
  exists child', In (seg, child') (rt_routes b') /\ shuffled child child'.
Proof.
  intros H Hi. destruct (Forall2_In_l _ _ _ (proj2 (proj2 (shuffled_parts _ _ H))) _ Hi) as ([seg' child'] & Hi' & E1 & E2).
  cbn [fst snd] in *. subst seg'. exists child'. auto.
Qed.
Lemma shuffled_first b b' d child : shuffled b b' -> first_param b = Some (d, child) ->
  exists child', first_param b' = Some (d, child') /\ shuffled child child'.
Proof.
  intros H Hf. unfold first_param in *. destruct (shuffled_parts _ _ H) as (_ & _ & HF).
  pose proof (kid_least _ _ _ (kid_dynamics _ _ _ HF)) as Hk. rewrite Hf in Hk.
  destruct (least_dynamic (dynamic_children (rt_routes b'))) as [[d' child']|]; [|contradiction].
  destruct Hk as [<- Hk]. exists child'. auto.
Qed.
Lemma shuffled_emitted b p q x : emitted b p q x -> forall b', shuffled b b' -> exists x', emitted b' p q x' /\ shuffled x x'.
Proof.
  induction 1 as [b|b s child p q x Hin Hx IH|b d child p q x Hf Hx IH]; intros b' H.
  - exists b'. split; [|exact H]. rewrite (proj1 (proj2 (shuffled_parts _ _ H))). constructor.
  - destruct (shuffled_in _ _ _ _ H Hin) as (child' & Hin' & Hc). destruct (IH _ Hc) as (x' & Hx' & Hs).
    exists x'. split; [|exact Hs]. rewrite (proj1 (proj2 (shuffled_parts _ _ H))). eapply emitted_static; eassumption.
  - destruct (shuffled_first _ _ _ _ H Hf) as (child' & Hf' & Hc). destruct (IH _ Hc) as (x' & Hx' & Hs).
    exists x'. split; [|exact Hs]. rewrite (proj1 (proj2 (shuffled_parts _ _ H))). eapply emitted_dynamic; eassumption.
Qed.
Lemma shuffled_shape b b' : shuffled b b' -> shape_ok b -> shape_ok b'.
Proof.
  intros H [S1 S2 S3]. pose proof (shuffled_sym _ _ H) as H'.
  assert (Hs : forall s child, In (Static s, child) (rt_routes b') -> exists child', In (Static s, child') (rt_routes b)).
  { intros s child Hi. destruct (shuffled_in _ _ _ _ H' Hi) as (child' & Hi' & _). exists child'. exact Hi'. }
  destruct (shuffled_parts _ _ H) as (_ & _ & HF).
  pose proof (kid_dynamics _ _ _ HF) as Hd. pose proof (kid_statics _ _ _ HF) as Hst.
  constructor.
  - intros s child Hi. destruct (Hs _ _ Hi) as (child' & Hi'). exact (S1 s child' Hi').
  - intros s t child child' Hi Hi'. destruct (Hs _ _ Hi) as (c1 & Hi1). destruct (Hs _ _ Hi') as (c2 & Hi2). exact (S2 s t c1 c2 Hi1 Hi2).
  - intros Hn. assert (Hn' : dynamic_children (rt_routes b) <> []).
    { intros E. rewrite E in Hd. apply Hn. inversion Hd. reflexivity. }
    destruct (S3 Hn') as [[E1 E2]|[E1 (ch & E2)]].
    + left. rewrite E1 in Hst. inversion Hst. split; [reflexivity|]. rewrite <- E2. symmetry.
      clear - Hd. induction Hd; cbn [length]; congruence.
    + right. split.
      * intros E. rewrite E in Hst. apply E1. inversion Hst. reflexivity.
      * exists ch. intros s child Hi. destruct (Hs _ _ Hi) as (child' & Hi'). exact (E2 s child' Hi').
Qed.
Lemma shuffled_resource c c' p q r : shuffled (c_routes c) (c_routes c') -> resource_ok c p q r -> resource_ok c' p q r.
Proof.
  intros H (R1 & R2 & R3). split; [exact R1|]. split.
  - intros Hq Hu. apply (R2 Hq). apply (shuffled_unit c c' H), Hu.
  - intros Hr. destruct (R3 Hr) as (a & Ha & Hb). exists a. split; [apply (shuffled_target c c' H), Ha|exact Hb].
Qed.
Lemma shuffled_matcher c c' : shuffled (c_routes c) (c_routes c') -> matcher_ok c -> matcher_ok c'.
Proof.
  intros H [M1 M2 M3]. pose proof (shuffled_sym _ _ H) as H'. constructor.
  - intros p q x Hx. destruct (shuffled_emitted _ _ _ _ Hx _ H') as (x' & Hx' & Hs).
    exact (shuffled_shape _ _ (shuffled_sym _ _ Hs) (M1 _ _ _ Hx')).
  - intros p q x r Hx Hr. destruct (shuffled_emitted _ _ _ _ Hx _ H') as (x' & Hx' & Hs).
    apply (shuffled_resource c c' _ _ _ H). apply (M2 _ _ x' _ Hx').
    eapply Permutation_in; [apply (shuffled_parts _ _ Hs)|exact Hr].
  - intros p q x d child Hx Hf. destruct (shuffled_emitted _ _ _ _ Hx _ H') as (x' & Hx' & Hs).
    destruct (shuffled_first _ _ _ _ Hs Hf) as (child' & Hf' & Hc).
    destruct (M3 _ _ _ _ _ Hx' Hf') as (P1 & P2 & P3 & P4 & P5). split; [|split; [|split; [|split]]].
    + intros Hu. apply P1, (shuffled_unit c c' H), Hu.
    + exact P2.
    + exact P3.
    + destruct P4 as (p0 & q0 & x0 & r0 & X1 & X2).
      destruct (shuffled_emitted _ _ _ _ X1 _ (shuffled_sym _ _ Hc)) as (x1 & X3 & X4).
      exists p0, q0, x1, r0. split; [exact X3|]. eapply Permutation_in; [apply (shuffled_parts _ _ X4)|exact X2].
    + destruct P5 as (T & T1 & T2). exists T. split; [exact T1|]. intros p0 q0 x0 r0 a d' X1 X2 X3.
      destruct (shuffled_emitted _ _ _ _ X1 _ Hc) as (x1 & X4 & X5).
      apply (T2 p0 q0 x1 r0 a d' X4); [|apply (shuffled_target c c' H), X3].
      eapply Permutation_in; [apply (shuffled_parts _ _ X5)|exact X2].
Qed.
Lemma shuffled_returns c c' : shuffled (c_routes c) (c_routes c') -> no_returns c -> no_returns c'.
Proof.
  intros H Hn p q x s Hx Hs. destruct (shuffled_block_at _ _ _ _ _ (shuffled_sym _ _ H) Hx) as (x' & Hx' & Hr).
  apply (Hn p q x' s Hx'). destruct (shuffled_parts _ _ Hr) as (R1 & R2 & R3). unfold block_texts in *.
  rewrite <- R2. apply in_app_or in Hs. destruct Hs as [Hs|Hs]; [apply in_or_app; left; exact Hs|].
  apply in_or_app. right. apply in_app_or in Hs. apply in_or_app. destruct Hs as [Hs|Hs]; [left|right].
  - apply in_flat_map in Hs. destruct Hs as (r & Hr1 & Hr2). apply in_flat_map. exists r. split; [|exact Hr2].
    eapply Permutation_in; eassumption.
  - apply in_flat_map in Hs. destruct Hs as ([seg child] & Hr1 & Hr2).
    destruct (shuffled_in _ _ _ _ Hr Hr1) as (child' & Hi & _). apply in_flat_map. exists (seg, child'). auto.
Qed.
Lemma shuffled_separate c c' : shuffled (c_routes c) (c_routes c') -> separate c -> separate c'.
Proof.
  intros H Hs p q b d Hb. apply blocks_at in Hb. destruct (shuffled_block_at _ _ _ _ _ (shuffled_sym _ _ H) Hb) as (x' & Hx' & _).
  apply (Hs p q x' d). apply blocks_at. exact Hx'.
Qed.
Lemma shuffled_compiles c c' : separate c -> shuffled (c_routes c) (c_routes c') -> compiles c = compiles c'.
Proof.
  assert (G : forall c c', separate c -> shuffled (c_routes c) (c_routes c') -> compiles c = true -> compiles c' = true).
  { clear. intros c c' Hs H Hc. apply (compiles_exactly c Hs) in Hc. apply (compiles_exactly c' (shuffled_separate _ _ H Hs)).
    destruct Hc as (C1 & C2 & C3 & C4).
    split; [exact (shuffled_generates _ _ H C1)|]. split; [exact (shuffled_returns _ _ H C2)|].
    split; [exact (shuffled_good _ _ H C3)|exact (shuffled_matcher _ _ H C4)]. }
  intros Hs H. destruct (compiles c) eqn:E1, (compiles c') eqn:E2; try reflexivity.
  - rewrite (G c c' Hs H E1) in E2. discriminate E2.
  - rewrite (G c' c (shuffled_separate _ _ H Hs) (shuffled_sym _ _ H) E2) in E1. discriminate E1.
Qed.
Lemma shuffled_runnable c c' : separate c -> shuffled (c_routes c) (c_routes c') -> runnable c -> runnable c'.
Proof.
  intros Hs H (R1 & R2 & R3). split; [rewrite <- (shuffled_compiles c c' Hs H); exact R1|]. split.
  - intros p q b d Hb. apply blocks_at in Hb. destruct (shuffled_block_at _ _ _ _ _ (shuffled_sym _ _ H) Hb) as (x' & Hx' & _).
    apply (R2 p q x' d). apply blocks_at. exact Hx'.
  - intros p q b r d mods a d' Hb Hr Hd Hp Ha. apply blocks_at in Hb.
    destruct (shuffled_block_at _ _ _ _ _ (shuffled_sym _ _ H) Hb) as (x' & Hx' & Hx).
    apply (R3 p q x' r d mods a d'); auto.
    + apply blocks_at. exact Hx'.
    + eapply Permutation_in; [apply (shuffled_parts _ _ Hx)|exact Hr].
    + eapply Permutation_in; [symmetry; apply shuffled_actions, H|exact Ha].
Qed.
Lemma by_verb_shuffled b b' : related same_by_verb b b' -> shuffled b b'.
Proof. apply related_mono, by_verb_permutation. Qed.
Lemma match_order {T E} (rt : runtime T E) c c' path method : separate c -> runnable c ->
  related same_by_verb (c_routes c) (c_routes c') -> match_route rt c path method = match_route rt c' path method.
Proof.
  intros Hs Hc H. apply match_by_verb; [exact Hc| |exact (related_mono _ _ by_verb_first _ _ H)].
  exact (shuffled_runnable c c' Hs (by_verb_shuffled _ _ H) Hc).
Qed.
