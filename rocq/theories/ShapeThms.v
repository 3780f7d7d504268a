(** * ShapeThms: what the kind of an answer depends on *)
From Verif Require Import Base Core Flat MiniRust Gen Spec SpecMatch SpecVerbs SpecShape BaseFacts NodeFacts MatchFacts MatchThms VerbThms.

Definition same_verbs (rs rs' : list Resource) : Prop := forall m, existsb (for_verb m) rs = existsb (for_verb m) rs'.
Lemma same_verbs_nil rs rs' : same_verbs rs rs' -> rs = [] -> rs' = [].
Proof.
  intros H ->. destruct rs' as [|r rs']; [reflexivity|]. specialize (H (r_method r)). cbn [existsb] in H.
  unfold for_verb in H. destruct (r_method r); discriminate H.
Qed.
Lemma given_route {T} r q (a : @args T) :
  given (route_for r q a) = map (fun pv : Param * T => (p_name (fst pv), FvVal (p_typ (fst pv)) (snd pv))) a.
Proof.
  unfold given, route_for. cbn [rv_fields]. rewrite filter_app.
  replace (filter is_given (map (fun p => (p_name p, FvNone)) (q ++ r_query r))) with (@nil (str * fval T)).
  - rewrite app_nil_r. induction a as [|[p x] a IH]; [reflexivity|]. cbn. rewrite IH. reflexivity.
  - induction (q ++ r_query r) as [|p l IH]; [reflexivity|]. exact IH.
Qed.
Lemma find_verbs (m : Method) rs :
  find (fun r => str_eqb (method_display m) (method_display (r_method r))) rs = find (for_verb m) rs.
Proof.
  induction rs as [|r l IH]; [reflexivity|]. cbn [find]. rewrite IH.
  replace (str_eqb (method_display m) (method_display (r_method r))) with (for_verb m r); [reflexivity|].
  unfold for_verb. destruct m, (r_method r); reflexivity.
Qed.
Lemma find_exists {A} (f : A -> bool) l : match find f l with Some _ => existsb f l = true | None => existsb f l = false end.
Proof. induction l as [|x l IH]; [reflexivity|]. cbn [find existsb]. destruct (f x); [reflexivity|exact IH]. Qed.
Lemma answer_shape {T E} method rs rs' q q' (a : @args T) : same_verbs rs rs' ->
  same_kind (E := E) (answer method rs q a) (answer method rs' q' a).
Proof.
  intros H. unfold answer. destruct (verb_of method) as [(m & ->)|Hn].
  - rewrite !find_verbs. pose proof (find_exists (for_verb m) rs) as F. pose proof (find_exists (for_verb m) rs') as F'.
    destruct (find (for_verb m) rs) as [r|], (find (for_verb m) rs') as [r'|]; try (rewrite H in F; congruence).
    + destruct (r_is_redirect r), (r_is_redirect r'); cbn [same_kind]; rewrite !given_route; reflexivity.
    + exact I.
  - assert (G : forall l, find (fun r => str_eqb method (method_display (r_method r))) l = None).
    { induction l as [|r l IH]; [reflexivity|]. cbn [find]. rewrite Hn. exact IH. }
    rewrite !G. exact I.
Qed.

Section Search.
Context {T E : Type}.
Variable parse : str -> bytes -> T + E.
Notation tfind := (tree_find parse).
Definition ends_alike (f f' : found T E) : Prop :=
  match f, f' with
  | Found b q a, Found b' q' a' => same_verbs (rt_resources b) (rt_resources b') /\ a = a'
  | Nothing, Nothing | Stop, Stop => True
  | Bad p e, Bad p' e' => p = p' /\ e = e'
  | _, _ => False
  end.
Lemma ends_kind method f f' : ends_alike f f' -> same_kind (finish method f) (finish method f').
Proof.
  destruct f as [b q a| |p e|], f' as [b' q' a'| |p' e'|]; cbn [ends_alike finish]; try contradiction; auto.
  - intros (H & ->). apply answer_shape, H.
  - intros [-> ->]. split; reflexivity.
Qed.
Definition shape_rel (x y : Routes * finder) : Prop :=
  same_verbs (rt_resources (fst x)) (rt_resources (fst y)) /\ forall q q' a rest, ends_alike (snd x q a rest) (snd y q' a rest).
Lemma shape_go x y q q' a tail : shape_rel x y -> ends_alike (go_in (fst x) (snd x) q a tail) (go_in (fst y) (snd y) q' a tail).
Proof.
  intros (H1 & H3). destruct tail as [|c t]; cbn [go_in].
  - unfold here. destruct (rt_resources (fst x)) eqn:Ex, (rt_resources (fst y)) eqn:Ey; cbn.
    + exact I.
    + pose proof (same_verbs_nil _ _ H1 eq_refl) as Hn. discriminate Hn.
    + pose proof (same_verbs_nil _ _ (fun m => eq_sym (H1 m)) eq_refl) as Hn. discriminate Hn.
    + rewrite Ex, Ey. auto.
  - destruct (N.eqb c c_slash); [apply H3|exact I].
Qed.
Lemma shape_dyn p x y q q' a rest : shape_rel x y ->
  ends_alike (find_dyn parse p (fst x) (snd x) q a rest) (find_dyn parse p (fst y) (snd y) q' a rest).
Proof.
  intros H. unfold find_dyn. destruct (segment rest) as [seg tail]. destruct (utf8_valid seg); [|exact I].
  destruct (parse (p_typ p) seg); [apply shape_go, H|cbn; auto].
Qed.
Lemma shape_stat l l' q q' a rest :
  Forall2 (fun x y : str * (Routes * finder) => fst x = fst y /\ shape_rel (snd x) (snd y)) l l' ->
  ends_alike (find_stat l q a rest) (find_stat l' q' a rest).
Proof.
  induction 1 as [|[s [c f]] [s' [c' f']] l l' [E1 H] _ IH]; [exact I|]. cbn [fst snd] in E1, H. subst s'. cbn [find_stat].
  destruct (after_segment s rest) as [tail|]; [exact (shape_go _ _ q q' a tail H)|exact IH].
Qed.
Lemma find_shape : forall b b', same_shape b b' -> forall q q' a rest, ends_alike (tfind b q a rest) (tfind b' q' a rest).
Proof.
  induction b as [rs ch qs IH] using Routes_ind'. intros b' H q q' a rest. inversion H as [? rs' ? qs' ? ch' HP HF]; subst.
  assert (HK : Forall2 (kid shape_rel)
    (map (fun nr : PathSegment * Routes => match nr with (seg, child) => (seg, (child, tfind child)) end) ch)
    (map (fun nr : PathSegment * Routes => match nr with (seg, child) => (seg, (child, tfind child)) end) ch')).
  { clear - IH HF. revert ch' HF. induction IH as [|[s c] ch Hx _ IHch]; intros ch' HF.
    - inversion HF. constructor.
    - inversion HF as [|? [s' c'] ? l [E1 E2] HF']; subst. cbn [fst snd] in *. subst s'. constructor; [|apply IHch, HF'].
      split; [reflexivity|]. cbn [snd fst]. inversion E2; subst. split; [assumption|]. intros. apply Hx, E2. }
  cbn [tree_find]. set (K := map _ ch) in *. set (K' := map _ ch') in *. clearbody K K'. clear - HP HK.
  pose proof (kid_least _ _ _ (kid_dynamics _ _ _ HK)) as Hd. pose proof (kid_statics _ _ _ HK) as Hs.
  unfold finder in *.
  assert (Hrest : ends_alike
    match least_dynamic (dynamic_children K), statics K with
    | None, ss => find_stat ss (q ++ qs) a rest
    | Some (p, (child, run)), [(s, (child', run'))] =>
        if (length s =? 1)%nat && (length rest =? 0)%nat then Stop
        else match strip s rest with Some tail => go_in child' run' (q ++ qs) a tail | None => find_dyn parse p child run (q ++ qs) a rest end
    | Some (p, (child, run)), _ => find_dyn parse p child run (q ++ qs) a rest
    end
    match least_dynamic (dynamic_children K'), statics K' with
    | None, ss => find_stat ss (q' ++ qs') a rest
    | Some (p, (child, run)), [(s, (child', run'))] =>
        if (length s =? 1)%nat && (length rest =? 0)%nat then Stop
        else match strip s rest with Some tail => go_in child' run' (q' ++ qs') a tail | None => find_dyn parse p child run (q' ++ qs') a rest end
    | Some (p, (child, run)), _ => find_dyn parse p child run (q' ++ qs') a rest
    end).
  { destruct (least_dynamic (dynamic_children K)) as [[p [c f]]|], (least_dynamic (dynamic_children K')) as [[p' [c' f']]|];
      try contradiction; [|apply shape_stat, Hs]. destruct Hd as [<- Hd].
    pose proof (shape_dyn p _ _ (q ++ qs) (q' ++ qs') a rest Hd) as Hdyn. cbn [fst snd] in Hdyn.
    destruct Hs as [|[s [c1 f1]] [s' [c1' f1']] l l' [E1 H1] Hs]; [exact Hdyn|]. cbn [fst snd] in E1, H1. subst s'.
    destruct Hs; [|exact Hdyn]. destruct ((length s =? 1)%nat && (length rest =? 0)%nat); [exact I|].
    destruct (strip s rest) as [tail|]; [exact (shape_go _ _ (q ++ qs) (q' ++ qs') a tail H1)|exact Hdyn]. }
  destruct rs as [|r rs], rs' as [|r' rs'].
  - exact Hrest.
  - pose proof (same_verbs_nil _ _ HP eq_refl) as Hn. discriminate Hn.
  - pose proof (same_verbs_nil _ _ (fun m => eq_sym (HP m)) eq_refl) as Hn. discriminate Hn.
  - destruct rest; [|exact Hrest]. cbn [ends_alike rt_resources]. auto.
Qed.
End Search.
Lemma match_shape {T E} (rt : runtime T E) c c' path method : runnable c -> runnable c' ->
  same_shape (c_routes c) (c_routes c') ->
  exists r r', match_route rt c path method = Some r /\ match_route rt c' path method = Some r' /\ same_kind r r'.
Proof.
  intros Hc Hc' H. rewrite !match_find by assumption. eexists _, _. split; [reflexivity|]. split; [reflexivity|].
  apply ends_kind, find_shape, H.
Qed.
