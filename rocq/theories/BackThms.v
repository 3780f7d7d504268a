(** * BackThms: from a match back to a path *)
From Coq Require Import Permutation.
From Verif Require Import Base Core Flat MiniRust Gen Items Spec SpecMatch SpecCompile SpecPath ToPath BaseFacts NodeFacts
  MatchProps MatchThms CompileFacts PathThms SpecBack MatchFacts FlatFacts.

Section Back.
Context {T E : Type}.
Variable parse : str -> bytes -> T + E.
Let tfind := @tree_find T E parse.
Lemma find_emitted : forall b q a rest b' q' a',
  tfind b q a rest = Found b' q' a' ->
  exists pat segs vals q0,
    emitted b pat q0 b' /\ q' = q ++ q0 /\ a' = a ++ vals /\
    matches parse pat segs vals /\ spelled rest segs.
Proof.
  induction b as [b IH] using Routes_children_ind. intros q a rest b' q' a' H.
  pose proof (find_move parse b q a rest) as M. fold tfind in M. rewrite H in M. clear H.
  inversion M as [Hr Hn Heq| | |s child tail Hin Hr Heq|p child Hin Hleast Heq]; subst.
  - exists [], [], [], (rt_query b'). rewrite app_nil_r. repeat split; auto.
    + constructor.
    + constructor.
    + left. reflexivity.
  - assert (Hs : exists pat segs vals q0,
      emitted child pat q0 b' /\ q' = (q ++ rt_query b) ++ q0 /\ a' = a ++ vals /\
      matches parse pat segs vals /\ spelled (s ++ tail) (s :: segs)).
    { destruct tail as [|c t]; cbn [go_in] in Heq.
      - unfold here in Heq. destruct (rt_resources child) as [|r rs] eqn:Er; [discriminate|].
        injection Heq as <- <- <-. exists [], [], [], (rt_query child).
        rewrite !app_nil_r. repeat split; auto; [constructor|constructor|apply spelled_one].
      - destruct (N.eqb_spec c c_slash) as [->|]; [|discriminate].
        destruct (IH _ _ Hin _ _ _ _ _ _ Heq) as (pat & segs & vals & q0 & H1 & H2 & H3 & H4 & H5).
        exists pat, segs, vals, q0. repeat split; auto. apply spelled_cons. exact H5. }
    destruct Hs as (pat & segs & vals & q0 & H1 & H2 & H3 & H4 & H5).
    exists (Static s :: pat), (s :: segs), vals, (rt_query b ++ q0). repeat split; auto.
    + eapply emitted_static; eauto.
    + rewrite H2, app_assoc. reflexivity.
    + constructor. exact H4.
  - unfold find_dyn in Heq.
    pose proof (segment_app rest) as Ha. pose proof (segment_no_slash rest) as Hns.
    destruct (segment rest) as [seg tail]. simpl in Ha, Hns. subst rest.
    destruct (utf8_valid seg) eqn:Eu; [|discriminate].
    destruct (parse (p_typ p) seg) as [v|e] eqn:Ep; [|discriminate].
    assert (Hs : exists pat segs vals q0,
      emitted child pat q0 b' /\ q' = (q ++ rt_query b) ++ q0 /\ a' = (a ++ [(p, v)]) ++ vals /\
      matches parse pat segs vals /\ spelled (seg ++ tail) (seg :: segs)).
    { destruct tail as [|c t]; cbn [go_in] in Heq.
      - unfold here in Heq. destruct (rt_resources child) as [|r rs] eqn:Er; [discriminate|].
        injection Heq as <- <- <-. exists [], [], [], (rt_query child).
        rewrite !app_nil_r. repeat split; auto; [constructor|constructor|apply spelled_one].
      - destruct (N.eqb_spec c c_slash) as [->|]; [|discriminate].
        destruct (IH _ _ Hin _ _ _ _ _ _ Heq) as (pat & segs & vals & q0 & H1 & H2 & H3 & H4 & H5).
        exists pat, segs, vals, q0. repeat split; auto. apply spelled_cons. exact H5. }
    destruct Hs as (pat & segs & vals & q0 & H1 & H2 & H3 & H4 & H5).
    exists (Dynamic p :: pat), (seg :: segs), ((p, v) :: vals), (rt_query b ++ q0). repeat split; auto.
    + eapply emitted_dynamic; eauto.
    + rewrite H2, app_assoc. reflexivity.
    + rewrite H3, <- app_assoc. reflexivity.
    + constructor; auto.
Qed.
End Back.

Section Rt.
Context {T E : Type}.
Variable rt : runtime T E.
Variable show : str -> T -> bytes.
Notation parse := (rt_parse rt).

Lemma sound_emitted c path method redirect v : runnable c ->
  match_route rt c path method = Some (RunResult (hit redirect v)) ->
  exists pat q b r segs a,
    emitted (c_routes c) pat q b /\ first_resource_for method b r /\ r_is_redirect r = redirect /\
    spells path segs /\ matches parse pat segs a /\ v = route_for r q a.
Proof.
  intros Hc H. apply match_eq in H; auto.
  destruct (tree_find parse (c_routes c) [] [] (no_slash path)) as [b q a| |p e|] eqn:Ef;
    cbn [finish] in H; try (unfold hit in H; destruct redirect; discriminate).
  destruct (find_emitted parse _ _ _ _ _ _ _ Ef) as (pat & segs & vals & q0 & H1 & H2 & H3 & H4 & H5).
  simpl in H2, H3. subst q0 vals.
  destruct (answer_cases rt method b q a) as [(r & Hr & Ha)|[_ Ha]]; rewrite Ha in H.
  - assert (Hh : hit (E := E) (r_is_redirect r) (route_for r q a) = hit redirect v) by congruence.
    apply hit_inj in Hh. destruct Hh as [Hh1 Hh2].
    exists pat, q, b, r, segs, a. repeat split; auto.
  - exfalso. unfold hit in H. destruct redirect; discriminate.
Qed.

Definition route_fields r q (a : @args T) : fields T :=
  combine (map p_name (map fst a)) (map Given (map snd a))
  ++ combine (map p_name (q ++ r_query r)) (map Query (map (fun _ => None) (q ++ r_query r))).
Lemma route_value_fields r q (a : @args T) : struct_value (route_for r q a) (route_fields r q a).
Proof.
  unfold struct_value, route_fields, route_for. cbn [rv_fields]. apply Forall2_app.
  - induction a as [|[p v] a IH]; cbn [map combine fst snd]; constructor; [constructor|exact IH].
  - induction (q ++ r_query r) as [|p l IH]; cbn [map combine]; constructor; [constructor|exact IH].
Qed.
Lemma matched_params pat segs (a : @args T) : matches parse pat segs a -> map fst a = path_params pat.
Proof. intros H. apply (matches_params rt) in H. apply H. Qed.
Lemma first_in method b r : first_resource_for method b r -> In r (rt_resources b).
Proof. intros (l1 & l2 & -> & _). apply in_or_app. right. left. reflexivity. Qed.

Lemma back_route c path method v : runnable c ->
  match_route rt c path method = Some (RunResult (MRoute v)) ->
  exists pat segs a fs, spells path segs /\ matches parse pat segs a /\ struct_value v fs /\
    to_path show c (rv_modules v) (rv_name v) fs =
    Some (c_slash :: join (path_texts show pat (map snd a))).
Proof.
  intros Hc H. destruct (sound rt c path method false v Hc H) as (pat & q & b & r & segs & a & H1 & H2 & H3 & H4 & H5 & ->).
  exists pat, segs, a, (route_fields r q a). split; [exact H4|]. split; [exact H5|].
  split; [apply route_value_fields|].
  apply (to_path_text show c pat q b r (map snd a) (map (fun _ => None) (q ++ r_query r))); auto.
  - apply Hc.
  - apply (first_in _ _ _ H2).
  - pose proof (matched_params _ _ _ H5) as Hp. split; [rewrite map_length, <- Hp, map_length; reflexivity|].
    split; [apply map_length|]. unfold route_fields. rewrite Hp. apply Permutation_refl.
Qed.

Lemma emitted_plain c : (forall p q x, emitted (c_routes c) p q x -> shape_ok x) ->
  forall pat q b, emitted (c_routes c) pat q b -> forall s, In (Static s) pat -> plain_text s.
Proof.
  intros H. generalize dependent (c_routes c). intros b0 H pat q b Hb. revert H.
  induction Hb as [b|b s child p q x Hin Hx IH|b d child p q x Hin Hx IH]; intros H s' Hs.
  - destruct Hs.
  - destruct Hs as [[= ->]|Hs].
    + eapply so_plain; [|exact Hin]. eapply H. apply emitted_here.
    + eapply IH; auto. intros p' q' x' Hx'. eapply H. eapply emitted_static; eauto.
  - destruct Hs as [Hs|Hs]; [discriminate|].
    eapply IH; auto. intros p' q' x' Hx'. eapply H. eapply emitted_dynamic; eauto.
Qed.
Lemma plain_ascii s : plain_text s -> ascii_text s.
Proof. intros H. apply Forall_forall. intros x Hx. apply H. exact Hx. Qed.
Lemma texts_segs pat segs (a : @args T) : matches parse pat segs a ->
  (forall s, In (Static s) pat -> ascii_text s) ->
  (forall t text v, parse t text = inl v -> show t v = text) ->
  path_texts show pat (map snd a) = segs.
Proof.
  intros H Ha Hs. induction H as [|s pat segs a H IH|p v seg pat segs a Hn Hu Hp H IH]; cbn [path_texts map snd].
  - reflexivity.
  - rewrite utf8_ascii_text by (apply Ha; left; reflexivity). f_equal. apply IH. intros s' Hi. apply Ha. right. exact Hi.
  - rewrite (Hs _ _ _ Hp). f_equal. apply IH. intros s' Hi. apply Ha. right. exact Hi.
Qed.
Lemma runnable_matcher c : runnable c -> matcher_ok c.
Proof. intros (Hc & _ & Hr). apply (compiles_typed c Hr Hc). Qed.
Lemma back_same c path method v : runnable c ->
  (forall t text v, parse t text = inl v -> show t v = text) ->
  match_route rt c path method = Some (RunResult (MRoute v)) ->
  exists segs fs, spells path segs /\ struct_value v fs /\
    to_path show c (rv_modules v) (rv_name v) fs = Some (c_slash :: join segs).
Proof.
  intros Hc Hinv H. destruct (sound_emitted c path method false v Hc H) as (pat & q & b & r & segs & a & H1 & H2 & H3 & H4 & H5 & ->).
  exists segs, (route_fields r q a). split; [exact H4|]. split; [apply route_value_fields|].
  assert (Et : path_texts show pat (map snd a) = segs).
  { apply texts_segs; auto. intros s Hs. apply plain_ascii.
    eapply emitted_plain; [apply (mo_shape c (runnable_matcher c Hc))|exact H1|exact Hs]. }
  rewrite <- Et.
  apply (to_path_text show c pat q b r (map snd a) (map (fun _ => None) (q ++ r_query r))); auto.
  - apply Hc.
  - apply emitted_block. exact H1.
  - apply (first_in _ _ _ H2).
  - pose proof (matched_params _ _ _ H5) as Hp. split; [rewrite map_length, <- Hp, map_length; reflexivity|].
    split; [apply map_length|]. unfold route_fields. rewrite Hp. apply Permutation_refl.
Qed.

Lemma combine_perm {A} (l : list (str * A)) names : Permutation (map fst l) names ->
  exists vals, length vals = length names /\ Permutation l (combine names vals).
Proof.
  intros H. remember (map fst l) as k eqn:Ek. revert l Ek.
  induction H as [|x k1 k2 H IH|x y k|k1 k2 k3 H1 IH1 H2 IH2]; intros l Ek.
  - destruct l; [|discriminate]. exists []. auto.
  - destruct l as [|[x' v] l]; [discriminate|]. cbn [map fst] in Ek. injection Ek as -> ->.
    destruct (IH l eq_refl) as (vals & L & P). exists (v :: vals). split; [simpl; congruence|]. cbn [combine]. apply perm_skip. exact P.
  - destruct l as [|[y' v] [|[x' w] l]]; try discriminate. cbn [map fst] in Ek. injection Ek as -> -> ->.
    exists (w :: v :: map snd l). split; [simpl; rewrite !map_length; reflexivity|]. cbn [combine].
    eapply perm_trans; [apply perm_swap|]. apply perm_skip, perm_skip.
    replace (combine (map fst l) (map snd l)) with l; [apply Permutation_refl|].
    clear. induction l as [|[a b] l IH]; [reflexivity|]. cbn. rewrite <- IH. reflexivity.
  - destruct (IH1 l Ek) as (vals & L & P).
    assert (E2 : k2 = map fst (combine k2 vals)) by (symmetry; apply map_fst_combine; congruence).
    destruct (IH2 (combine k2 vals) E2) as (vals' & L' & P'). exists vals'. split; auto.
    eapply perm_trans; eassumption.
Qed.
Lemma action_block c ms a : In (ms, a) (config_actions (c_routes c)) ->
  exists pat q b r, block_at (c_routes c) pat q b /\ In r (rt_resources b) /\ r_is_redirect r = false /\
    ms = r_modules r /\ a = mkAction (r_name r) (r_method r) pat (path_params pat) (q ++ r_query r).
Proof.
  unfold config_actions. intros H. apply in_concat in H. destruct H as (l & Hl & H). apply in_map_iff in Hl.
  destruct Hl as ([[p q] b] & <- & Hb). cbn [block_actions] in H. apply in_map_iff in H. destruct H as (r & [= <- <-] & Hr).
  apply filter_In in Hr. destruct Hr as [Hr Hd]. exists p, q, b, r. split; [apply blocks_at; exact Hb|].
  split; [exact Hr|]. split; [destruct (r_is_redirect r); [discriminate|reflexivity]|]. split; reflexivity.
Qed.
Lemma combine_in {A} (a : list (str * A)) names vals : length vals = length names ->
  Permutation a (combine names vals) -> Forall2 (fun n v => In (n, v) a) names vals.
Proof.
  intros L P. assert (H : forall n v, In (n, v) (combine names vals) -> In (n, v) a).
  { intros n v Hi. eapply Permutation_in; [symmetry; exact P|exact Hi]. }
  clear P. revert vals L H. induction names as [|n names IH]; intros [|v vals] L H; try discriminate; constructor.
  - apply H. left. reflexivity.
  - apply IH; [simpl in L; congruence|]. intros n' v' Hi. apply H. right. exact Hi.
Qed.
Lemma combine_maps {A} (a : list (Param * A)) :
  combine (map p_name (map fst a)) (map snd a) = map (fun pv => (p_name (fst pv), snd pv)) a.
Proof. induction a as [|[p v] a IH]; [reflexivity|]. cbn. rewrite IH. reflexivity. Qed.
Lemma combine_map_r {A B C} (f : B -> C) (l : list A) : forall k, combine l (map f k) = map (fun x => (fst x, f (snd x))) (combine l k).
Proof. induction l as [|x l IH]; intros [|y k]; try reflexivity. cbn. rewrite IH. reflexivity. Qed.

Lemma names_distinct c ms a : compiles c = true -> In (ms, a) (config_actions (c_routes c)) ->
  NoDup (map p_name (a_route_params a) ++ map p_name (a_query_params a)).
Proof.
  intros Hc Ha. unfold compiles in Hc. destruct (flattened_modules (c_routes c)) as [root| | |] eqn:Er; try discriminate.
  destruct (gen_program c); try discriminate. rewrite !andb_true_iff in Hc. destruct Hc as [[Hok _] _].
  destruct (flattened_modules_tree _ _ Er) as (_ & _ & HPa & _).
  assert (Hi : In (ms, a) (module_actions root)) by (eapply Permutation_in; [symmetry; exact HPa|exact Ha]).
  pose proof (action_nodup _ _ Hok _ _ Hi) as Hn. unfold action_fields in Hn. rewrite map_app, !map_map in Hn. exact Hn.
Qed.
Lemma back_redirect c path method v : runnable c ->
  match_route rt c path method = Some (RunResult (MRedirect v)) ->
  exists pat segs a fs pat' q' b' r' vals,
    spells path segs /\ matches parse pat segs a /\ struct_value v fs /\
    block_at (c_routes c) pat' q' b' /\ In r' (rt_resources b') /\ r_is_redirect r' = false /\
    rv_modules v = map to_caps_case (r_modules r') /\ rv_name v = to_caps_case (r_name r') /\
    Forall2 (fun p' x => exists p, In (p, x) a /\ p_name p = p_name p' /\ p_typ p = p_typ p') (path_params pat') vals /\
    Permutation (rv_fields v)
      (map (fun pv : Param * T => (p_name (fst pv), FvVal (p_typ (fst pv)) (snd pv))) (combine (path_params pat') vals)
       ++ map (fun p => (p_name p, FvNone)) (q' ++ r_query r')) /\
    to_path show c (rv_modules v) (rv_name v) fs = Some (c_slash :: join (path_texts show pat' vals)).
Proof.
  intros Hc H. destruct (sound_emitted c path method true v Hc H) as (pat & q & b & r & segs & a & H1 & H2 & H3 & H4 & H5 & ->).
  pose proof (first_in _ _ _ H2) as Hin. pose proof (matched_params _ _ _ H5) as Hp.
  destruct (mo_resource c (runnable_matcher c Hc) _ _ _ _ H1 Hin) as (_ & _ & Hred).
  destruct (Hred H3) as (act & (ms & Hact & E1 & E1' & E2) & P1 & P2).
  destruct (action_block _ _ _ Hact) as (pat' & q' & b' & r' & B1 & B2 & B3 & -> & Ea).
  subst act. cbn [a_name a_route_params a_query_params] in E2, P1, P2.
  set (l := map (fun pv : Param * T => (p_name (fst pv), snd pv)) a).
  assert (Pl : Permutation (map fst l) (map p_name (path_params pat'))).
  { unfold l. rewrite map_map. cbn [fst]. rewrite <- (map_map fst p_name), Hp. exact P1. }
  destruct (combine_perm l _ Pl) as (vals & L & PV). rewrite map_length in L.
  exists pat, segs, a, (route_fields r q a), pat', q', b', r', vals.
  split; [exact H4|]. split; [exact H5|]. split; [apply route_value_fields|].
  split; [exact B1|]. split; [exact B2|]. split; [exact B3|]. cbn [route_for rv_modules rv_name].
  split; [symmetry; exact E1'|]. split; [symmetry; exact E2|].
  assert (HF : Forall2 (fun p' x => exists p, In (p, x) a /\ p_name p = p_name p' /\ p_typ p = p_typ p') (path_params pat') vals).
  { assert (F : Forall2 (fun n x => In (n, x) l) (map p_name (path_params pat')) vals).
    { apply combine_in; [rewrite map_length; exact L|exact PV]. }
    assert (G : forall p', In p' (path_params pat') -> In p' (path_params pat')) by auto.
    revert G F. generalize (path_params pat') at 1 3 4. clear L PV. intros ps. revert vals.
    induction ps as [|p' ps IH]; intros vals G F; inversion F as [|? x ? xs Hx Hxs]; subst; constructor.
    - unfold l in Hx. apply in_map_iff in Hx. destruct Hx as ([p0 x0] & [= En <-] & Hx). exists p0. split; [exact Hx|].
      split; [exact En|]. symmetry. destruct Hc as (_ & _ & Hty).
      eapply (Hty pat q b r p0 (r_modules r') _ p' (proj2 (blocks_at _ _ _ _) (emitted_block _ _ _ _ H1)) Hin H3); [|exact Hact|exact E1|exact E1'|exact E2| |symmetry; exact En].
      + rewrite <- Hp. apply (in_map fst) in Hx. exact Hx.
      + apply in_or_app. left. cbn [a_route_params]. apply G. left. reflexivity.
    - apply IH; auto. intros p1 Hi. apply G. right. exact Hi. }
  split; [exact HF|]. split.
  { cbn [rv_fields]. apply Permutation_app.
    - assert (Hnd : NoDup (map p_name (path_params pat'))).
      { destruct Hc as (Hcc & _). pose proof (names_distinct c _ _ Hcc Hact) as Hnd. cbn [a_route_params a_query_params] in Hnd.
        eapply NoDup_app_l; eauto. }
      symmetry. apply NoDup_Permutation_bis.
      + apply (NoDup_map_inv fst). rewrite map_map. cbn [fst]. rewrite <- (map_map fst p_name), map_fst_combine by exact L. exact Hnd.
      + rewrite !map_length, combine_length, L, Nat.min_id. apply Permutation_length in Pl. unfold l in Pl.
        rewrite !map_length in Pl. rewrite <- Pl. apply le_n.
      + intros e He. apply in_map_iff in He. destruct He as ([p' x] & <- & He). cbn [fst snd].
        clear - HF He. revert He. induction HF as [|p1 x1 ps xs Hh HF' IH]; cbn [combine]; intros He; destruct He as [He|He] || destruct He.
        * injection He as -> ->. destruct Hh as (p & Hi & <- & <-). apply in_map_iff. exists (p, x). auto.
        * apply IH. exact He.
    - rewrite <- !(map_map p_name (fun n => (n, FvNone))). apply Permutation_map. exact P2. }
  rewrite <- E1', <- E2.
  assert (Pq : length (q ++ r_query r) = length (q' ++ r_query r')).
  { apply Permutation_length in P2. rewrite !map_length in P2. exact P2. }
  apply (to_path_text show c pat' q' b' r' vals (map (fun _ => None) (q' ++ r_query r'))); auto.
  - apply Hc.
  - split; [exact L|]. split; [apply map_length|]. unfold route_fields. apply Permutation_app.
    + rewrite !(combine_map_r Given). apply Permutation_map. rewrite combine_maps. exact PV.
    + rewrite !map_map, !combine_map_r.
      assert (Hn : forall (ps : list Param), map (fun x : str * Param => (fst x, Query (@None T))) (combine (map p_name ps) ps)
                   = map (fun n => (n, Query None)) (map p_name ps)).
      { intros ps. rewrite map_map. induction ps as [|p ps IH]; [reflexivity|]. cbn [map combine fst]. rewrite IH. reflexivity. }
      rewrite !Hn. apply Permutation_map. exact P2.
Qed.
End Rt.
