(** * ChangeThms: which requests a change of one block concerns *)
From Verif Require Import Base Core Trie Flat MiniRust Gen Spec SpecMatch SpecChange BaseFacts
  NodeFacts RunFacts MatchFacts MatchProps MatchThms MountThms.

Section Children.
Variables (seg : PathSegment) (child child' : Routes).
Definition alike (s : PathSegment) (c c' : Routes) : Prop := c = c' \/ s = seg /\ c = child /\ c' = child'.
Definition rel (nr nr' : NestedRoutes) : Prop := fst nr = fst nr' /\ alike (fst nr) (snd nr) (snd nr').
Lemma rel_refl l : Forall2 rel l l.
Proof. induction l as [|x l IH]; constructor; [|exact IH]. split; [reflexivity|left; reflexivity]. Qed.
Lemma rel_at l1 l2 : Forall2 rel (l1 ++ (seg, child) :: l2) (l1 ++ (seg, child') :: l2).
Proof.
  apply Forall2_app; [apply rel_refl|]. constructor; [|apply rel_refl].
  split; [reflexivity|]. right. auto.
Qed.
Lemma rel_statics l l' : Forall2 rel l l' ->
  Forall2 (fun sc sc' => fst sc = fst sc' /\ alike (Static (fst sc)) (snd sc) (snd sc')) (statics l) (statics l').
Proof.
  induction 1 as [|[s c] [s' c'] l l' [E H] _ IH]; [constructor|]. cbn [fst snd] in E, H. subst s'.
  destruct s as [s|p]; cbn [statics]; [constructor; [split; [reflexivity|exact H]|exact IH]|exact IH].
Qed.
Lemma rel_dynamics l l' : Forall2 rel l l' ->
  Forall2 (fun sc sc' => fst sc = fst sc' /\ alike (Dynamic (fst sc)) (snd sc) (snd sc')) (dynamic_children l) (dynamic_children l').
Proof.
  induction 1 as [|[s c] [s' c'] l l' [E H] _ IH]; [constructor|]. cbn [fst snd] in E, H. subst s'.
  destruct s as [s|p]; cbn [dynamic_children]; [exact IH|constructor; [split; [reflexivity|exact H]|exact IH]].
Qed.
Lemma rel_least l l' :
  Forall2 (fun sc sc' : Param * Routes => fst sc = fst sc' /\ alike (Dynamic (fst sc)) (snd sc) (snd sc')) l l' ->
  match least_dynamic l, least_dynamic l' with
  | None, None => True
  | Some (p, c), Some (p', c') => p = p' /\ alike (Dynamic p) c c'
  | _, _ => False
  end.
Proof.
  induction 1 as [|[s c] [s' c'] l l' [E H] _ IH]; [exact I|]. cbn [fst snd] in E, H. subst s'. cbn [least_dynamic].
  destruct (least_dynamic l) as [[p1 c1]|], (least_dynamic l') as [[p1' c1']|]; try contradiction; [|auto].
  destruct IH as [<- IH]. destruct (str_compare (p_name p1) (p_name s)); auto.
Qed.
Lemma rel_static_child t l l' :
  Forall2 (fun sc sc' : str * Routes => fst sc = fst sc' /\ alike (Static (fst sc)) (snd sc) (snd sc')) l l' ->
  match static_child t l, static_child t l' with
  | None, None => True
  | Some c, Some c' => alike (Static t) c c'
  | _, _ => False
  end.
Proof.
  induction 1 as [|[s c] [s' c'] l l' [E H] _ IH]; [exact I|]. cbn [fst snd] in E, H. subst s'. cbn [static_child].
  destruct (str_eqb_spec s t) as [->|]; [exact H|exact IH].
Qed.
Lemma rel_choose b b' t : Forall2 rel (rt_routes b) (rt_routes b') ->
  match choose b t, choose b' t with
  | None, None => True
  | Some (o, c), Some (o', c') => o = o' /\ alike (match o with None => Static t | Some p => Dynamic p end) c c'
  | _, _ => False
  end.
Proof.
  intros H. unfold choose. pose proof (rel_least _ _ (rel_dynamics _ _ H)) as Hd. pose proof (rel_statics _ _ H) as Hs.
  destruct (least_dynamic (dynamic_children (rt_routes b))) as [[p c]|],
           (least_dynamic (dynamic_children (rt_routes b'))) as [[p' c']|]; try contradiction.
  - destruct Hd as [<- Hd]. destruct Hs as [|[s1 c1] [s1' c1'] l l' [E1 H1] Hs]; [auto|].
    cbn [fst snd] in E1, H1. subst s1'. destruct Hs; [|auto].
    destruct (strip s1 t) as [[|y u]|] eqn:Et; auto.
    apply strip_Some in Et. rewrite app_nil_r in Et. subst t. auto.
  - pose proof (rel_static_child t _ _ Hs) as Hc.
    destruct (static_child t (statics (rt_routes b))), (static_child t (statics (rt_routes b'))); cbn [option_map]; auto.
Qed.
End Children.

Section Change.
Context {T E : Type}.
Variable rt : runtime T E.
Let parse := rt_parse rt.
Notation tfind := (tree_find parse).
Variable method : bytes.

(** The blocks answer alike when these segments are left. *)
Definition agree (x x' : Routes) (segs : list bytes) : Prop :=
  match segs with
  | [] => forall q (a : @args T), finish (E := E) method (here x (q ++ rt_query x) a) = finish method (here x' (q ++ rt_query x') a)
  | _ => forall q a rest, split_slash rest = segs -> finish method (tfind x q a rest) = finish method (tfind x' q a rest)
  end.
Definition segs_of (tail : bytes) : list bytes := match tail with [] => [] | _ :: t => split_slash t end.
Lemma agree_refl x segs : agree x x segs.
Proof. destruct segs; cbn; auto. Qed.
Lemma agree_go x x' tail q a : agree x x' (segs_of tail) ->
  finish method (go_in x (tfind x) q a tail) = finish method (go_in x' (tfind x') q a tail).
Proof.
  intros H. destruct tail as [|c t]; cbn [segs_of go_in] in *; [apply H|].
  destruct (N.eqb_spec c c_slash); [|reflexivity]. pose proof (split_nonempty t) as Hn. unfold agree in H.
  destruct (split_slash t) eqn:Es; [congruence|]. apply H. exact Es.
Qed.
Lemma agree_dyn x x' p rest q a : agree x x' (segs_of (snd (segment rest))) ->
  finish method (find_dyn parse p x (tfind x) q a rest) = finish method (find_dyn parse p x' (tfind x') q a rest).
Proof.
  intros H. unfold find_dyn. destruct (segment rest) as [s tail]. cbn [snd] in H.
  destruct (utf8_valid s); [|reflexivity]. destruct (parse (p_typ p) s); [|reflexivity]. apply agree_go, H.
Qed.

Lemma changed_agree x x' pat b b' : changed x x' pat b b' -> every_block plain_statics b ->
  forall segs, (begins pat segs -> agree x x' (skipn (length pat) segs)) -> agree b b' segs.
Proof.
  induction 1 as [|seg pat child child' rs l1 l2 qs H IH]; intros Hp segs Ha.
  - apply (Ha I).
  - assert (Hpb : plain_statics (mkRoutes rs (l1 ++ (seg, child) :: l2) qs)) by (apply every_block_here; exact Hp).
    assert (Hpb' : plain_statics (mkRoutes rs (l1 ++ (seg, child') :: l2) qs)).
    { intros s c Hin. cbn [rt_routes] in Hin. apply in_app_or in Hin. destruct Hin as [Hin|[Hin|Hin]].
      - apply (Hpb s c). cbn [rt_routes]. apply in_or_app. auto.
      - injection Hin as -> ->. apply (Hpb s child). cbn [rt_routes]. apply in_or_app. right. left. reflexivity.
      - apply (Hpb s c). cbn [rt_routes]. apply in_or_app. right. right. exact Hin. }
    assert (IH' : forall segs, (begins pat segs -> agree x x' (skipn (length pat) segs)) -> agree child child' segs).
    { apply IH. apply (every_block_child _ _ seg child Hp). cbn [rt_routes]. apply in_or_app. right. left. reflexivity. }
    clear IH Hp. set (b := mkRoutes rs (l1 ++ (seg, child) :: l2) qs) in *. set (b' := mkRoutes rs (l1 ++ (seg, child') :: l2) qs) in *.
    assert (Hrel : Forall2 (rel seg child child') (rt_routes b) (rt_routes b')) by apply rel_at.
    (* a child that a segment goes to *)
    assert (Hal : forall s t c c' tail, alike seg child child' s c c' -> segs = t :: segs_of tail ->
              (match s with Static u => u = t | Dynamic _ => True end) -> agree c c' (segs_of tail)).
    { intros s t c c' tail Hc Hs Ht. destruct Hc as [->|(-> & -> & ->)]; [apply agree_refl|].
      apply IH'. intros Hb. assert (Hbe : begins (seg :: pat) segs).
      { subst segs. destruct seg as [u|p]; cbn [begins]; [split; [symmetry; exact Ht|exact Hb]|exact Hb]. }
      specialize (Ha Hbe). subst segs. exact Ha. }
    destruct segs as [|s0 segs0].
    + intros q a. unfold here, b, b'. cbn [rt_resources rt_query]. destruct rs; reflexivity.
    + intros q a rest Hrest. rewrite split_segment in Hrest. fold (segs_of (snd (segment rest))) in Hrest.
      destruct rest as [|c0 rest0].
      * rewrite !find_nil by assumption. change (rt_resources b') with (rt_resources b).
        destruct (rt_resources b); [|reflexivity].
        pose proof (rel_least _ _ _ _ _ (rel_dynamics _ _ _ _ _ Hrel)) as Hd. pose proof (rel_statics _ _ _ _ _ Hrel) as Hs.
        destruct (least_dynamic (dynamic_children (rt_routes b))) as [[p c]|],
                 (least_dynamic (dynamic_children (rt_routes b'))) as [[p' c']|]; try contradiction; [|reflexivity].
        destruct Hd as [<- Hd].
        assert (Hdyn : finish method (find_dyn parse p c (tfind c) (q ++ rt_query b) a []) =
                       finish method (find_dyn parse p c' (tfind c') (q ++ rt_query b') a [])).
        { apply agree_dyn. apply (Hal (Dynamic p) [] c c' [] Hd); [symmetry; exact Hrest|exact I]. }
        destruct Hs as [|[u1 c1] [u1' c1'] l l' [E1 H1] Hs]; [exact Hdyn|]. cbn [fst] in E1. subst u1'.
        destruct u1 as [|y [|z u1]]; [exact Hdyn| |exact Hdyn]. destruct Hs; [reflexivity|exact Hdyn].
      * rewrite !find_choose by (assumption || discriminate).
        set (rest := c0 :: rest0) in *. pose proof (rel_choose _ _ _ _ _ (fst (segment rest)) Hrel) as Hc.
        destruct (choose b (fst (segment rest))) as [[o c]|], (choose b' (fst (segment rest))) as [[o' c']|]; try contradiction; [|reflexivity].
        destruct Hc as [<- Hc]. destruct o as [p|].
        -- apply agree_dyn. apply (Hal (Dynamic p) (fst (segment rest)) c c' _ Hc); [symmetry; exact Hrest|exact I].
        -- apply agree_go. apply (Hal (Static (fst (segment rest))) (fst (segment rest)) c c' _ Hc); [symmetry; exact Hrest|reflexivity].
Qed.
Lemma changed_match c c' x x' pat path : runnable c -> runnable c' -> every_block plain_statics (c_routes c) ->
  changed x x' pat (c_routes c) (c_routes c') ->
  (begins pat (all_segments path) -> agree x x' (skipn (length pat) (all_segments path))) ->
  match_route rt c path method = match_route rt c' path method.
Proof.
  intros Hr Hr' Hp Hc Ha. rewrite !match_find by assumption. f_equal.
  pose proof (changed_agree _ _ _ _ _ Hc Hp _ Ha) as H. unfold all_segments in H.
  pose proof (split_nonempty (no_slash path)) as Hn. unfold agree in H.
  destruct (split_slash (no_slash path)) eqn:Es; [congruence|]. apply H. exact Es.
Qed.
Lemma changed_outside c c' x x' pat path : runnable c -> runnable c' -> every_block plain_statics (c_routes c) ->
  changed x x' pat (c_routes c) (c_routes c') -> ~ begins pat (all_segments path) ->
  match_route rt c path method = match_route rt c' path method.
Proof. intros Hr Hr' Hp Hc Hn. eapply changed_match; try eassumption. intros H. contradiction. Qed.

(** ** A resource more *)
Lemma agree_resource rs1 r rs2 ch q segs : rs1 ++ rs2 <> [] -> plain_statics (mkRoutes (rs1 ++ rs2) ch q) ->
  method <> method_display (r_method r) \/ ~ (segs = [] \/ segs = [[]]) ->
  agree (mkRoutes (rs1 ++ rs2) ch q) (mkRoutes (rs1 ++ r :: rs2) ch q) segs.
Proof.
  intros Hne Hp Hm. assert (Hp' : plain_statics (mkRoutes (rs1 ++ r :: rs2) ch q)) by exact Hp.
  assert (Hans : method <> method_display (r_method r) -> forall qs (a : @args T),
            answer (E := E) method (rs1 ++ rs2) qs a = answer method (rs1 ++ r :: rs2) qs a).
  { intros H qs a. unfold answer. replace (find (fun r => str_eqb method (method_display (r_method r))) (rs1 ++ r :: rs2))
      with (find (fun r => str_eqb method (method_display (r_method r))) (rs1 ++ rs2)); [reflexivity|].
    clear Hne Hp Hm Hp'. induction rs1 as [|r1 rs1 IH]; cbn [app find].
    - destruct (str_eqb_spec method (method_display (r_method r))); [contradiction|reflexivity].
    - rewrite IH. reflexivity. }
  destruct segs as [|s0 segs0].
  - destruct Hm as [Hm|Hm]; [|exfalso; apply Hm; left; reflexivity]. intros qs a. unfold here. cbn [rt_resources rt_query].
    destruct (rs1 ++ rs2) eqn:E1; [congruence|]. destruct (rs1 ++ r :: rs2) eqn:E2; [destruct rs1; discriminate|].
    cbn [finish rt_resources]. apply Hans, Hm.
  - intros qs a rest Hrest. destruct rest as [|c0 rest0].
    + destruct Hm as [Hm|Hm]; [|exfalso; apply Hm; right; symmetry; exact Hrest].
      rewrite !find_nil by assumption. cbn [rt_resources rt_query rt_routes].
      destruct (rs1 ++ rs2) eqn:E1; [congruence|]. destruct (rs1 ++ r :: rs2) eqn:E2; [destruct rs1; discriminate|].
      cbn [finish rt_resources]. apply Hans, Hm.
    + rewrite !find_choose by (assumption || discriminate). reflexivity.
Qed.

(** ** A nested route more *)
Lemma agree_route rs l1 s child l2 q segs : dynamic_children (l1 ++ l2) = [] ->
  plain_statics (mkRoutes rs (l1 ++ (Static s, child) :: l2) q) ->
  (forall rest, segs <> s :: rest) ->
  agree (mkRoutes rs (l1 ++ l2) q) (mkRoutes rs (l1 ++ (Static s, child) :: l2) q) segs.
Proof.
  intros Hd Hp Hs. assert (Hp0 : plain_statics (mkRoutes rs (l1 ++ l2) q)).
  { intros u c Hin. apply (Hp u c). cbn [rt_routes] in *. apply in_app_or in Hin. apply in_or_app. cbn. tauto. }
  assert (Hd' : dynamic_children (l1 ++ (Static s, child) :: l2) = []).
  { rewrite dynamic_children_app in *. cbn [dynamic_children]. exact Hd. }
  destruct segs as [|s0 segs0]; [intros qs a; unfold here; cbn [rt_resources rt_query]; destruct rs; reflexivity|]. intros qs a rest Hrest. destruct rest as [|c0 rest0].
  - rewrite !find_nil by assumption. cbn [rt_resources rt_query rt_routes]. rewrite Hd, Hd'. cbn [least_dynamic].
    destruct rs; reflexivity.
  - rewrite !find_choose by (assumption || discriminate). unfold choose. cbn [rt_routes]. rewrite Hd, Hd'. cbn [least_dynamic].
    set (rest := c0 :: rest0) in *. rewrite split_segment in Hrest. pose proof (f_equal (hd []) Hrest) as Hr0. cbn [hd] in Hr0.
    rewrite !statics_app. cbn [statics]. rewrite !static_child_app. cbn [static_child].
    destruct (static_child (fst (segment rest)) (statics l1)); [reflexivity|].
    destruct (str_eqb_spec s (fst (segment rest))) as [->|]; [|reflexivity].
    exfalso. apply (Hs segs0). rewrite Hr0. reflexivity.
Qed.
(** Beside parameters only. *)
Lemma agree_beside rs l1 s child l2 q segs : statics (l1 ++ l2) = [] -> rs <> [] ->
  plain_statics (mkRoutes rs (l1 ++ (Static s, child) :: l2) q) ->
  (forall t rest, segs <> (s ++ t) :: rest) ->
  agree (mkRoutes rs (l1 ++ l2) q) (mkRoutes rs (l1 ++ (Static s, child) :: l2) q) segs.
Proof.
  intros Hd Hne Hp Hs. assert (Hp0 : plain_statics (mkRoutes rs (l1 ++ l2) q)).
  { intros u c Hin. apply (Hp u c). cbn [rt_routes] in *. apply in_app_or in Hin. apply in_or_app. cbn. tauto. }
  assert (Hd' : dynamic_children (l1 ++ (Static s, child) :: l2) = dynamic_children (l1 ++ l2)).
  { rewrite !dynamic_children_app. reflexivity. }
  assert (Hst : statics (l1 ++ (Static s, child) :: l2) = [(s, child)]).
  { rewrite statics_app in *. cbn [statics]. apply app_eq_nil in Hd. destruct Hd as [-> ->]. reflexivity. }
  destruct segs as [|s0 segs0]; [intros qs a; unfold here; cbn [rt_resources rt_query]; destruct rs; reflexivity|]. intros qs a rest Hrest. destruct rest as [|c0 rest0].
  - rewrite !find_nil by assumption. cbn [rt_resources rt_query rt_routes]. destruct rs; [congruence|reflexivity].
  - rewrite !find_choose by (assumption || discriminate). unfold choose. cbn [rt_routes]. rewrite Hd', Hst, Hd.
    set (rest := c0 :: rest0) in *. rewrite split_segment in Hrest. pose proof (f_equal (hd []) Hrest) as Hr0. cbn [hd] in Hr0.
    assert (Hn : strip s (fst (segment rest)) = None).
    { destruct (strip s (fst (segment rest))) as [t|] eqn:Et; [|reflexivity]. apply strip_Some in Et.
      exfalso. apply (Hs t segs0). rewrite <- Hr0, Et. reflexivity. }
    rewrite Hn. destruct (least_dynamic (dynamic_children (l1 ++ l2))) as [[p c]|]; [reflexivity|].
    cbn [static_child option_map]. destruct (str_eqb_spec s (fst (segment rest))) as [Es|]; [|reflexivity].
    exfalso. apply (Hs [] segs0). rewrite app_nil_r. rewrite Es, Hr0. reflexivity.
Qed.
(** A parameter beside at most one static segment. *)
Lemma agree_parameter rs l1 p child l2 q segs : dynamic_children (l1 ++ l2) = [] -> rs <> [] ->
  plain_statics (mkRoutes rs (l1 ++ (Dynamic p, child) :: l2) q) ->
  (segs = [] \/ segs = [[]] \/ exists s c t rest, statics (l1 ++ l2) = [(s, c)] /\ segs = (s ++ t) :: rest) ->
  agree (mkRoutes rs (l1 ++ l2) q) (mkRoutes rs (l1 ++ (Dynamic p, child) :: l2) q) segs.
Proof.
  intros Hd Hne Hp Hs. assert (Hp0 : plain_statics (mkRoutes rs (l1 ++ l2) q)).
  { intros u c Hin. apply (Hp u c). cbn [rt_routes] in *. apply in_app_or in Hin. apply in_or_app. cbn. tauto. }
  assert (Hd' : dynamic_children (l1 ++ (Dynamic p, child) :: l2) = [(p, child)]).
  { rewrite dynamic_children_app in *. cbn [dynamic_children]. apply app_eq_nil in Hd. destruct Hd as [-> ->]. reflexivity. }
  assert (Hst : statics (l1 ++ (Dynamic p, child) :: l2) = statics (l1 ++ l2)).
  { rewrite !statics_app. reflexivity. }
  destruct segs as [|s0 segs0]; [intros qs a; unfold here; cbn [rt_resources rt_query]; destruct rs; reflexivity|]. intros qs a rest Hrest. destruct rest as [|c0 rest0].
  - rewrite !find_nil by assumption. cbn [rt_resources rt_query rt_routes]. destruct rs; [congruence|reflexivity].
  - rewrite !find_choose by (assumption || discriminate). unfold choose. cbn [rt_routes]. rewrite Hd', Hst, Hd. cbn [least_dynamic].
    set (rest := c0 :: rest0) in *. destruct Hs as [Hs|[Hs|(s & c & t & r & Hone & Hs)]]; [discriminate| |].
    + exfalso. rewrite Hs in Hrest. unfold rest in Hrest. cbn [split_slash] in Hrest.
      pose proof (split_nonempty rest0) as Hn. destruct (split_slash rest0) as [|w ws]; [congruence|].
      destruct (N.eqb c0 c_slash); discriminate.
    + rewrite Hone. rewrite split_segment in Hrest. pose proof (f_equal (hd []) (eq_trans Hrest Hs)) as Hr0. cbn [hd] in Hr0. rewrite Hr0.
      cbn [static_child]. destruct (strip s (s ++ t)) as [[|y u]|] eqn:Et.
      * apply strip_Some in Et. rewrite Et, app_nil_r. destruct (str_eqb_spec s s); [reflexivity|congruence].
      * apply strip_Some in Et. rewrite Et. destruct (str_eqb_spec s (s ++ y :: u)) as [Es|]; [|reflexivity].
        exfalso. apply (f_equal (@length _)) in Es. rewrite app_length in Es. cbn [length] in Es. lia.
      * exfalso. assert (Hx : strip s (s ++ t) = Some t) by (apply strip_Some; reflexivity). congruence.
Qed.
End Change.

Lemma agree_sym {T E} (rt : runtime T E) method x x' segs : agree rt method x x' segs -> agree rt method x' x segs.
Proof. destruct segs; cbn; intros H; intros; symmetry; auto. Qed.
Lemma changed_sym x x' pat b b' : changed x x' pat b b' -> changed x' x pat b' b.
Proof. induction 1; constructor; assumption. Qed.
Lemma changed_block x x' pat b b' : changed x x' pat b b' -> exists q, block_at b pat q x.
Proof.
  induction 1 as [|seg pat child child' rs l1 l2 qs H [q IH]].
  - eexists. constructor.
  - eexists. econstructor; [|exact IH]. cbn [rt_routes]. apply in_or_app. right. left. reflexivity.
Qed.
Lemma begins_snoc pat s segs : begins (pat ++ [Static s]) segs <-> begins pat segs /\ exists rest, skipn (length pat) segs = s :: rest.
Proof.
  revert segs. induction pat as [|seg pat IH]; intros segs; cbn [app begins length skipn].
  - destruct segs as [|s0 segs].
    + split; [intros []|intros (_ & rest & E)]; discriminate.
    + split; [intros [-> _]; eauto|intros (_ & rest & E); injection E as -> ->; auto].
  - destruct seg as [t|p], segs as [|s0 segs]; try tauto.
    + rewrite IH. tauto.
    + apply IH.
Qed.
Section Kinds.
Context {T E : Type}.
Variable rt : runtime T E.
Lemma added_resource c c' rs1 r rs2 ch q pat path method :
  runnable c -> runnable c' -> every_block plain_statics (c_routes c) ->
  changed (mkRoutes (rs1 ++ rs2) ch q) (mkRoutes (rs1 ++ r :: rs2) ch q) pat (c_routes c) (c_routes c') ->
  rs1 ++ rs2 <> [] -> method <> method_display (r_method r) \/ ~ ends_at pat (all_segments path) ->
  match_route rt c path method = match_route rt c' path method.
Proof.
  intros Hr Hr' Hp Hc Hne Hm. eapply changed_match; try eassumption. intros Hb. apply agree_resource; [exact Hne| |].
  - destruct (changed_block _ _ _ _ _ Hc) as [qs Hx]. exact (Hp _ _ _ Hx).
  - destruct Hm as [Hm|Hm]; [left; exact Hm|]. right. intros H. apply Hm. split; assumption.
Qed.
Lemma added_route c c' rs l1 s child l2 q pat path method :
  runnable c -> runnable c' -> every_block plain_statics (c_routes c') ->
  changed (mkRoutes rs (l1 ++ l2) q) (mkRoutes rs (l1 ++ (Static s, child) :: l2) q) pat (c_routes c) (c_routes c') ->
  dynamic_children (l1 ++ l2) = [] -> ~ begins (pat ++ [Static s]) (all_segments path) ->
  match_route rt c path method = match_route rt c' path method.
Proof.
  intros Hr Hr' Hp Hc Hd Hn. apply changed_sym in Hc. symmetry. eapply changed_match; try eassumption. intros Hb.
  apply agree_sym, agree_route; [exact Hd| |].
  - destruct (changed_block _ _ _ _ _ Hc) as [qs Hx]. exact (Hp _ _ _ Hx).
  - intros rest Hs. apply Hn. apply begins_snoc. eauto.
Qed.
Lemma added_beside c c' rs l1 s child l2 q pat path method :
  runnable c -> runnable c' -> every_block plain_statics (c_routes c') ->
  changed (mkRoutes rs (l1 ++ l2) q) (mkRoutes rs (l1 ++ (Static s, child) :: l2) q) pat (c_routes c) (c_routes c') ->
  statics (l1 ++ l2) = [] -> rs <> [] -> ~ begins_with pat s (all_segments path) ->
  match_route rt c path method = match_route rt c' path method.
Proof.
  intros Hr Hr' Hp Hc Hd Hne Hn. apply changed_sym in Hc. symmetry. eapply changed_match; try eassumption. intros Hb.
  apply agree_sym, agree_beside; [exact Hd|exact Hne| |].
  - destruct (changed_block _ _ _ _ _ Hc) as [qs Hx]. exact (Hp _ _ _ Hx).
  - intros t rest Hs. apply Hn. split; eauto.
Qed.
Lemma added_parameter c c' rs l1 p child l2 q pat path method :
  runnable c -> runnable c' -> every_block plain_statics (c_routes c') ->
  changed (mkRoutes rs (l1 ++ l2) q) (mkRoutes rs (l1 ++ (Dynamic p, child) :: l2) q) pat (c_routes c) (c_routes c') ->
  dynamic_children (l1 ++ l2) = [] -> rs <> [] ->
  ends_at pat (all_segments path) \/
  (exists s x, statics (l1 ++ l2) = [(s, x)] /\ begins_with pat s (all_segments path)) ->
  match_route rt c path method = match_route rt c' path method.
Proof.
  intros Hr Hr' Hp Hc Hd Hne Hn. apply changed_sym in Hc. symmetry. eapply changed_match; try eassumption. intros Hb.
  apply agree_sym, agree_parameter; [exact Hd|exact Hne| |].
  - destruct (changed_block _ _ _ _ _ Hc) as [qs Hx]. exact (Hp _ _ _ Hx).
  - destruct Hn as [[_ [H|H]]|(s & x & Hs & _ & t & rest & H)]; [left; exact H|right; left; exact H|].
    right. right. exists s, x, t, rest. split; assumption.
Qed.
End Kinds.
