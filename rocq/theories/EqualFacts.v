(** * EqualFacts: proofs about Equal.v *)
From Coq Require Import Permutation.
From Verif Require Import Base Core Flat MiniRust Gen Items ToPath Build Cli Fixed Equal Spec SpecMatch SpecCompile SpecPath SpecBack SpecCli
  SpecEqual BaseFacts FlatFacts ItemFacts ItemText NodeFacts RunFacts MatchFacts MatchProps MatchThms CompileFacts PathThms BackThms
  CliFacts.
From Verif Require ReachThms.

Lemma nodup_map_inj {A} (f : A -> str) l x y : NoDup (map f l) -> In x l -> In y l -> f x = f y -> x = y.
Proof.
  induction l as [|z l IH]; cbn [map In]; [contradiction|]. intros Hn. inversion_clear Hn as [|? ? Hz Hn'].
  intros [->|Hx] [->|Hy] He; auto.
  - exfalso. apply Hz. rewrite He. apply in_map. exact Hy.
  - exfalso. apply Hz. rewrite <- He. apply in_map. exact Hx.
Qed.

Section Equal.
Context {T E : Type}.
Variable eqv : str -> T -> T -> bool.
Variable of_usize : nat -> T.
Variable rt : runtime T E.
Notation parse := (rt_parse rt).

Lemma eq_dispatch hs : forall m root, module_ok root m = true ->
  forall mods a mods' a', In (mods, a) (module_actions m) -> In (mods', a') (module_actions m) ->
  NoDup (map fd_name (action_fields a)) /\
  (mods = mods' /\ a = a' /\
   (forall fs gs,
      eq_enum eqv (module_items root hs m) (lit "Route") (map to_caps_case mods ++ [to_caps_case (a_name a)]) fs
        (map to_caps_case mods' ++ [to_caps_case (a_name a')]) gs = eq_fields eqv (action_decl a) fs gs) \/
   ~ (map to_caps_case mods = map to_caps_case mods' /\ to_caps_case (a_name a) = to_caps_case (a_name a')) /\
   (forall fs gs,
      eq_enum eqv (module_items root hs m) (lit "Route") (map to_caps_case mods ++ [to_caps_case (a_name a)]) fs
        (map to_caps_case mods' ++ [to_caps_case (a_name a')]) gs = Some false)).
Proof.
  induction m as [name acts subs IH] using FM_ind'. intros root Hok mods a mods' a' Ha Ha'.
  destruct (module_ok_variants _ _ Hok) as (N1 & N2 & N3 & Hv & Hf & Hs). cbn [m_actions m_modules] in *.
  assert (V0 : forall a, In a acts -> lookup (to_caps_case (a_name a)) (variants (mkModule name acts subs))
                 = Some (TyItem [] (to_caps_case (a_name a)))).
  { intros x Hx. apply lookup_nodup; [exact Hv|]. unfold variants. apply in_app_iff. left. apply in_map_iff. exists x. auto. }
  assert (V1 : forall s, In s subs -> lookup (to_caps_case (m_name s)) (variants (mkModule name acts subs))
                 = Some (TyItem [to_snake_case (m_name s)] (lit "Route"))).
  { intros x Hx. apply lookup_nodup; [exact Hv|]. unfold variants. apply in_app_iff. right. apply in_map_iff. exists x. auto. }
  assert (Vd : forall a s, In a acts -> In s subs -> to_caps_case (a_name a) <> to_caps_case (m_name s)).
  { intros x s Hx Hi He. pose proof (V0 x Hx) as H0. rewrite He, (V1 s Hi) in H0. discriminate. }
  destruct mods as [|k mods], mods' as [|k' mods'].
  - rewrite in_module_actions_nil in Ha, Ha'. cbn [m_actions] in Ha, Ha'. split; [apply Hf; exact Ha|].
    cbn [map app eq_enum]. rewrite items_enums_of. cbn [lookup]. rewrite str_eqb_refl, (V0 a Ha), (V0 a' Ha').
    destruct (str_eqb (to_caps_case (a_name a)) (to_caps_case (a_name a'))) eqn:Ee.
    + apply str_eqb_eq in Ee. left. split; [reflexivity|].
      assert (a = a') as <- by (apply (nodup_map_inj (fun a => to_caps_case (a_name a)) acts); auto).
      split; [reflexivity|]. intros fs gs. unfold eq_struct. rewrite items_structs_of. cbn [m_actions].
      rewrite (lookup_key caps_name action_decl acts a N1 Ha : lookup (to_caps_case (a_name a)) _ = _). reflexivity.
    + right. split; [|reflexivity]. intros [_ He]. rewrite He, str_eqb_refl in Ee. discriminate.
  - rewrite in_module_actions_nil in Ha. rewrite in_module_actions_cons in Ha'. cbn [m_actions m_modules] in *.
    destruct Ha' as (s & Hin & <- & Ha'). split; [apply Hf; exact Ha|]. right. split; [intros [? _]; discriminate|].
    intros fs gs. cbn [map app eq_enum]. rewrite items_enums_of. cbn [lookup]. rewrite str_eqb_refl, (V0 a Ha), (V1 s Hin).
    destruct (str_eqb _ _) eqn:Ee; [|reflexivity]. apply str_eqb_eq in Ee. exfalso. exact (Vd a s Ha Hin Ee).
  - rewrite in_module_actions_nil in Ha'. rewrite in_module_actions_cons in Ha. cbn [m_actions m_modules] in *.
    destruct Ha as (s & Hin & <- & Ha).
    split; [exact (proj1 (IH s Hin false (Hs s Hin) mods a mods a Ha Ha))|]. right. split; [intros [? _]; discriminate|].
    intros fs gs. cbn [map app eq_enum]. rewrite items_enums_of. cbn [lookup]. rewrite str_eqb_refl, (V0 a' Ha'), (V1 s Hin).
    destruct (str_eqb _ _) eqn:Ee; [|reflexivity]. apply str_eqb_eq in Ee. exfalso. exact (Vd a' s Ha' Hin (eq_sym Ee)).
  - rewrite in_module_actions_cons in Ha, Ha'. cbn [m_modules] in *.
    destruct Ha as (s & Hin & <- & Ha). destruct Ha' as (s' & Hin' & <- & Ha').
    split; [exact (proj1 (IH s Hin false (Hs s Hin) mods a mods a Ha Ha))|].
    cbn [map app eq_enum]. rewrite items_enums_of. cbn [lookup]. rewrite str_eqb_refl, (V1 s Hin), (V1 s' Hin').
    destruct (str_eqb (to_caps_case (m_name s)) (to_caps_case (m_name s'))) eqn:Ee.
    + apply str_eqb_eq in Ee.
      assert (s = s') as <- by (apply (nodup_map_inj (fun s => to_caps_case (m_name s)) subs); auto).
      rewrite items_mods_of. cbn [m_modules].
      rewrite (lookup_key (fun s => to_snake_case (m_name s)) (fun s => module_items false hs s) subs s N3 Hin).
      destruct (proj2 (IH s Hin false (Hs s Hin) mods a mods' a' Ha Ha')) as [(-> & <- & H)|(Hne & H)].
      * left. split; [reflexivity|]. split; [reflexivity|]. exact H.
      * right. split; [|exact H]. intros [Hm Hn]. injection Hm as Hm. auto.
    + right. split; [|reflexivity]. intros [Hm _]. injection Hm as Hm _. rewrite Hm, str_eqb_refl in Ee. discriminate.
Qed.

(** The fields. *)
Definition eq_values (xt : str * ty) (v w : field_value T) : bool :=
  match eq_field eqv (snd xt) v w with Some b => b | None => false end.
Lemma eq_fields_values fs gs : forall decl vs ws,
  Forall2 (fun xt v => lookup (fst xt) fs = Some v /\ fits (snd xt) v) decl vs ->
  Forall2 (fun xt v => lookup (fst xt) gs = Some v /\ fits (snd xt) v) decl ws ->
  eq_fields eqv decl fs gs =
  Some (forallb (fun xvw : (str * ty) * (field_value T * field_value T) => eq_values (fst xvw) (fst (snd xvw)) (snd (snd xvw)))
          (combine decl (combine vs ws))).
Proof.
  intros decl vs ws H. revert ws. induction H as [|[x t] v decl vs (Hl & Hf) H IH]; intros ws H'; inversion H' as [|? w ? ws' (Hl' & Hf') H'' ]; subst.
  - reflexivity.
  - cbn [fst snd] in *. cbn [eq_fields combine forallb fst snd]. rewrite Hl, Hl', (IH _ H'').
    unfold eq_values at 1. cbn [snd].
    destruct t as [t|t|ms n], v as [v|v], w as [w|w]; cbn [fits] in *; try contradiction; reflexivity.
Qed.
Lemma forallb_values : forall ps vals vals' qs opts opts',
  length vals = length ps -> length vals' = length ps -> length opts = length qs -> length opts' = length qs ->
  forallb (fun xvw : (str * ty) * (field_value T * field_value T) => eq_values (fst xvw) (fst (snd xvw)) (snd (snd xvw)))
    (combine (map (fun p => (p_name p, TyUser (p_typ p))) ps ++ map (fun p => (p_name p, TyOption (p_typ p))) qs)
       (combine (map Given vals ++ map Query opts) (map Given vals' ++ map Query opts'))) = true <->
  equal_values eqv ps vals vals' /\ equal_options eqv qs opts opts'.
Proof.
  unfold equal_values, equal_options.
  induction ps as [|p ps IH]; intros [|v vals] [|w vals'] qs opts opts' L1 L2 L3 L4; try discriminate; cbn [map app combine].
  - transitivity (Forall2 (fun pv pw => equal_option eqv (p_typ (fst pv)) (snd pv) (snd pw)) (combine qs opts) (combine qs opts'));
      [|intuition constructor].
    revert opts opts' L3 L4. induction qs as [|p qs IH]; intros [|v opts] [|w opts'] L3 L4; try discriminate; cbn [map app combine forallb fst snd].
    + intuition constructor.
    + rewrite andb_true_iff, IH by (simpl in *; congruence). unfold eq_values. cbn [eq_field snd].
      split.
      * intros [H1 H2]. constructor; [|exact H2]. cbn [fst snd].
        destruct v, w; try discriminate; constructor; auto.
      * intros H. inversion H as [|? ? ? ? H1 H2]; subst. split; [|exact H2]. cbn [fst snd] in H1. inversion H1; auto.
  - cbn [forallb fst snd]. rewrite andb_true_iff, IH by (simpl in *; congruence). unfold eq_values. cbn [eq_field snd].
    split.
    + intros [H1 [H2 H3]]. split; [|exact H3]. constructor; auto.
    + intros [H H3]. inversion H as [|? ? ? ? H1 H2]; subst. auto.
Qed.

Lemma action_of c root pat q b r : flattened_modules (c_routes c) = ROk root ->
  block_at (c_routes c) pat q b -> In r (rt_resources b) -> r_is_redirect r = false ->
  In (r_modules r, mkAction (r_name r) (r_method r) pat (path_params pat) (q ++ r_query r)) (module_actions root).
Proof.
  intros Er Hb Hr Hd. destruct (flattened_modules_tree _ _ Er) as (_ & _ & HPa & _).
  eapply Permutation_in; [symmetry; exact HPa|]. apply blocks_at in Hb. unfold config_actions.
  apply in_concat. exists (block_actions (pat, q, b)). split; [apply in_map; exact Hb|].
  cbn [block_actions]. apply in_map_iff. exists r. split; [reflexivity|]. apply filter_In. rewrite Hd. auto.
Qed.
Lemma compiles_module c : compiles c = true ->
  exists root, flattened_modules (c_routes c) = ROk root /\ module_ok true root = true.
Proof.
  unfold compiles. destruct (flattened_modules (c_routes c)) as [root| | |] eqn:Er; try discriminate.
  destruct (gen_program c); try discriminate. rewrite !andb_true_iff. intros [[Hok _] _]. eauto.
Qed.

(** Two routes. *)
Lemma eq_routes c pat q b r vals opts fs pat' q' b' r' vals' opts' gs : compiles c = true ->
  block_at (c_routes c) pat q b -> In r (rt_resources b) -> r_is_redirect r = false ->
  struct_fields pat (q ++ r_query r) vals opts fs ->
  block_at (c_routes c) pat' q' b' -> In r' (rt_resources b') -> r_is_redirect r' = false ->
  struct_fields pat' (q' ++ r_query r') vals' opts' gs ->
  exists e,
    eq_route eqv c (map to_caps_case (r_modules r)) (to_caps_case (r_name r)) fs
      (map to_caps_case (r_modules r')) (to_caps_case (r_name r')) gs = Some e /\
    (e = true <->
     map to_caps_case (r_modules r) = map to_caps_case (r_modules r') /\ to_caps_case (r_name r) = to_caps_case (r_name r') /\
     pat = pat' /\ q ++ r_query r = q' ++ r_query r' /\
     equal_values eqv (path_params pat) vals vals' /\ equal_options eqv (q ++ r_query r) opts opts').
Proof.
  intros Hc Hb Hr Hd (L1 & L2 & HP) Hb' Hr' Hd' (L1' & L2' & HP').
  destruct (compiles_module c Hc) as (root & Er & Hok).
  pose proof (action_of c root _ _ _ _ Er Hb Hr Hd) as Ha. pose proof (action_of c root _ _ _ _ Er Hb' Hr' Hd') as Ha'.
  unfold eq_route. rewrite Er, Hc.
  destruct (eq_dispatch (c_headers c) root true Hok _ _ _ _ Ha Ha') as (N & [(Em & Ea & H)|(Hne & H)]);
    cbn [a_name] in H; rewrite H; clear H.
  - injection Ea as En Emeth Ep Eps Eq. cbn [a_name a_path a_route_params a_query_params] in *.
    rewrite <- Ep in *. rewrite <- Eq in *.
    unfold action_fields in N. rewrite map_app, !map_map in N. cbn [a_route_params a_query_params fd_name] in N.
    assert (Hn : forall fs vals opts, length vals = length (path_params pat) -> length opts = length (q ++ r_query r) ->
        Permutation fs (combine (map p_name (path_params pat)) (map Given vals) ++
                        combine (map p_name (q ++ r_query r)) (map Query opts)) ->
        Forall2 (fun xt v => lookup (fst xt) fs = Some v /\ fits (T := T) (snd xt) v)
          (action_decl (mkAction (r_name r) (r_method r) pat (path_params pat) (q ++ r_query r)))
          (map Given vals ++ map Query opts)).
    { intros fs0 vals0 opts0 L L' P. unfold action_decl. cbn [a_route_params a_query_params]. apply decl_fits; auto.
      - eapply Permutation_NoDup; [apply Permutation_map; symmetry; exact P|].
        rewrite map_app, !map_fst_combine by (rewrite !map_length; auto). exact N.
      - intros x Hx. eapply Permutation_in; [symmetry; exact P|exact Hx]. }
    rewrite (eq_fields_values fs gs _ _ _ (Hn _ _ _ L1 L2 HP) (Hn _ _ _ L1' L2' HP')).
    eexists. split; [reflexivity|]. unfold action_decl. cbn [a_route_params a_query_params].
    rewrite forallb_values by auto. rewrite Em, En. tauto.
  - exists false. split; [reflexivity|]. cbn [a_name] in Hne. split; [discriminate|]. intros (H1 & H2 & _). exfalso. auto.
Qed.

(** What [match_route] returns is a value of the struct of a resource. *)
Definition route_fields (ps : list Param) (vals : list T) (query : list Param) : list (str * fval T) :=
  map (fun pv : Param * T => (p_name (fst pv), FvVal (p_typ (fst pv)) (snd pv))) (combine ps vals)
  ++ map (fun p => (p_name p, FvNone)) query.
Definition value_of (c : RouteConfig) (v : route_value T) pat q b r vals : Prop :=
  block_at (c_routes c) pat q b /\ In r (rt_resources b) /\ r_is_redirect r = false /\
  rv_modules v = map to_caps_case (r_modules r) /\ rv_name v = to_caps_case (r_name r) /\
  length vals = length (path_params pat) /\
  Permutation (rv_fields v) (route_fields (path_params pat) vals (q ++ r_query r)).
Lemma answer_value c path method v : runnable c ->
  match_route rt c path method = Some (RunResult (MRoute v)) \/ match_route rt c path method = Some (RunResult (MRedirect v)) ->
  exists pat q b r vals, value_of c v pat q b r vals.
Proof.
  intros Hc [H|H].
  - destruct (sound rt c path method false v Hc H) as (pat & q & b & r & segs & a & H1 & H2 & H3 & H4 & H5 & ->).
    destruct (route_perm rt r q _ _ _ H5) as [L P]. exists pat, q, b, r, (map snd a). split; [exact H1|].
    split; [exact (first_in _ _ _ H2)|]. split; [exact H3|]. split; [reflexivity|]. split; [reflexivity|]. split; [exact L|exact P].
  - destruct (back_redirect rt (fun _ _ => []) c path method v Hc H)
      as (pat & segs & a & fs & pat' & q' & b' & r' & vals & H1 & H2 & H3 & H4 & H5 & H6 & H7 & H8 & H9 & P & _).
    exists pat', q', b', r', vals. do 5 (split; [assumption|]). split; [|exact P]. clear - H9. induction H9; simpl; congruence.
Qed.

Lemma equal_values_decides : decides eqv -> forall ps vals vals', length vals = length ps -> length vals' = length ps ->
  equal_values eqv ps vals vals' <-> vals = vals'.
Proof.
  intros D. unfold equal_values. induction ps as [|p ps IH]; intros [|v vals] [|w vals'] L L'; try discriminate; cbn [combine].
  - intuition constructor.
  - split.
    + intros H. inversion H as [|? ? ? ? H1 H2]; subst. apply D in H1. cbn [snd] in H1. subst.
      f_equal. apply IH; simpl in *; congruence.
    + intros [= <- <-]. constructor; [apply D; reflexivity|]. apply IH; simpl in *; congruence.
Qed.
Lemma equal_no_values qs : equal_options eqv qs (no_values qs) (no_values qs).
Proof. unfold equal_options, no_values. induction qs as [|p qs IH]; constructor; [constructor|exact IH]. Qed.

Lemma same_lookups (L : list (str * fval T)) : forall ps vals vals', length vals = length ps -> length vals' = length ps ->
  (forall p v, In (p, v) (combine ps vals) -> lookup (p_name p) L = Some (FvVal (p_typ p) v)) ->
  (forall p v, In (p, v) (combine ps vals') -> lookup (p_name p) L = Some (FvVal (p_typ p) v)) -> vals = vals'.
Proof.
  induction ps as [|p ps IH]; intros [|v vals] [|w vals'] L1 L2 H H'; try discriminate; [reflexivity|].
  assert (Hvw : Some (FvVal (p_typ p) v) = Some (FvVal (p_typ p) w))
    by (rewrite <- (H p v (or_introl eq_refl)); apply (H' p w (or_introl eq_refl))).
  injection Hvw as <-. f_equal. apply IH; [simpl in *; congruence..| |]; intros; [apply H|apply H']; right; assumption.
Qed.
Lemma perm_values ps vals vals' query : NoDup (map p_name ps ++ map p_name query) ->
  length vals = length ps -> length vals' = length ps ->
  Permutation (route_fields ps vals query) (route_fields ps vals' query) -> vals = vals'.
Proof.
  intros N L L' P.
  assert (N0 : forall vals, length vals = length ps -> NoDup (map fst (route_fields ps vals query))).
  { intros vals0 L0. unfold route_fields. rewrite map_app, !map_map. cbn [fst].
    replace (map (fun x : Param * T => p_name (fst x)) (combine ps vals0)) with (map p_name ps); [exact N|].
    clear - L0. revert vals0 L0. induction ps as [|p ps0 IH]; intros [|v vals0] L0; try discriminate; [reflexivity|].
    cbn [map combine fst]. f_equal. apply IH. simpl in L0. congruence. }
  apply (same_lookups (route_fields ps vals' query) ps); auto.
  - intros p v Hin. apply lookup_nodup; [apply N0; exact L'|]. eapply Permutation_in; [exact P|].
    apply in_or_app. left. apply in_map_iff. exists (p, v). auto.
  - intros p v Hin. apply lookup_nodup; [apply N0; exact L'|].
    apply in_or_app. left. apply in_map_iff. exists (p, v). auto.
Qed.

Lemma eq_values_of c v w pat q b r vals pat' q' b' r' vals' : compiles c = true -> decides eqv ->
  value_of c v pat q b r vals -> value_of c w pat' q' b' r' vals' ->
  exists e, eq_route eqv c (rv_modules v) (rv_name v) (as_fields of_usize v) (rv_modules w) (rv_name w) (as_fields of_usize w) = Some e /\
    (e = true <-> same_route v w).
Proof.
  intros Hc D (V1 & V2 & V3 & V4 & V5 & V6 & V7) (W1 & W2 & W3 & W4 & W5 & W6 & W7).
  pose proof (as_fields_perm of_usize _ _ _ _ V6 V7) as Fv. pose proof (as_fields_perm of_usize _ _ _ _ W6 W7) as Fw.
  destruct (eq_routes c _ _ _ _ _ _ _ _ _ _ _ _ _ _ Hc V1 V2 V3 Fv W1 W2 W3 Fw) as (e & He & Hiff).
  exists e. rewrite V4, V5, W4, W5. split; [exact He|]. rewrite Hiff. clear He Hiff. unfold same_route. rewrite V4, V5, W4, W5.
  split.
  - intros (E1 & E2 & <- & Eq & Ev & _). split; [exact E1|]. split; [exact E2|].
    apply (equal_values_decides D) in Ev; auto. subst vals'. rewrite <- Eq in W7.
    eapply Permutation_trans; [exact V7|symmetry; exact W7].
  - intros (E1 & E2 & P). do 2 (split; [assumption|]).
    destruct (compiles_module c Hc) as (root & Er & Hok).
    pose proof (action_of c root _ _ _ _ Er V1 V2 V3) as Ha. pose proof (action_of c root _ _ _ _ Er W1 W2 W3) as Ha'.
    destruct (eq_dispatch (c_headers c) root true Hok _ _ _ _ Ha Ha') as (N & [(Em & Ea & _)|(Hne & _)]).
    2: { cbn [a_name] in Hne. exfalso. auto. }
    injection Ea as En Emeth Ep Eps Eq. rewrite <- Ep in *. rewrite <- Eq in *.
    split; [reflexivity|]. split; [reflexivity|].
    assert (vals = vals') as <-.
    { apply (perm_values (path_params pat) vals vals' (q ++ r_query r)); auto.
      - unfold action_fields in N. rewrite map_app, !map_map in N. exact N.
      - eapply Permutation_trans; [symmetry; exact V7|]. eapply Permutation_trans; [exact P|exact W7]. }
    split; [apply equal_values_decides; auto|apply equal_no_values].
Qed.

(** Two answers. *)
Lemma eq_answers c path method path' method' m m' : runnable c -> decides eqv ->
  match_route rt c path method = Some (RunResult m) -> match_route rt c path' method' = Some (RunResult m') ->
  no_error m -> no_error m' ->
  exists e, eq_match eqv of_usize c m m' = Some e /\ (e = true <-> same_match m m').
Proof.
  intros Hc D Hm Hm' Hn Hn'.
  assert (Hv : forall v, m = MRoute v \/ m = MRedirect v -> exists pat q b r vals, value_of c v pat q b r vals).
  { intros v Hv. apply (answer_value c path method v Hc). destruct Hv as [->| ->]; auto. }
  assert (Hw : forall v, m' = MRoute v \/ m' = MRedirect v -> exists pat q b r vals, value_of c v pat q b r vals).
  { intros v Hw. apply (answer_value c path' method' v Hc). destruct Hw as [->| ->]; auto. }
  destruct m as [| |v|v|x e]; [| | | |exfalso; eapply Hn; reflexivity];
  destruct m' as [| |w|w|x' e']; try (exfalso; eapply Hn'; reflexivity).
  all: try (exists false; split; [reflexivity|]; split; [discriminate|intros H; inversion H]; fail).
  all: try (exists true; split; [reflexivity|]; split; [constructor|reflexivity]; fail).
  all: destruct (Hv v ltac:(auto)) as (? & ? & ? & ? & ? & V); destruct (Hw w ltac:(auto)) as (? & ? & ? & ? & ? & W);
    destruct (eq_values_of c v w _ _ _ _ _ _ _ _ _ _ (proj1 Hc) D V W) as (e & He & Hiff);
    unfold eq_match; cbn [match_variant]; rewrite He.
  - exists e. split; [destruct e; reflexivity|]. rewrite Hiff. split; [constructor; assumption|intros H; inversion H; auto].
  - exists false. split; [reflexivity|]. split; [discriminate|intros H; inversion H].
  - exists false. split; [reflexivity|]. split; [discriminate|intros H; inversion H].
  - exists e. split; [destruct e; reflexivity|]. rewrite Hiff. split; [constructor; assumption|intros H; inversion H; auto].
Qed.

(** Equal routes come from the same segments, if no two texts are parsed as the
    same value. *)
Lemma same_segments : (forall t text text' x, parse t text = inl x -> parse t text' = inl x -> text = text') ->
  forall pat segs a, matches parse pat segs a ->
  forall segs' a', matches parse pat segs' a' -> map snd a = map snd a' -> segs = segs'.
Proof.
  intros Hi. induction 1 as [|s pat segs a H IH|p v seg pat segs a Hn Hu Hp H IH]; intros segs' a' H' Ea; inversion H'; subst.
  - reflexivity.
  - f_equal. eauto.
  - cbn [map snd] in Ea. injection Ea as <- Ea. f_equal; eauto.
Qed.
Lemma equal_requests c path method path' method' v w : runnable c -> decides eqv ->
  (forall t text text' x, parse t text = inl x -> parse t text' = inl x -> text = text') ->
  match_route rt c path method = Some (RunResult (MRoute v)) ->
  match_route rt c path' method' = Some (RunResult (MRoute w)) ->
  eq_match (E := E) eqv of_usize c (MRoute v) (MRoute w) = Some true ->
  method = method' /\ exists segs, spells path segs /\ spells path' segs.
Proof.
  intros Hc D Hi Hm Hm' He.
  destruct (sound rt c path method false v Hc Hm) as (pat & q & b & r & segs & a & H1 & H2 & H3 & H4 & H5 & ->).
  destruct (sound rt c path' method' false w Hc Hm') as (pat' & q' & b' & r' & segs' & a' & G1 & G2 & G3 & G4 & G5 & ->).
  destruct (route_perm rt r q _ _ _ H5) as [L P]. destruct (route_perm rt r' q' _ _ _ G5) as [L' P'].
  unfold eq_match in He. cbn [match_variant] in He. cbn [route_for rv_modules rv_name] in He.
  destruct (eq_routes c _ _ _ _ _ _ _ _ _ _ _ _ _ _ (proj1 Hc) H1 (first_in _ _ _ H2) H3 (as_fields_perm of_usize _ _ _ _ L P)
              G1 (first_in _ _ _ G2) G3 (as_fields_perm of_usize _ _ _ _ L' P')) as (e & Hee & Hiff).
  cbn [rv_fields] in *. rewrite Hee in He. destruct e; [|discriminate].
  destruct (proj1 Hiff eq_refl) as (Em & En & <- & _ & Ev & _). apply (equal_values_decides D) in Ev; auto.
  split.
  { destruct (ReachThms.same_resource c _ _ _ _ _ _ _ _ (proj1 Hc) H1 (first_in _ _ _ H2) H3 G1 (first_in _ _ _ G2) G3 Em En) as (_ & _ & _ & <-).
    destruct H2 as (_ & _ & _ & <- & _), G2 as (_ & _ & _ & <- & _). reflexivity. }
  exists segs. split; [exact H4|]. rewrite (same_segments Hi _ _ _ H5 _ _ G5 Ev). exact G4.
Qed.
End Equal.
