(** * ReachThms: which resources are matched, and following redirects *)
From Coq Require Import Permutation.
From Verif Require Import Base Core Trie Flat MiniRust Gen Items ToPath Spec SpecMatch SpecPath SpecCompile SpecBack SpecReach
  BaseFacts TrieFacts NodeFacts RunFacts FlatFacts MatchFacts MatchProps MatchThms GenThms CompileFacts PathThms BackThms.

(** ** One block per path, one resource per name *)
Lemma block_unique : forall pat b q x q' x', NoDup (block_paths b) ->
  block_at b pat q x -> block_at b pat q' x' -> q = q' /\ x = x'.
Proof.
  induction pat as [|seg pat IH]; intros b q x q' x' Hn H H'.
  - inversion H; inversion H'; subst; auto.
  - inversion H as [|? ? child ? q1 ? Hin Hb]; inversion H' as [|? ? child' ? q1' ? Hin' Hb']; subst.
    rewrite <- (block_child_unique _ _ _ _ Hn Hin Hin') in Hb'.
    destruct (IH child q1 x q1' x') as [-> ->]; auto. eapply block_paths_child; eauto.
Qed.
Lemma actions_unique_caps : forall m root, module_ok root m = true ->
  forall mods1 a1 mods2 a2,
  In (mods1, a1) (module_actions m) -> In (mods2, a2) (module_actions m) ->
  map to_caps_case mods1 = map to_caps_case mods2 ->
  to_caps_case (a_name a1) = to_caps_case (a_name a2) -> mods1 = mods2 /\ a1 = a2.
Proof.
  induction m as [name acts subs IH] using FM_ind'. intros root Hok mods1 a1 mods2 a2 H1 H2 Em En.
  destruct (module_ok_variants _ _ Hok) as (N1 & N2 & _ & _ & _ & Hs).
  destruct mods1 as [|k1 mods1], mods2 as [|k2 mods2]; try discriminate.
  - rewrite in_module_actions_nil in H1, H2. split; auto.
    eapply (map_NoDup_eq (fun a => to_caps_case (a_name a))); eauto.
  - rewrite in_module_actions_cons in H1, H2.
    destruct H1 as (s1 & I1 & E1 & H1). destruct H2 as (s2 & I2 & E2 & H2).
    simpl in Em. injection Em as Ek Em. rewrite <- E1, <- E2 in Ek.
    assert (s1 = s2) by (eapply (map_NoDup_eq (fun s => to_caps_case (m_name s))); eauto).
    subst s2. destruct (IH s1 I1 false (Hs _ I1) _ _ _ _ H1 H2 Em En) as [-> ->]. split; congruence.
Qed.
Lemma same_resource c pat q b r pat' q' b' r' : compiles c = true ->
  block_at (c_routes c) pat q b -> In r (rt_resources b) -> r_is_redirect r = false ->
  block_at (c_routes c) pat' q' b' -> In r' (rt_resources b') -> r_is_redirect r' = false ->
  map to_caps_case (r_modules r) = map to_caps_case (r_modules r') ->
  to_caps_case (r_name r) = to_caps_case (r_name r') ->
  pat = pat' /\ q = q' /\ b = b' /\ r = r'.
Proof.
  intros Hc Hb Hr Hd Hb' Hr' Hd' Em En.
  pose proof (compiles_paths c Hc) as Hn.
  unfold compiles in Hc. destruct (flattened_modules (c_routes c)) as [root| | |] eqn:Er; try discriminate.
  destruct (gen_program c); try discriminate. rewrite !andb_true_iff in Hc. destruct Hc as [[Hok _] _].
  destruct (flattened_modules_tree _ _ Er) as (_ & _ & HPa & _).
  assert (Hin : forall pat q b r, block_at (c_routes c) pat q b -> In r (rt_resources b) -> r_is_redirect r = false ->
    In (r_modules r, mkAction (r_name r) (r_method r) pat (path_params pat) (q ++ r_query r)) (module_actions root)).
  { clear - HPa. intros pat q b r Hb Hr Hd. eapply Permutation_in; [symmetry; exact HPa|]. apply blocks_at in Hb.
    unfold config_actions. apply in_concat. exists (block_actions (pat, q, b)). split; [apply in_map; exact Hb|].
    cbn [block_actions]. apply in_map_iff. exists r. split; [reflexivity|]. apply filter_In. rewrite Hd. auto. }
  destruct (actions_unique_caps _ _ Hok _ _ _ _ (Hin _ _ _ _ Hb Hr Hd) (Hin _ _ _ _ Hb' Hr' Hd') Em En) as [E1 E2].
  injection E2 as E3 E4 E5 _ E6. subst pat'. destruct (block_unique _ _ _ _ _ _ Hn Hb Hb') as [<- <-].
  apply app_inv_head in E6. repeat split; auto.
  destruct r as [m1 ms1 n1 d1 q1], r' as [m2 ms2 n2 d2 q2]. cbn in *. congruence.
Qed.

(** ** Reachable resources *)
Lemma dropped_captured : forall pat b segs, NoDup (block_paths b) -> dropped b pat -> ~ uncaptured b pat segs.
Proof.
  induction pat as [|seg pat IH]; intros b segs Hn Hd Hu; [inversion Hd|].
  inversion Hd as [? d d' child' ? Hin Hlt|? s s' child' d child ? Hin Hne Hin'|? ? child ? Hin Hd']; subst.
  - inversion Hu as [| |? ? child ? ? ? Hl _ _]; subst.
    pose proof (least_dynamic_spec (dynamic_children (rt_routes b))) as Hsp. rewrite Hl in Hsp.
    destruct Hsp as [_ Hsp]. apply (Hsp d' child'); auto. apply dynamic_children_In. exact Hin.
  - inversion Hu as [|? ? child0 ? ? Hin0 Hone _|]; subst.
    assert (Hl : length (statics (rt_routes b)) = 1).
    { apply Hone. apply dynamic_children_In in Hin'. intros E. rewrite E in Hin'. destruct Hin'. }
    apply statics_In in Hin, Hin0. destruct (statics (rt_routes b)) as [|x [|y l]]; try discriminate.
    destruct Hin as [->|[]], Hin0 as [E|[]]. congruence.
  - inversion Hu as [|? ? child0 ? ? Hin0 _ Hu'|? ? child0 ? ? ? Hl _ Hu']; subst.
    + rewrite (block_child_unique _ _ _ _ Hn Hin Hin0) in *. eapply IH; [|exact Hd'|exact Hu']. eapply block_paths_child; eauto.
    + pose proof (proj1 (dynamic_children_In _ _ _) (least_in _ _ Hl)) as Hin0.
      rewrite (block_child_unique _ _ _ _ Hn Hin Hin0) in *. eapply IH; [|exact Hd'|exact Hu']. eapply block_paths_child; eauto.
Qed.

(** ** Segments from the text of a path *)
Definition slashless (segs : list bytes) : Prop := Forall (fun s => ~ In c_slash s) segs.
Lemma slash_split s t s' t' : ~ In c_slash s -> ~ In c_slash s' ->
  s ++ c_slash :: t = s' ++ c_slash :: t' -> s = s' /\ t = t'.
Proof.
  revert s'. induction s as [|x s IH]; intros [|x' s'] H H' Heq; simpl in *.
  - injection Heq as Heq. auto.
  - injection Heq as Hx _. exfalso. apply H'. left. congruence.
  - injection Heq as Hx _. exfalso. apply H. left. congruence.
  - injection Heq as -> Heq. destruct (IH s') as [-> ->]; auto.
Qed.
Lemma join_inj : forall segs segs', length segs = length segs' -> slashless segs -> slashless segs' ->
  join segs = join segs' -> segs = segs'.
Proof.
  induction segs as [|s segs IH]; intros [|s' segs'] Hl H H' Heq; try discriminate; auto.
  inversion H as [|? ? H1 H2]; inversion H' as [|? ? H1' H2']; subst. simpl in Hl. injection Hl as Hl.
  destruct segs as [|t segs], segs' as [|t' segs']; try discriminate.
  - simpl in Heq. congruence.
  - rewrite !join_cons in Heq by discriminate. apply slash_split in Heq; auto. destruct Heq as [-> Heq].
    f_equal. apply IH; auto.
Qed.
Fixpoint slashes (l : bytes) : nat :=
  match l with [] => 0 | x :: l' => (if N.eqb x c_slash then 1 else 0) + slashes l' end.
Lemma slashes_app l l' : slashes (l ++ l') = slashes l + slashes l'.
Proof. induction l as [|x l IH]; simpl; [reflexivity|]. rewrite IH. lia. Qed.
Lemma slashes_none l : ~ In c_slash l -> slashes l = 0.
Proof.
  induction l as [|x l IH]; simpl; intros H; auto. destruct (N.eqb_spec x c_slash) as [->|]; [exfalso; auto|].
  apply IH. auto.
Qed.
Lemma join_slashes segs : segs <> [] -> slashless segs -> S (slashes (join segs)) = length segs.
Proof.
  induction segs as [|s segs IH]; intros Hn H; [congruence|]. inversion H as [|? ? H1 H2]; subst.
  destruct segs as [|t segs].
  - simpl. rewrite slashes_none by exact H1. reflexivity.
  - rewrite join_cons by discriminate. rewrite slashes_app, slashes_none by exact H1. cbn [slashes].
    rewrite N.eqb_refl. change (length (s :: t :: segs)) with (S (length (t :: segs))).
    rewrite <- IH; auto. discriminate.
Qed.
Lemma reads_join b segs pat segs' : length segs = length segs' -> slashless segs -> slashless segs' ->
  reads b (join segs) pat segs' -> segs' = segs /\ (last segs [c_slash] = [] -> open_end b pat).
Proof.
  intros Hl H H' [[Heq Ho]|[Hn Heq]].
  - assert (segs' = segs) by (symmetry; apply join_inj; auto). subst. auto.
  - exfalso. assert (Hs : slashes (join segs) = slashes (join segs') + 1).
    { rewrite Heq, slashes_app. reflexivity. }
    pose proof (join_slashes segs' Hn H'). assert (segs <> []) by (destruct segs, segs'; try discriminate; congruence).
    pose proof (join_slashes segs). specialize (H2 H1 H). lia.
Qed.

Section Rt.
Context {T E : Type}.
Variable rt : runtime T E.
Notation parse := (rt_parse rt).

Lemma reached c pat q b r : runnable c -> every_block plain_statics (c_routes c) ->
  block_at (c_routes c) pat q b -> In r (rt_resources b) -> r_is_redirect r = false ->
  (exists path method v, match_route rt c path method = Some (RunResult (MRoute v)) /\
     rv_modules v = map to_caps_case (r_modules r) /\ rv_name v = to_caps_case (r_name r)) <->
  (exists method, first_resource_for method b r) /\
  exists segs a, matches parse pat segs a /\ uncaptured (c_routes c) pat segs.
Proof.
  intros Hc Hp Hb Hr Hd. split.
  - intros (path & method & v & Hm & E1 & E2). change (MRoute v) with (hit (E := E) false v) in Hm.
    apply match_reads in Hm; auto.
    destruct Hm as (pat' & q' & b' & r' & segs & a & H1 & H2 & H3 & H4 & H5 & H6 & ->). cbn [route_for rv_modules rv_name] in *.
    destruct (same_resource c pat' q' b' r' pat q b r) as (-> & -> & -> & ->); auto.
    + apply Hc.
    + apply (first_in _ _ _ H2).
    + split; eauto.
  - intros [[method Hf] (segs & a & Hm & Hu)].
    exists (c_slash :: match segs with [] => [] | _ => join segs ++ [c_slash] end), method, (route_for r q a).
    split; [|split; reflexivity]. change (MRoute (route_for r q a)) with (hit (E := E) false (route_for r q a)).
    apply match_reads; auto. exists pat, q, b, r, segs, a. repeat (split; auto).
    cbn [no_slash]. rewrite N.eqb_refl. destruct segs as [|s segs].
    + left. split; [reflexivity|]. discriminate.
    + right. split; [discriminate|reflexivity].
Qed.
Lemma never c pat q b r path method v : runnable c -> every_block plain_statics (c_routes c) ->
  block_at (c_routes c) pat q b -> In r (rt_resources b) -> r_is_redirect r = false ->
  dropped (c_routes c) pat ->
  match_route rt c path method = Some (RunResult (MRoute v)) ->
  rv_modules v <> map to_caps_case (r_modules r) \/ rv_name v <> to_caps_case (r_name r).
Proof.
  intros Hc Hp Hb Hr Hd Hx Hm.
  destruct (list_eq_dec (list_eq_dec N.eq_dec) (rv_modules v) (map to_caps_case (r_modules r))) as [E1|]; [|auto].
  destruct (list_eq_dec N.eq_dec (rv_name v) (to_caps_case (r_name r))) as [E2|]; [|auto].
  exfalso. destruct (proj1 (reached c pat q b r Hc Hp Hb Hr Hd)) as (_ & segs & a & _ & Hu); [eauto 6|].
  eapply dropped_captured; [|exact Hx|exact Hu]. apply compiles_paths. apply Hc.
Qed.

(** ** Round trips *)
Lemma matches_length pat segs (a : @args T) : matches parse pat segs a -> length segs = length pat.
Proof. induction 1; simpl; congruence. Qed.
Lemma round_exact (show : str -> T -> bytes) c pat q b r vals opts fs path method :
  runnable c -> every_block plain_statics (c_routes c) ->
  block_at (c_routes c) pat q b -> In r (rt_resources b) -> r_is_redirect r = false ->
  struct_fields pat (q ++ r_query r) vals opts fs ->
  (forall p v, In (p, v) (combine (path_params pat) vals) ->
     ~ In c_slash (show (p_typ p) v) /\ utf8_valid (show (p_typ p) v) = true /\
     parse (p_typ p) (show (p_typ p) v) = inl v) ->
  to_path show c (map to_caps_case (r_modules r)) (to_caps_case (r_name r)) fs = Some path ->
  match_route rt c path method =
  Some (RunResult (MRoute {| rv_modules := map to_caps_case (r_modules r);
                             rv_name := to_caps_case (r_name r);
                             rv_fields := map (fun pv : Param * T => (p_name (fst pv), FvVal (p_typ (fst pv)) (snd pv)))
                                              (combine (path_params pat) vals)
                                          ++ map (fun p => (p_name p, FvNone)) (q ++ r_query r) |})) <->
  first_resource_for method b r /\
  uncaptured (c_routes c) pat (path_texts show pat vals) /\
  (last (path_texts show pat vals) [c_slash] = [] -> open_end (c_routes c) pat).
Proof.
  intros Hc Hp Hb Hin Hd Hs Hv Ht.
  rewrite (to_path_text show c pat q b r vals opts fs) in Ht; auto; [|apply Hc]. injection Ht as <-.
  destruct Hs as (L1 & _).
  set (a := combine (path_params pat) vals) in *.
  split.
  - intros H. change (MRoute ?v) with (hit (E := E) false v) in H.
    apply match_reads in H; auto.
    destruct H as (pat' & q' & b' & r' & segs & a' & H1 & H2 & H3 & H4 & H5 & H6 & Hr).
    cbn [no_slash] in H4. rewrite N.eqb_refl in H4.
    pose proof (f_equal rv_modules Hr) as Em. pose proof (f_equal rv_name Hr) as En. cbn [route_for rv_modules rv_name] in Em, En.
    destruct (same_resource c pat q b r pat' q' b' r') as (<- & <- & <- & <-); auto.
    { apply Hc. }
    { apply (first_in _ _ _ H2). }
    assert (Ha : forall s, In (Static s) pat -> ascii_text s).
    { destruct (sound_emitted rt c (c_slash :: join (path_texts show pat vals)) method false
                  (route_for r q a') Hc) as (pe & qe & be & re & se & ae & G1 & G2 & G3 & _ & _ & G6).
      { apply match_reads; auto. exists pat, q, b, r, segs, a'. repeat (split; auto). }
      pose proof (f_equal rv_modules G6) as Em'. pose proof (f_equal rv_name G6) as En'. cbn [route_for rv_modules rv_name] in Em', En'.
      destruct (same_resource c pat q b r pe qe be re) as (<- & <- & <- & <-); auto.
      { apply Hc. }
      { apply emitted_block. exact G1. }
      { apply (first_in _ _ _ G2). }
      intros s Hs. apply plain_ascii.
      eapply emitted_plain; [apply (mo_shape c (runnable_matcher c Hc))|exact G1|exact Hs]. }
    pose proof (texts_match rt show pat vals Ha L1 Hv) as Hm.
    destruct (reads_join (c_routes c) (path_texts show pat vals) pat segs) as [-> Ho]; auto.
    + rewrite (matches_length _ _ _ Hm), (matches_length _ _ _ H5). reflexivity.
    + eapply matches_no_slash; eauto.
    + eapply matches_no_slash; eauto.
  - intros (Hf & Hu & Ho). change (MRoute ?v) with (hit (E := E) false v). apply match_reads; auto.
    exists pat, q, b, r, (path_texts show pat vals), a. split; [exact Hb|]. split; [exact Hf|]. split; [exact Hd|].
    split; [|split; [|split; [exact Hu|reflexivity]]].
    + cbn [no_slash]. rewrite N.eqb_refl. left. auto.
    + apply texts_match; auto. exact (uncaptured_ascii show pat _ _ Hu).
Qed.

(** ** Following a redirect *)
Lemma follow (show : str -> T -> bytes) c path method v :
  runnable c -> every_block plain_statics (c_routes c) ->
  match_route rt c path method = Some (RunResult (MRedirect v)) ->
  (forall x t y, In (x, FvVal t y) (rv_fields v) ->
     ~ In c_slash (show t y) /\ utf8_valid (show t y) = true /\ parse t (show t y) = inl y) ->
  exists fs pat q b r vals v',
    struct_value v fs /\ block_at (c_routes c) pat q b /\ In r (rt_resources b) /\ r_is_redirect r = false /\
    rv_modules v = map to_caps_case (r_modules r) /\ rv_name v = to_caps_case (r_name r) /\
    to_path show c (rv_modules v) (rv_name v) fs = Some (c_slash :: join (path_texts show pat vals)) /\
    rv_modules v' = rv_modules v /\ rv_name v' = rv_name v /\ Permutation (rv_fields v') (rv_fields v) /\
    forall method',
      match_route rt c (c_slash :: join (path_texts show pat vals)) method' = Some (RunResult (MRoute v')) <->
      first_resource_for method' b r /\ uncaptured (c_routes c) pat (path_texts show pat vals) /\
      (last (path_texts show pat vals) [c_slash] = [] -> open_end (c_routes c) pat).
Proof.
  intros Hc Hp Hm Hv.
  destruct (back_redirect rt show c path method v Hc Hm)
    as (pat0 & segs & a & fs & pat & q & b & r & vals & H1 & H2 & H3 & H4 & H5 & H6 & H7 & H8 & H9 & H10 & H11).
  set (v' := {| rv_modules := map to_caps_case (r_modules r); rv_name := to_caps_case (r_name r);
                rv_fields := map (fun pv : Param * T => (p_name (fst pv), FvVal (p_typ (fst pv)) (snd pv))) (combine (path_params pat) vals)
                             ++ map (fun p => (p_name p, FvNone)) (q ++ r_query r) |}).
  exists fs, pat, q, b, r, vals, v'. split; [exact H3|]. split; [exact H4|]. split; [exact H5|]. split; [exact H6|].
  split; [exact H7|]. split; [exact H8|]. split; [exact H11|]. split; [symmetry; exact H7|]. split; [symmetry; exact H8|].
  split; [symmetry; exact H10|]. intros method'.
  set (fs' := combine (map p_name (path_params pat)) (map Given vals)
              ++ combine (map p_name (q ++ r_query r)) (map Query (map (fun _ => None) (q ++ r_query r))) : list (str * field_value T)).
  assert (L : length vals = length (path_params pat)) by (clear - H9; induction H9; simpl; congruence).
  assert (Hsf : struct_fields pat (q ++ r_query r) vals (map (fun _ => None) (q ++ r_query r)) fs').
  { split; [exact L|]. split; [apply map_length|]. apply Permutation_refl. }
  apply (round_exact show c pat q b r vals (map (fun _ => None) (q ++ r_query r)) fs'); auto.
  - intros p x Hx. apply (Hv (p_name p)). eapply Permutation_in; [symmetry; exact H10|]. apply in_or_app. left.
    apply in_map_iff. exists (p, x). auto.
  - apply (to_path_text show c pat q b r vals (map (fun _ => None) (q ++ r_query r)) fs'); auto. apply Hc.
Qed.
End Rt.
