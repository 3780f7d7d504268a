(** * OrderFacts: the order of sibling routes does not matter *)
From Coq Require Import Sorted Permutation.
From Verif Require Import Base Core Trie Flat MiniRust Gen Spec SpecCore SpecGen BaseFacts TrieFacts
  NodeFacts FlatFacts MatchFacts CoreFacts GenThms.

Lemma reordered_table : forall b b', reordered b b' -> Permutation (table b) (table b').
Proof.
  induction b as [rs ch qs IH] using Routes_ind'. intros b' H.
  inversion H as [? ? ? ch' ch'' HF HP]; subst. rewrite !table_eq. cbn [rt_query rt_resources rt_routes].
  constructor. rewrite <- !flat_map_concat_map.
  transitivity (flat_map (fun nr : PathSegment * Routes => map (below (fst nr) qs) (table (snd nr))) ch').
  - clear -IH HF. induction HF as [|[s x] [s' y] l l' [Hs Hr] HF IHF]; [constructor|].
    inversion IH as [|? ? H1 H2]; subst. cbn [fst snd flat_map] in *. subst s'. apply Permutation_app; auto.
    apply Permutation_map. apply H1. exact Hr.
  - apply Permutation_flat_map. exact HP.
Qed.
(** Everything the generator looks at is a function of the table. *)
Lemma flattened_routes_table b :
  flattened_routes b = map (fun e : list PathSegment * list Param * list Resource =>
                              let '(p, q, rs) := e in mkFlat p rs q) (table b).
Proof.
  rewrite flattened_routes_blocks. unfold table. rewrite map_map. apply map_ext. intros [[p q] x]. reflexivity.
Qed.
Lemma config_actions_table b :
  config_actions b = flat_map (fun e : list PathSegment * list Param * list Resource =>
    let '(p, q, rs) := e in map (action_of p q) (filter (fun r => negb (r_is_redirect r)) rs)) (table b).
Proof.
  unfold config_actions, table. rewrite flat_map_concat_map, map_map. f_equal. apply map_ext.
  intros [[p q] x]. reflexivity.
Qed.
Lemma to_trie_perm b b' t : Permutation (table b) (table b') ->
  to_trie (flattened_routes b) = ROk t -> to_trie (flattened_routes b') = ROk t.
Proof.
  intros HP Ht. unfold to_trie in *.
  pose proof (to_trie_add_all (flattened_routes b) trie_new) as H1. rewrite Ht in H1.
  destruct (add_all charlike_cmp trie_new (map flat_entry (flattened_routes b))) as [t1|] eqn:E1; [|contradiction].
  subst t1. apply (add_all_perm charlike_cmp charlike_cmp_eq charlike_cmp_sym charlike_cmp_trans _
    (map flat_entry (flattened_routes b'))) in E1.
  - pose proof (to_trie_add_all (flattened_routes b') trie_new) as H2. rewrite E1 in H2.
    destruct (to_trie_from trie_new (flattened_routes b')); try contradiction. congruence.
  - rewrite !flattened_routes_table. do 2 apply Permutation_map. exact HP.
Qed.

(** ** The module tree is determined by its actions *)
Lemma strict_keys_nodup {A} (key : A -> str) l : StronglySorted (key_lt key) l -> NoDup (map key l).
Proof.
  induction 1 as [|x l Hs IH Hf]; simpl; constructor; auto. intros Hin. apply in_map_iff in Hin.
  destruct Hin as (y & E & Hy). rewrite Forall_forall in Hf. specialize (Hf y Hy).
  unfold key_lt in Hf. rewrite E in Hf. rewrite (proj2 (str_compare_eq _ _) eq_refl) in Hf. discriminate.
Qed.
Lemma strict_le {A} (key : A -> str) l : StronglySorted (key_lt key) l -> StronglySorted (key_le key) l.
Proof.
  induction 1 as [|x l Hs IH Hf]; constructor; auto. eapply Forall_impl; [|exact Hf].
  intros y. unfold key_lt, key_le. congruence.
Qed.
Lemma strict_unique {A} (key : A -> str) l l' : StronglySorted (key_lt key) l -> StronglySorted (key_lt key) l' ->
  (forall x, In x l <-> In x l') -> l = l'.
Proof.
  intros H1 H2 Hi. apply (sorted_unique key).
  - apply strict_keys_nodup. exact H1.
  - apply NoDup_Permutation; auto; eapply NoDup_map_inv; apply strict_keys_nodup; eauto.
  - apply strict_le. exact H1.
  - apply strict_le. exact H2.
Qed.
Lemma nodup_key {A} (key : A -> str) l x y : NoDup (map key l) -> In x l -> In y l -> key x = key y -> x = y.
Proof.
  induction l as [|z l IH]; simpl; [tauto|]. inversion 1 as [|? ? Hz Hn]; subst.
  intros [->|Hx] [->|Hy] E; auto.
  - exfalso. apply Hz. rewrite E. apply in_map. exact Hy.
  - exfalso. apply Hz. rewrite <- E. apply in_map. exact Hx.
Qed.
Lemma module_unique : forall m1 m2, tree_ok m1 -> tree_ok m2 -> m_name m1 = m_name m2 ->
  (forall p a, In (p, a) (module_actions m1) <-> In (p, a) (module_actions m2)) -> m1 = m2.
Proof.
  induction m1 as [n1 acts1 mods1 IH] using FlattenedModule_ind'. intros [n2 acts2 mods2] T1 T2 Hn HI.
  inversion T1 as [? ? ? A1 A2 A3 A4]; subst. inversion T2 as [? ? ? B1 B2 B3 B4]; subst.
  cbn [m_name] in Hn. subst n2.
  assert (Ha : acts1 = acts2).
  { apply (strict_unique a_name); auto. intros a.
    specialize (HI [] a). rewrite !in_module_actions_nil in HI. exact HI. }
  subst acts2. f_equal.
  assert (Hsub : forall k p a, (exists s, In s mods1 /\ m_name s = k /\ In (p, a) (module_actions s)) <->
                               (exists s, In s mods2 /\ m_name s = k /\ In (p, a) (module_actions s))).
  { intros k p a. specialize (HI (k :: p) a). rewrite !in_module_actions_cons in HI. exact HI. }
  pose proof (strict_keys_nodup _ _ A2) as N1. pose proof (strict_keys_nodup _ _ B2) as N2.
  assert (Heq : forall s1 s2, In s1 mods1 -> In s2 mods2 -> m_name s1 = m_name s2 -> s1 = s2).
  { intros s1 s2 I1 I2 E. apply IH; auto. intros p a. split; intros Hin.
    - destruct (proj1 (Hsub (m_name s1) p a)) as (s & Is & Es & Hs); eauto.
      assert (s = s2) by (apply (nodup_key m_name mods2); auto; congruence). subst. exact Hs.
    - destruct (proj2 (Hsub (m_name s1) p a)) as (s & Is & Es & Hs); eauto.
      assert (s = s1) by (apply (nodup_key m_name mods1); auto; congruence). subst. exact Hs. }
  apply (strict_unique m_name); auto. intros s. split; intros Hs.
  - pose proof (A4 s Hs) as Hne. destruct (module_actions s) as [|[p a] l] eqn:Ea; [congruence|].
    destruct (proj1 (Hsub (m_name s) p a)) as (s2 & I2 & E2 & _).
    { exists s. rewrite Ea. split; auto. split; auto. left. reflexivity. }
    rewrite (Heq s s2); auto.
  - pose proof (B4 s Hs) as Hne. destruct (module_actions s) as [|[p a] l] eqn:Ea; [congruence|].
    destruct (proj2 (Hsub (m_name s) p a)) as (s1 & I1 & E1 & _).
    { exists s. rewrite Ea. split; auto. split; auto. left. reflexivity. }
    rewrite <- (Heq s1 s); auto.
Qed.
Lemma modules_perm b b' root : Permutation (table b) (table b') ->
  flattened_modules b = ROk root -> flattened_modules b' = ROk root.
Proof.
  intros HP H1. assert (HA : Permutation (config_actions b) (config_actions b')).
  { rewrite !config_actions_table. apply Permutation_flat_map. exact HP. }
  destruct (flattened_modules_tree _ _ H1) as (N1 & T1 & P1 & D1).
  destruct (flattened_modules_names b') as [[[root' H2] _]|[_ H2]].
  - rewrite H2. f_equal. destruct (flattened_modules_tree _ _ H2) as (N2 & T2 & P2 & D2).
    apply module_unique; auto; [congruence|]. intros p a.
    assert (HPm : Permutation (module_actions root') (module_actions root)).
    { rewrite P1, P2. symmetry. exact HA. }
    split; apply Permutation_in; auto using Permutation_sym.
  - exfalso. apply H2. rewrite struct_names_actions. eapply Permutation_NoDup; [|exact D1].
    apply Permutation_map. exact HA.
Qed.
Lemma modules_perm_opt b b' : Permutation (table b) (table b') ->
  flattened_modules b = flattened_modules b' \/
  (forall r, flattened_modules b <> ROk r) /\ (forall r, flattened_modules b' <> ROk r).
Proof.
  intros HP. destruct (flattened_modules b) as [r| | |] eqn:E1.
  2-4: right; split; [congruence|]; intros r E2; apply (modules_perm b' b) in E2; [congruence|symmetry; exact HP].
  left. symmetry. eapply modules_perm; eauto.
Qed.
Lemma program_perm c c' : Permutation (table (c_routes c)) (table (c_routes c')) ->
  gen_program c = gen_program c' \/
  (forall r, gen_program c <> ROk r) /\ (forall r, gen_program c' <> ROk r).
Proof.
  intros HP. unfold gen_program.
  destruct (to_trie (flattened_routes (c_routes c))) as [t| | |] eqn:E1.
  1: left; rewrite (to_trie_perm _ _ _ HP E1); reflexivity.
  all: right; split; [intros; discriminate|]; intros r;
    destruct (to_trie (flattened_routes (c_routes c'))) as [t| | |] eqn:E2; try discriminate;
    apply (to_trie_perm (c_routes c') (c_routes c)) in E2; [congruence|symmetry; exact HP].
Qed.
(** Carriage returns in the printed routes. *)
Definition crs (s : str) : bool := existsb (N.eqb c_cr) s.
Definition seg_crs (s : PathSegment) : bool := crs (segment_stringify s).
Definition param_crs (p : Param) : bool := crs (param_display p).
Definition res_crs (r : Resource) : bool := crs (resource_stringify 0 r).
Lemma crs_app a b : crs (a ++ b) = crs a || crs b.
Proof. apply existsb_app. Qed.
Lemma crs_concat l : crs (concat l) = existsb crs l.
Proof. induction l as [|x l IH]; simpl; auto. rewrite crs_app, IH. reflexivity. Qed.
Lemma existsb_map {A B} (f : A -> B) g l : existsb g (map f l) = existsb (fun x => g (f x)) l.
Proof. induction l as [|x l IH]; simpl; auto. rewrite IH. reflexivity. Qed.
Lemma existsb_ext {A} (f g : A -> bool) l : (forall x, f x = g x) -> existsb f l = existsb g l.
Proof. intros H. induction l as [|x l IH]; simpl; auto. rewrite H, IH. reflexivity. Qed.
Lemma crs_indent n : crs (indent n) = false.
Proof. do 8 (destruct n as [|n]; [reflexivity|]). reflexivity. Qed.
Lemma res_crs_level n r : crs (resource_stringify n r) = res_crs r.
Proof.
  unfold res_crs, resource_stringify. rewrite !crs_app, !crs_concat, !existsb_map, !crs_indent.
  assert (H : forall m, existsb (fun p => crs ([c_nl] ++ indent m ++ lit "[" ++ param_display p ++ lit "]")) (r_query r)
                        = existsb param_crs (r_query r)).
  { intros m. apply existsb_ext. intros p. rewrite !crs_app, crs_indent. unfold param_crs.
    destruct (crs (param_display p)); reflexivity. }
  rewrite !H. reflexivity.
Qed.
Definition row_crs (e : list PathSegment * list Param * list Resource) : bool :=
  let '(p, q, rs) := e in existsb seg_crs p || existsb param_crs q || existsb res_crs rs.
Lemma stringify_crs : forall b n,
  crs (routes_stringify n b) = existsb row_crs (table b).
Proof.
  induction b as [rs ch qs IH] using Routes_ind'. intros n.
  cbn [routes_stringify]. rewrite !crs_app, !crs_concat, !existsb_map.
  assert (H1 : existsb (fun p => crs (indent n ++ lit "[" ++ param_display p ++ lit "]" ++ [c_nl])) qs
               = existsb param_crs qs).
  { apply existsb_ext. intros p. rewrite !crs_app, crs_indent. unfold param_crs.
    destruct (crs (param_display p)); reflexivity. }
  assert (H2 : existsb (fun r => crs (resource_stringify n r)) rs = existsb res_crs rs).
  { apply existsb_ext. apply res_crs_level. }
  rewrite H1, H2. apply eq_true_iff_eq. rewrite !orb_true_iff, !existsb_exists.
  rewrite Forall_forall in IH. split.
  - intros [H|[H|([seg child] & Hin & H)]].
    + exists ([], qs, rs). split; [left; reflexivity|]. simpl. rewrite orb_true_iff, existsb_exists. auto.
    + exists ([], qs, rs). split; [left; reflexivity|]. simpl. rewrite orb_true_iff, !existsb_exists. auto.
    + rewrite !crs_app, crs_indent, !orb_true_iff in H.
      assert (Hc : exists p q b, In (p, q, b) (blocks child) /\
                   row_crs (seg :: p, qs ++ q, rt_resources b) = true).
      { destruct H as [H|[H|[H|H]]]; try discriminate.
        - exists [], (rt_query child), child. split; [destruct child; left; reflexivity|].
          unfold row_crs. cbn [existsb]. change (seg_crs seg) with (crs (segment_stringify seg)).
          rewrite H. reflexivity.
        - rewrite (IH _ Hin), existsb_exists in H. destruct H as (e & He & H).
          unfold table in He. apply in_map_iff in He. destruct He as ([[p q] b] & <- & He).
          exists p, q, b. split; auto. unfold row_crs in *. cbn [existsb].
          rewrite existsb_app. rewrite !orb_true_iff in *. tauto. }
      destruct Hc as (p & q & b & Hb & Hc). exists (seg :: p, qs ++ q, rt_resources b). split; auto.
      unfold table. apply in_map_iff. exists (seg :: p, qs ++ q, b). split; auto.
      simpl. right. apply in_concat. eexists. split.
      * apply in_map_iff. exists (seg, child). split; [reflexivity|exact Hin].
      * apply in_map_iff. exists (p, q, b). auto.
  - intros (e & He & H). unfold table in He. apply in_map_iff in He. destruct He as ([[p q] b] & <- & He).
    simpl in He. destruct He as [[= <- <- <-]|He].
    + simpl in H. rewrite orb_true_iff, !existsb_exists in H. tauto.
    + apply in_concat in He. destruct He as (l & Hl & He). apply in_map_iff in Hl.
      destruct Hl as ([seg child] & <- & Hin). apply in_map_iff in He.
      destruct He as ([[p' q'] b'] & [= <- <- <-] & He).
      assert (Hc : row_crs (p', q', rt_resources b') = true -> crs (routes_stringify (S n) child) = true).
      { intros Hr. rewrite (IH _ Hin), existsb_exists. exists (p', q', rt_resources b'). split; auto.
        unfold table. apply in_map_iff. exists (p', q', b'). auto. }
      unfold row_crs in H, Hc. cbn [existsb] in H. rewrite existsb_app in H.
      rewrite !orb_true_iff in H, Hc.
      destruct H as [[H|H]|H]; [apply orb_true_iff in H; destruct H as [H|H]
                               |apply orb_true_iff in H; destruct H as [H|H]|].
      * right. right. exists (seg, child). split; auto. rewrite !crs_app, !orb_true_iff.
        right. left. exact H.
      * right. right. exists (seg, child). split; auto. rewrite !crs_app, !orb_true_iff. tauto.
      * left. apply existsb_exists in H. exact H.
      * right. right. exists (seg, child). split; auto. rewrite !crs_app, !orb_true_iff. tauto.
      * right. right. exists (seg, child). split; auto. rewrite !crs_app, !orb_true_iff. tauto.
Qed.
Lemma doc_ok_crs c : doc_ok c = negb (existsb row_crs (table (c_routes c))).
Proof.
  rewrite <- (stringify_crs _ 1). unfold doc_ok, crs. induction (routes_stringify 1 (c_routes c)) as [|x s IH]; auto.
  cbn [forallb existsb]. rewrite IH, negb_orb. f_equal. f_equal. apply N.eqb_sym.
Qed.
Lemma existsb_perm {A} (f : A -> bool) l l' : Permutation l l' -> existsb f l = existsb f l'.
Proof.
  intros HP. apply eq_true_iff_eq. rewrite !existsb_exists.
  split; intros (x & Hx & H); exists x; (split; [|exact H]).
  - exact (Permutation_in _ HP Hx).
  - exact (Permutation_in _ (Permutation_sym HP) Hx).
Qed.
Lemma doc_perm c c' : Permutation (table (c_routes c)) (table (c_routes c')) -> doc_ok c = doc_ok c'.
Proof. intros HP. rewrite !doc_ok_crs, (existsb_perm _ _ _ HP). reflexivity. Qed.
Lemma compiles_perm c c' : Permutation (table (c_routes c)) (table (c_routes c')) -> compiles c = compiles c'.
Proof.
  intros HP. unfold compiles. rewrite (doc_perm _ _ HP).
  destruct (modules_perm_opt _ _ HP) as [->|[H1 H2]].
  - destruct (program_perm _ _ HP) as [->|[H1 H2]]; [reflexivity|].
    destruct (flattened_modules (c_routes c')); auto.
    destruct (gen_program c) as [b| | |]; [destruct (H1 b eq_refl)|..];
      (destruct (gen_program c') as [b'| | |]; [destruct (H2 b' eq_refl)|..]); reflexivity.
  - destruct (flattened_modules (c_routes c)) as [b| | |]; [destruct (H1 b eq_refl)|..];
      (destruct (flattened_modules (c_routes c')) as [b'| | |]; [destruct (H2 b' eq_refl)|..]); reflexivity.
Qed.
Lemma match_route_perm {T E} (rt : runtime T E) c c' path method :
  Permutation (table (c_routes c)) (table (c_routes c')) ->
  match_route rt c path method = match_route rt c' path method.
Proof.
  intros HP. unfold match_route. rewrite (compiles_perm _ _ HP).
  destruct (modules_perm_opt _ _ HP) as [->|[H1 H2]].
  - destruct (program_perm _ _ HP) as [->|[H1 H2]]; [reflexivity|].
    destruct (flattened_modules (c_routes c')); auto.
    destruct (gen_program c) as [b| | |]; [destruct (H1 b eq_refl)|..];
      (destruct (gen_program c') as [b'| | |]; [destruct (H2 b' eq_refl)|..]); reflexivity.
  - destruct (flattened_modules (c_routes c)) as [b| | |]; [destruct (H1 b eq_refl)|..];
      (destruct (flattened_modules (c_routes c')) as [b'| | |]; [destruct (H2 b' eq_refl)|..]); reflexivity.
Qed.
(** ** Whether code is generated *)
Lemma struct_names_perm b b' : Permutation (table b) (table b') -> Permutation (struct_names b) (struct_names b').
Proof.
  intros HP. rewrite !struct_names_actions. apply Permutation_map. rewrite !config_actions_table.
  apply Permutation_flat_map. exact HP.
Qed.
Lemma block_paths_perm b b' : Permutation (table b) (table b') ->
  Permutation (block_paths_untyped b) (block_paths_untyped b').
Proof.
  intros HP. assert (H : forall x, block_paths_untyped x =
    map (fun e : list PathSegment * list Param * list Resource => map untyped (fst (fst e))) (table x)).
  { intros x. unfold block_paths_untyped, table. rewrite map_map. apply map_ext. intros [[p q] y]. reflexivity. }
  rewrite !H. apply Permutation_map. exact HP.
Qed.
Lemma reordered_sym : forall b b', reordered b b' -> reordered b' b.
Proof.
  induction b as [rs ch qs IH] using Routes_ind'. intros b' H.
  inversion H as [? ? ? ch' ch'' HF HP]; subst.
  assert (HF' : Forall2 (fun x y : PathSegment * Routes => fst x = fst y /\ reordered (snd x) (snd y)) ch' ch).
  { clear -IH HF. induction HF as [|x y l l' [Hs Hr] HF IHF]; [constructor|].
    inversion IH as [|? ? H1 H2]; subst. constructor; auto. }
  destruct (Permutation_Forall2 HP HF') as (ch2 & HP2 & HF2).
  eapply reordered_block; [exact HF2|]. symmetry. exact HP2.
Qed.
Lemma reordered_generates h h' b b' : reordered b b' -> generates (mkConfig h b) -> generates (mkConfig h' b').
Proof.
  intros H (H1 & H2 & H3). pose proof (reordered_table _ _ H) as HP. cbn [c_routes] in *.
  split; [|split]; cbn [c_routes].
  - eapply Permutation_NoDup; [apply struct_names_perm; exact HP|exact H1].
  - eapply Permutation_NoDup; [apply block_paths_perm; exact HP|exact H2].
  - intros (E1 & E2 & E3). apply H3. inversion H as [rs qs ch ch' ch'' HF HPc]; subst.
    cbn [rt_query rt_resources rt_routes] in *. subst. split; [reflexivity|]. split; [reflexivity|].
    symmetry in HPc. apply Permutation_nil in HPc. subst. inversion HF. reflexivity.
Qed.
Lemma reordered_codegen c c' : reordered (c_routes c) (c_routes c') ->
  (snd (codegen c) = ROk tt <-> snd (codegen c') = ROk tt).
Proof.
  assert (Hone : forall c c', reordered (c_routes c) (c_routes c') -> snd (codegen c) = ROk tt -> snd (codegen c') = ROk tt).
  { intros [h b] [h' b'] H E. apply codegen_ok. eapply reordered_generates; [exact H|].
    destruct (codegen_status (mkConfig h b)) as [[Hg _]|[_ [p Hp]]]; [exact Hg|congruence]. }
  intros H. split; apply Hone; auto using reordered_sym.
Qed.
Lemma reordered_text c c' : reordered (c_routes c) (c_routes c') -> c_headers c = c_headers c' ->
  snd (codegen c) = ROk tt ->
  exists head doc doc' rest, w_text (codegen c) = head ++ doc ++ rest /\ w_text (codegen c') = head ++ doc' ++ rest /\
    doc = unlines (map (fun x => lit "    //! " ++ x) (lines_of (routes_stringify 1 (c_routes c)))) /\
    doc' = unlines (map (fun x => lit "    //! " ++ x) (lines_of (routes_stringify 1 (c_routes c')))).
Proof.
  intros H Hh E. pose proof (proj1 (reordered_codegen _ _ H) E) as E'.
  destruct (codegen_text _ E) as (root & l & body & R1 & R2 & R3 & R4 & ->).
  destruct (codegen_text _ E') as (root' & l' & body' & S1 & S2 & S3 & S4 & ->).
  pose proof (reordered_table _ _ H) as HP.
  rewrite (modules_perm _ _ _ HP R1) in S1. injection S1 as <-.
  assert (body' = body).
  { destruct (program_perm _ _ HP) as [Ep|[Ep _]]; [congruence|]. destruct (Ep _ R4). }
  subst body'. rewrite Hh. do 4 eexists. split; [reflexivity|]. split; [reflexivity|].
  rewrite R2, S2, !lines_of_unlines by assumption. split; reflexivity.
Qed.
(** ** Mounting in another order *)
Lemma reordered_refl b : reordered b b.
Proof.
  induction b as [rs ch qs IH] using Routes_ind'. eapply reordered_block; [|apply Permutation_refl].
  induction IH as [|[seg child] ch H HF IHF]; constructor; auto.
Qed.
Lemma mounts_routes guests : forall c, c_routes (mounts c guests) =
  mkRoutes (rt_resources (c_routes c)) (rt_routes (c_routes c) ++ map (fun g => (Static (fst g), c_routes (snd g))) guests)
    (rt_query (c_routes c)).
Proof.
  induction guests as [|g guests IH]; intros c.
  - cbn [mounts fold_left map]. rewrite app_nil_r. destruct (c_routes c). reflexivity.
  - change (mounts c (g :: guests)) with (mounts (mount c (fst g) (snd g)) guests). rewrite IH.
    cbn [mount c_routes rt_resources rt_routes rt_query map]. rewrite <- app_assoc. reflexivity.
Qed.
Lemma mounts_reordered c guests guests' : Permutation guests guests' ->
  reordered (c_routes (mounts c guests)) (c_routes (mounts c guests')).
Proof.
  intros H. rewrite !mounts_routes. eapply reordered_block with (ch' := rt_routes (c_routes c) ++ map (fun g => (Static (fst g), c_routes (snd g))) guests).
  - clear H. induction (rt_routes (c_routes c) ++ map (fun g => (Static (fst g), c_routes (snd g))) guests) as [|x l IH]; constructor; auto.
    split; [reflexivity|apply reordered_refl].
  - apply Permutation_app_head, Permutation_map. exact H.
Qed.
