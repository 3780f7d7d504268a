(** * MatchFacts: [match_route] is the search of the configuration tree *)
From Coq Require Import Sorted Permutation.
From Verif Require Import Base Core Trie Flat MiniRust Gen Spec.
From Verif Require Import BaseFacts TrieFacts ExecFacts NodeFacts CompFacts RunFacts FlatFacts.

(** ** Declared structs *)
Lemma in_module_actions_nil m a : In ([], a) (module_actions m) <-> In a (m_actions m).
Proof.
  destruct m as [name acts mods]. simpl. rewrite in_app_iff, in_map_iff. split.
  - intros [(b & [= <-] & H)|H]; auto. exfalso.
    apply in_concat in H. destruct H as (l & H1 & H2). apply in_map_iff in H1.
    destruct H1 as (s & <- & _). apply in_map_iff in H2. destruct H2 as (? & ? & _). discriminate.
  - intros H. left. exists a. auto.
Qed.
Lemma in_module_actions_cons m k p a :
  In (k :: p, a) (module_actions m) <->
  exists s, In s (m_modules m) /\ m_name s = k /\ In (p, a) (module_actions s).
Proof.
  destruct m as [name acts mods]. simpl. rewrite in_app_iff, in_map_iff. split.
  - intros [(b & ? & H)|H]; [discriminate|].
    apply in_concat in H. destruct H as (l & H1 & H2). apply in_map_iff in H1.
    destruct H1 as (s & <- & H1). apply in_map_iff in H2. destruct H2 as ([p' a'] & E & H2).
    unfold pre in E. simpl in E. injection E as <- <- <-. eauto.
  - intros (s & H1 & <- & H2). right. apply in_concat.
    exists (map (pre (m_name s)) (module_actions s)). split.
    + apply in_map_iff. eauto.
    + apply in_map_iff. exists (p, a). auto.
Qed.

Lemma in_module_structs : forall m path p n fs,
  In (p, n, fs) (module_structs path m) <->
  exists mods a, In (mods, a) (module_actions m) /\ p = path ++ map module_names mods /\
                 n = to_caps_case (a_name a) /\ fs = action_fields a.
Proof.
  induction m as [name acts subs IH] using FM_ind'. intros path p n fs.
  simpl module_structs. rewrite in_app_iff, in_map_iff, in_concat. split.
  - intros [(a & [= <- <- <-] & H)|(l & H1 & H2)].
    + exists [], a. rewrite in_module_actions_nil, app_nil_r. auto.
    + apply in_map_iff in H1. destruct H1 as (s & <- & Hs).
      apply (IH s Hs) in H2. destruct H2 as (mods & a & Ha & -> & -> & ->).
      exists (m_name s :: mods), a. rewrite in_module_actions_cons.
      split; [eauto|]. simpl. rewrite <- app_assoc. auto.
  - intros (mods & a & Ha & -> & -> & ->). destruct mods as [|k mods].
    + rewrite in_module_actions_nil in Ha. left. exists a. simpl in *. rewrite app_nil_r. auto.
    + rewrite in_module_actions_cons in Ha. destruct Ha as (s & Hs & <- & Ha). right. simpl in Hs.
      exists (module_structs (path ++ [module_names (m_name s)]) s). split.
      * apply in_map_iff. eauto.
      * apply (IH s Hs). exists mods, a. simpl. rewrite <- app_assoc. auto.
Qed.

Lemma map_NoDup_eq {A B} (f : A -> B) l x y :
  NoDup (map f l) -> In x l -> In y l -> f x = f y -> x = y.
Proof.
  induction l as [|z l IH]; intros Hn Hx Hy E; [destruct Hx|].
  simpl in Hn. inversion Hn as [|? ? H1 H2]; subst.
  destruct Hx as [->|Hx], Hy as [->|Hy]; auto.
  - exfalso. apply H1. rewrite E. apply in_map; auto.
  - exfalso. apply H1. rewrite <- E. apply in_map; auto.
Qed.

Lemma module_ok_parts root m : module_ok root m = true ->
  NoDup (map (fun a => to_caps_case (a_name a)) (m_actions m)) /\
  NoDup (map (fun s => to_snake_case (m_name s)) (m_modules m)) /\
  (forall a, In a (m_actions m) -> NoDup (map fd_name (action_fields a))) /\
  (forall s, In s (m_modules m) -> module_ok false s = true).
Proof.
  destruct m as [name acts subs]. cbn [module_ok m_actions m_modules].
  rewrite !andb_true_iff. intros [[[[[[[[_ _] _] _] H1] _] H2] _] H3].
  apply nodup_strs_NoDup in H1. apply NoDup_app_r in H1.
  split; [eapply NoDup_app_l; eauto|]. split; [eapply NoDup_app_r; eauto|].
  rewrite forallb_forall in H2, H3. split; auto.
  intros a Ha. specialize (H2 a Ha). cbv zeta in H2. rewrite !andb_true_iff in H2.
  destruct H2 as [[[_ H2] _] _]. apply nodup_strs_NoDup; auto.
Qed.

Lemma actions_unique : forall m root, module_ok root m = true ->
  forall mods1 a1 mods2 a2,
  In (mods1, a1) (module_actions m) -> In (mods2, a2) (module_actions m) ->
  map to_snake_case mods1 = map to_snake_case mods2 ->
  to_caps_case (a_name a1) = to_caps_case (a_name a2) -> mods1 = mods2 /\ a1 = a2.
Proof.
  induction m as [name acts subs IH] using FM_ind'. intros root Hok mods1 a1 mods2 a2 H1 H2 Em En.
  destruct (module_ok_parts _ _ Hok) as (N1 & N2 & _ & Hs).
  destruct mods1 as [|k1 mods1], mods2 as [|k2 mods2]; try discriminate.
  - rewrite in_module_actions_nil in H1, H2. split; auto.
    eapply (map_NoDup_eq (fun a => to_caps_case (a_name a))); eauto.
  - rewrite in_module_actions_cons in H1, H2.
    destruct H1 as (s1 & I1 & E1 & H1). destruct H2 as (s2 & I2 & E2 & H2).
    simpl in Em. injection Em as Ek Em. rewrite <- E1, <- E2 in Ek.
    assert (s1 = s2) by (eapply (map_NoDup_eq (fun s => to_snake_case (m_name s))); eauto).
    subst s2. destruct (IH s1 I1 false (Hs _ I1) _ _ _ _ H1 H2 Em En) as [-> ->]. split; congruence.
Qed.
Lemma action_nodup : forall m root, module_ok root m = true ->
  forall mods a, In (mods, a) (module_actions m) -> NoDup (map fd_name (action_fields a)).
Proof.
  induction m as [name acts subs IH] using FM_ind'. intros root Hok mods a Ha.
  destruct (module_ok_parts _ _ Hok) as (_ & _ & Hf & Hs). destruct mods as [|k mods].
  - rewrite in_module_actions_nil in Ha. auto.
  - rewrite in_module_actions_cons in Ha. destruct Ha as (s & Hin & _ & Ha). eauto.
Qed.
Lemma mods_eqb_eq a b : mods_eqb a b = true <-> a = b.
Proof.
  revert b. induction a as [|[x x'] a IH]; intros [|[y y'] b]; simpl; try (split; congruence).
  rewrite !andb_true_iff, !str_eqb_eq, IH. split; [intros [[-> ->] ->]; auto | intros [= -> -> ->]; auto].
Qed.
Lemma names_split a b : map module_names a = map module_names b ->
  map to_snake_case a = map to_snake_case b /\ map to_caps_case a = map to_caps_case b.
Proof.
  intros H. pose proof (f_equal (map fst) H) as H1. pose proof (f_equal (map snd) H) as H2.
  rewrite !map_map in H1, H2. exact (conj H1 H2).
Qed.
Lemma names_join a b : map to_snake_case a = map to_snake_case b -> map to_caps_case a = map to_caps_case b ->
  map module_names a = map module_names b.
Proof.
  revert b. induction a as [|x a IH]; intros [|y b] H1 H2; try discriminate; [reflexivity|].
  cbn [map] in *. injection H1 as E1 H1. injection H2 as E2 H2. unfold module_names at 1 3. rewrite E1, E2. f_equal. auto.
Qed.
Lemma lookup_struct_In env mods name fs :
  lookup_struct env mods name = Some fs -> In (mods, name, fs) env.
Proof.
  induction env as [|[[ms n] f] env IH]; simpl; [discriminate|].
  destruct (mods_eqb ms mods && str_eqb n name) eqn:E; auto.
  apply andb_true_iff in E. destruct E as [E1 E2]. apply mods_eqb_eq in E1. apply str_eqb_eq in E2.
  intros [= ->]. subst. auto.
Qed.
Lemma lookup_struct_ex env mods name fs :
  In (mods, name, fs) env -> exists fs', lookup_struct env mods name = Some fs'.
Proof.
  induction env as [|[[ms n] f] env IH]; simpl; [tauto|].
  destruct (mods_eqb ms mods && str_eqb n name) eqn:E; eauto.
  intros [[= -> -> ->]|H]; auto. exfalso.
  assert (mods_eqb mods mods && str_eqb name name = true); [|congruence].
  rewrite (proj2 (mods_eqb_eq _ _) eq_refl), str_eqb_refl. reflexivity.
Qed.
Lemma lookup_own root m mods a : module_ok root m = true -> In (mods, a) (module_actions m) ->
  lookup_struct (module_structs [] m) (map module_names mods) (to_caps_case (a_name a)) =
  Some (action_fields a).
Proof.
  intros Hok Hin.
  assert (Hi : In (map module_names mods, to_caps_case (a_name a), action_fields a)
                  (module_structs [] m)).
  { apply in_module_structs. exists mods, a. auto. }
  destruct (lookup_struct_ex _ _ _ _ Hi) as [fs Hfs]. rewrite Hfs. f_equal.
  apply lookup_struct_In, in_module_structs in Hfs.
  destruct Hfs as (mods2 & a2 & H2 & E1 & E2 & ->). simpl in E1.
  destruct (actions_unique _ _ Hok _ _ _ _ Hin H2 (proj1 (names_split _ _ E1)) E2) as [_ ->]. reflexivity.
Qed.
Lemma lookup_field_In fs x fd : lookup_field fs x = Some fd -> In fd fs /\ fd_name fd = x.
Proof.
  induction fs as [|f fs IH]; simpl; [discriminate|].
  destruct (str_eqb_spec (fd_name f) x) as [Hx|].
  - intros [= <-]. auto.
  - intros H. apply IH in H. tauto.
Qed.

(** ** Sub-tries of the trie of a configuration *)
Inductive kind (t : ctrie) : list PathSegment -> Prop :=
| kind_block b path q :
    Node t (Some (block_route b path q)) (block_keys b) path (q ++ rt_query b) -> kind t path
| kind_mid ss path q : Node t None (skeys ss) path q -> kind t path.

Lemma block_keys_tail b ch :
  ks_tail (CStatic ch) (block_keys b) =
  skeys (ss_tail ch (map (fun sx : str * Routes => (fst sx, (Static (fst sx), snd sx)))
                         (statics (rt_routes b)))).
Proof.
  unfold block_keys. induction (rt_routes b) as [|[[[|c s]|p] child] l IH]; simpl; auto.
  - rewrite IH. destruct (charlike_eq_dec (CStatic c) (CStatic ch)) as [[= ->]|Hn].
    + rewrite N.eqb_refl. reflexivity.
    + destruct (N.eqb_spec c ch) as [->|]; [congruence|reflexivity].
  - destruct (charlike_eq_dec (CDynamic (p_name p)) (CStatic ch)); [discriminate|]. exact IH.
Qed.
Lemma kind_child t path k c : kind t path -> In (k, c) (t_children t) ->
  exists more, kind c (path ++ more).
Proof.
  intros [b p q N|ss p q N] Hin.
  - destruct k as [ch|n|].
    + destruct (Node_child _ _ _ _ _ N _ _ Hin) as [N' _]; [discriminate|].
      rewrite block_keys_tail in N'. exists []. rewrite app_nil_r. eapply kind_mid; eauto.
    + destruct (dynamic_child _ _ _ _ _ _ _ N Hin) as (pp & child & _ & _ & N' & _).
      exists []. rewrite app_nil_r. eapply kind_mid; eauto.
    + destruct (Node_sep _ _ _ _ _ N _ Hin) as (seg & b' & _ & _ & N').
      exists [seg]. eapply kind_block; eauto.
  - destruct (static_children _ _ _ _ _ N _ _ Hin) as [(ch & _ & N' & _)|(_ & seg & b & _ & _ & N')].
    + exists []. rewrite app_nil_r. eapply kind_mid; eauto.
    + exists [seg]. eapply kind_block; eauto.
Qed.
Lemma kind_sub x t : subtrie x t -> forall path, kind t path -> exists more, kind x (path ++ more).
Proof.
  induction 1 as [|t k c Hin Hs IH]; intros path K.
  - exists []. rewrite app_nil_r. exact K.
  - destruct (kind_child _ _ _ _ K Hin) as [m1 K1]. destruct (IH _ K1) as [m2 K2].
    exists (m1 ++ m2). rewrite app_assoc. exact K2.
Qed.
Lemma kind_data t path fr : kind t path -> t_data t = Some fr -> f_path fr = path.
Proof.
  intros [b p q N|ss p q N] Hd; rewrite (Node_data _ _ _ _ _ N) in Hd; [|discriminate].
  injection Hd as <-. reflexivity.
Qed.
(** Below a dynamic key. *)
Lemma kind_dynamic t path n c : kind t path -> In (CDynamic n, c) (t_children t) ->
  exists p c', p_name p = n /\ t_children c = [(CSeparator, c')] /\ t_data c = None /\
    last_type c = p_typ p /\ kind c' (path ++ [Dynamic p]) /\
    exists fr, t_data c' = Some fr /\ f_path fr = path ++ [Dynamic p].
Proof.
  intros [b pth q N|ss pth q N] Hin.
  - destruct (dynamic_child _ _ _ _ _ _ _ N Hin) as (p & child & Hp & _ & N' & c' & Ec).
    exists p, c'. split; auto. split; auto. split; [apply (Node_data _ _ _ _ _ N')|].
    split; [eapply last_type_dynamic; eauto|].
    destruct (sep_only _ _ _ _ _ _ N' Ec) as (seg & b' & E & N2). injection E as <- <-.
    split; [eapply kind_block; eauto|].
    eexists. split; [apply (Node_data _ _ _ _ _ N2)|reflexivity].
  - exfalso. destruct (static_children _ _ _ _ _ N _ _ Hin) as [(? & ? & _)|(? & _)]; discriminate.
Qed.

Lemma in_csub c l p v : In (p, v) (csub c l) <-> In (c :: p, v) l.
Proof.
  unfold csub. induction l as [|[[|k p'] v'] l IH]; cbn [sub_entries]; [reflexivity| |].
  - rewrite IH. simpl. split; [auto|intros [E|?]; [discriminate|auto]].
  - destruct (K_eq_dec charlike_cmp charlike_cmp_eq k c) as [->|Hn]; cbn [In]; rewrite IH.
    + split; intros [E|?]; auto; injection E as <- <-; auto.
    + split; auto. intros [E|?]; auto. injection E as E _ _. congruence.
Qed.
Lemma sub_data x t : subtrie x t -> forall l, CRep t l ->
  forall fr, t_data x = Some fr -> exists p, In (p, fr) l.
Proof.
  induction 1 as [|t k c Hin Hs IH]; intros l R fr Hd.
  - exists []. rewrite (Rep_data charlike_cmp charlike_cmp_eq _ _ R) in Hd.
    apply assoc_path_In in Hd. exact Hd.
  - pose proof (Rep_child charlike_cmp charlike_cmp_eq _ _ _ _ R Hin) as R'.
    destruct (IH _ R' fr Hd) as [p Hp]. exists (k :: p). apply in_csub. exact Hp.
Qed.

Lemma trie_data_block b t x fr :
  to_trie (flattened_routes b) = ROk t -> subtrie x t -> t_data x = Some fr ->
  exists path q b', In (path, q, b') (blocks b) /\ fr = mkFlat path (rt_resources b') q.
Proof.
  intros Ht Hs Hd. pose proof (to_trie_node _ _ Ht) as [R _ _].
  destruct (sub_data _ _ Hs _ R _ Hd) as [p Hp].
  assert (Hin : In fr (flattened_routes b)).
  { assert (He : In (p, fr) (map flat_entry (flattened_routes b))).
    { unfold flattened_routes. rewrite flatten_entries, prefix_entries_nil, block_entries_eq. exact Hp. }
    apply in_map_iff in He. destruct He as (fr' & E & Hf). unfold flat_entry in E.
    injection E as _ <-. exact Hf. }
  rewrite flattened_routes_blocks in Hin. apply in_map_iff in Hin.
  destruct Hin as ([[path q] b'] & <- & Hin). exists path, q, b'. auto.
Qed.

Lemma in_config_actions b path q b' r :
  In (path, q, b') (blocks b) -> In r (rt_resources b') -> r_is_redirect r = false ->
  In (action_of path q r) (config_actions b).
Proof.
  intros Hb Hr Hn. unfold config_actions. apply in_concat.
  exists (block_actions (path, q, b')). split; [apply in_map; exact Hb|].
  unfold block_actions. apply in_map. apply filter_In. rewrite Hn. auto.
Qed.

(** The types at which the struct literals of a block use its parameters are
    the declared ones. *)
Lemma uses_declared c root path q b' r p u :
  flattened_modules (c_routes c) = ROk root -> module_ok true root = true -> redirects_typed c ->
  In (path, q, b') (blocks (c_routes c)) -> In r (rt_resources b') -> In p (dynamics path) ->
  In u (ret_uses (module_structs [] root) (p_name p) (resource_ret (mkFlat path (rt_resources b') q) r)) ->
  u = p_typ p.
Proof.
  intros Hm Hok Hred Hb Hr Hpin Hu.
  pose proof (flattened_modules_ok (c_routes c)) as HF. rewrite Hm in HF.
  destruct HF as (_ & _ & HP & _).
  unfold ret_uses, resource_ret in Hu.
  destruct (lookup_struct (module_structs [] root) (map module_names (r_modules r))
              (to_caps_case (r_name r))) as [fs|] eqn:El; [|destruct Hu].
  assert (Hu' : exists fd, lookup_field fs (p_name p) = Some fd /\ u = fd_typ fd).
  { apply in_concat in Hu. destruct Hu as (l & Hl & Hu). apply in_map_iff in Hl.
    destruct Hl as ([y fi] & <- & _). destruct fi; [|destruct Hu].
    destruct (str_eqb y (p_name p)); [|destruct Hu]. destruct (lookup_field fs (p_name p)) as [fd|]; [|destruct Hu].
    destruct Hu as [<-|[]]. eauto. }
  destruct Hu' as (fd & Hfd & ->). apply lookup_field_In in Hfd. destruct Hfd as [Hfd Hname].
  destruct (r_is_redirect r) eqn:Er.
  - apply lookup_struct_In, in_module_structs in El.
    destruct El as (mods & a & Ha & E1 & E2 & ->). simpl in E1.
    eapply Permutation_in in Ha; [|exact HP].
    assert (Hf : exists p', In p' (a_route_params a ++ a_query_params a) /\
                            p_name p' = p_name p /\ p_typ p' = fd_typ fd).
    { unfold action_fields in Hfd. apply in_app_iff in Hfd.
      destruct Hfd as [Hfd|Hfd]; apply in_map_iff in Hfd; destruct Hfd as (p' & <- & Hp');
        exists p'; (split; [apply in_app_iff; auto|]); auto. }
    destruct Hf as (p' & Hp' & En & <-).
    symmetry in E1. apply names_split in E1. destruct E1 as [E1 E1'].
    eapply (Hred path q b' r p mods a p'); eauto.
  - assert (Ha : In (action_of path q r) (module_actions root)).
    { eapply Permutation_in; [symmetry; exact HP|]. eapply in_config_actions; eauto. }
    unfold action_of in Ha. rewrite path_params_dynamics in Ha.
    set (a := mkAction (r_name r) (r_method r) path (dynamics path) (q ++ r_query r)) in *.
    pose proof (lookup_own _ _ _ _ Hok Ha) as Ho. simpl a_name in Ho. rewrite Ho in El.
    injection El as <-.
    assert (Hnd : NoDup (map fd_name (action_fields a))).
    { eapply action_nodup; eauto. }
    assert (Hpf : In (mkField (p_name p) (p_typ p) false) (action_fields a)).
    { unfold action_fields. apply in_app_iff. left. apply in_map_iff. exists p. auto. }
    assert (E : fd = mkField (p_name p) (p_typ p) false).
    { eapply (map_NoDup_eq fd_name); eauto. }
    rewrite E. reflexivity.
Qed.

Lemma trie_types c root t :
  flattened_modules (c_routes c) = ROk root -> module_ok true root = true ->
  to_trie (flattened_routes (c_routes c)) = ROk t -> redirects_typed c ->
  forall t' n ch t'' fr r u, subtrie t' t -> In (CDynamic n, ch) (t_children t') ->
    subtrie t'' ch -> t_data t'' = Some fr -> In r (f_resources fr) ->
    In u (ret_uses (module_structs [] root) n (resource_ret fr r)) -> u = last_type ch.
Proof.
  intros Hm Hok Ht Hred.
  assert (K : kind t []).
  { pose proof (to_trie_node _ _ Ht) as N. eapply (kind_block t (c_routes c) [] []). exact N. }
  intros t' n ch t'' fr r u Hs Hin Hs'' Hd Hr Hu.
  destruct (kind_sub _ _ Hs _ K) as [more K']. simpl in K'.
  destruct (kind_dynamic _ _ _ _ K' Hin) as (p & c' & Hp & Ec & Hnone & Hty & Kc & _).
  rewrite Hty.
  assert (Hst : subtrie t'' t).
  { eapply subtrie_trans; [exact Hs''|]. eapply subtrie_trans; [|exact Hs].
    eapply subtrie_child; exact Hin. }
  (* p is a parameter of the path *)
  assert (Hpin : In p (dynamics (f_path fr))).
  { inversion Hs'' as [|? k c2 Hin2 Hs2]; subst; [congruence|].
    rewrite Ec in Hin2. destruct Hin2 as [[= <- <-]|[]].
    destruct (kind_sub _ _ Hs2 _ Kc) as [m2 K2]. rewrite (kind_data _ _ _ K2 Hd).
    rewrite <- app_assoc, dynamics_app. apply in_app_iff. right. left. reflexivity. }
  destruct (trie_data_block _ _ _ _ Ht Hst Hd) as (path & q & b' & Hb & ->). simpl in Hr, Hpin.
  rewrite <- Hp in Hu. eapply uses_declared; eauto.
Qed.

Lemma trie_good_config c root t :
  flattened_modules (c_routes c) = ROk root -> module_ok true root = true ->
  to_trie (flattened_routes (c_routes c)) = ROk t ->
  hygienic c -> redirects_typed c ->
  trie_good (module_structs [] root) last_type t.
Proof.
  intros Hm Hok Ht Hhyg Hred.
  assert (K : kind t []).
  { pose proof (to_trie_node _ _ Ht) as N. eapply (kind_block t (c_routes c) [] []). exact N. }
  split.
  - intros t' n ch Hs Hin Hu. destruct (kind_sub _ _ Hs _ K) as [more K']. simpl in K'.
    destruct (kind_dynamic _ _ _ _ K' Hin) as (p & c' & Hp & Ec & _ & Hty & _ & fr & Hd & Hpath).
    assert (Hsc : subtrie c' t).
    { eapply subtrie_trans; [|exact Hs]. eapply sub_step; [exact Hin|].
      eapply subtrie_child. rewrite Ec. left; reflexivity. }
    destruct (trie_data_block _ _ _ _ Ht Hsc Hd) as (path & q & b' & Hb & ->). simpl in Hpath. subst path.
    rewrite <- Hp. apply (Hhyg _ _ _ p Hb).
    + rewrite path_params_dynamics, dynamics_app. apply in_app_iff. right. left. reflexivity.
    + rewrite <- Hty. exact Hu.
  - intros t' fr Hs Hd r p Hr Hin Hu.
    destruct (trie_data_block _ _ _ _ Ht Hs Hd) as (path & q & b' & Hb & ->).
    apply (Hhyg _ _ _ p Hb); [exact Hin|]. symmetry. eapply uses_declared; eauto.
  - eapply trie_types; eauto.
Qed.

(** ** The theorem *)
Lemma no_slash_skipn (path : bytes) :
  skipn (match path with b :: _ => if N.eqb b c_slash then 1 else 0 | [] => 0 end) path = no_slash path.
Proof. destruct path as [|b p]; auto. simpl. destruct (N.eqb b c_slash); reflexivity. Qed.

Theorem match_route_tree {T E} (rt : runtime T E) (c : RouteConfig) (path method : bytes) :
  compiles c = true -> hygienic c -> redirects_typed c ->
  match_route rt c path method = Some (tree_match (rt_parse rt) method c path).
Proof.
  intros Hc Hhyg Hred. unfold match_route. pose proof Hc as Hc'. unfold compiles in Hc'.
  destruct (flattened_modules (c_routes c)) as [root| | |] eqn:Em; try discriminate.
  destruct (gen_program c) as [body| | |] eqn:Eg; try discriminate. rewrite Hc.
  rewrite !andb_true_iff in Hc'. destruct Hc' as [[Hok _] Hck].
  destruct (check_block (module_structs [] root) prologue_tenv body false) as [d|] eqn:Ec;
    [|discriminate].
  unfold gen_program in Eg.
  destruct (to_trie (flattened_routes (c_routes c))) as [t| | |] eqn:Et; try discriminate.
  cbn [rbind] in Eg.
  pose proof (trie_good_config c root t Em Hok Et Hhyg Hred) as Hgood.
  assert (Htok : trie_ok (S (trie_height t)) t).
  { eapply gen_trie_ok; [exact Eg|]. exists prologue_tenv, false, d. exact Ec. }
  unfold run_program.
  set (i := match path with b :: _ => if N.eqb b c_slash then 1 else 0 | [] => 0 end).
  assert (Hi : i <= length path).
  { unfold i. destruct path as [|b p]; simpl; auto. destruct (N.eqb b c_slash); lia. }
  assert (He : env_inv path (prologue_env (T := T) path method) i).
  { split; try reflexivity; auto. }
  assert (Ht : tenv_inv method prologue_tenv (prologue_env (T := T) path method) []).
  { split; try reflexivity.
    - intros x m u. unfold prologue_tenv. cbn [lookup].
      repeat match goal with
        |- context [str_eqb ?a x] => destruct (str_eqb a x); [discriminate|]
        end. discriminate.
    - intros x m. unfold prologue_tenv. cbn [lookup].
      repeat match goal with
        |- context [str_eqb ?a x] =>
          destruct (str_eqb_spec a x) as [<-|]; [try discriminate; intros _; simpl; tauto|]
        end. discriminate. }
  assert (Hx : exec_ok rt (module_structs [] root) last_type path method (S (length path))
                 (S (trie_height t)) t body).
  { apply exec_gen_trie; auto. }
  rewrite (Hx prologue_tenv _ i [] false d Ec He Ht).
  unfold i. rewrite no_slash_skipn.
  pose proof (to_trie_node _ _ Et) as N.
  destruct (run_tree rt method (S (trie_height t))) as [Hb _].
  specialize (Hb t (c_routes c) [] [] N Htok [] (no_slash path) eq_refl).
  cbn [vals_of map rev] in Hb. change (@vals_of T []) with (@nil (str * (str * T))) in Hb.
  rewrite Hb. unfold tree_match. destruct (tree_run _ _ _ _ _ _); reflexivity.
Qed.

(** ** Declared structs, as a list *)
Lemma module_structs_map : forall m path,
  module_structs path m =
  map (fun ma : list str * FlattenedAction =>
         (path ++ map module_names (fst ma), to_caps_case (a_name (snd ma)), action_fields (snd ma)))
      (module_actions m).
Proof.
  induction m as [name acts subs IH] using FM_ind'. intros path.
  cbn [module_structs module_actions]. rewrite map_app, map_map. cbn [fst snd map].
  rewrite app_nil_r. f_equal. rewrite concat_map, map_map. f_equal.
  apply map_ext_in. intros s Hs. rewrite (IH s Hs), map_map. apply map_ext. intros [mods a].
  simpl. rewrite <- app_assoc. reflexivity.
Qed.
Lemma flattened_modules_structs b root :
  flattened_modules b = ROk root ->
  Permutation (module_structs [] root)
    (map (fun ma : list str * FlattenedAction =>
            (map module_names (fst ma), to_caps_case (a_name (snd ma)), action_fields (snd ma)))
         (config_actions b)).
Proof.
  intros H. pose proof (flattened_modules_ok b) as HF. rewrite H in HF.
  destruct HF as (_ & _ & HP & _). rewrite module_structs_map. apply Permutation_map. exact HP.
Qed.
Lemma flattened_modules_any_order b root :
  flattened_modules b = ROk root ->
  exists hm, modules_loop (routes_size b) hmodule_default [(b, [], [])] = ROk hm /\
             forall f, finalizes hm (lit "routes") f <-> f = root.
Proof.
  unfold flattened_modules. pose proof (modules_loop_root b) as HL.
  destruct (modules_loop _ _ _) as [hm| | |]; try discriminate. cbn [rbind]. intros [= <-].
  destruct HL as [Hok _]. exists hm. split; auto. intros f. split.
  - apply finalizes_unique; auto.
  - intros ->. apply finalize_finalizes.
Qed.
Lemma blocks_at : forall b p q x, In (p, q, x) (blocks b) <-> block_at b p q x.
Proof.
  induction b as [rs ch qs IH] using Routes_ind'. intros p q x. simpl. rewrite Forall_forall in IH.
  split.
  - intros [[= <- <- <-]|H]; [apply (block_root (mkRoutes rs ch qs))|].
    apply in_concat in H. destruct H as (l & Hl & H). apply in_map_iff in Hl.
    destruct Hl as ([seg child] & <- & Hin). apply in_map_iff in H.
    destruct H as ([[p' q'] x'] & [= <- <- <-] & H).
    apply (block_step (mkRoutes rs ch qs) seg child); [exact Hin|]. apply (IH _ Hin). exact H.
  - inversion 1 as [|? seg child p' q' ? Hin Hb]; subst; [left; reflexivity|right].
    simpl in Hin. apply in_concat. eexists. split.
    + apply in_map_iff. exists (seg, child). split; [reflexivity|exact Hin].
    + apply in_map_iff. exists (p', q', x). split; [reflexivity|]. apply (IH _ Hin). exact Hb.
Qed.
Lemma flattened_table b :
  map (fun fr => (f_path fr, f_query fr, f_resources fr)) (flattened_routes b) =
  map (fun e : list PathSegment * list Param * Routes =>
         let '(p, q, x) := e in (p, q, rt_resources x)) (blocks b).
Proof.
  rewrite flattened_routes_blocks, map_map. apply map_ext. intros [[p q] x]. reflexivity.
Qed.
Lemma flattened_modules_tree b root :
  flattened_modules b = ROk root ->
  m_name root = lit "routes" /\ tree_ok root /\
  Permutation (module_actions root) (config_actions b) /\
  NoDup (map (fun e : list str * FlattenedAction => (fst e, a_name (snd e))) (config_actions b)).
Proof.
  intros H. pose proof (flattened_modules_ok b) as HF. rewrite H in HF. exact HF.
Qed.
