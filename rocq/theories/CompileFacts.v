(** * CompileFacts: exactly when the generated module compiles *)
From Coq Require Import Sorted Permutation.
From Verif Require Import Base Core Trie Flat MiniRust Gen Spec SpecGen SpecCompile.
From Verif Require Import BaseFacts TrieFacts ExecFacts NodeFacts CompFacts RunFacts FlatFacts MatchFacts.
From Verif Require Import GenThms CheckFacts CheckNodes.

(** ** Doc text *)
Definition returns (b : Routes) : Prop :=
  exists p q x s, block_at b p q x /\ In s (block_texts x) /\ In c_cr s.
Lemma cr_lit s : existsb (N.eqb c_cr) (lit s) = false -> ~ In c_cr (lit s).
Proof.
  intros H Hin. assert (existsb (N.eqb c_cr) (lit s) = true); [|congruence].
  apply existsb_exists. exists c_cr. rewrite N.eqb_refl. auto.
Qed.
Ltac no_cr := first [apply cr_lit; reflexivity | intros [E|[]]; discriminate E].
Lemma indent_cr n : ~ In c_cr (indent n).
Proof. do 8 (destruct n as [|n]; [apply cr_lit; reflexivity|]). apply cr_lit; reflexivity. Qed.
Lemma method_cr m : ~ In c_cr (method_display m).
Proof. destruct m; apply cr_lit; reflexivity. Qed.
Lemma in_app_no {A} (x : A) a b : ~ In x a -> In x (a ++ b) <-> In x b.
Proof. intros H. rewrite in_app_iff. tauto. Qed.
Lemma in_app_no_r {A} (x : A) a b : ~ In x b -> In x (a ++ b) <-> In x a.
Proof. intros H. rewrite in_app_iff. tauto. Qed.
Lemma in_concat_map {A B} (f : A -> list B) l x : In x (concat (map f l)) <-> exists a, In a l /\ In x (f a).
Proof.
  rewrite in_concat. split.
  - intros (y & Hy & Hx). apply in_map_iff in Hy. destruct Hy as (a & <- & Ha). eauto.
  - intros (a & Ha & Hx). exists (f a). split; auto. apply in_map; auto.
Qed.
Lemma param_cr p : In c_cr (param_display p) <-> exists s, In s (param_texts p) /\ In c_cr s.
Proof.
  unfold param_display, param_texts. rewrite in_app_iff, in_app_no by no_cr. split.
  - intros [H|H]; [exists (p_name p)|exists (p_typ p)]; simpl; auto.
  - intros (s & [<-|[<-|[]]] & H); auto.
Qed.
Lemma segment_cr s : In c_cr (segment_stringify s) <-> exists t, In t (segment_texts s) /\ In c_cr t.
Proof.
  destruct s as [t|p]; simpl segment_texts.
  - simpl. split; [eauto|]. intros (s & [<-|[]] & H). exact H.
  - unfold segment_stringify. rewrite in_app_no, in_app_no_r by no_cr. apply param_cr.
Qed.
Lemma resource_cr n r : In c_cr (resource_stringify n r) <-> exists t, In t (resource_texts r) /\ In c_cr t.
Proof.
  unfold resource_stringify, resource_texts.
  rewrite in_app_no by apply indent_cr. rewrite in_app_no by apply method_cr.
  rewrite in_app_no by (destruct (r_is_redirect r); no_cr). rewrite in_app_no by no_cr.
  rewrite !in_app_iff, !in_concat_map. split.
  - intros [(m & Hm & H)|[H|[(p & Hp & H)|H]]].
    + rewrite in_app_no_r in H by no_cr. exists m. split; auto. right. apply in_app_iff. auto.
    + exists (r_name r). split; auto. left; reflexivity.
    + rewrite in_app_no in H by no_cr. rewrite in_app_no in H by apply indent_cr.
      rewrite in_app_no, in_app_no_r in H by no_cr. apply param_cr in H. destruct H as (s & Hs & H).
      exists s. split; auto. right. apply in_app_iff. right. apply in_flat_map. eauto.
    + exfalso. revert H. no_cr.
  - intros (t & [<-|Ht] & H); [auto|]. apply in_app_iff in Ht. destruct Ht as [Ht|Ht].
    + left. exists t. rewrite in_app_iff. auto.
    + apply in_flat_map in Ht. destruct Ht as (p & Hp & Ht). right; right; left. exists p. split; auto.
      rewrite !in_app_iff. do 3 right. left. apply param_cr. eauto.
Qed.
Lemma returns_eq b :
  returns b <-> (exists s, In s (block_texts b) /\ In c_cr s) \/
                (exists seg child, In (seg, child) (rt_routes b) /\ returns child).
Proof.
  split.
  - intros (p & q & x & s & Hx & Hs & H). inversion Hx; subst; [eauto|].
    right. exists seg, child. split; auto. exists p0, q0, x, s. auto.
  - intros [(s & Hs & H)|(seg & child & Hin & (p & q & x & s & Hx & Hs & H))].
    + exists [], (rt_query b), b, s. split; [constructor|auto].
    + exists (seg :: p), (rt_query b ++ q), x, s. split; [econstructor; eauto|auto].
Qed.
Lemma stringify_cr : forall b n, In c_cr (routes_stringify n b) <-> returns b.
Proof.
  induction b as [rs ch qs IH] using Routes_ind'. intros n. rewrite Forall_forall in IH.
  rewrite returns_eq. cbn [routes_stringify rt_routes]. rewrite !in_app_iff, !in_concat_map.
  unfold block_texts. cbn [rt_query rt_resources rt_routes]. split.
  - intros [(p & Hp & H)|[(r & Hr & H)|([seg c] & Hc & H)]].
    + rewrite in_app_no in H by apply indent_cr. rewrite in_app_no in H by no_cr.
      rewrite in_app_no_r in H by (rewrite in_app_iff; intros [E|E]; revert E; no_cr).
      apply param_cr in H. destruct H as (s & Hs & H). left. exists s. split; auto.
      rewrite in_app_iff. left. apply in_flat_map. eauto.
    + apply resource_cr in H. destruct H as (s & Hs & H). left. exists s. split; auto.
      rewrite !in_app_iff. right; left. apply in_flat_map. eauto.
    + rewrite in_app_no in H by apply indent_cr. rewrite in_app_iff in H. destruct H as [H|H].
      * apply segment_cr in H. destruct H as (s & Hs & H). left. exists s. split; auto.
        rewrite !in_app_iff. right; right. apply in_flat_map. exists (seg, c). auto.
      * rewrite in_app_no in H by no_cr. apply (IH _ Hc) in H. right. eauto.
  - intros [(s & Hs & H)|(seg & c & Hc & H)].
    + rewrite !in_app_iff in Hs. destruct Hs as [Hs|[Hs|Hs]]; apply in_flat_map in Hs; destruct Hs as (y & Hy & Hs).
      * left. exists y. split; auto. rewrite !in_app_iff. do 2 right. left. apply param_cr. eauto.
      * right; left. exists y. split; auto. apply resource_cr. eauto.
      * right; right. destruct y as [seg c]. exists (seg, c). split; auto. rewrite !in_app_iff.
        right; left. apply segment_cr. eauto.
    + right; right. exists (seg, c). split; auto. rewrite !in_app_iff. do 3 right. apply (IH _ Hc). exact H.
Qed.
Lemma doc_ok_iff c : doc_ok c = true <-> no_returns c.
Proof.
  unfold doc_ok, no_returns. rewrite forallb_forall. split.
  - intros H p q x s Hx Hs Hin.
    assert (Hr : In c_cr (routes_stringify 1 (c_routes c))).
    { apply stringify_cr. exists p, q, x, s. auto. }
    apply H in Hr. rewrite N.eqb_refl in Hr. discriminate.
  - intros H x Hx. apply negb_true_iff, N.eqb_neq. intros ->. apply stringify_cr in Hx.
    destruct Hx as (p & q & y & s & Hy & Hs & Hin). exact (H p q y s Hy Hs Hin).
Qed.

(** ** The module tree *)
Inductive at_mod : FlattenedModule -> list str -> FlattenedModule -> Prop :=
| at_here m : at_mod m [] m
| at_step m s ms x : In s (m_modules m) -> at_mod s ms x -> at_mod m (m_name s :: ms) x.
Definition local_ok (root : bool) (m : FlattenedModule) : bool :=
  module_ok root (mkModule (m_name m) (m_actions m) (m_modules m)).
Definition is_nil {A} (l : list A) : bool := match l with [] => true | _ => false end.
Lemma sorted_names {A} (key : A -> str) l : StronglySorted (key_lt key) l -> NoDup (map key l).
Proof.
  induction 1 as [|x l _ IH HF]; constructor; auto. intros Hin. apply in_map_iff in Hin.
  destruct Hin as (y & E & Hy). rewrite Forall_forall in HF. specialize (HF _ Hy).
  unfold key_lt in HF. rewrite E, (proj2 (str_compare_eq _ _) eq_refl) in HF. discriminate.
Qed.
Lemma nodup_map_key {A} (key f : A -> str) l : NoDup (map key l) ->
  NoDup (map f l) <-> forall x y, In x l -> In y l -> f x = f y -> key x = key y.
Proof.
  intros Hk. split.
  - intros Hf x y Hx Hy E. f_equal. exact (map_NoDup_eq f l x y Hf Hx Hy E).
  - intros H. induction l as [|x l IH]; simpl; constructor.
    + intros Hin. apply in_map_iff in Hin. destruct Hin as (y & E & Hy). simpl in Hk.
      inversion Hk as [|? ? Hx _]; subst. apply Hx.
      rewrite (H x y (or_introl eq_refl) (or_intror Hy) (eq_sym E)). apply in_map; auto.
    + simpl in Hk. inversion Hk; subst. apply IH; auto. intros. apply H; simpl; auto.
Qed.
Lemma NoDup_app_iff {A} (a b : list A) :
  NoDup (a ++ b) <-> NoDup a /\ NoDup b /\ forall x, In x a -> ~ In x b.
Proof.
  induction a as [|x a IH]; simpl.
  - split; [intros H; repeat split; auto; constructor|tauto].
  - split.
    + intros H. inversion H as [|? ? H1 H2]; subst. apply IH in H2. destruct H2 as (H2 & H3 & H4).
      rewrite in_app_iff in H1. split; [constructor; tauto|]. split; auto.
      intros y [<-|Hy]; [tauto|auto].
    + intros (H1 & H2 & H3). inversion H1; subst. constructor.
      * rewrite in_app_iff. intros [Hy|Hy]; auto. exact (H3 x (or_introl eq_refl) Hy).
      * apply IH. repeat split; auto.
Qed.

Section Tree.
Variable root : FlattenedModule.
Hypothesis Hroot : tree_ok root.
Notation in_mod ms a := (In (ms, a) (module_actions root)).
Definition subm ms k : Prop := exists rest a, in_mod (ms ++ k :: rest) a.

Lemma tree_parts m : tree_ok m ->
  NoDup (map a_name (m_actions m)) /\ NoDup (map m_name (m_modules m)) /\
  (forall s, In s (m_modules m) -> tree_ok s) /\ (forall s, In s (m_modules m) -> module_actions s <> []).
Proof.
  intros H. inversion H; subst. simpl. repeat split; auto using sorted_names.
Qed.
Lemma at_tree m ms x : at_mod m ms x -> tree_ok m -> tree_ok x.
Proof. induction 1 as [|m s ms x Hin _ IH]; auto. intros H. apply IH. apply tree_parts in H. apply H; auto. Qed.
Lemma at_actions m ms x : at_mod m ms x -> tree_ok m ->
  forall rest a, In (ms ++ rest, a) (module_actions m) <-> In (rest, a) (module_actions x).
Proof.
  induction 1 as [|m s ms x Hin Hs IH]; intros Ht rest a; [reflexivity|].
  simpl. rewrite in_module_actions_cons. destruct (tree_parts _ Ht) as (_ & Hn & Hsub & _).
  rewrite <- (IH (Hsub _ Hin)). split.
  - intros (s' & Hin' & E & H). rewrite (map_NoDup_eq m_name _ _ _ Hn Hin' Hin E) in H. exact H.
  - intros H. exists s. auto.
Qed.
Lemma at_exists ms : forall m a rest, In (ms ++ rest, a) (module_actions m) -> exists x, at_mod m ms x.
Proof.
  induction ms as [|k ms IH]; intros m a rest H; [exists m; constructor|].
  simpl in H. apply in_module_actions_cons in H. destruct H as (s & Hs & <- & H).
  destruct (IH _ _ _ H) as [x Hx]. exists x. constructor; auto.
Qed.
Lemma actions_some m : module_actions m <> [] -> exists ms a, In (ms, a) (module_actions m).
Proof.
  destruct (module_actions m) as [|[ms a] l] eqn:E; [congruence|]. intros _. exists ms, a. left; reflexivity.
Qed.
(** The names of a module, from its actions. *)
Lemma at_in ms x : at_mod root ms x -> forall a, in_mod ms a <-> In a (m_actions x).
Proof.
  intros Hx a. rewrite <- in_module_actions_nil. rewrite <- (at_actions _ _ _ Hx Hroot). rewrite app_nil_r.
  reflexivity.
Qed.
Lemma at_sub ms x : at_mod root ms x -> forall k, subm ms k <-> In k (map m_name (m_modules x)).
Proof.
  intros Hx k. unfold subm. rewrite in_map_iff. split.
  - intros (rest & a & H). apply (at_actions _ _ _ Hx Hroot) in H. apply in_module_actions_cons in H.
    destruct H as (s & Hs & E & _). eauto.
  - intros (s & <- & Hs). destruct (tree_parts _ (at_tree _ _ _ Hx Hroot)) as (_ & _ & _ & Hne).
    destruct (actions_some _ (Hne _ Hs)) as (ms' & a & H). exists ms', a.
    apply (at_actions _ _ _ Hx Hroot). apply in_module_actions_cons. eauto.
Qed.

Definition unit_of (m : FlattenedModule) (x : str) : Prop :=
  exists a, In a (m_actions m) /\ is_unit a /\ to_caps_case (a_name a) = x.
Lemma unit_names_In acts x :
  In x (unit_names acts) <-> exists a, In a acts /\ is_unit a /\ to_caps_case (a_name a) = x.
Proof.
  unfold unit_names. rewrite in_map_iff. unfold is_unit. split.
  - intros (a & <- & H). apply filter_In in H. destruct H as [H1 H2]. exists a. split; auto. split; auto.
    unfold has_params in H2. destruct (a_route_params a), (a_query_params a); auto; discriminate.
  - intros (a & H1 & [E1 E2] & <-). exists a. split; auto. apply filter_In. split; auto.
    unfold has_params. rewrite E1, E2. reflexivity.
Qed.
Lemma existsb_str x l : existsb (str_eqb x) l = true <-> In x l.
Proof.
  rewrite existsb_exists. split.
  - intros (y & Hy & E). apply str_eqb_eq in E. subst. exact Hy.
  - intros H. exists x. rewrite str_eqb_refl. auto.
Qed.
Lemma fields_eq a : map fd_name (action_fields a) = fields a.
Proof. unfold action_fields, fields. rewrite map_app, !map_map. reflexivity. Qed.
Lemma format_ok p : forallb format_segment p = true <->
  forall s x, In (Static s) p -> In x s -> ~ In x [c_lbrace; c_rbrace; c_quote; c_backslash; c_cr; c_nl].
Proof.
  rewrite forallb_forall. split.
  - intros H s x Hs Hx Hin. apply H in Hs. cbn [format_segment] in Hs. rewrite forallb_forall in Hs.
    apply Hs in Hx. unfold format_char in Hx. apply negb_true_iff in Hx.
    assert (existsb (N.eqb x) [c_lbrace; c_rbrace; c_quote; c_backslash; c_cr; c_nl] = true); [|congruence].
    apply existsb_exists. exists x. rewrite N.eqb_refl. auto.
  - intros H [s|p'] Hin; [|reflexivity]. cbn [format_segment]. apply forallb_forall. intros x Hx.
    unfold format_char. apply negb_true_iff. apply not_true_iff_false. intros E.
    apply existsb_exists in E. destruct E as (y & Hy & E). apply N.eqb_eq in E. subst y.
    exact (H _ _ Hin Hx Hy).
Qed.

(** One module. *)
Record local (isroot : bool) (m : FlattenedModule) : Prop := {
  lo_some : m_actions m <> [] \/ m_modules m <> [];
  lo_action : forall a, In a (m_actions m) -> is_ident (to_caps_case (a_name a)) = true;
  lo_module : forall k, In k (map m_name (m_modules m)) ->
      is_ident (to_snake_case k) = true /\ is_ident (to_caps_case k) = true;
  lo_taken : forall x, In x (used_names isroot (m_actions m)) ->
      ~ (exists a, In a (m_actions m) /\ to_caps_case (a_name a) = x) /\
      ~ (exists k, In k (map m_name (m_modules m)) /\ to_snake_case k = x);
  lo_distinct : forall a a', In a (m_actions m) -> In a' (m_actions m) ->
      to_caps_case (a_name a) = to_caps_case (a_name a') -> a_name a = a_name a';
  lo_mod_distinct : forall k k', In k (map m_name (m_modules m)) -> In k' (map m_name (m_modules m)) ->
      to_snake_case k = to_snake_case k' \/ to_caps_case k = to_caps_case k' -> k = k';
  lo_mod_action : forall a k, In a (m_actions m) -> In k (map m_name (m_modules m)) ->
      to_caps_case (a_name a) <> to_snake_case k /\ to_caps_case (a_name a) <> to_caps_case k;
  lo_fields : forall a x, In a (m_actions m) -> In x (fields a) -> is_ident x = true /\ ~ unit_of m x /\ ~ constructor x;
  lo_fields_distinct : forall a, In a (m_actions m) -> NoDup (fields a);
  lo_path : forall a s x, In a (m_actions m) -> In (Static s) (a_path a) -> In x s ->
      ~ In x [c_lbrace; c_rbrace; c_quote; c_backslash; c_cr; c_nl];
  lo_ok : isroot = true -> ~ unit_of m (lit "Ok")
}.
Lemma ctor_no x : prelude_ctor x = false <-> ~ constructor x.
Proof.
  unfold prelude_ctor, constructor. rewrite <- existsb_str. destruct (existsb _ _); split; congruence.
Qed.
Lemma used_nodup isroot acts : NoDup (used_names isroot acts).
Proof.
  apply nodup_strs_NoDup. unfold used_names.
  destruct isroot, (existsb _ acts); reflexivity.
Qed.
Lemma module_ok_local isroot m : tree_ok m ->
  module_ok isroot m = true <-> local isroot m /\ forall s, In s (m_modules m) -> module_ok false s = true.
Proof.
  intros Ht. destruct (tree_parts _ Ht) as (Ha & Hm & _ & _). destruct m as [name acts mods].
  cbn [m_actions m_modules] in Ha, Hm.
  assert (Hm2 : forall f : str -> str, NoDup (map (fun s => f (m_name s)) mods) <->
     forall k k', In k (map m_name mods) -> In k' (map m_name mods) -> f k = f k' -> k = k').
  { intros f. rewrite (nodup_map_key m_name (fun s => f (m_name s)) mods Hm). split.
    - intros H k k' Hk Hk' E. apply in_map_iff in Hk, Hk'. destruct Hk as (s & <- & Hs).
      destruct Hk' as (s' & <- & Hs'). apply H; auto.
    - intros H s s' Hs Hs' E. apply H; auto; apply in_map; auto. }
  cbn [module_ok]. rewrite !andb_true_iff.
  rewrite !nodup_strs_NoDup, !NoDup_app_iff, !forallb_forall.
  rewrite (nodup_map_key a_name (fun a => to_caps_case (a_name a)) acts Ha).
  rewrite (Hm2 to_snake_case), (Hm2 to_caps_case).
  split.
  - intros [[[[[[[[A1 A2] A3] A4] (B1 & (B2 & B3 & B4) & B5)] (C1 & C2 & C3)] D] F] G]. split; [|exact G].
    split; cbn [m_actions m_modules].
    + destruct acts; [|left; discriminate]. destruct mods; [discriminate|right; discriminate].
    + intros a Hin. apply A2. apply in_map_iff. eauto.
    + intros k Hk. apply in_map_iff in Hk. destruct Hk as (s & <- & Hs). split.
      * apply A3. apply in_map_iff. eauto.
      * apply A4. apply in_app_iff. right. apply in_map_iff. eauto.
    + intros x Hx. specialize (B5 x Hx). rewrite in_app_iff in B5. split.
      * intros (a & Hin & <-). apply B5. left. apply in_map_iff. eauto.
      * intros (k & Hk & <-). apply B5. right. apply in_map_iff in Hk. destruct Hk as (s & <- & Hs).
        apply in_map_iff. eauto.
    + exact B2.
    + intros k k' Hk Hk' [E|E]; [apply B3|apply C2]; auto.
    + intros a k Hin Hk. apply in_map_iff in Hk. destruct Hk as (s & <- & Hs). split; intros E.
      * apply (B4 (to_caps_case (a_name a))).
        -- apply in_map_iff. eauto.
        -- rewrite E. apply in_map_iff. eauto.
      * apply (C3 (to_caps_case (a_name a))).
        -- apply in_map_iff. eauto.
        -- rewrite E. apply in_map_iff. eauto.
    + intros a x Hin Hx. specialize (D a Hin). cbv zeta in D.
      rewrite !andb_true_iff, !forallb_forall, fields_eq in D. destruct D as [[[D1 _] D2] _].
      specialize (D1 x Hx). apply andb_true_iff in D1. destruct D1 as [D1 Dc]. apply negb_true_iff in Dc.
      split; auto. split; [|apply ctor_no; exact Dc]. intros Hu. specialize (D2 x Hx). apply negb_true_iff in D2.
      assert (existsb (str_eqb x) (unit_names acts) = true); [|congruence].
      apply existsb_str, unit_names_In. exact Hu.
    + intros a Hin. specialize (D a Hin). cbv zeta in D.
      rewrite !andb_true_iff, fields_eq in D. destruct D as [[[_ D] _] _]. apply nodup_strs_NoDup. exact D.
    + intros a s x Hin. specialize (D a Hin). cbv zeta in D. rewrite !andb_true_iff in D.
      destruct D as [_ D]. rewrite format_ok in D. apply D.
    + intros -> Hu. apply negb_true_iff in F.
      assert (existsb (str_eqb (lit "Ok")) (unit_names acts) = true); [|congruence].
      apply existsb_str, unit_names_In. exact Hu.
  - intros [[L1 L2 L3 L4 L5 L6 L7 L8 L9 L10 L11] G]. cbn [m_actions m_modules] in *.
    split; [|exact G]. split; [split; [split; [split; [split; [split; [split|]|]|]|]|]|].
    + destruct acts; [|reflexivity]. destruct mods; [|reflexivity]. destruct L1; congruence.
    + intros x Hx. apply in_map_iff in Hx. destruct Hx as (a & <- & Hin). auto.
    + intros x Hx. apply in_map_iff in Hx. destruct Hx as (s & <- & Hs). apply L3. apply in_map; auto.
    + intros x Hx. apply in_app_iff in Hx. destruct Hx as [Hx|Hx]; apply in_map_iff in Hx.
      * destruct Hx as (a & <- & Hin). auto.
      * destruct Hx as (s & <- & Hs). apply L3. apply in_map; auto.
    + split; [apply used_nodup|]. split; [split; [exact L5|split]|].
      * intros k k' Hk Hk' E. auto.
      * intros x Hx Hy. apply in_map_iff in Hx, Hy. destruct Hx as (a & <- & Hin). destruct Hy as (s & E & Hs).
        destruct (L7 a (m_name s) Hin (in_map m_name _ _ Hs)) as [T1 T2]. congruence.
      * intros x Hx Hy. destruct (L4 x Hx) as [T1 T2]. apply in_app_iff in Hy.
        destruct Hy as [Hy|Hy]; apply in_map_iff in Hy; destruct Hy as (y & E & Hy).
        -- apply T1. eauto.
        -- apply T2. exists (m_name y). split; auto. apply in_map; auto.
    + split; [exact L5|]. split.
      * intros k k' Hk Hk' E. auto.
      * intros x Hx Hy. apply in_map_iff in Hx, Hy. destruct Hx as (a & <- & Hin). destruct Hy as (s & E & Hs).
        destruct (L7 a (m_name s) Hin (in_map m_name _ _ Hs)) as [T1 T2]. congruence.
    + intros a Hin. cbv zeta. rewrite !andb_true_iff, !forallb_forall, fields_eq, nodup_strs_NoDup.
      split; [split; [split|]|].
      * intros x Hx. destruct (L8 a x Hin Hx) as (F1 & _ & F2). apply ctor_no in F2. rewrite F1, F2. reflexivity.
      * apply L9. exact Hin.
      * intros x Hx. apply negb_true_iff, not_true_iff_false. intros E. apply existsb_str, unit_names_In in E.
        destruct (L8 a x Hin Hx) as (_ & F & _). auto.
      * rewrite <- forallb_forall. apply format_ok. intros s x. apply L10. exact Hin.
    + destruct isroot; auto. apply negb_true_iff, not_true_iff_false. intros E.
      apply existsb_str, unit_names_In in E. apply L11; auto.
Qed.

Lemma module_ok_all : forall m isroot, tree_ok m ->
  module_ok isroot m = true <-> forall ms x, at_mod m ms x -> local (isroot && is_nil ms) x.
Proof.
  induction m as [name acts mods IH] using FM_ind'. intros isroot Ht.
  rewrite (module_ok_local _ _ Ht). destruct (tree_parts _ Ht) as (_ & _ & Hsub & _).
  cbn [m_modules] in *. split.
  - intros [Hl Hs] ms x Hx. inversion Hx as [|? s ms' ? Hin Hx']; subst.
    + simpl. rewrite andb_true_r. exact Hl.
    + cbn [m_modules] in Hin. specialize (Hs _ Hin). rewrite (IH _ Hin _ (Hsub _ Hin)) in Hs.
      specialize (Hs _ _ Hx'). rewrite andb_false_r. cbn [andb] in Hs. exact Hs.
  - intros H. split.
    + specialize (H _ _ (at_here _)). simpl in H. rewrite andb_true_r in H. exact H.
    + intros s Hs. apply (IH _ Hs); auto. intros ms x Hx.
      specialize (H _ _ (at_step (mkModule name acts mods) s ms x Hs Hx)).
      cbn [is_nil] in H. rewrite andb_false_r in H. exact H.
Qed.
End Tree.

Lemma field_found fs fd : NoDup (map fd_name fs) -> In fd fs -> lookup_field fs (fd_name fd) = Some fd.
Proof.
  induction fs as [|f fs IH]; intros Hn Hin; [destruct Hin|]. simpl in *.
  inversion Hn as [|? ? Hx Hn']; subst. destruct (str_eqb_spec (fd_name f) (fd_name fd)) as [E|E].
  - destruct Hin as [->|Hin]; auto. exfalso. apply Hx. rewrite E. apply in_map; auto.
  - destruct Hin as [->|Hin]; [congruence|auto].
Qed.

Section Config.
Variable c : RouteConfig.
Variable root : FlattenedModule.
Hypothesis Hroot : flattened_modules (c_routes c) = ROk root.

Lemma root_tree : tree_ok root.
Proof. apply (flattened_modules_tree _ _ Hroot). Qed.
Lemma root_in ms a : In (ms, a) (module_actions root) <-> in_module c ms a.
Proof.
  destruct (flattened_modules_tree _ _ Hroot) as (_ & _ & HP & _). unfold in_module.
  split; apply Permutation_in; [exact HP|symmetry; exact HP].
Qed.
Lemma at_in' ms x : at_mod root ms x -> forall a, in_module c ms a <-> In a (m_actions x).
Proof. intros Hx a. rewrite <- root_in. apply at_in; auto using root_tree. Qed.
Lemma at_sub' ms x : at_mod root ms x -> forall k, sub_module c ms k <-> In k (map m_name (m_modules x)).
Proof.
  intros Hx k. rewrite <- (at_sub root root_tree ms x Hx). unfold sub_module, subm.
  split; intros (rest & a & H); exists rest, a; apply root_in; exact H.
Qed.
Lemma in_at ms a : in_module c ms a -> exists x, at_mod root ms x.
Proof. intros H. apply root_in in H. apply (at_exists ms root a []). rewrite app_nil_r. exact H. Qed.
Lemma sub_at ms k : sub_module c ms k -> exists x, at_mod root ms x.
Proof. intros (rest & a & H). apply root_in in H. eapply at_exists; eauto. Qed.
Lemma at_unit ms x : at_mod root ms x -> forall n, unit_in c ms n <-> unit_of x n.
Proof.
  intros Hx n. unfold unit_in, unit_of. split; intros (a & H & Hu); exists a; (split; [|exact Hu]);
    apply (at_in' _ _ Hx); exact H.
Qed.
Lemma at_taken ms x : at_mod root ms x -> forall n, taken c ms n <-> In n (used_names (is_nil ms) (m_actions x)).
Proof.
  intros Hx n. unfold taken, used_names. rewrite !in_app_iff. apply or_iff_compat_l.
  assert (H1 : (ms = [] /\ In n [lit "Match"; lit "Error"; lit "fmt"; lit "std"; lit "Box"; lit "AsRef"; lit "Result"])
     <-> In n (if is_nil ms then [lit "Match"; lit "Error"; lit "fmt"; lit "std"; lit "Box"; lit "AsRef"; lit "Result"] else [])).
  { destruct ms; cbn [is_nil]; [tauto|]. split; [intros [[=] _]|intros []]. }
  rewrite H1. apply or_iff_compat_l. split.
  - intros (-> & a & Ha & Hq).
    assert (E : existsb (fun a => match a_query_params a with [] => false | _ => true end) (m_actions x) = true).
    { apply existsb_exists. exists a. split; [apply (at_in' _ _ Hx); exact Ha|].
      destruct (a_query_params a); congruence. }
    rewrite E. left; reflexivity.
  - destruct (existsb _ (m_actions x)) eqn:E; [|intros []]. intros [<-|[]]. split; auto.
    apply existsb_exists in E. destruct E as (a & Ha & Hq). exists a.
    split; [apply (at_in' _ _ Hx); exact Ha|]. destruct (a_query_params a); congruence.
Qed.

Lemma module_ok_names : module_ok true root = true <-> good_names c.
Proof.
  rewrite (module_ok_all root true root_tree). split.
  - intros H. assert (H0 := H _ _ (at_here root)). cbn [andb is_nil] in H.
    assert (Hx : forall ms x, at_mod root ms x -> local (is_nil ms) x) by (intros ms x; apply H).
    clear H. split.
    + destruct (lo_some _ _ H0) as [Hne|Hne].
      * destruct (m_actions root) as [|a l] eqn:E; [congruence|].
        assert (Ha : in_module c [] a) by (apply (at_in' _ _ (at_here root)); rewrite E; left; reflexivity).
        unfold in_module in Ha. intros E'. rewrite E' in Ha. destruct Ha.
      * destruct (m_modules root) as [|s l] eqn:E; [congruence|].
        assert (Hk : sub_module c [] (m_name s)).
        { apply (at_sub' _ _ (at_here root)). rewrite E. left; reflexivity. }
        destruct Hk as (rest & a & Ha). unfold in_module in Ha. intros E'. rewrite E' in Ha. destruct Ha.
    + intros ms a Ha. destruct (in_at _ _ Ha) as [x Hm]. apply (at_in' _ _ Hm) in Ha.
      exact (lo_action _ _ (Hx _ _ Hm) _ Ha).
    + intros ms a Ha Ht. destruct (in_at _ _ Ha) as [x Hm]. apply (at_in' _ _ Hm) in Ha.
      apply (at_taken _ _ Hm) in Ht. apply (lo_taken _ _ (Hx _ _ Hm)) in Ht. apply (proj1 Ht). eauto.
    + intros ms a a' Ha Ha'. destruct (in_at _ _ Ha) as [x Hm]. apply (at_in' _ _ Hm) in Ha, Ha'.
      exact (lo_distinct _ _ (Hx _ _ Hm) _ _ Ha Ha').
    + intros ms a n Ha Hn. destruct (in_at _ _ Ha) as [x Hm]. apply (at_in' _ _ Hm) in Ha.
      rewrite (at_unit _ _ Hm). exact (lo_fields _ _ (Hx _ _ Hm) _ _ Ha Hn).
    + intros ms a Ha. destruct (in_at _ _ Ha) as [x Hm]. apply (at_in' _ _ Hm) in Ha.
      exact (lo_fields_distinct _ _ (Hx _ _ Hm) _ Ha).
    + intros ms a s n Ha. destruct (in_at _ _ Ha) as [x Hm]. apply (at_in' _ _ Hm) in Ha.
      exact (lo_path _ _ (Hx _ _ Hm) _ _ _ Ha).
    + rewrite (at_unit _ _ (at_here root)). exact (lo_ok _ _ H0 eq_refl).
    + intros ms k Hk. destruct (sub_at _ _ Hk) as [x Hm]. apply (at_sub' _ _ Hm) in Hk.
      exact (lo_module _ _ (Hx _ _ Hm) _ Hk).
    + intros ms k Hk Ht. destruct (sub_at _ _ Hk) as [x Hm]. apply (at_sub' _ _ Hm) in Hk.
      apply (at_taken _ _ Hm) in Ht. apply (lo_taken _ _ (Hx _ _ Hm)) in Ht. apply (proj2 Ht). eauto.
    + intros ms k k' Hk Hk'. destruct (sub_at _ _ Hk) as [x Hm]. apply (at_sub' _ _ Hm) in Hk, Hk'.
      exact (lo_mod_distinct _ _ (Hx _ _ Hm) _ _ Hk Hk').
    + intros ms k a Hk Ha. destruct (in_at _ _ Ha) as [x Hm]. apply (at_sub' _ _ Hm) in Hk.
      apply (at_in' _ _ Hm) in Ha. exact (lo_mod_action _ _ (Hx _ _ Hm) _ _ Ha Hk).
  - intros G ms x Hm. cbn [andb]. split.
    + destruct ms as [|k ms].
      * inversion Hm; subst x. pose proof (gn_some _ G) as Hne.
        destruct (config_actions (c_routes c)) as [|[ms a] l] eqn:E; [congruence|].
        assert (Ha : in_module c ms a) by (unfold in_module; rewrite E; left; reflexivity).
        destruct ms as [|k ms].
        -- left. apply (at_in' _ _ (at_here root)) in Ha. intros E'. rewrite E' in Ha. destruct Ha.
        -- right. assert (Hk : sub_module c [] k) by (exists ms, a; exact Ha).
           apply (at_sub' _ _ (at_here root)) in Hk. intros E'. rewrite E' in Hk. destruct Hk.
      * assert (Hne : module_actions x <> []).
        { revert Hm. generalize root_tree. generalize (k :: ms) as l, (@nil_cons _ k ms). revert x. clear.
          intros x l Hl Ht Hm. induction Hm as [|m s ms' x Hin Hs IH]; [congruence|].
          destruct (tree_parts _ Ht) as (_ & _ & Hsub & Hne). destruct ms' as [|k ms'].
          - inversion Hs; subst. auto.
          - apply IH; [discriminate|auto]. }
        destruct (actions_some _ Hne) as ([|k' ms'] & a & Ha).
        -- left. apply in_module_actions_nil in Ha. intros E. rewrite E in Ha. destruct Ha.
        -- right. apply in_module_actions_cons in Ha. destruct Ha as (s & Hs & _). intros E.
           rewrite E in Hs. destruct Hs.
    + intros a Ha. apply (at_in' _ _ Hm) in Ha. exact (gn_action _ G _ _ Ha).
    + intros k Hk. apply (at_sub' _ _ Hm) in Hk. exact (gn_module _ G _ _ Hk).
    + intros n Hn. apply (at_taken _ _ Hm) in Hn. split.
      * intros (a & Ha & <-). apply (at_in' _ _ Hm) in Ha. exact (gn_taken _ G _ _ Ha Hn).
      * intros (k & Hk & <-). apply (at_sub' _ _ Hm) in Hk. exact (gn_module_taken _ G _ _ Hk Hn).
    + intros a a' Ha Ha'. apply (at_in' _ _ Hm) in Ha, Ha'. exact (gn_distinct _ G _ _ _ Ha Ha').
    + intros k k' Hk Hk'. apply (at_sub' _ _ Hm) in Hk, Hk'. exact (gn_module_distinct _ G _ _ _ Hk Hk').
    + intros a k Ha Hk. apply (at_in' _ _ Hm) in Ha. apply (at_sub' _ _ Hm) in Hk.
      exact (gn_module_action _ G _ _ _ Hk Ha).
    + intros a n Ha Hn. apply (at_in' _ _ Hm) in Ha. rewrite <- (at_unit _ _ Hm).
      exact (gn_fields _ G _ _ _ Ha Hn).
    + intros a Ha. apply (at_in' _ _ Hm) in Ha. exact (gn_fields_distinct _ G _ _ Ha).
    + intros a s n Ha. apply (at_in' _ _ Hm) in Ha. exact (gn_path _ G _ _ _ _ Ha).
    + intros E. assert (ms = []) as -> by (destruct ms; [reflexivity|discriminate]).
      rewrite <- (at_unit _ _ Hm). exact (gn_ok _ G).
Qed.

(** ** The matcher *)
Hypothesis Hok : module_ok true root = true.
Notation senv := (module_structs [] root).
Lemma struct_target r fs :
  lookup_struct senv (map module_names (r_modules r)) (to_caps_case (r_name r)) = Some fs <->
  exists a, target c r a /\ fs = action_fields a.
Proof.
  split.
  - intros H. apply lookup_struct_In, in_module_structs in H.
    destruct H as (ms & a & Ha & E1 & E2 & ->). simpl in E1. exists a. split; auto. exists ms.
    apply root_in in Ha. symmetry in E1. apply names_split in E1. destruct E1 as [E1 E1']. auto.
  - intros (a & (ms & Ha & E1 & E1' & E2) & ->). apply root_in in Ha. rewrite <- (names_join _ _ E1 E1'), <- E2.
    eapply lookup_own; eauto.
Qed.
Lemma unit_struct_iff x : unit_struct senv x = true <-> unit_in c [] x.
Proof.
  unfold unit_struct, unit_in. split.
  - destruct (lookup_struct senv [] x) as [fs|] eqn:E; [|discriminate].
    destruct fs; [|discriminate]. intros _. apply lookup_struct_In, in_module_structs in E.
    destruct E as (ms & a & Ha & E1 & E2 & E3). destruct ms; [|discriminate]. exists a.
    apply root_in in Ha. split; auto. split; auto. unfold action_fields in E3. symmetry in E3.
    apply app_eq_nil in E3. destruct E3 as [E3 E4]. apply map_eq_nil in E3, E4. split; auto.
  - intros (a & Ha & [U1 U2] & <-). apply root_in in Ha.
    pose proof (lookup_own _ _ _ _ Hok Ha) as H. cbn [map] in H. rewrite H.
    unfold action_fields. rewrite U1, U2. reflexivity.
Qed.
Lemma no_variable_iff x : no_variable senv x = false <-> ~ unit_in c [] x /\ ~ constructor x.
Proof.
  unfold no_variable. rewrite orb_false_iff, <- unit_struct_iff, ctor_no.
  destruct (unit_struct senv x); intuition congruence.
Qed.
Lemma unit_struct_no x : unit_struct senv x = false <-> ~ unit_in c [] x.
Proof. rewrite <- unit_struct_iff. destruct (unit_struct senv x); split; congruence. Qed.

Lemma target_nodup r a : target c r a -> NoDup (fields a).
Proof.
  intros (ms & Ha & _). apply root_in in Ha. rewrite <- fields_eq. eapply action_nodup; eauto.
Qed.
Lemma target_unique r a a' : target c r a -> target c r a' -> a = a'.
Proof.
  intros (ms & Ha & E1 & _ & E2) (ms' & Ha' & E1' & _ & E2'). apply root_in in Ha, Ha'.
  apply (actions_unique root true Hok ms a ms' a'); auto; congruence.
Qed.
Lemma field_route a x : NoDup (fields a) ->
  (exists fd, lookup_field (action_fields a) x = Some fd /\ fd_opt fd = false) <->
  In x (map p_name (a_route_params a)).
Proof.
  intros Hn. split.
  - intros (fd & H & Ho). apply lookup_field_In in H. destruct H as [H <-].
    unfold action_fields in H. apply in_app_iff in H. destruct H as [H|H]; apply in_map_iff in H;
      destruct H as (p & <- & Hp); [|discriminate]. simpl. apply in_map. exact Hp.
  - intros H. apply in_map_iff in H. destruct H as (p & <- & Hp).
    exists (mkField (p_name p) (p_typ p) false). split; auto. apply (field_found _ (mkField (p_name p) (p_typ p) false)).
    + rewrite fields_eq. exact Hn.
    + unfold action_fields. apply in_app_iff. left. apply in_map_iff. eauto.
Qed.
Lemma field_query a x : NoDup (fields a) ->
  (exists fd, lookup_field (action_fields a) x = Some fd /\ fd_opt fd = true) <->
  In x (map p_name (a_query_params a)).
Proof.
  intros Hn. split.
  - intros (fd & H & Ho). apply lookup_field_In in H. destruct H as [H <-].
    unfold action_fields in H. apply in_app_iff in H. destruct H as [H|H]; apply in_map_iff in H;
      destruct H as (p & <- & Hp); [discriminate|]. simpl. apply in_map. exact Hp.
  - intros H. apply in_map_iff in H. destruct H as (p & <- & Hp).
    exists (mkField (p_name p) (p_typ p) true). split; auto. apply (field_found _ (mkField (p_name p) (p_typ p) true)).
    + rewrite fields_eq. exact Hn.
    + unfold action_fields. apply in_app_iff. right. apply in_map_iff. eauto.
Qed.
Definition fits (p : list PathSegment) (q : list Param) (r : Resource) (a : FlattenedAction) : Prop :=
  target c r a /\
  Permutation (map p_name (path_params p)) (map p_name (a_route_params a)) /\
  Permutation (map p_name (q ++ r_query r)) (map p_name (a_query_params a)).
Lemma ret_fine_fits p rs q r :
  ret_fine senv (mkFlat p rs q) r <->
  (r_modules r = [] -> ~ In (to_caps_case (r_name r)) [lit "P"; lit "M"]) /\
  (q ++ r_query r <> [] -> ~ unit_in c [] (lit "None")) /\
  exists a, fits p q r a.
Proof.
  unfold ret_fine, ret_params, fits. cbn [f_path f_query]. setoid_rewrite (path_params_dynamics p). split.
  - intros (fs & Hl & Hpm & Hnd & Hall & Hd & Hq). apply struct_target in Hl.
    destruct Hl as (a & Ha & ->). pose proof (target_nodup _ _ Ha) as Hna.
    rewrite map_app in Hnd. apply NoDup_app_iff in Hnd. destruct Hnd as (Hnd1 & Hnd2 & Hdis).
    pose proof Hna as Hna'. unfold fields in Hna'. apply NoDup_app_iff in Hna'.
    destruct Hna' as (Hna1 & Hna2 & Hna3).
    assert (Hd' : forall x, In x (map p_name (dynamics p)) -> In x (map p_name (a_route_params a))).
    { intros x Hx. apply in_map_iff in Hx. destruct Hx as (d & <- & Hdin). apply field_route; auto. }
    assert (Hq' : forall x, In x (map p_name (q ++ r_query r)) -> In x (map p_name (a_query_params a))).
    { intros x Hx. apply in_map_iff in Hx. destruct Hx as (d & <- & Hdin). apply field_query; auto.
      destruct (Hq _ Hdin) as (fd & E & Eo & _). eauto. }
    assert (Hall' : forall x, In x (fields a) -> In x (map p_name (dynamics p)) \/ In x (map p_name (q ++ r_query r))).
    { intros x Hx. rewrite <- fields_eq in Hx. apply in_map_iff in Hx. destruct Hx as (fd & <- & Hfd).
      apply Hall in Hfd. rewrite map_app, in_app_iff in Hfd. exact Hfd. }
    split; [|split].
    + intros E [H|[H|[]]]; destruct (Hpm E); congruence.
    + intros Hne. destruct (q ++ r_query r) as [|d l] eqn:E; [congruence|].
      destruct (Hq d (or_introl eq_refl)) as (_ & _ & _ & Hu). apply unit_struct_no. exact Hu.
    + exists a. split; auto. split; apply NoDup_Permutation; auto.
      * intros x. split; auto. intros Hx.
        destruct (Hall' x) as [H|H]; [unfold fields; apply in_app_iff; auto|exact H|].
        exfalso. exact (Hna3 x Hx (Hq' _ H)).
      * intros x. split; auto. intros Hx.
        destruct (Hall' x) as [H|H]; [unfold fields; apply in_app_iff; auto| |exact H].
        exfalso. exact (Hna3 x (Hd' _ H) Hx).
  - intros (Hpm & Hnone & a & Ha & P1 & P2). exists (action_fields a).
    pose proof (target_nodup _ _ Ha) as Hna.
    assert (Hperm : Permutation (map p_name (dynamics p ++ q ++ r_query r)) (fields a)).
    { rewrite map_app. unfold fields. apply Permutation_app; auto. }
    split; [apply struct_target; eauto|]. split; [|split; [|split; [|split]]].
    + intros E. specialize (Hpm E). split; intros Ex; apply Hpm; rewrite Ex; simpl; auto.
    + apply (Permutation_NoDup (Permutation_sym Hperm)). exact Hna.
    + intros fd Hfd. apply (Permutation_in _ (Permutation_sym Hperm)). rewrite <- fields_eq.
      apply in_map. exact Hfd.
    + intros d Hd. apply field_route; auto. apply (Permutation_in _ P1). apply in_map. exact Hd.
    + intros d Hd.
      assert (Hx : In (p_name d) (map p_name (a_query_params a))).
      { apply (Permutation_in _ P2). apply in_map. exact Hd. }
      apply field_query in Hx; auto. destruct Hx as (fd & E1 & E2). exists fd. split; auto. split; auto.
      apply unit_struct_no. apply Hnone. intros E. rewrite E in Hd. destruct Hd.
Qed.
Lemma own_fits p q x r : block_at (c_routes c) p q x -> In r (rt_resources x) -> r_is_redirect r = false ->
  fits p q r (snd (action_of p q r)).
Proof.
  intros Hx Hr Er. apply blocks_at in Hx. pose proof (in_config_actions _ _ _ _ _ Hx Hr Er) as Ha.
  split; [|split; apply Permutation_refl]. exists (r_modules r). auto.
Qed.
Lemma ret_fine_iff p q x r : block_at (c_routes c) p q x -> In r (rt_resources x) ->
  ret_fine senv (mkFlat p (rt_resources x) q) r <-> resource_ok c p q r.
Proof.
  intros Hx Hr. rewrite ret_fine_fits. unfold resource_ok. split.
  - intros (A & B & C). split; auto.
  - intros (A & B & C). split; auto. split; auto. destruct (r_is_redirect r) eqn:Er.
    + apply C. reflexivity.
    + eexists. eapply own_fits; eauto.
Qed.

(** *** Emitted blocks *)
Lemma emitted_block b p q x : emitted b p q x -> block_at b p q x.
Proof.
  induction 1 as [b|b s child p q x Hin _ IH|b d child p q x Hd _ IH].
  - constructor.
  - econstructor; eauto.
  - econstructor; eauto. unfold first_param in Hd.
    pose proof (least_dynamic_spec (dynamic_children (rt_routes b))) as H. rewrite Hd in H.
    apply dynamic_children_In. apply H.
Qed.
Lemma emitted_param b p q x d child p' q' y :
  emitted b p q x -> first_param x = Some (d, child) -> emitted child p' q' y ->
  emitted b (p ++ Dynamic d :: p') (q ++ q') y.
Proof.
  intros H Hd Hy. induction H as [b|b s c' p q x Hin _ IH|b d' c' p q x Hd' _ IH].
  - simpl. econstructor; eauto.
  - simpl. rewrite <- app_assoc. eapply emitted_static; eauto.
  - simpl. rewrite <- app_assoc. eapply emitted_dynamic; eauto.
Qed.

Section Param.
Variables (p : list PathSegment) (q : list Param) (x : Routes) (d : Param) (child : Routes).
Hypothesis Hx : emitted (c_routes c) p q x.
Hypothesis Hd : first_param x = Some (d, child).
Hypothesis Hres : forall p q x r, emitted (c_routes c) p q x -> In r (rt_resources x) -> resource_ok c p q r.

Lemma below_uses p' q' y r : emitted child p' q' y -> In r (rt_resources y) ->
  ~ In (p_name d) (map p_name (dynamics p')) /\
  exists a d', fits (p ++ Dynamic d :: p') (q ++ q') r a /\ In d' (a_route_params a) /\ p_name d' = p_name d /\
    forall u, In u (ret_uses senv (p_name d)
                (resource_ret (mkFlat ((p ++ [Dynamic d]) ++ p') (rt_resources y) (q ++ q')) r)) <-> u = p_typ d'.
Proof.
  intros Hy Hr. pose proof (emitted_param _ _ _ _ _ _ _ _ _ Hx Hd Hy) as He.
  pose proof (Hres _ _ _ _ He Hr) as Ho. apply (ret_fine_iff _ _ _ _ (emitted_block _ _ _ _ He) Hr) in Ho.
  apply ret_fine_fits in Ho. destruct Ho as (_ & _ & a & Hfit). pose proof Hfit as (Ha & P1 & P2).
  pose proof (target_nodup _ _ Ha) as Hna.
  assert (Hdyn : path_params (p ++ Dynamic d :: p') = dynamics p ++ d :: dynamics p').
  { rewrite path_params_dynamics, dynamics_app. reflexivity. }
  rewrite Hdyn in P1. split.
  - assert (Hn : NoDup (map p_name (a_route_params a))) by (eapply NoDup_app_l; exact Hna).
    apply (Permutation_NoDup (Permutation_sym P1)) in Hn. rewrite map_app in Hn.
    apply NoDup_app_r in Hn. simpl in Hn. inversion Hn; subst. assumption.
  - assert (Hin : In (p_name d) (map p_name (a_route_params a))).
    { apply (Permutation_in _ P1). rewrite map_app. apply in_app_iff. right. left. reflexivity. }
    apply in_map_iff in Hin. destruct Hin as (d' & En & Hd'). exists a, d'.
    split; [exact Hfit|]. split; auto. split; auto. intros u. rewrite ret_uses_in. cbn [f_path].
    assert (Hfd : lookup_field (action_fields a) (p_name d) = Some (mkField (p_name d') (p_typ d') false)).
    { rewrite <- En. apply (field_found _ (mkField (p_name d') (p_typ d') false)).
      - rewrite fields_eq. exact Hna.
      - unfold action_fields. apply in_app_iff. left. apply in_map_iff. eauto. }
    split.
    + intros [_ (fs & fd & E1 & E2 & <-)]. apply struct_target in E1. destruct E1 as (a' & Ha' & ->).
      rewrite (target_unique _ _ _ Ha' Ha) in E2. rewrite Hfd in E2. injection E2 as <-. reflexivity.
    + intros ->. split.
      * exists d. split; auto. rewrite dynamics_app. apply in_app_iff. left. rewrite dynamics_app.
        apply in_app_iff. right. left. reflexivity.
      * exists (action_fields a). eexists. split; [apply struct_target; eauto|]. split; [exact Hfd|reflexivity].
Qed.
Lemma cdyn_iff : cdyn senv (p_name d) child (p ++ [Dynamic d]) q <-> param_ok c d child.
Proof.
  unfold cdyn, param_ok. rewrite no_variable_iff.
  match goal with |- (_ /\ _) /\ ?X <-> _ /\ _ /\ _ /\ ?Y => enough (X <-> Y) by tauto end.
  assert (Huse : forall u, cuse senv child (p ++ [Dynamic d]) q (p_name d) u <->
     exists p' q' y r a d', emitted child p' q' y /\ In r (rt_resources y) /\ target c r a /\
       In d' (a_route_params a) /\ p_name d' = p_name d /\ p_typ d' = u).
  { intros u. split.
    - intros (ns & fr & r & (p' & q' & y & Hy & Hr & -> & ->) & Hn & Hu).
      destruct (below_uses _ _ _ _ Hy Hr) as (_ & a & d' & (Ha & _) & Hd' & En & Hiff).
      apply Hiff in Hu. exists p', q', y, r, a, d'. auto 10.
    - intros (p' & q' & y & r & a & d' & Hy & Hr & Ha & Hd' & En & <-).
      destruct (below_uses _ _ _ _ Hy Hr) as (Hns & a' & d2 & (Ha' & _) & Hd2 & En2 & Hiff).
      rewrite (target_unique _ _ _ Ha' Ha) in Hd2.
      assert (d2 = d') as ->.
      { pose proof (target_nodup _ _ Ha) as Hna. apply NoDup_app_l in Hna.
        eapply (map_NoDup_eq p_name); eauto. congruence. }
      exists (map p_name (dynamics p')), (mkFlat ((p ++ [Dynamic d]) ++ p') (rt_resources y) (q ++ q')), r.
      split; [exists p', q', y; auto|]. split; [exact Hns|]. apply Hiff. reflexivity. }
  split.
  - intros (T & Hl & (u & Hu) & HT). split.
    + apply Huse in Hu. destruct Hu as (p' & q' & y & r & a & d' & Hy & Hr & _). exists p', q', y, r. auto.
    + exists T. split; [exact Hl|]. intros p' q' y r a d' Hy Hr Ha Hd' En. apply HT. apply Huse.
      exists p', q', y, r, a, d'. auto 10.
  - intros ((p' & q' & y & r & Hy & Hr) & T & Hl & HT). exists T. split; [exact Hl|]. split.
    + destruct (below_uses _ _ _ _ Hy Hr) as (_ & a & d' & (Ha & _) & Hd' & En & _).
      exists (p_typ d'). apply Huse. exists p', q', y, r, a, d'. auto 10.
    + intros u Hu. apply Huse in Hu. destruct Hu as (p2 & q2 & y2 & r2 & a & d' & Hy2 & Hr2 & Ha & Hd' & En & <-).
      eapply HT; eauto.
Qed.
End Param.

Lemma cfine_matcher : cfine senv (c_routes c) [] [] <-> matcher_ok c.
Proof.
  split.
  - intros H.
    assert (Hr : forall p q x r, emitted (c_routes c) p q x -> In r (rt_resources x) -> resource_ok c p q r).
    { intros p q x r Hx Hr. apply (ret_fine_iff _ _ _ _ (emitted_block _ _ _ _ Hx) Hr).
      apply (H _ _ _ Hx). exact Hr. }
    split; auto.
    + intros p q x Hx. apply (H _ _ _ Hx).
    + intros p q x d child Hx Hd. apply (cdyn_iff p q x d child Hx Hd Hr). apply (H _ _ _ Hx). exact Hd.
  - intros [H1 H2 H3] p q x Hx. cbn [app]. split; [|split].
    + intros r Hr. apply (ret_fine_iff _ _ _ _ (emitted_block _ _ _ _ Hx) Hr). eauto.
    + eauto.
    + intros d child Hd. apply (cdyn_iff p q x d child Hx Hd H2). eauto.
Qed.
End Config.

(** ** The theorem *)
Lemma not_unit_lower c x ch t : x = ch :: t -> is_lower ch = true -> ~ unit_in c [] x.
Proof. intros -> Hl (a & _ & _ & E). apply caps_head in E. congruence. Qed.
Theorem compiles_exactly c : separate c ->
  compiles c = true <-> generates c /\ no_returns c /\ good_names c /\ matcher_ok c.
Proof.
  intros Hhyg. unfold compiles, generates.
  destruct (flattened_modules_names (c_routes c)) as [[[root Hr] Hn]|[(pk & Hpk & _) Hn]].
  2: { rewrite Hpk. split; [discriminate|tauto]. }
  rewrite Hr. unfold gen_program.
  destruct (to_trie_dup (c_routes c)) as [[t Ht]|Ht].
  2: { rewrite Ht. cbn [rbind]. split; [discriminate|]. intros ((_ & Hx & _) & _).
       apply to_trie_untyped in Hx. destruct Hx as [t E]. congruence. }
  rewrite Ht. cbn [rbind]. destruct (gen_trie_config _ _ Ht) as [body Hb]. rewrite Hb.
  assert (Hp : NoDup (block_paths_untyped (c_routes c))) by (apply to_trie_untyped; eauto).
  rewrite !andb_true_iff, doc_ok_iff, (module_ok_names c root Hr).
  assert (Hne : good_names c -> ~ empty_block (c_routes c)).
  { intros G (E1 & E2 & E3). apply (gn_some _ G). unfold config_actions.
    destruct (c_routes c) as [rs ch qs]. simpl in E1, E2, E3. subst. reflexivity. }
  assert (Hmain : good_names c ->
     (match check_block (module_structs [] root) prologue_tenv body false with
      | Some d => d | None => false end) = true <-> matcher_ok c).
  { intros G. apply (module_ok_names c root Hr) in G.
    rewrite <- (cfine_matcher c root Hr G).
    pose proof (to_trie_node _ _ Ht) as N.
    destruct (nodes (module_structs [] root) (S (trie_height t))) as [Hbn _].
    destruct (Hbn t (c_routes c) [] [] N ltac:(lia)) as [Hf Hrow].
    assert (Hh : hyg t).
    { intros t' fr p Hs Hd Hin. destruct (trie_data_block _ _ _ _ Ht Hs Hd) as (path & q & b' & Hbl & ->).
      apply (Hhyg _ _ _ p Hbl). rewrite path_params_dynamics. exact Hin. }
    rewrite <- Hf. split.
    - intros Hc. eapply checks_fine; eauto; [apply hyg_told; exact Hh|].
      destruct (check_block _ _ body false) as [d|] eqn:E; [|discriminate]. exists prologue_tenv, false, d.
      exact E.
    - intros Hfine.
      assert (Hpass : passes (module_structs [] root) (S (trie_height t)) t body).
      { apply fine_passes; auto.
        - apply (no_variable_iff c root Hr G). split; [eapply not_unit_lower; reflexivity|].
          apply ctor_no. reflexivity.
        - apply (no_variable_iff c root Hr G). split; [eapply not_unit_lower; reflexivity|].
          apply ctor_no. reflexivity. }
      rewrite (Hpass prologue_tenv); auto.
      + split; eexists; reflexivity.
      + intros ns fr r p Hrw Hp' Hnin. exfalso. apply Hrow in Hrw; [|apply Hf; exact Hfine].
        destruct Hrw as (p0 & q0 & x0 & _ & _ & -> & ->). apply Hnin. apply in_map. exact Hp'. }
  tauto.
Qed.

(** Without the condition on the names, but with redirects that give every
    parameter the type that it has in its target. *)
Theorem compiles_typed c : redirects_typed c -> compiles c = true ->
  generates c /\ no_returns c /\ good_names c /\ matcher_ok c.
Proof.
  intros Hred. unfold compiles, generates.
  destruct (flattened_modules_names (c_routes c)) as [[[root Hr] Hn]|[(pk & Hpk & _) Hn]].
  2: { rewrite Hpk. discriminate. }
  rewrite Hr. unfold gen_program.
  destruct (to_trie_dup (c_routes c)) as [[t Ht]|Ht].
  2: { rewrite Ht. discriminate. }
  rewrite Ht. cbn [rbind]. destruct (gen_trie_config _ _ Ht) as [body Hb]. rewrite Hb.
  assert (Hp : NoDup (block_paths_untyped (c_routes c))) by (apply to_trie_untyped; eauto).
  rewrite !andb_true_iff, doc_ok_iff, (module_ok_names c root Hr).
  intros [[G Hdoc] Hc].
  assert (Hne : ~ empty_block (c_routes c)).
  { intros (E1 & E2 & E3). apply (gn_some _ G). unfold config_actions.
    destruct (c_routes c) as [rs ch qs]. simpl in E1, E2, E3. subst. reflexivity. }
  assert (M : matcher_ok c).
  { pose proof G as G'. apply (module_ok_names c root Hr) in G'.
    apply (cfine_matcher c root Hr G').
    pose proof (to_trie_node _ _ Ht) as N.
    destruct (nodes (module_structs [] root) (S (trie_height t))) as [Hbn _].
    destruct (Hbn t (c_routes c) [] [] N ltac:(lia)) as [Hf Hrow].
    apply Hf. eapply checks_fine; eauto.
    - intros t' n ch Hs Hin. right. exists (last_type ch). intros u (t'' & fr & r & H1 & H2 & H3 & H4).
      eapply trie_types; eauto.
    - destruct (check_block _ _ body false) as [d|] eqn:E; [|discriminate]. exists prologue_tenv, false, d.
      exact E. }
  tauto.
Qed.

(** ** Consequences *)
Theorem compiles_names c : compiles c = true -> good_names c.
Proof.
  unfold compiles. destruct (flattened_modules (c_routes c)) as [root| | |] eqn:Hr; try discriminate.
  destruct (gen_program c); try discriminate. rewrite !andb_true_iff. intros [[H _] _].
  apply (module_ok_names c root Hr). exact H.
Qed.
Theorem shadowing_name c ms a :
  In (ms, a) (config_actions (c_routes c)) -> taken c ms (to_caps_case (a_name a)) -> compiles c = false.
Proof.
  intros Ha Ht. apply not_true_iff_false. intros H. apply compiles_names in H.
  exact (gn_taken _ H _ _ Ha Ht).
Qed.
Theorem constructor_name c ms a x :
  In (ms, a) (config_actions (c_routes c)) -> In x (fields a) -> constructor x -> compiles c = false.
Proof.
  intros Ha Hx Hc. apply not_true_iff_false. intros H. apply compiles_names in H.
  exact (proj2 (proj2 (gn_fields _ H _ _ _ Ha Hx)) Hc).
Qed.
Lemma compiles_weak c : separate c \/ redirects_typed c -> compiles c = true ->
  generates c /\ no_returns c /\ good_names c /\ matcher_ok c.
Proof. intros [H|H]; [apply compiles_exactly; exact H|apply compiles_typed; exact H]. Qed.
Theorem reserved_name c p q x d child :
  redirects_typed c -> emitted (c_routes c) p q x -> first_param x = Some (d, child) ->
  In (p_name d) [lit "i"; lit "path"; lit "method"] \/ (p_name d = lit "len" /\ p_typ d <> lit "usize") ->
  compiles c = false.
Proof.
  intros Hred Hx Hf Hn. destruct (compiles c) eqn:Ec; [|reflexivity]. exfalso.
  destruct (compiles_typed c Hred Ec) as (_ & _ & _ & Hm).
  destruct (mo_param c Hm _ _ _ _ _ Hx Hf) as (_ & _ & Hno & (p' & q' & y & r & Hy & Hr) & T & Hl & HT).
  destruct Hn as [Hn|[Hn Hu]]; [auto|]. apply Hu. rewrite <- (Hl Hn).
  pose proof (emitted_param _ _ _ _ _ _ _ _ _ Hx Hf Hy) as He.
  assert (Hd : In d (path_params (p ++ Dynamic d :: p'))).
  { rewrite path_params_dynamics, dynamics_app. apply in_app_iff. right. left. reflexivity. }
  destruct (r_is_redirect r) eqn:Er.
  - pose proof (mo_resource c Hm _ _ _ _ He Hr) as (_ & _ & Ho). destruct (Ho Er) as (a & Ha & P1 & _).
    assert (Hin : In (p_name d) (map p_name (a_route_params a))).
    { apply (Permutation_in _ P1). apply in_map. exact Hd. }
    apply in_map_iff in Hin. destruct Hin as (d' & En & Hd').
    rewrite <- (HT _ _ _ _ _ _ Hy Hr Ha Hd' En). symmetry. destruct Ha as (ms & Hms & E1 & E2 & E3).
    eapply Hred; [|exact Hr|exact Er|exact Hd|exact Hms|exact E1|exact E2|exact E3| |exact En].
    + apply blocks_at. apply emitted_block. exact He.
    + apply in_app_iff. left. exact Hd'.
  - destruct (own_fits c _ _ _ _ (emitted_block _ _ _ _ He) Hr Er) as (Ha & _).
    eapply HT; [exact Hy|exact Hr|exact Ha|exact Hd|reflexivity].
Qed.
Theorem prefix_sibling c p q x s t child child' :
  separate c \/ redirects_typed c -> emitted (c_routes c) p q x ->
  In (Static s, child) (rt_routes x) -> In (Static (s ++ t), child') (rt_routes x) -> t <> [] ->
  compiles c = false.
Proof.
  intros Hh Hx H1 H2 Ht. apply not_true_iff_false. intros H. apply (compiles_weak c Hh) in H.
  destruct H as (_ & _ & _ & M). apply Ht. exact (so_prefix _ (mo_shape _ M _ _ _ Hx) _ _ _ _ H1 H2).
Qed.
Theorem mixed_letters c p q x d child a s b t child1 child2 :
  separate c \/ redirects_typed c -> emitted (c_routes c) p q x -> In (Dynamic d, child) (rt_routes x) ->
  In (Static (a :: s), child1) (rt_routes x) -> In (Static (b :: t), child2) (rt_routes x) -> a <> b ->
  compiles c = false.
Proof.
  intros Hh Hx Hd H1 H2 Hab. apply not_true_iff_false. intros H. apply (compiles_weak c Hh) in H.
  destruct H as (_ & _ & _ & M). pose proof (mo_shape _ M _ _ _ Hx) as Hs.
  apply dynamic_children_In in Hd.
  destruct (so_mixed _ Hs) as [[E _]|[_ [ch Hch]]].
  - intros E. rewrite E in Hd. destruct Hd.
  - apply statics_In in H1. rewrite E in H1. destruct H1.
  - destruct (Hch _ _ H1) as [? [= <- _]]. destruct (Hch _ _ H2) as [? [= <- _]]. congruence.
Qed.
