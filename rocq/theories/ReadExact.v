(** * ReadExact: the written text is accepted exactly if the configuration compiles *)
From Verif Require Import Base BaseFacts Core Trie Flat MiniRust Gen Spec SpecMatch SpecGen SpecCompile Items SpecItems Fixed RLex RRead SpecRead SpecCost
  LexFacts ExecFacts CostFacts CompFacts MatchFacts FlatFacts NodeFacts GenThms ItemText CompileFacts ItemFacts ItemThms FixedFacts ReadFacts ReadItems
  CanonFacts ReadGood ReadAll ReadBad.

(** ** Back from what is read *)

Section Back.
Variable senv : struct_env.
Definition check_back (s : stmt) : Prop := forall te rest p, good_stmt s ->
  check_stmt senv te (canon1 s) (canon_block rest) = Some p -> check_stmt senv te s rest = Some p.
Lemma check_back_of l : Forall check_back l -> forall te d p, good_block l ->
  check_block senv te (canon_block l) d = Some p -> check_block senv te l d = Some p.
Proof.
  induction 1 as [|s l Hs Hl IH]; intros te d p Hg H; [exact H|]. destruct Hg as [Hg1 Hg2]. rewrite check_block_cons.
  destruct (blank_dec s) as [->|Hn].
  - cbn [check_stmt]. rewrite orb_false_r. apply IH; [exact Hg2|exact H].
  - rewrite canon_cons in H by exact Hn. rewrite check_block_cons in H.
    destruct (check_stmt senv te (canon1 s) (canon_block l)) as [[te' d']|] eqn:E; [|discriminate].
    rewrite (Hs _ _ _ Hg1 E). apply IH; assumption.
Qed.
Lemma check_stmt_back s : check_back s.
Proof.
  induction s as [s Hs|c body IH|c body IH|sc arms IH] using stmt_ind'; intros te rest p Hg H.
  - rewrite canon1_simple in H by exact Hs. destruct s; try discriminate Hs; try exact H.
    cbn [check_stmt] in *. rewrite infer_canon in H. exact H.
  - destruct Hg as [_ Hg]. rewrite canon1_while in H. rewrite check_stmt_while in *. destruct (check_bexpr te c); [|discriminate].
    destruct (check_block senv te (canon_block body) false) eqn:E; [|discriminate]. rewrite (check_back_of body IH _ _ _ Hg E). exact H.
  - destruct Hg as [_ Hg]. rewrite canon1_if in H. rewrite check_stmt_if in *. destruct (check_bexpr te c); [|discriminate].
    destruct (check_block senv te (canon_block body) false) eqn:E; [|discriminate]. rewrite (check_back_of body IH _ _ _ Hg E). exact H.
  - assert (Hga : good_arms arms) by apply Hg. rewrite canon1_match in H. rewrite check_stmt_match in *.
    assert (Hw : existsb (fun a : arm_head * list stmt => is_wild (fst a)) (map canon_arm arms)
               = existsb (fun a : arm_head * list stmt => is_wild (fst a)) arms).
    { clear. induction arms as [|[h body] arms IH]; [reflexivity|]. cbn [map existsb canon_arm fst]. rewrite IH.
      destruct h; reflexivity. }
    rewrite Hw in H. destruct (check_scrut te sc && _); [|discriminate].
    destruct (check_arms senv te (map canon_arm arms)) as [d|] eqn:E; [|discriminate].
    assert (Ha : check_arms senv te arms = Some d); [|rewrite Ha; exact H].
    clear H Hw Hg. revert d E. induction IH as [|[h body] arms Hb IH IHa]; intros d E; [exact E|].
    destruct Hga as [[Hh Hgb] Hga].
    cbn [map check_arms] in *. destruct (check_arm senv te (canon_arm (h, body))) as [d1|] eqn:E1; [|discriminate].
    destruct (check_arms senv te (map canon_arm arms)) as [d2|]; [|discriminate]. rewrite (IHa Hga _ eq_refl). cbn [snd] in Hb.
    assert (Hx : check_arm senv te (h, body) = Some d1); [|rewrite Hx; exact E].
    unfold canon_arm in E1. fold (canon_block body) in E1. destruct h as [t|t| | | |]; cbn [check_arm good_body] in *.
    + destruct (plain_lit t); [|discriminate]. apply (check_back_of body Hb); assumption.
    + destruct Hh as (_ & r & ->). destruct (plain_lit t); [|discriminate]. exact E1.
    + destruct Hh as (r & ->). exact E1.
    + subst body. exact E1.
    + discriminate.
    + discriminate.
Qed.
Lemma check_block_back l te d p : good_block l -> check_block senv te (canon_block l) d = Some p -> check_block senv te l d = Some p.
Proof. apply check_back_of, Forall_forall. intros s _. apply check_stmt_back. Qed.
End Back.

Lemma beside_back l it : good_item it -> forallb (beside_ok (bare_items l)) (bare it) = true -> beside_ok l it = true.
Proof.
  destruct it as [t| |doc n fs|n binds t args|n x|doc n vs|n arms]; cbn [bare forallb beside_ok good_item]; intros Hg H; try reflexivity.
  - rewrite andb_true_r in H. destruct Hg as [Hd _]. rewrite Hd. exact H.
  - rewrite structs_bare, units_bare, andb_true_r in H. exact H.
  - rewrite (forallb_same _ (fun v => declared l (snd v))) in H by (intros; apply declared_bare).
    destruct Hg as [Hd _]. rewrite Hd. rewrite andb_true_r in H. exact H.
  - rewrite enums_bare, units_bare, andb_true_r in H. destruct (lookup n (enums_of l)) as [vs|]; [|discriminate].
    rewrite (forallb_same _ (fun v : str * Items.ty => has_to_path l (snd v))) in H by (intros; apply has_to_path_bare).
    exact H.
Qed.
Lemma forallb_back (f g : item -> bool) l : (forall it, In it l -> forallb g (bare it) = true -> f it = true) ->
  forallb g (bare_items l) = true -> forallb f l = true.
Proof.
  intros H Hg. apply forallb_forall. intros it Hit. apply H; [exact Hit|]. rewrite forallb_forall in Hg. apply forallb_forall.
  intros x Hx. apply Hg. unfold bare_items. apply in_flat_map. eauto.
Qed.
Lemma scope_back root l : good_items l -> scope_ok root (bare_items l) = true -> scope_ok root l = true.
Proof.
  intros Hl. unfold scope_ok. cbv zeta. rewrite types_bare, units_bare, mentions_bare, !andb_true_iff. intros [H Hb]. split; [exact H|].
  apply good_items_all in Hl. rewrite Forall_forall in Hl. revert Hb. apply forallb_back. intros it Hin. apply beside_back. auto.
Qed.
Lemma item_back it : good_item it -> forallb item_ok (bare it) = true -> item_ok it = true.
Proof.
  induction it as [it Hit|n l IH] using item_ind'; intros Hg H.
  - destruct it; try reflexivity. destruct Hit.
  - destruct Hg as [_ Hg]. fold (good_items l) in Hg. cbn [bare forallb item_ok] in H. fold (bare_items l) in H. rewrite andb_true_r, andb_true_iff in H.
    destruct H as [H1 H2]. cbn [item_ok]. rewrite (scope_back _ _ Hg H1). cbn [andb].
    apply good_items_all in Hg. rewrite Forall_forall in Hg, IH. revert H2. apply forallb_back. intros it Hin. apply IH; auto.
Qed.
Lemma items_ok_back root l : good_items l -> items_ok root (bare_items l) = true -> items_ok root l = true.
Proof.
  intros Hl. unfold items_ok. rewrite !andb_true_iff. intros [H1 H2]. split; [apply scope_back; assumption|].
  apply good_items_all in Hl. rewrite Forall_forall in Hl. revert H2. apply forallb_back. intros it Hin. apply item_back. auto.
Qed.

(** ** The items of a plain configuration *)

Lemma plain_text c : plain_char c = true -> text_char c = true /\ plain_byte_char c = true /\ c <> c_nl /\ c <> c_cr.
Proof.
  unfold plain_char, text_char, plain_byte_char. cbn [existsb]. rewrite orb_false_r, !andb_true_iff, !negb_true_iff, !orb_false_iff.
  intros (H1 & H2 & H3 & H4 & H5). rewrite H1, H2, H3, H4. repeat split; auto; apply N.eqb_neq; assumption.
Qed.
Definition plain_module (m : str) : Prop := is_ident (to_snake_case m) = true /\ is_ident (to_caps_case m) = true.
Definition plain_action (a : FlattenedAction) : Prop :=
  is_ident (to_caps_case (a_name a)) = true /\ Forall plain_segment (a_path a) /\
  Forall plain_param (a_route_params a) /\ Forall plain_param (a_query_params a).
Lemma plain_doc a : plain_action a -> doc_line (action_doc a) = true.
Proof.
  intros (_ & Hp & _ & _). apply doc_line_iff. unfold action_doc. rewrite !breaks_app.
  split; [apply lit_breaks; reflexivity|]. split; [destruct (a_method a); apply lit_breaks; reflexivity|].
  split; [apply lit_breaks; reflexivity|]. split; [|apply lit_breaks; reflexivity].
  rewrite Forall_forall in Hp. apply path_text_breaks. intros [t|d] Hs; specialize (Hp _ Hs); cbn [plain_segment] in Hp.
  - rewrite forallb_forall in Hp. intros c Hc. apply plain_text. auto.
  - rewrite !breaks_app. split; [apply lit_breaks; reflexivity|]. split; [|apply lit_breaks; reflexivity]. apply ident_breaks, Hp.
Qed.
Lemma plain_template p : Forall plain_segment p -> forallb text_char (lit "/" ++ path_text (fun _ => lit "{}") p) = true.
Proof.
  intros Hp. rewrite template_flat. destruct p as [|s p]; [reflexivity|]. apply forallb_forall. intros c Hc.
  apply in_flat_map in Hc. destruct Hc as (s' & Hs' & [<-|Hc]); [reflexivity|]. rewrite Forall_forall in Hp. specialize (Hp _ Hs').
  destruct s' as [t|d]; cbn [seg_text plain_segment] in *.
  - rewrite forallb_forall in Hp. apply plain_text. auto.
  - destruct Hc as [<-|[<-|[]]]; reflexivity.
Qed.
Lemma plain_items hs : Forall (fun h => use_line (h_text h)) hs ->
  forall m root, tree_ok m -> root = true \/ plain_module (m_name m) ->
  (forall ms a, In (ms, a) (module_actions m) -> Forall plain_module ms /\ plain_action a) ->
  good_items (module_items root hs m).
Proof.
  intros Hh. induction m as [name acts mods IH] using FM_ind'. intros root Htree Hroot Hall.
  destruct (tree_parts _ Htree) as (_ & _ & Hsub & Hsome). cbn [m_modules m_name] in *.
  assert (Hacts : forall a, In a acts -> plain_action a).
  { intros a Ha. apply (Hall [] a). cbn [module_actions]. apply in_app_iff. left. apply in_map_iff. exists a. auto. }
  assert (Hbelow : forall s ms a, In s mods -> In (ms, a) (module_actions s) -> Forall plain_module (m_name s :: ms) /\ plain_action a).
  { intros s ms a Hs Ha. apply (Hall (m_name s :: ms) a). cbn [module_actions]. apply in_app_iff. right. apply in_concat.
    eexists. split; [apply in_map; exact Hs|]. apply in_map_iff. exists (ms, a). auto. }
  assert (Hmods : forall s, In s mods -> plain_module (m_name s)).
  { intros s Hs. destruct (actions_some s (Hsome s Hs)) as (ms & a & Ha). destruct (Hbelow s ms a Hs Ha) as [H _].
    inversion H; assumption. }
  apply good_items_all, Forall_forall. intros it Hit. apply in_items in Hit. cbn [m_actions m_modules] in Hit.
  destruct Hit as [Hit|[(a & Ha & Hit)|[(s & Hs' & Hit)|Hit]]].
  - unfold header_items in Hit. apply in_app_iff in Hit. destruct Hit as [Hit|Hit].
    + apply in_map_iff in Hit. destruct Hit as (h & <- & Hin). rewrite Forall_forall in Hh. exact (Hh _ Hin).
    + destruct hs; [destruct Hit|]. destruct Hit as [<-|[]]. exact I.
  - pose proof (Hacts a Ha) as Hp. destruct Hp as (H1 & H2 & H3 & H4).
    assert (Hr : idents (map p_name (a_route_params a))).
    { apply Forall_map. eapply Forall_impl; [|exact H3]. intros p Hp. apply Hp. }
    assert (Hq : idents (map p_name (a_query_params a))).
    { apply Forall_map. eapply Forall_impl; [|exact H4]. intros p Hp. apply Hp. }
    destruct Hit as [<-|[<-|[<-|[<-|[]]]]]; try exact I; cbn [good_item].
    + split; [apply plain_doc; auto|]. split; [exact H1|]. apply Forall_app. split; apply Forall_map.
      * eapply Forall_impl; [|exact H3]. intros p Hp. exact Hp.
      * eapply Forall_impl; [|exact H4]. intros p Hp. exact Hp.
    + split; [exact H1|]. split; [apply Forall_app; split; assumption|]. split; [apply plain_template; exact H2|exact Hr].
  - destruct Hit as [->| ->]; [|exact I]. split; [apply (Hmods s Hs')|]. apply (IH s Hs' false); auto.
    intros ms a Ha. destruct (Hbelow s ms a Hs' Ha) as [H H']. inversion H; subst. auto.
  - assert (Hv : idents (map fst (variants (mkModule name acts mods)))).
    { rewrite variants_names. apply Forall_app. split; apply Forall_map, Forall_forall; cbn [m_actions m_modules]; intros x Hx.
      - apply (Hacts x Hx).
      - apply (Hmods x Hx). }
    destruct Hit as [<-|[<-|[<-|[]]]]; try exact I; cbn [good_item m_name].
    + split; [apply enum_doc_line; destruct Hroot as [H|H]; [left; exact H|right; apply H]|]. split; [reflexivity|].
      apply Forall_forall. intros v Hin. split.
      * unfold idents in Hv. rewrite Forall_forall in Hv. apply Hv. apply in_map. exact Hin.
      * cbn [m_actions m_modules] in Hin. apply in_app_iff in Hin.
        destruct Hin as [Hin|Hin]; apply in_map_iff in Hin; destruct Hin as (x & <- & Hx); cbn [snd good_payload].
        -- split; [constructor|apply (Hacts x Hx)].
        -- split; [constructor; [apply (Hmods x Hx)|constructor]|reflexivity].
    + split; [reflexivity|]. rewrite variants_names in Hv. exact Hv.
Qed.
Lemma plain_dynamics p : Forall plain_segment p -> Forall plain_param (dynamics p).
Proof. induction 1 as [|[t|d] p Hs Hp IH]; cbn [dynamics]; [constructor|exact IH|constructor; assumption]. Qed.
Lemma plain_module_items c root : plain_config c -> use_headers c -> flattened_modules (c_routes c) = ROk root ->
  good_items (module_items true (c_headers c) root).
Proof.
  intros [_ Hc] Hh Hr. apply plain_items; [apply Forall_forall; exact Hh|apply (root_tree c root Hr)|left; reflexivity|].
  intros ms a Ha. apply (root_in c root Hr) in Ha. unfold in_module, config_actions in Ha. apply in_concat in Ha.
  destruct Ha as (l & Hl & Ha). apply in_map_iff in Hl. destruct Hl as ([[p q] b] & <- & Hb). apply blocks_at in Hb.
  destruct (Hc p q b Hb) as (H1 & H2 & H3). unfold block_actions in Ha. apply in_map_iff in Ha. destruct Ha as (r & E & Hin).
  apply filter_In in Hin. destruct Hin as [Hin _]. rewrite Forall_forall in H3. destruct (H3 r Hin) as (H4 & H5 & H6).
  unfold action_of in E. injection E as <- <-. split; [exact H5|]. unfold plain_action. cbn.
  split; [exact H4|]. split; [exact H1|]. rewrite ?params_dynamics. split; [apply plain_dynamics; exact H1|]. apply Forall_app; auto.
Qed.

(** ** The function of a plain configuration *)

Section TrieAll.
Context {K V : Type} (cmp : K -> K -> comparison) (P : K -> Prop) (Q : V -> Prop).
Inductive trie_all : Trie K V -> Prop :=
| trie_all_node d children : (forall v, d = Some v -> Q v) ->
    (forall k t, In (k, t) children -> P k) -> (forall k t, In (k, t) children -> trie_all t) -> trie_all (mkTrie d children).
Lemma in_firstn {A} (x : A) n l : In x (firstn n l) -> In x l.
Proof. intros H. rewrite <- (firstn_skipn n l). apply in_app_iff. auto. Qed.
Lemma in_skipn {A} (x : A) n l : In x (skipn n l) -> In x l.
Proof. intros H. rewrite <- (firstn_skipn n l). apply in_app_iff. auto. Qed.
Lemma in_insert {A} (x y : A) n l : In x (vec_insert n y l) -> x = y \/ In x l.
Proof.
  unfold vec_insert. rewrite in_app_iff. intros [H|[H|H]]; [right; eapply in_firstn; eauto|auto|right; eapply in_skipn; eauto].
Qed.
Lemma in_remove {A} (x : A) n l : In x (vec_remove n l) -> In x l.
Proof. unfold vec_remove. rewrite in_app_iff. intros [H|H]; [eapply in_firstn|eapply in_skipn]; eauto. Qed.
Lemma add_all path v : Q v -> Forall P path -> forall t t', trie_all t -> trie_add cmp t path v = inl t' -> trie_all t'.
Proof.
  intros Hv. induction 1 as [|k path Hk Hp IH]; intros t t' Ht H; cbn [trie_add] in H; inversion Ht as [d ch H1 H2 H3]; subst; cbn [t_data t_children] in H.
  - destruct d; [discriminate|]. injection H as <-. constructor; auto. intros v' [= <-]. exact Hv.
  - destruct (binary_search cmp ch k) as [i|i].
    + destruct (nth_error ch i) as [[k' tr]|] eqn:E; [|discriminate]. destruct (trie_add cmp tr path v) as [tr'|] eqn:Ea; [|discriminate].
      injection H as <-. apply nth_error_In in E. constructor; [exact H1| |].
      * intros k0 t0 Hin. apply in_insert in Hin. destruct Hin as [E0|Hin]; [injection E0 as -> ->; exact Hk|]. apply in_remove in Hin. eauto.
      * intros k0 t0 Hin. apply in_insert in Hin. destruct Hin as [E0|Hin]; [injection E0 as -> ->; exact (IH tr tr' (H3 _ _ E) Ea)|]. apply in_remove in Hin. eauto.
    + destruct (trie_add cmp trie_new path v) as [tr'|] eqn:Ea; [|discriminate]. injection H as <-. constructor; [exact H1| |].
      * intros k0 t0 Hin. apply in_insert in Hin. destruct Hin as [E0|Hin]; [injection E0 as -> ->; exact Hk|]. eauto.
      * intros k0 t0 Hin. apply in_insert in Hin. destruct Hin as [E0|Hin]; [injection E0 as -> ->|eauto]. eapply IH; [|exact Ea].
        constructor; [discriminate|intros ? ? []|intros ? ? []].
Qed.
End TrieAll.

Definition plain_key (k : Charlike) : Prop :=
  match k with CStatic c => plain_char c = true | CDynamic n => is_ident n = true | CSeparator => True end.
Definition plain_flat (f : FlattenedRoute) : Prop :=
  Forall plain_segment (f_path f) /\ Forall plain_resource (f_resources f) /\ Forall plain_param (f_query f).
Definition plain_trie : ctrie -> Prop := trie_all plain_key plain_flat.
Lemma plain_iter p : Forall plain_segment p -> Forall plain_key (path_iter p).
Proof.
  induction 1 as [|s p Hs Hp IH]; [constructor|]. unfold path_iter. cbn [map concat]. apply Forall_app. split; [|exact IH].
  destruct s as [t|d]; cbn [segment_iter plain_segment] in *.
  - apply Forall_app. split; [|repeat constructor]. apply Forall_map, Forall_forall. rewrite forallb_forall in Hs. exact Hs.
  - repeat constructor. apply Hs.
Qed.
Lemma plain_to_trie l : Forall plain_flat l -> forall t t', plain_trie t -> to_trie_from t l = ROk t' -> plain_trie t'.
Proof.
  induction 1 as [|f l Hf Hl IH]; intros t t' Ht H; cbn [to_trie_from] in H; [injection H as <-; exact Ht|].
  destruct (trie_add charlike_cmp t (path_iter (f_path f)) f) as [t1|] eqn:E; [|discriminate]. eapply IH; [|exact H].
  eapply add_all; [exact Hf|apply plain_iter; apply Hf|exact Ht|exact E].
Qed.
Lemma plain_config_trie c t : plain_config c -> to_trie (flattened_routes (c_routes c)) = ROk t -> plain_trie t.
Proof.
  intros [_ Hc] H. apply (plain_to_trie (flattened_routes (c_routes c))) with (t := trie_new);
    [|constructor; [discriminate|intros ? ? []|intros ? ? []]|exact H].
  rewrite flattened_routes_blocks. apply Forall_map, Forall_forall. intros [[p q] b] Hb. apply blocks_at in Hb.
  destruct (Hc p q b Hb) as (H1 & H2 & H3). split; [exact H1|]. split; [exact H3|exact H2].
Qed.

Definition all_fair (r : res (list stmt)) : Prop := forall b, r = ROk b -> fair_block b.
Lemma plain_lits t : forallb plain_char t = true -> plain_lit t = true.
Proof. unfold plain_lit. rewrite !forallb_forall. intros H c Hc. apply plain_text. auto. Qed.
Lemma plain_ret f r : plain_flat f -> In r (f_resources f) -> good_ret (resource_ret f r).
Proof.
  intros (H1 & H2 & H3) Hr. rewrite Forall_forall in H2. destruct (H2 r Hr) as (H4 & H5 & H6). cbn [resource_ret good_ret].
  split; [apply Forall_map; exact H5|]. split; [exact H4|]. rewrite !Forall_app. pose proof (plain_dynamics _ H1) as H7.
  split; [|split]; apply Forall_map; [apply Forall_impl with (2 := H7)|apply Forall_impl with (2 := H3)|apply Forall_impl with (2 := H6)];
    intros p Hp; apply Hp.
Qed.
Lemma methods_fair f : plain_flat f -> fair_stmt (methods_stmt f).
Proof.
  intros Hf. split; [split; reflexivity|]. split; [|exact I]. split; [reflexivity|].
  change (fair_arms (map (fun r => (AHInline (method_display (r_method r)), [SReturn (resource_ret f r)])) (f_resources f) ++ [(AHWild, [SReturn RetNotAllowed])])).
  apply fair_arms_app. split.
  - assert (H : forall l, incl l (f_resources f) ->
      fair_arms (map (fun r => (AHInline (method_display (r_method r)), [SReturn (resource_ret f r)])) l)); [|apply H; apply incl_refl].
    induction l as [|r l IH]; intros Hi; [exact I|]. split; [|apply IH; intros x Hx; apply Hi; right; exact Hx].
    split; [split; [destruct (r_method r); reflexivity|eexists; reflexivity]|].
    split; [apply plain_ret; [exact Hf|apply Hi; left; reflexivity]|exact I].
  - repeat split. eexists. reflexivity.
Qed.
Lemma methods_block_fair t : plain_trie t -> fair_block (methods_block (t_data t)).
Proof.
  intros Ht. inversion Ht as [d ch H1 _ _]; subst. cbn [t_data]. unfold methods_block, has_resources.
  destruct d as [f|]; [|exact I]. destruct (f_resources f); [exact I|]. split; [apply methods_fair; auto|exact I].
Qed.
Section GenFair.
Variable rec : ctrie -> res (list stmt).
Hypothesis rec_fair : forall t, plain_trie t -> all_fair (rec t).
Lemma dynamic_fair t n : plain_trie t -> is_ident n = true ->
  forall b, gen_dynamic rec t n = ROk b -> fair_block b /\ exists c b' l, b = SBlank :: SWhile c b' :: l.
Proof.
  intros Ht Hn b H. unfold gen_dynamic in H. destruct (t_children t) as [|[[] ch] [|]] eqn:E; try discriminate H.
  apply rbind_ok in H. destruct H as (b' & Hb & [= <-]). split; [|unfold dynamic_block; cbn [app]; eauto].
  unfold dynamic_block. apply fair_block_app. split; [|apply (rec_fair t Ht _ Hb)].
  repeat split; try exact Hn; try reflexivity. apply ident_text. exact Hn.
Qed.
Lemma arms_fair l : (forall k t, In (k, t) l -> plain_key k) -> (forall k t, In (k, t) l -> plain_trie t) ->
  forall arms, gen_arms rec l = ROk arms -> fair_arms arms.
Proof.
  induction l as [|[k c] l IH]; intros Hk Ht arms H; cbn [gen_arms] in H; [injection H as <-; exact I|].
  pose proof (Hk k c (or_introl eq_refl)) as Hk0. pose proof (Ht k c (or_introl eq_refl)) as Ht0.
  assert (IH' : forall arms, gen_arms rec l = ROk arms -> fair_arms arms) by (apply IH; intros; [eapply Hk|eapply Ht]; right; eassumption).
  destruct k as [ch|n|]; cbn [plain_key] in Hk0.
  - apply rbind_ok in H. destruct H as (b & Hb & H). apply rbind_ok in H. destruct H as (arms' & Ha & [= <-]).
    split; [|apply IH'; exact Ha]. split; [apply plain_lits; cbn [forallb]; rewrite Hk0; reflexivity|]. split; [reflexivity|]. exact (rec_fair c Ht0 _ Hb).
  - apply rbind_ok in H. destruct H as (b & Hb & [= <-]). destruct (dynamic_fair c n Ht0 Hk0 b Hb) as [H1 H2].
    split; [split; assumption|exact I].
  - apply rbind_ok in H. destruct H as (arms' & Ha & [= <-]). split; [split; [reflexivity|exact I]|]. apply IH'. exact Ha.
Qed.
Lemma find_dynamic_in l n t : find_dynamic l = Some (n, t) -> In (CDynamic n, t) l.
Proof. induction l as [|[[c|m|] t'] l IH]; cbn [find_dynamic]; try discriminate; [right; auto|intros [= <- <-]; left; reflexivity|right; auto]. Qed.

Lemma chase_plain t : plain_trie t -> forall s t', chase t = (s, t') -> forallb plain_char s = true /\ plain_trie t'.
Proof.
  induction 1 as [d ch H1 H2 H3 IH]. intros s t' H. assert (Hself : plain_trie (mkTrie d ch)) by (constructor; assumption).
  cbn [chase] in H. destruct ch as [|[[c|n|] t1] [|]]; try (injection H as <- <-; split; [reflexivity|exact Hself]).
  destruct (chase t1) as [s1 t1'] eqn:E. injection H as <- <-. destruct (IH _ t1 (or_introl eq_refl) _ _ E) as [Ha Hb].
  split; [|exact Hb]. cbn [forallb]. rewrite Ha, andb_true_r. exact (H2 _ t1 (or_introl eq_refl)).
Qed.
Lemma unamb_plain t : plain_trie t -> forall s n t', unamb t = (s, n, t') -> forallb plain_char s = true /\ plain_trie t'.
Proof.
  induction 1 as [d ch H1 H2 H3 IH]. intros s n t' H. assert (Hself : plain_trie (mkTrie d ch)) by (constructor; assumption).
  cbn [unamb] in H. destruct (existsb _ ch); [injection H as <- <- <-; split; [reflexivity|exact Hself]|].
  destruct (_ =? 1)%nat; [|injection H as <- <- <-; split; [reflexivity|exact Hself]].
  revert H. set (t0 := mkTrie d ch) in *. clearbody t0.
  assert (Hg : forall l, incl l ch ->
    (fix pick (l : list (Charlike * ctrie)) : str * nat * ctrie :=
       match l with
       | [] => ([], 1, t0)
       | (CStatic c, t') :: _ => let '(s, n, t'') := unamb t' in (c :: s, S n, t'')
       | _ :: l' => pick l'
       end) l = (s, n, t') -> forallb plain_char s = true /\ plain_trie t'); [|apply Hg; apply incl_refl].
  induction l as [|[[c|m|] t1] l IHl]; intros Hi H.
  - injection H as <- <- <-. split; [reflexivity|exact Hself].
  - destruct (unamb t1) as [[s1 n1] t1'] eqn:E. injection H as <- <- <-. pose proof (Hi _ (or_introl eq_refl)) as Hin.
    destruct (IH _ t1 Hin _ _ _ E) as [Ha Hb]. split; [|exact Hb]. cbn [forallb]. rewrite Ha, andb_true_r. exact (H2 _ _ Hin).
  - apply IHl; [intros x Hx; apply Hi; right; exact Hx|exact H].
  - apply IHl; [intros x Hx; apply Hi; right; exact Hx|exact H].
Qed.
Lemma many_fair t : plain_trie t -> all_fair (gen_many rec t).
Proof.
  intros Ht b H. pose proof Ht as Ht'. inversion Ht as [d ch H1 H2 H3]; subst. unfold gen_many in H. cbn [t_children] in H.
  destruct (unamb (mkTrie d ch)) as [[u l] next] eqn:Eu. destruct (unamb_plain _ Ht' _ _ _ Eu) as [Hu Hnext].
  set (start := match find_dynamic ch with Some _ => _ | None => _ end) in H.
  assert (Hs : fair_block start) by (unfold start; destruct (find_dynamic _); repeat split; reflexivity).
  clearbody start. destruct u as [|x u].
  - apply rbind_ok in H. destruct H as (arms & Ha & [= <-]). apply fair_block_app. split; [exact Hs|].
    split; [repeat split; reflexivity|]. split; [|exact I]. split; [repeat split; reflexivity|].
    change (fair_arms (arms ++ [(AHWild, [not_found])])). apply fair_arms_app. split; [eapply arms_fair; eauto|].
    repeat split. eexists. reflexivity.
  - destruct (find_dynamic ch) as [[n dc]|] eqn:Ed; [|discriminate]. apply find_dynamic_in in Ed.
    apply rbind_ok in H. destruct H as (b' & Hb & H). apply rbind_ok in H. destruct H as (d' & Hd & [= <-]).
    apply fair_block_app. split; [exact Hs|]. split; [|exact (proj1 (dynamic_fair dc n (H3 _ _ Ed) (H2 _ _ Ed) _ Hd))].
    split; [destruct (_ =? 1)%nat; split; reflexivity|]. split; [|exact I]. split; [repeat split; reflexivity|].
    split; [|repeat split]. split; [apply plain_lits; exact Hu|]. split; [reflexivity|]. exact (rec_fair next Hnext _ Hb).
Qed.
Lemma expect_fair n t : plain_lit t = true -> fair_stmt (expect n t).
Proof. intros H. repeat split; try exact H. eexists. reflexivity. Qed.
Lemma children_fair t : plain_trie t -> all_fair (gen_children rec t).
Proof.
  intros Ht b H. pose proof Ht as Ht'. inversion Ht as [d ch H1 H2 H3]; subst. unfold gen_children in H. cbn [t_children] in H.
  destruct ch as [|[k c] [|]]; [injection H as <-; repeat split| |].
  - pose proof (H2 k c (or_introl eq_refl)) as Hk. pose proof (H3 k c (or_introl eq_refl)) as Hc. destruct k as [ch|n|]; cbn [plain_key] in Hk.
    + destruct (chase c) as [more c'] eqn:Ec. destruct (chase_plain _ Hc _ _ Ec) as [Hm Hc'].
      apply rbind_ok in H. destruct H as (b' & Hb & [= <-]).
      split; [split; [destruct (_ =? 1)%nat; split; reflexivity|repeat split]|].
      split; [apply expect_fair, plain_lits; cbn [forallb]; rewrite Hk; exact Hm|]. exact (rec_fair c' Hc' _ Hb).
    + apply rbind_ok in H. destruct H as (b' & Hb & [= <-]). split; [split; reflexivity|]. exact (proj1 (dynamic_fair c n Hc Hk _ Hb)).
    + apply rbind_ok in H. destruct H as (b' & Hb & [= <-]). split; [|split; [apply expect_fair; reflexivity|exact (rec_fair c Hc _ Hb)]].
      pose proof (methods_block_fair c Hc) as Hm. unfold methods_block in Hm.
      destruct (has_resources (t_data c)); [apply Hm|repeat split; reflexivity].
  - destruct k; apply (many_fair _ Ht'); exact H.
Qed.
End GenFair.
Lemma gen_fair fuel : forall t, plain_trie t -> all_fair (gen_trie fuel t).
Proof.
  induction fuel as [|fuel IH]; intros t Ht b H; [discriminate|]. cbn [gen_trie] in H. apply rbind_ok in H.
  destruct H as (b' & Hb & [= <-]). apply fair_block_app. split; [apply methods_block_fair; exact Ht|]. exact (children_fair _ IH t Ht b' Hb).
Qed.
Lemma program_fair c : plain_config c -> all_fair (gen_program c).
Proof.
  intros Hc b H. unfold gen_program in H. apply rbind_ok in H. destruct H as (t & Ht & H).
  exact (gen_fair _ _ (plain_config_trie c t Hc Ht) _ H).
Qed.

(** ** The text *)

Lemma text_exact c : snd (codegen c) = ROk tt -> use_headers c -> plain_config c ->
  (exists program, compile_text (w_text (codegen c)) = Some program) <-> compiles c = true.
Proof.
  intros Hok Hh Hp. destruct (codegen_text c Hok) as (root & l & body & Hr & _ & _ & Hb & _).
  pose proof (plain_module_items c root Hp Hh Hr) as Hgood.
  assert (Hd : doc_ok c = true) by (apply doc_ok_iff, Hp).
  destruct (decide body (program_fair c Hp body Hb)) as [Hgb|Hbad].
  - unfold compile_text. rewrite (good_reads c root body Hok Hd Hr Hb Hgood Hgb). cbn [rd_items rd_others rd_fns].
    rewrite items_env_bare, tokss_eqb_refl. cbn [andb]. rewrite (fixed_check c root body Hr Hb). cbv zeta. split.
    + destruct (items_ok true _) eqn:Hi; [|intros [? [=]]].
      destruct (check_head _ _ _) as [te|] eqn:Hte; [|intros [? [=]]].
      destruct (check_block _ _ _ _) as [[]|] eqn:Hk; [intros _|intros [? [=]]|intros [? [=]]].
      split; [apply items_ok_back in Hi; assumption|]. split; [exact Hd|]. exists te. split; [reflexivity|].
      apply check_block_back in Hk; assumption.
    + intros (Hi & _ & te & Hte & Hk). rewrite (items_ok_bare _ _ Hi). unfold parameters. rewrite Hte, (check_block_canon _ _ _ _ _ Hk). eauto.
  - rewrite (bad_text c root body Hok Hd Hr Hb Hgood Hbad). split; [intros [? [=]]|]. intros Hc. exfalso.
    destruct (proj1 (items_check c root body Hr Hb) Hc) as (_ & _ & Hk).
    assert (Hgb : good_block body).
    { eapply check_block_good; [apply items_env_ident; exact Hgood|apply prologue_ident|apply (program_shaped c body Hb)|exact Hk]. }
    pose proof (good_reads c root body Hok Hd Hr Hb Hgood Hgb) as H1. pose proof (bad_text c root body Hok Hd Hr Hb Hgood Hbad) as H2.
    destruct (proj1 (fixed_check c root body Hr Hb) Hc) as (Hi & _ & te & Hte & Hk').
    unfold compile_text in H2. rewrite H1 in H2. cbn [rd_items rd_others rd_fns] in H2. rewrite items_env_bare, tokss_eqb_refl in H2. cbn [andb] in H2.
    rewrite (items_ok_bare _ _ Hi) in H2. unfold parameters in H2. rewrite Hte, (check_block_canon _ _ _ _ _ Hk') in H2. discriminate.
Qed.
