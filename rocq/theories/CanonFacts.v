(** * CanonFacts: what is not in the tokens does not matter *)
From Verif Require Import Base BaseFacts Core MiniRust Gen Items RLex RRead SpecRead SpecCost ExecFacts CostFacts ItemFacts ReadFacts ReadItems.

(** ** Statements *)

Section Canon.
Variable senv : struct_env.

Lemma canon_cons s l : s <> SBlank -> canon_block (s :: l) = canon1 s :: canon_block l.
Proof. intros H. unfold canon_block. cbn [flat_map]. rewrite (canon_one s H). reflexivity. Qed.
Lemma blank_dec s : s = SBlank \/ s <> SBlank.
Proof. destruct s; (left; reflexivity) || (right; discriminate). Qed.
Lemma canon1_while c body : canon1 (SWhile c body) = SWhile c (canon_block body).
Proof. reflexivity. Qed.
Lemma canon1_if c body : canon1 (SIf c body) = SIf c (canon_block body).
Proof. reflexivity. Qed.
Lemma canon1_match sc arms : canon1 (SMatch sc arms) = SMatch sc (map canon_arm arms).
Proof. reflexivity. Qed.
Lemma canon1_simple s : compound s = false -> canon1 s = s.
Proof. destruct s; (discriminate || reflexivity). Qed.
Lemma binds_canon x s : binds x (canon1 s) = binds x s.
Proof. destruct s; reflexivity. Qed.

Lemma uses_canon_of x l : Forall (fun s => stmt_uses senv x (canon1 s) = stmt_uses senv x s) l ->
  block_uses senv x (canon_block l) = block_uses senv x l.
Proof.
  induction 1 as [|s l Hs Hl IH]; [reflexivity|]. destruct (blank_dec s) as [->|H].
  - exact IH.
  - rewrite canon_cons by exact H. rewrite !block_uses_cons, Hs, binds_canon, IH. reflexivity.
Qed.
Lemma stmt_uses_canon x s : stmt_uses senv x (canon1 s) = stmt_uses senv x s.
Proof.
  induction s as [s Hs|c body IH|c body IH|sc arms IH] using stmt_ind'.
  - rewrite canon1_simple by exact Hs. reflexivity.
  - rewrite canon1_while, !stmt_uses_while. apply uses_canon_of. exact IH.
  - rewrite canon1_if, !stmt_uses_if. apply uses_canon_of. exact IH.
  - rewrite canon1_match, !stmt_uses_match, map_map. f_equal. apply map_ext_in. intros [h body] Hin.
    rewrite Forall_forall in IH. apply uses_canon_of. exact (IH _ Hin).
Qed.
Lemma block_uses_canon x l : block_uses senv x (canon_block l) = block_uses senv x l.
Proof. apply uses_canon_of, Forall_forall. intros s _. apply stmt_uses_canon. Qed.
Lemma infer_canon x l : infer senv x (canon_block l) = infer senv x l.
Proof. unfold infer. rewrite block_uses_canon. reflexivity. Qed.

(** A block that is accepted is accepted without its empty lines. *)
Definition check_same (s : stmt) : Prop := forall te rest p,
  check_stmt senv te s rest = Some p -> check_stmt senv te (canon1 s) (canon_block rest) = Some p.
Lemma check_canon_of l : Forall check_same l -> forall te d p,
  check_block senv te l d = Some p -> check_block senv te (canon_block l) d = Some p.
Proof.
  induction 1 as [|s l Hs Hl IH]; intros te d p H; [exact H|]. rewrite check_block_cons in H.
  destruct (check_stmt senv te s l) as [[te' d']|] eqn:E; [|discriminate].
  destruct (blank_dec s) as [->|Hn].
  - injection E as <- <-. rewrite orb_false_r in H. apply IH. exact H.
  - rewrite canon_cons by exact Hn. rewrite check_block_cons, (Hs _ _ _ E). apply IH. exact H.
Qed.
Lemma check_stmt_canon s : check_same s.
Proof.
  induction s as [s Hs|c body IH|c body IH|sc arms IH] using stmt_ind'; intros te rest p H.
  - rewrite canon1_simple by exact Hs. destruct s; try discriminate Hs; try exact H.
    cbn [check_stmt] in *. rewrite infer_canon. exact H.
  - rewrite canon1_while. rewrite check_stmt_while in *. destruct (check_bexpr te c); [|discriminate].
    destruct (check_block senv te body false) eqn:E; [|discriminate]. rewrite (check_canon_of body IH _ _ _ E). exact H.
  - rewrite canon1_if. rewrite check_stmt_if in *. destruct (check_bexpr te c); [|discriminate].
    destruct (check_block senv te body false) eqn:E; [|discriminate]. rewrite (check_canon_of body IH _ _ _ E). exact H.
  - rewrite canon1_match. rewrite check_stmt_match in *.
    assert (Hw : existsb (fun a : arm_head * list stmt => is_wild (fst a)) (map canon_arm arms)
               = existsb (fun a : arm_head * list stmt => is_wild (fst a)) arms).
    { clear. induction arms as [|[h body] arms IH]; [reflexivity|]. cbn [map existsb canon_arm fst]. rewrite IH.
      destruct h; reflexivity. }
    rewrite Hw. destruct (check_scrut te sc && _); [|discriminate].
    destruct (check_arms senv te arms) as [d|] eqn:E; [|discriminate].
    assert (Ha : check_arms senv te (map canon_arm arms) = Some d); [|rewrite Ha; exact H].
    clear H Hw. revert d E. induction IH as [|[h body] arms Hb IH IHa]; intros d E; [exact E|].
    cbn [map check_arms] in *. destruct (check_arm senv te (h, body)) as [d1|] eqn:E1; [|discriminate].
    destruct (check_arms senv te arms) as [d2|]; [|discriminate]. rewrite (IHa _ eq_refl). cbn [snd] in Hb.
    assert (Hx : check_arm senv te (canon_arm (h, body)) = Some d1); [|rewrite Hx; exact E].
    unfold canon_arm. fold (canon_block body). destruct h as [t|t| | | |]; cbn [check_arm] in *.
    + destruct (plain_lit t); [|discriminate]. apply (check_canon_of body Hb). exact E1.
    + destruct (plain_lit t); [|discriminate]. destruct body as [|[] [|]]; try discriminate E1. exact E1.
    + destruct body as [|[] [|]]; try discriminate E1. exact E1.
    + destruct body; [exact E1|discriminate].
    + discriminate.
    + discriminate.
Qed.
Lemma check_block_canon l te d p : check_block senv te l d = Some p -> check_block senv te (canon_block l) d = Some p.
Proof. apply check_canon_of, Forall_forall. intros s _. apply check_stmt_canon. Qed.

(** It does the same. *)
Context {T E : Type} (rt : runtime T E).
Definition exec_same (fuel : nat) (s : stmt) : Prop := forall en rest,
  exec_stmt rt senv fuel en (canon1 s) (canon_block rest) = exec_stmt rt senv fuel en s rest.
Lemma exec_canon_of fuel l : Forall (exec_same fuel) l -> forall en,
  exec_block rt senv fuel en (canon_block l) = exec_block rt senv fuel en l.
Proof.
  induction 1 as [|s l Hs Hl IH]; intros en; [reflexivity|]. destruct (blank_dec s) as [->|Hn].
  - apply IH.
  - rewrite canon_cons by exact Hn. cbn [exec_block]. rewrite Hs.
    destruct (exec_stmt rt senv fuel en s l); auto.
Qed.
Lemma exec_stmt_canon fuel s : exec_same fuel s.
Proof.
  induction s as [s Hs|c body IH|c body IH|sc arms IH] using stmt_ind'; intros en rest.
  - rewrite canon1_simple by exact Hs. destruct s; try discriminate Hs; try reflexivity.
    cbn [exec_stmt]. rewrite infer_canon. reflexivity.
  - rewrite canon1_while, !exec_stmt_while. generalize fuel at 2 4. intros k. revert en.
    induction k as [|k IHk]; intros en; [reflexivity|]. cbn [exec_loop]. rewrite (exec_canon_of fuel body IH).
    destruct (eval_bexpr rt en c) as [[[|]|]|]; try reflexivity.
    destruct (leave en (exec_block rt senv fuel en body)); try reflexivity. apply IHk.
  - rewrite canon1_if, !exec_stmt_if. rewrite (exec_canon_of fuel body IH). reflexivity.
  - rewrite canon1_match, !exec_stmt_match. destruct (eval_scrut rt en sc) as [[v|]|]; try reflexivity.
    induction IH as [|[h body] arms Hb IH IHa]; [reflexivity|]. cbn [map exec_arms canon_arm]. fold (canon_block body).
    replace (arm_matches (match h with AHInline t => AHBlock t | h => h end) v) with (arm_matches h v) by (destruct h; reflexivity).
    rewrite IHa. cbn [snd] in Hb. rewrite (exec_canon_of fuel body Hb). reflexivity.
Qed.
Lemma exec_block_canon fuel en l : exec_block rt senv fuel en (canon_block l) = exec_block rt senv fuel en l.
Proof. apply exec_canon_of, Forall_forall. intros s _. apply exec_stmt_canon. Qed.
End Canon.

(** ** Items *)

Section Bare.
Context {A : Type} (f : item -> list A).
(** Anything that looks at names, fields, variants and modules only. *)
Lemma flat_bare l : (forall it, flat_map f (bare it) = f it) -> flat_map f (bare_items l) = flat_map f l.
Proof.
  intros H. unfold bare_items. induction l as [|it l IH]; [reflexivity|]. cbn [flat_map]. rewrite flat_map_app, H, IH. reflexivity.
Qed.
End Bare.
Ltac bare_one := let it := fresh in intros it; destruct it; reflexivity.
Lemma structs_bare l : structs_of (bare_items l) = structs_of l.
Proof. apply flat_bare. bare_one. Qed.
Lemma struct_paths_bare l : struct_paths_of (bare_items l) = struct_paths_of l.
Proof. apply flat_bare. bare_one. Qed.
Lemma enums_bare l : enums_of (bare_items l) = enums_of l.
Proof. apply flat_bare. bare_one. Qed.
Lemma enum_paths_bare l : enum_paths_of (bare_items l) = enum_paths_of l.
Proof. apply flat_bare. bare_one. Qed.
Lemma mods_bare l : mods_of (bare_items l) = map (fun m => (fst m, bare_items (snd m))) (mods_of l).
Proof.
  induction l as [|it l IH]; [reflexivity|]. unfold bare_items, mods_of in *. cbn [flat_map]. rewrite flat_map_app, IH, map_app.
  f_equal. destruct it; reflexivity.
Qed.
Lemma types_bare l : types_of (bare_items l) = types_of l.
Proof. unfold types_of. rewrite structs_bare, enums_bare, mods_bare, map_map. reflexivity. Qed.
Lemma units_bare l : units_of (bare_items l) = units_of l.
Proof. unfold units_of. rewrite structs_bare. reflexivity. Qed.
Lemma mentions_bare l : flat_map mentions (bare_items l) = flat_map mentions l.
Proof. apply flat_bare. intros []; try reflexivity. cbn [bare flat_map mentions app]. apply app_nil_r. Qed.
Lemma lookup_bare m l : lookup m (map (fun m : str * list item => (fst m, bare_items (snd m))) l)
  = match lookup m l with Some x => Some (bare_items x) | None => None end.
Proof. induction l as [|[k x] l IH]; [reflexivity|]. cbn [map lookup fst snd]. destruct (str_eqb k m); auto. Qed.
Lemma payload_bare d e l t : (forall l, d (bare_items l) = d l) -> (forall l, e (bare_items l) = e l) ->
  payload_ok d e (bare_items l) t = payload_ok d e l t.
Proof.
  intros Hd He. unfold payload_ok. destruct t as [t|t|[|m [|]] n]; try reflexivity; [rewrite Hd; reflexivity|].
  rewrite mods_bare, lookup_bare. destruct (lookup m (mods_of l)); [rewrite He|]; reflexivity.
Qed.
Lemma declared_bare l t : declared (bare_items l) t = declared l t.
Proof. unfold declared. apply payload_bare; intros; rewrite ?structs_bare, ?enums_bare; reflexivity. Qed.
Lemma has_to_path_bare l t : has_to_path (bare_items l) t = has_to_path l t.
Proof. unfold has_to_path. apply payload_bare; intros; rewrite ?struct_paths_bare, ?enum_paths_bare; reflexivity. Qed.
Lemma forallb_same {A} (f g : A -> bool) l : (forall x, f x = g x) -> forallb f l = forallb g l.
Proof. intros H. induction l as [|x l IH]; [reflexivity|]. cbn [forallb]. rewrite H, IH. reflexivity. Qed.
Lemma beside_bare l it : beside_ok l it = true -> forallb (beside_ok (bare_items l)) (bare it) = true.
Proof.
  destruct it as [t| |doc n fs|n binds t args|n x|doc n vs|n arms]; cbn [bare forallb beside_ok]; intros H; try reflexivity.
  - apply andb_true_iff in H. destruct H as [_ H]. rewrite H. reflexivity.
  - rewrite structs_bare, units_bare, H. reflexivity.
  - rewrite (forallb_same _ (fun v => declared l (snd v))) by (intros; apply declared_bare).
    rewrite !andb_true_iff in *. destruct H as [[_ H1] H2]. auto.
  - rewrite enums_bare, units_bare. destruct (lookup n (enums_of l)) as [vs|]; [|discriminate].
    rewrite (forallb_same _ (fun v : str * Items.ty => has_to_path l (snd v))) by (intros; apply has_to_path_bare).
    rewrite H. reflexivity.
Qed.
Lemma forallb_bare (f g : item -> bool) l : (forall it, In it l -> f it = true -> forallb g (bare it) = true) ->
  forallb f l = true -> forallb g (bare_items l) = true.
Proof.
  intros H Hf. rewrite forallb_forall in Hf. apply forallb_forall. intros x Hx. unfold bare_items in Hx.
  apply in_flat_map in Hx. destruct Hx as (it & Hit & Hx). specialize (H it Hit (Hf it Hit)). rewrite forallb_forall in H. auto.
Qed.
Lemma scope_bare root l : scope_ok root l = true -> scope_ok root (bare_items l) = true.
Proof.
  unfold scope_ok. cbv zeta. rewrite types_bare, units_bare, mentions_bare, !andb_true_iff. intros [H Hb]. split; [exact H|].
  revert Hb. apply forallb_bare. intros it _. apply beside_bare.
Qed.
Lemma item_bare it : item_ok it = true -> forallb item_ok (bare it) = true.
Proof.
  induction it as [it Hit|n l IH] using item_ind'; intros H.
  - destruct it; try reflexivity. destruct Hit.
  - cbn [item_ok] in H. apply andb_true_iff in H. destruct H as [H1 H2]. cbn [bare forallb item_ok]. fold (bare_items l).
    rewrite (scope_bare _ _ H1), andb_true_r. cbn [andb]. revert H2. apply forallb_bare. intros it Hin.
    rewrite Forall_forall in IH. exact (IH it Hin).
Qed.
Lemma items_ok_bare root l : items_ok root l = true -> items_ok root (bare_items l) = true.
Proof.
  unfold items_ok. rewrite !andb_true_iff. intros [H1 H2]. split; [apply scope_bare; exact H1|].
  revert H2. apply forallb_bare. intros it _. apply item_bare.
Qed.
Lemma holders_bare l m : holders (bare_items l) m = holders l m.
Proof. unfold holders. rewrite enums_bare. reflexivity. Qed.
Lemma item_env_bare it : forall h h' path, (forall m, h m = h' m) -> flat_map (item_env h path) (bare it) = item_env h' path it.
Proof.
  induction it as [it Hit|n l IH] using item_ind'; intros h h' path Hh.
  - destruct it; try reflexivity. destruct Hit.
  - cbn [bare flat_map item_env]. fold (bare_items l). rewrite app_nil_r, Hh. apply flat_map_ext. intros v.
    unfold bare_items. rewrite flat_map_flat_map. clear Hh.
    assert (Hl : forall l', (forall it, In it l' -> In it l) ->
      flat_map (fun x => flat_map (item_env (holders (flat_map bare l)) (path ++ [(n, v)])) (bare x)) l'
      = flat_map (item_env (holders l) (path ++ [(n, v)])) l').
    { induction l' as [|it l' IHl]; intros Hin; [reflexivity|]. cbn [flat_map]. rewrite Forall_forall in IH.
      rewrite (IH it (Hin it (or_introl eq_refl)) _ (holders l)) by apply holders_bare.
      rewrite IHl by (intros; apply Hin; right; assumption). reflexivity. }
    apply Hl. auto.
Qed.
Lemma items_env_bare l : items_env (bare_items l) = items_env l.
Proof.
  unfold items_env, bare_items at 2. rewrite flat_map_flat_map. apply flat_map_ext. intros it. apply item_env_bare, holders_bare.
Qed.
