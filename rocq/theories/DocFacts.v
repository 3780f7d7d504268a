(** * DocFacts: the documentation of the generated types *)
From Coq Require Import Permutation.
From Verif Require Import Base Core Trie Flat MiniRust Gen Items Spec SpecMatch SpecGen SpecItems SpecPath SpecCompile SpecDocs
  BaseFacts CompFacts FlatFacts MatchFacts MatchProps GenThms CompileFacts ItemText ItemFacts ItemThms PathThms BackThms ReachThms.

Lemma path_text_braced pat : path_text (fun p => lit "{" ++ p ++ lit "}") pat = join (map braced pat).
Proof.
  destruct pat as [|s pat]; [reflexivity|]. cbn [path_text map].
  change (match s with Static t => t | Dynamic d => lit "{" ++ p_name d ++ lit "}" end) with (braced s).
  revert s. induction pat as [|s' pat IH]; intros s; [apply app_nil_r|].
  cbn [map flat_map]. rewrite join_cons by discriminate. rewrite <- IH. reflexivity.
Qed.
Lemma action_doc_braced a r : a_method a = r_method r -> action_doc a = resource_doc (a_path a) r.
Proof.
  intros E. unfold action_doc, resource_doc, request_line. rewrite path_text_braced, E, <- !app_assoc. reflexivity.
Qed.

Lemma item_docs_module hs : forall m root path,
  flat_map (item_docs path) (module_items root hs m) =
  map (fun ma : list str * FlattenedAction =>
         (path ++ map to_snake_case (fst ma), to_caps_case (a_name (snd ma)), action_doc (snd ma)))
      (module_actions m).
Proof.
  induction m as [name acts mods IH] using FM_ind'. intros root path.
  rewrite items_flat by reflexivity. cbn [m_actions m_modules module_actions].
  cbn [flat_map action_items item_docs enum_items app]. rewrite map_app, map_map. cbn [fst snd map].
  rewrite !app_nil_r, flat_map_one. apply f_equal2.
  - apply map_ext. intros a. reflexivity.
  - rewrite concat_map, map_map, flat_map_concat_map. f_equal. apply map_ext_in. intros s Hs. rewrite (IH s Hs), map_map.
    apply map_ext. intros [ms a]. cbn [fst snd map pre]. rewrite <- app_assoc. reflexivity.
Qed.
Lemma items_documented c root : flattened_modules (c_routes c) = ROk root ->
  Permutation (items_docs (module_items true (c_headers c) root)) (config_docs (c_routes c)).
Proof.
  intros Hr. unfold items_docs. rewrite item_docs_module.
  destruct (flattened_modules_tree _ _ Hr) as (_ & _ & HP & _).
  eapply perm_trans; [apply Permutation_map; exact HP|]. match goal with |- Permutation ?x ?y => replace y with x; [apply Permutation_refl|] end.
  unfold config_actions, config_docs. rewrite flat_map_concat_map, concat_map, map_map. f_equal.
  apply map_ext. intros [[p q] b]. cbn [block_actions]. rewrite map_map. apply map_ext. intros r.
  unfold action_of. cbn [fst snd app]. rewrite (action_doc_braced _ r) by reflexivity. reflexivity.
Qed.

(** ** In the text *)
Lemma indent_four n ind : (ind ++ lit "    ") ++ spaces n = ind ++ spaces (4 + n).
Proof. rewrite <- app_assoc. reflexivity. Qed.
Lemma printed_at items path l it : module_at items path l -> In it l -> forall ind,
  exists before after,
    flat_map (pr_item ind) items = before ++ pr_item (ind ++ spaces (4 * length path)) it ++ after.
Proof.
  induction 1 as [items|items k l path l' Hin Hat IH]; intros Hit ind.
  - apply in_split in Hit. destruct Hit as (l1 & l2 & ->). rewrite flat_map_app. cbn [flat_map length Nat.mul spaces repeat].
    rewrite app_nil_r. eauto.
  - apply in_split in Hin. destruct Hin as (l1 & l2 & ->).
    destruct (IH Hit (ind ++ lit "    ")) as (b & a & E). rewrite flat_map_app. cbn [flat_map].
    cbn [pr_item]. rewrite E. rewrite indent_four.
    replace (4 * length (k :: path)) with (4 + 4 * length path) by (cbn [length]; lia).
    exists (flat_map (pr_item ind) l1 ++ [ind ++ lit "pub mod " ++ k ++ lit " {"] ++ b),
      (a ++ [ind ++ lit "}"] ++ flat_map (pr_item ind) l2).
    rewrite <- !app_assoc. reflexivity.
Qed.
Lemma action_at hs : forall m root ms a, In (ms, a) (module_actions m) ->
  exists l, module_at (module_items root hs m) (map to_snake_case ms) l /\ forall it, In it (action_items a) -> In it l.
Proof.
  induction m as [name acts mods IH] using FM_ind'. intros root ms a H. cbn [module_actions] in H.
  apply in_app_iff in H. destruct H as [H|H].
  - apply in_map_iff in H. destruct H as (a' & [= <- <-] & Ha). eexists. split; [constructor|].
    intros it Hit. cbn [module_items]. apply in_app_iff. right. apply in_app_iff. left. apply in_flat_map. eauto.
  - apply in_concat in H. destruct H as (l & Hl & H). apply in_map_iff in Hl. destruct Hl as (s & <- & Hs).
    apply in_map_iff in H. destruct H as ([ms' a'] & E & H). unfold pre in E. cbn [fst snd] in E. inversion E; subst.
    destruct (IH s Hs false ms' a H) as (l & Hl & Hit). exists l. split; [|exact Hit]. cbn [map].
    eapply module_inside; [|exact Hl]. cbn [module_items]. rewrite !in_app_iff. right. right. left.
    apply in_flat_map. exists s. split; [exact Hs|left; reflexivity].
Qed.
Lemma config_action c root pat q b r : flattened_modules (c_routes c) = ROk root ->
  block_at (c_routes c) pat q b -> In r (rt_resources b) -> r_is_redirect r = false ->
  In (action_of pat q r) (module_actions root).
Proof.
  intros Hr Hb Hin Hd. destruct (flattened_modules_tree _ _ Hr) as (_ & _ & HP & _).
  eapply Permutation_in; [symmetry; exact HP|]. apply blocks_at in Hb. eapply in_config_actions; eauto.
Qed.
Lemma unlines_app l l' : unlines (l ++ l') = unlines l ++ unlines l'.
Proof. unfold unlines. rewrite map_app, concat_app. reflexivity. Qed.
Lemma pr_items_unlines ind items : pr_items ind items = unlines (flat_map (pr_item ind) items).
Proof. reflexivity. Qed.
Lemma doc_printed c pat q b r : snd (codegen c) = ROk tt ->
  block_at (c_routes c) pat q b -> In r (rt_resources b) -> r_is_redirect r = false ->
  let ind := spaces (4 * S (length (r_modules r))) in
  exists before after,
    w_text (codegen c) =
      before ++ unlines [ ind ++ lit "/// " ++ resource_doc pat r; ind ++ lit "#[derive(Debug, PartialEq, Eq)]" ]
      ++ ind ++ lit "pub struct " ++ to_caps_case (r_name r) ++ after.
Proof.
  intros Hc Hb Hr Hd ind. destruct (items_text c Hc) as (root & l & body & H1 & _ & _ & _ & ->).
  pose proof (config_action c root pat q b r H1 Hb Hr Hd) as Ha. unfold action_of in Ha.
  destruct (action_at (c_headers c) root true _ _ Ha) as (l' & Hl & Hit).
  specialize (Hit _ (or_introl eq_refl)).
  destruct (printed_at _ _ _ _ Hl Hit (lit "    ")) as (b1 & a1 & E).
  rewrite pr_items_unlines, E. cbn [a_name a_route_params a_query_params].
  rewrite map_length.
  change (lit "    " ++ spaces (4 * length (r_modules r))) with (spaces (4 + 4 * length (r_modules r))).
  replace (4 + 4 * length (r_modules r)) with (4 * S (length (r_modules r))) by lia. fold ind.
  rewrite (action_doc_braced _ r) by reflexivity. cbn [a_path]. rewrite !unlines_app.
  set (fs := map _ (path_params pat) ++ _).
  assert (Hs : exists t, unlines (pr_item ind (ItStruct (resource_doc pat r) (to_caps_case (r_name r)) fs)) =
    unlines [ ind ++ lit "/// " ++ resource_doc pat r; ind ++ lit "#[derive(Debug, PartialEq, Eq)]" ]
    ++ ind ++ lit "pub struct " ++ to_caps_case (r_name r) ++ t).
  { cbn [pr_item]. rewrite unlines_app. destruct fs as [|f fs].
    - exists (lit ";" ++ [c_nl]). f_equal. unfold unlines. cbn [map concat]. rewrite app_nil_r, <- !app_assoc. reflexivity.
    - rewrite unlines_app. eexists. f_equal. unfold unlines at 1. cbn [map concat].
      rewrite app_nil_r, <- !app_assoc. reflexivity. }
  destruct Hs as (t & ->).
  exists (w_text (w_lines preamble1) ++ unlines (map (fun x => lit "    //! " ++ x) l) ++ w_text (w_lines preamble2) ++ unlines b1).
  eexists. rewrite <- !app_assoc. reflexivity.
Qed.

(** ** Filling in *)
Lemma fill_text values s t : ~ In c_lbrace s -> fill values None (s ++ t) = utf8 s ++ fill values None t.
Proof.
  unfold utf8. induction s as [|c s IH]; intros H; [reflexivity|]. cbn [app flat_map fill].
  destruct (N.eqb_spec c c_lbrace) as [->|_]; [destruct H; left; reflexivity|].
  rewrite IH, app_assoc by (intros Hs; apply H; right; exact Hs). reflexivity.
Qed.
Lemma fill_name values s t : ~ In c_rbrace s -> forall n,
  fill values (Some n) (s ++ c_rbrace :: t) = values (n ++ s) ++ fill values None t.
Proof.
  induction s as [|c s IH]; intros H n; cbn [app fill].
  - rewrite N.eqb_refl, app_nil_r. reflexivity.
  - destruct (N.eqb_spec c c_rbrace) as [->|_]; [destruct H; left; reflexivity|].
    rewrite IH, <- app_assoc by (intros Hs; apply H; right; exact Hs). reflexivity.
Qed.
Definition fillable (s : PathSegment) : Prop :=
  match s with
  | Static t => ascii_text t /\ ~ In c_lbrace t
  | Dynamic p => ~ In c_rbrace (p_name p)
  end.
Lemma fill_braced values s t : fillable s ->
  fill values None (braced s ++ t) = given values s ++ fill values None t.
Proof.
  destruct s as [s|p]; cbn [fillable braced given].
  - intros [Ha Hl]. rewrite fill_text, utf8_ascii_text by auto. reflexivity.
  - intros Hn. change (lit "{" ++ p_name p ++ lit "}") with (c_lbrace :: p_name p ++ [c_rbrace]).
    cbn [app fill]. rewrite N.eqb_refl, <- app_assoc. cbn [app]. rewrite fill_name by exact Hn. reflexivity.
Qed.
Lemma fill_join values pat : Forall fillable pat ->
  fill values None (lit "/" ++ join (map braced pat)) = c_slash :: join (map (given values) pat).
Proof.
  intros H. change (lit "/") with [c_slash]. rewrite fill_text by (intros [E|[]]; discriminate).
  change (utf8 [c_slash]) with [c_slash]. cbn [app]. f_equal.
  induction H as [|s pat Hs Hp IH]; [reflexivity|]. cbn [map]. destruct pat as [|s' pat].
  - cbn [map join]. rewrite <- (app_nil_r (braced s)), fill_braced by exact Hs. apply app_nil_r.
  - rewrite !join_cons by discriminate. rewrite fill_braced by exact Hs. f_equal.
    change (c_slash :: join (map braced (s' :: pat))) with ([c_slash] ++ join (map braced (s' :: pat))).
    rewrite fill_text by (intros [E|[]]; discriminate). rewrite IH. reflexivity.
Qed.
Lemma ident_no_brace s c : is_ident s = true -> In c s -> c <> c_lbrace /\ c <> c_rbrace /\ c <> c_slash.
Proof.
  intros H Hin. destruct s as [|x s]; [destruct Hin|]. unfold is_ident in H. rewrite !andb_true_iff in H.
  destruct H as [[[H1 H2] _] _]. rewrite forallb_forall in H2.
  assert (Hc : ident_start c = true \/ ident_char c = true).
  { destruct Hin as [<-|Hin]; auto. }
  clear - Hc. repeat split; intros ->; destruct Hc as [Hc|Hc]; vm_compute in Hc; discriminate.
Qed.

(** The documentation is inside braces only where a parameter is. *)
Lemma action_fillable c pat q b r : compiles c = true -> separate c \/ redirects_typed c ->
  block_at (c_routes c) pat q b -> In r (rt_resources b) -> r_is_redirect r = false ->
  (forall s, In (Static s) pat -> ~ In c_lbrace s) /\ (forall p, In (Dynamic p) pat -> is_ident (p_name p) = true).
Proof.
  intros Hc Hs Hb Hr Hd. destruct (compiles_weak c Hs Hc) as (_ & _ & Hn & _).
  assert (Hin : in_module c (r_modules r) (snd (action_of pat q r))).
  { apply blocks_at in Hb. exact (in_config_actions _ _ _ _ _ Hb Hr Hd). }
  split.
  - intros s Hst Hl. apply (gn_path c Hn _ _ s c_lbrace Hin Hst Hl). left. reflexivity.
  - intros p Hp. apply (gn_fields c Hn _ _ (p_name p) Hin). unfold fields. apply in_or_app. left.
    apply in_map. cbn [snd action_of a_route_params]. clear - Hp.
    induction pat as [|[s|p'] pat IH]; cbn [path_params]; [destruct Hp| |].
    + destruct Hp as [Hp|Hp]; [discriminate|auto].
    + destruct Hp as [[= ->]|Hp]; [left; reflexivity|right; auto].
Qed.
Lemma uncaptured_plain b pat segs : uncaptured b pat segs ->
  (forall p q x, emitted b p q x -> shape_ok x) -> forall s, In (Static s) pat -> ascii_text s.
Proof.
  induction 1 as [b|b s child pat segs Hin _ _ IH|b p child pat seg segs Hl _ _ IH]; intros He s' Hs; [destruct Hs| |].
  - destruct Hs as [[= ->]|Hs].
    + apply Forall_forall. intros c Hc. apply (so_plain b (He [] _ b (emitted_here b)) _ _ Hin). exact Hc.
    + apply IH; [|exact Hs]. intros p q x Hx. eapply He. eapply emitted_static; eauto.
  - destruct Hs as [Hs|Hs]; [discriminate|]. apply IH; [|exact Hs]. intros p' q x Hx. eapply He. eapply emitted_dynamic; eauto.
Qed.
Lemma doc_request {T E} (rt : runtime T E) c pat q b r a values :
  runnable c -> every_block plain_statics (c_routes c) ->
  block_at (c_routes c) pat q b -> r_is_redirect r = false ->
  first_resource_for (method_display (r_method r)) b r ->
  matches (rt_parse rt) pat (map (given values) pat) a ->
  uncaptured (c_routes c) pat (map (given values) pat) -> last (map (given values) pat) [c_slash] <> [] ->
  exists template, request_line pat r = method_display (r_method r) ++ lit " " ++ template /\
    match_route rt c (fill values None template) (method_display (r_method r)) = Some (RunResult (MRoute (route_for r q a))).
Proof.
  intros Hc Hp Hb Hd Hf Hm Hu Hl. exists (lit "/" ++ join (map braced pat)). split; [reflexivity|].
  rewrite fill_join.
  - rewrite (reach rt c _ pat q b r _ a) by assumption. unfold hit. rewrite Hd. reflexivity.
  - destruct Hc as (Hc & _ & Ht).
    destruct (action_fillable c pat q b r Hc (or_intror Ht) Hb (first_in _ _ _ Hf) Hd) as [H1 H2].
    destruct (compiles_typed c Ht Hc) as (_ & _ & _ & Hmo).
    pose proof (uncaptured_plain _ _ _ Hu (mo_shape c Hmo)) as H3.
    apply Forall_forall. intros [s|p] Hin; cbn [fillable]; [auto|].
    intros Hx. destruct (ident_no_brace _ _ (H2 p Hin) Hx) as (_ & Hn & _). apply Hn. reflexivity.
Qed.

(** ** Different resources have different documentation *)
Lemma braced_inj s s' : (forall t, s = Static t -> ~ In c_lbrace t) -> (forall t, s' = Static t -> ~ In c_lbrace t) ->
  braced s = braced s' -> untyped s = untyped s'.
Proof.
  intros H H'. destruct s as [s|p], s' as [s'|p']; cbn [braced untyped]; intros E.
  - congruence.
  - exfalso. apply (H s eq_refl). rewrite E. left. reflexivity.
  - exfalso. apply (H' s' eq_refl). rewrite <- E. left. reflexivity.
  - f_equal. apply app_inv_head in E. apply app_inv_tail in E. exact E.
Qed.
Lemma braced_untyped : forall pat pat', length pat = length pat' ->
  (forall s, In (Static s) (pat ++ pat') -> ~ In c_lbrace s) ->
  map braced pat = map braced pat' -> map untyped pat = map untyped pat'.
Proof.
  induction pat as [|s pat IH]; intros [|s' pat'] Hl H E; try discriminate; [reflexivity|].
  cbn [map] in *. pose proof (f_equal (hd []) E) as E1. pose proof (f_equal (@tl _) E) as E2. cbn [hd tl] in E1, E2. f_equal.
  - apply braced_inj; [| |exact E1].
    + intros t ->. apply H. left. reflexivity.
    + intros t ->. apply H. apply in_or_app. right. left. reflexivity.
  - apply IH; [simpl in Hl; congruence| |exact E2]. intros t Ht. apply H.
    apply in_app_iff in Ht. destruct Ht as [Ht|Ht]; [right; apply in_or_app; auto|].
    apply in_or_app. right. right. exact Ht.
Qed.
Lemma method_line_inj m m' t t' : method_display m ++ lit " /" ++ t = method_display m' ++ lit " /" ++ t' -> m = m' /\ t = t'.
Proof. destruct m, m'; intros E; vm_compute in E; try discriminate E; (split; [reflexivity|congruence]). Qed.
Lemma path_statics b pat q x : block_at b pat q x -> every_block plain_statics b ->
  forall s, In (Static s) pat -> s <> [] /\ ~ In c_slash s.
Proof.
  induction 1 as [b|b seg child p q x Hin Hb IH]; intros He s Hs; [destruct Hs|].
  destruct Hs as [->|Hs]; [exact (every_block_here _ _ He _ _ Hin)|].
  apply IH; auto. eapply every_block_child; eauto.
Qed.
Lemma doc_unique c pat q b r pat' q' b' r' : compiles c = true -> separate c \/ redirects_typed c ->
  every_block plain_statics (c_routes c) ->
  block_at (c_routes c) pat q b -> In r (rt_resources b) -> r_is_redirect r = false ->
  block_at (c_routes c) pat' q' b' -> In r' (rt_resources b') -> r_is_redirect r' = false ->
  resource_doc pat r = resource_doc pat' r' -> pat = pat' /\ b = b' /\ r_method r = r_method r'.
Proof.
  intros Hc Hs Hp Hb Hr Hd Hb' Hr' Hd' E. unfold resource_doc in E. apply app_inv_head in E. apply app_inv_tail in E.
  apply method_line_inj in E. destruct E as [Em E].
  destruct (action_fillable c pat q b r Hc Hs Hb Hr Hd) as [H1 H2].
  destruct (action_fillable c pat' q' b' r' Hc Hs Hb' Hr' Hd') as [H1' H2'].
  pose proof (path_statics _ _ _ _ Hb Hp) as Hst. pose proof (path_statics _ _ _ _ Hb' Hp) as Hst'.
  assert (Hsl : forall pat, (forall s, In (Static s) pat -> s <> [] /\ ~ In c_slash s) ->
    (forall p, In (Dynamic p) pat -> is_ident (p_name p) = true) -> slashless (map braced pat)).
  { clear. intros pat H1 H2. apply Forall_forall. intros x Hx. apply in_map_iff in Hx.
    destruct Hx as ([s|p] & <- & Hin); [apply H1; exact Hin|]. cbn [braced]. specialize (H2 p Hin). intros Hx.
    apply in_app_iff in Hx. destruct Hx as [[Hx|[]]|Hx]; [discriminate|].
    apply in_app_iff in Hx. destruct Hx as [Hx|[Hx|[]]]; [|discriminate].
    destruct (ident_no_brace _ _ H2 Hx) as (_ & _ & Hn). apply Hn. reflexivity. }
  pose proof (Hsl pat Hst H2) as S1. pose proof (Hsl pat' Hst' H2') as S2.
  assert (Hne : forall pat, (forall s, In (Static s) pat -> s <> [] /\ ~ In c_slash s) ->
    join (map braced pat) = [] -> pat = []).
  { clear. intros [|s pat] H E; [reflexivity|]. exfalso.
    assert (braced s <> []).
    { destruct s as [s|p]; [apply (H s); left; reflexivity|discriminate]. }
    cbn [map] in E. destruct pat; [cbn [map join] in E; auto|]. rewrite join_cons in E by discriminate.
    destruct (braced s); [auto|discriminate]. }
  assert (Hlen : length pat = length pat').
  { destruct pat as [|s pat].
    - cbn [map join] in E. rewrite (Hne pat' Hst' (eq_sym E)). reflexivity.
    - destruct pat' as [|s' pat']; [rewrite (Hne _ Hst E); reflexivity|].
      pose proof (join_slashes (map braced (s :: pat)) ltac:(discriminate) S1) as L1.
      pose proof (join_slashes (map braced (s' :: pat')) ltac:(discriminate) S2) as L2.
      rewrite E in L1. rewrite L1, !map_length in L2. exact L2. }
  assert (Eu : map untyped pat = map untyped pat').
  { apply braced_untyped; [exact Hlen| |apply join_inj; auto; rewrite !map_length; exact Hlen].
    intros s Hin. apply in_app_iff in Hin. destruct Hin; auto. }
  destruct (compiles_weak c Hs Hc) as ((_ & Hn & _) & _).
  apply blocks_at in Hb, Hb'. unfold block_paths_untyped in Hn.
  assert (Ee : (pat, q, b) = (pat', q', b')).
  { clear - Hn Hb Hb' Eu. induction (blocks (c_routes c)) as [|e l IH]; [destruct Hb|].
    cbn [map] in Hn. inversion Hn as [|? ? N1 N2]; subst.
    destruct Hb as [->|Hb], Hb' as [Hb'|Hb'].
    - exact Hb'.
    - exfalso. apply N1. cbn [fst]. rewrite Eu. apply in_map_iff. exists (pat', q', b'). auto.
    - exfalso. subst e. apply N1. cbn [fst]. rewrite <- Eu. apply in_map_iff. exists (pat, q, b). auto.
    - apply IH; auto. }
  inversion Ee; auto.
Qed.

(** ** The enums *)
Lemma in_items_mod_name hs root m k l : In (ItMod k l) (module_items root hs m) ->
  exists s, In s (m_modules m) /\ k = to_snake_case (m_name s) /\ l = module_items false hs s.
Proof.
  intros H. assert (Hin : In (k, l) (mods_of (module_items root hs m))).
  { unfold mods_of. apply in_flat_map. exists (ItMod k l). split; [exact H|left; reflexivity]. }
  rewrite items_mods_of in Hin. apply in_map_iff in Hin. destruct Hin as (s & [= <- <-] & Hs). eauto.
Qed.
Lemma enum_doc_of hs root m doc n vs : In (ItEnum doc n vs) (module_items root hs m) ->
  doc = enum_doc root (m_name m).
Proof.
  intros H. assert (Hin : In doc (flat_map (fun it => match it with ItEnum d _ _ => [d] | _ => [] end) (module_items root hs m))).
  { apply in_flat_map. eexists. split; [exact H|left; reflexivity]. }
  rewrite items_flat in Hin by reflexivity. cbn [flat_map action_items enum_items app] in Hin.
  rewrite (flat_map_nil _ (m_actions m)), (flat_map_nil _ (m_modules m)) in Hin by reflexivity.
  destruct Hin as [<-|[]]. reflexivity.
Qed.
Lemma last_from {A} : forall (l : list A) x d, last (x :: l) d = last l x.
Proof.
  induction l as [|y l IH]; intros x d; [reflexivity|].
  change (last (x :: y :: l) d) with (last (y :: l) d). rewrite !IH. reflexivity.
Qed.
Lemma enum_docs hs items path l : module_at items path l -> forall root m doc n vs, items = module_items root hs m ->
  In (ItEnum doc n vs) l ->
  doc = match path with
        | [] => enum_doc root (m_name m)
        | k :: ks => lit "Parameters for requests to the " ++ last ks k ++ lit " controller."
        end.
Proof.
  induction 1 as [items|items k l path l' Hin Hat IH]; intros root m doc n vs -> Hd.
  - eapply enum_doc_of. exact Hd.
  - apply in_items_mod_name in Hin. destruct Hin as (s & _ & -> & ->).
    rewrite (IH false s doc n vs eq_refl Hd). destruct path as [|k ks]; [reflexivity|].
    rewrite (last_from ks k). reflexivity.
Qed.
