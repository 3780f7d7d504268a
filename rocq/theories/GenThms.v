(** * GenThms: when generation succeeds, and what it writes *)
From Verif Require Import Base Core Trie Flat MiniRust Gen Spec SpecGen BaseFacts TrieFacts GenFacts
  ExecFacts NodeFacts FlatFacts MatchFacts.

(** ** [codegen_trie] never fails on the trie of a configuration *)
Definition dyn_ok (t : ctrie) : Prop :=
  forall x n c, subtrie x t -> In (CDynamic n, c) (t_children x) -> exists c', t_children c = [(CSeparator, c')].
Lemma dyn_ok_sub t x : dyn_ok t -> subtrie x t -> dyn_ok x.
Proof. intros H Hs y n c Hy. apply H. eapply subtrie_trans; eauto. Qed.
Lemma dyn_ok_child t k c : dyn_ok t -> In (k, c) (t_children t) -> dyn_ok c.
Proof. intros H Hin. eapply dyn_ok_sub; [exact H|]. eapply subtrie_child; eauto. Qed.
Lemma kind_dyn_ok t path : kind t path -> dyn_ok t.
Proof.
  intros K x n c Hs Hin. destruct (kind_sub _ _ Hs _ K) as [more Kx].
  destruct (kind_dynamic _ _ _ _ Kx Hin) as (p & c' & _ & Hc & _). eauto.
Qed.
Lemma subtrie_height {K V} (x t : Trie K V) : subtrie x t -> trie_height x <= trie_height t.
Proof.
  induction 1 as [|t k c Hin Hs IH]; auto. apply height_child in Hin. lia.
Qed.

Section Total.
Variable fuel : nat.
Hypothesis IH : forall t : ctrie, trie_height t <= fuel -> dyn_ok t -> exists b, gen_trie fuel t = ROk b.

Lemma gen_dynamic_total t n c : trie_height t <= S fuel -> dyn_ok t -> In (CDynamic n, c) (t_children t) ->
  exists b, gen_dynamic (gen_trie fuel) c n = ROk b.
Proof.
  intros Hh Hd Hin. destruct (Hd t n c (sub_refl _) Hin) as [c' Ec]. unfold gen_dynamic. rewrite Ec.
  pose proof (height_child _ _ _ Hin).
  destruct (IH c ltac:(lia) (dyn_ok_child _ _ _ Hd Hin)) as [b ->]. eexists. reflexivity.
Qed.
Lemma gen_arms_total t : trie_height t <= S fuel -> dyn_ok t -> forall l, incl l (t_children t) ->
  exists b, gen_arms (gen_trie fuel) l = ROk b.
Proof.
  intros Hh Hd. induction l as [|[k c] l IHl]; intros Hincl; [eexists; reflexivity|].
  cbn [gen_arms]. destruct (IHl (fun x Hx => Hincl x (or_intror Hx))) as [arms Ea].
  pose proof (Hincl _ (or_introl eq_refl)) as Hin. destruct k as [ch|n|].
  - pose proof (height_child _ _ _ Hin).
    destruct (IH c ltac:(lia) (dyn_ok_child _ _ _ Hd Hin)) as [b Eb]. rewrite Eb, Ea. eexists. reflexivity.
  - destruct (gen_dynamic_total _ _ _ Hh Hd Hin) as [b Eb]. rewrite Eb. eexists. reflexivity.
  - rewrite Ea. eexists. reflexivity.
Qed.
Lemma find_dynamic_none l : find_dynamic l = None -> forall n c, ~ In (CDynamic n, c) l.
Proof.
  induction l as [|[[ch|n|] c] l IHl]; simpl; intros H n' c' Hin; try discriminate; auto;
    destruct Hin as [E|Hin]; try discriminate; eapply IHl; eauto.
Qed.
Lemma unamb_dynamic t : 2 <= length (t_children t) -> fst (fst (unamb t)) <> [] ->
  find_dynamic (t_children t) <> None.
Proof.
  rewrite unamb_eq. intros Hl Hu Hn. pose proof (find_dynamic_none _ Hn) as Hd.
  destruct (existsb (fun c => is_separator (fst c)) (t_children t)) eqn:Es; [apply Hu; reflexivity|].
  assert (Hf : filter (fun c => is_static (fst c)) (t_children t) = t_children t).
  { clear -Hd Es. induction (t_children t) as [|[[ch|n|] c] l IHl]; auto.
    - cbn [filter fst is_static]. f_equal. apply IHl; auto. intros n c' Hin. apply (Hd n c'). right. exact Hin.
    - exfalso. apply (Hd n c). left. reflexivity.
    - discriminate. }
  rewrite Hf in Hu. destruct (Nat.eqb_spec (length (t_children t)) 1) as [E|E]; [lia|].
  apply Hu. reflexivity.
Qed.
Lemma gen_many_total t : trie_height t <= S fuel -> dyn_ok t -> 2 <= length (t_children t) ->
  exists b, gen_many (gen_trie fuel) t = ROk b.
Proof.
  intros Hh Hd Hl. unfold gen_many.
  pose proof (unamb_dynamic t Hl) as Hu. pose proof (unamb_sub (trie_height t) t (le_n _)) as Hs.
  assert (Hlt : fst (fst (unamb t)) <> [] -> trie_height (snd (unamb t)) < trie_height t).
  { rewrite unamb_eq. destruct (existsb _ (t_children t)); [simpl; congruence|].
    destruct (_ =? 1)%nat; [|simpl; congruence].
    destruct (the_static (t_children t)) as [[c t']|] eqn:Es; [|simpl; congruence].
    intros _. apply the_static_in in Es. pose proof (height_child _ _ _ Es).
    pose proof (subtrie_height _ _ (unamb_sub (trie_height t') t' (le_n _))).
    destruct (unamb t') as [[s l] t'']. simpl in *. lia. }
  destruct (unamb t) as [[u l] next] eqn:Eu. cbn [fst snd] in *.
  destruct u as [|u0 u].
  - destruct (gen_arms_total t Hh Hd (t_children t) (fun x H => H)) as [arms ->]. eexists. reflexivity.
  - specialize (Hlt ltac:(discriminate)).
    destruct (find_dynamic (t_children t)) as [[n c]|] eqn:Ed; [|exfalso; apply Hu; [discriminate|reflexivity]].
    apply find_dynamic_in in Ed.
    destruct (IH next ltac:(lia) (dyn_ok_sub _ _ Hd Hs)) as [b ->].
    destruct (gen_dynamic_total _ _ _ Hh Hd Ed) as [b' ->]. eexists. reflexivity.
Qed.
Lemma gen_children_total t : trie_height t <= S fuel -> dyn_ok t ->
  exists b, gen_children (gen_trie fuel) t = ROk b.
Proof.
  intros Hh Hd.
  assert (Hone : forall k c, t_children t = [(k, c)] -> exists b, gen_children (gen_trie fuel) t = ROk b).
  { intros k c E. assert (Hin : In (k, c) (t_children t)) by (rewrite E; left; reflexivity).
    pose proof (height_child _ _ _ Hin) as Hc. unfold gen_children. rewrite E. destruct k as [ch|n|].
    - pose proof (chase_sub (trie_height c) c (le_n _)) as Hs. pose proof (subtrie_height _ _ Hs) as Hx.
      destruct (chase c) as [more c']. cbn [snd] in *.
      destruct (IH c' ltac:(lia)) as [b ->].
      { eapply dyn_ok_sub; [|exact Hs]. eapply dyn_ok_child; eauto. }
      eexists. reflexivity.
    - destruct (gen_dynamic_total _ _ _ Hh Hd Hin) as [b ->]. eexists. reflexivity.
    - destruct (IH c ltac:(lia) (dyn_ok_child _ _ _ Hd Hin)) as [b ->]. eexists. reflexivity. }
  assert (Hm : 2 <= length (t_children t) -> gen_children (gen_trie fuel) t = gen_many (gen_trie fuel) t).
  { unfold gen_children. destruct (t_children t) as [|[k c] [|x l]]; simpl; intros H; try lia. destruct k; reflexivity. }
  destruct (t_children t) as [|[k c] [|x l]] eqn:E.
  - unfold gen_children. rewrite E. eexists. reflexivity.
  - eauto.
  - rewrite Hm by (simpl; lia). apply gen_many_total; auto. rewrite E. simpl. lia.
Qed.
End Total.
Lemma gen_trie_total fuel : forall t : ctrie, trie_height t <= fuel -> dyn_ok t -> exists b, gen_trie fuel t = ROk b.
Proof.
  induction fuel as [|fuel IH]; intros t Hh Hd; [destruct t; simpl in Hh; lia|].
  cbn [gen_trie]. destruct (gen_children_total fuel IH t Hh Hd) as [b ->]. eexists. reflexivity.
Qed.
Lemma gen_trie_config b t : to_trie (flattened_routes b) = ROk t ->
  exists body, gen_trie (S (trie_height t)) t = ROk body.
Proof.
  intros Ht. apply gen_trie_total; [lia|]. apply (kind_dyn_ok t []).
  apply (kind_block t b [] []). exact (to_trie_node _ _ Ht).
Qed.

(** ** Paths without types *)
Lemma static_chars s : forall s' r r', map CStatic s ++ CSeparator :: r = map CStatic s' ++ CSeparator :: r' ->
  s = s' /\ r = r'.
Proof.
  induction s as [|c s IH]; intros [|c' s'] r r' H; simpl in H; try discriminate.
  - injection H as ->. auto.
  - injection H as -> H. apply IH in H. destruct H as [-> ->]. auto.
Qed.
Lemma segment_iter_inj s s' r r' : segment_iter s ++ r = segment_iter s' ++ r' ->
  untyped s = untyped s' /\ r = r'.
Proof.
  destruct s as [s|p], s' as [s'|p']; simpl; rewrite <- ?app_assoc; cbn [app]; intros H.
  - apply static_chars in H. destruct H as [-> ->]. auto.
  - destruct s; discriminate.
  - destruct s'; discriminate.
  - injection H as -> ->. auto.
Qed.
Lemma segment_iter_ne s : segment_iter s <> [].
Proof. destruct s as [[|c s]|p]; discriminate. Qed.
Lemma path_iter_untyped : forall p p', path_iter p = path_iter p' <-> map untyped p = map untyped p'.
Proof.
  unfold path_iter. induction p as [|s p IH]; intros [|s' p']; simpl.
  - tauto.
  - split; [|discriminate]. intros H. symmetry in H. apply app_eq_nil in H. destruct H as [H _].
    destruct (segment_iter_ne _ H).
  - split; [|discriminate]. intros H. apply app_eq_nil in H. destruct H as [H _].
    destruct (segment_iter_ne _ H).
  - split; intros H.
    + apply segment_iter_inj in H. destruct H as [H1 H2]. rewrite H1. f_equal. apply IH. exact H2.
    + injection H as H1 H2. apply IH in H2. rewrite H2. f_equal.
      destruct s, s'; simpl in H1; try discriminate; injection H1 as H1; simpl; rewrite H1; reflexivity.
Qed.
Lemma NoDup_map_iff {A B C} (f : A -> B) (g : A -> C) l :
  (forall x y, f x = f y <-> g x = g y) -> NoDup (map f l) <-> NoDup (map g l).
Proof.
  intros H. induction l as [|x l IH]; simpl; [split; constructor|].
  assert (Hin : In (f x) (map f l) <-> In (g x) (map g l)).
  { rewrite !in_map_iff. split; intros (y & E & Hy); exists y; split; auto; apply H; auto. }
  split; inversion 1 as [|? ? H1 H2]; subst; constructor; tauto.
Qed.
Lemma to_trie_untyped b :
  (exists t, to_trie (flattened_routes b) = ROk t) <-> NoDup (block_paths_untyped b).
Proof.
  rewrite to_trie_nodup, flattened_routes_blocks, map_map. unfold block_paths_untyped.
  rewrite (NoDup_map_iff _ (fun e : list PathSegment * list Param * Routes => map untyped (fst (fst e)))).
  - reflexivity.
  - intros [[p q] x] [[p' q'] x']. cbn [entry_route f_path fst]. apply path_iter_untyped.
Qed.
Lemma struct_names_actions b :
  struct_names b = map (fun e : list str * FlattenedAction => (fst e, a_name (snd e))) (config_actions b).
Proof.
  unfold struct_names, config_actions. rewrite concat_map, map_map. f_equal. apply map_ext.
  intros [[p q] x]. unfold block_actions. rewrite map_map. reflexivity.
Qed.
Lemma flattened_modules_names b :
  ((exists root, flattened_modules b = ROk root) /\ NoDup (struct_names b)) \/
  ((exists p, flattened_modules b = RPanic p /\ (p = PanicUnwrapNone \/ p = PanicDuplicateAction)) /\
   ~ NoDup (struct_names b)).
Proof.
  rewrite struct_names_actions. unfold flattened_modules. pose proof (modules_loop_root b) as H.
  destruct (modules_loop _ _ _) as [m| |p|]; cbn [rbind]; try contradiction.
  - left. split; [eauto|apply H].
  - right. destruct H as [H1 H2]. split; [exists p; split; [reflexivity|exact H1]|exact H2].
Qed.

(** ** The documentation *)
Lemma stringify_empty b : routes_stringify 1 b = [] <-> empty_block b.
Proof.
  unfold empty_block. destruct b as [rs ch qs]. cbn [routes_stringify rt_query rt_resources rt_routes].
  split.
  - intros H. apply app_eq_nil in H. destruct H as [H1 H]. apply app_eq_nil in H. destruct H as [H2 H3].
    split; [|split].
    + destruct qs; auto. discriminate.
    + destruct rs; auto. discriminate.
    + destruct ch as [|[seg child] ch]; auto. discriminate.
  - intros (-> & -> & ->). reflexivity.
Qed.
(** A text made of complete lines. *)
Definition complete_lines (s : str) : Prop :=
  exists l, s = unlines l /\ Forall (fun x => ~ In c_nl x) l.
Lemma lines_nil : complete_lines [].
Proof. exists []. split; [reflexivity|constructor]. Qed.
Lemma lines_app s t : complete_lines s -> complete_lines t -> complete_lines (s ++ t).
Proof.
  intros (l & -> & Hl) (l' & -> & Hl'). exists (l ++ l'). split.
  - unfold unlines. rewrite map_app, concat_app. reflexivity.
  - apply Forall_app; auto.
Qed.
Lemma lines_nl s : complete_lines (s ++ [c_nl]).
Proof.
  enough (forall pre, ~ In c_nl pre -> complete_lines (pre ++ s ++ [c_nl])) as H by (apply (H []); auto).
  induction s as [|c s IH]; intros pre Hp.
  - exists [pre]. split; [unfold unlines; simpl; rewrite app_nil_r; reflexivity|].
    constructor; [exact Hp|constructor].
  - destruct (N.eq_dec c c_nl) as [->|Hn].
    + replace (pre ++ (c_nl :: s) ++ [c_nl]) with ((pre ++ [c_nl]) ++ s ++ [c_nl])
        by (rewrite <- app_assoc; reflexivity).
      apply lines_app; [|apply (IH []); auto].
      exists [pre]. split; [unfold unlines; simpl; rewrite app_nil_r; reflexivity|].
      constructor; [exact Hp|constructor].
    + replace (pre ++ (c :: s) ++ [c_nl]) with ((pre ++ [c]) ++ s ++ [c_nl])
        by (rewrite <- app_assoc; reflexivity).
      apply IH. rewrite in_app_iff. simpl. intros [H|[H|[]]]; auto.
Qed.
Lemma lines_concat {A} (f : A -> str) l : (forall x, In x l -> complete_lines (f x)) ->
  complete_lines (concat (map f l)).
Proof.
  induction l as [|x l IH]; intros H; [apply lines_nil|]. simpl. apply lines_app.
  - apply H. left. reflexivity.
  - apply IH. intros y Hy. apply H. right. exact Hy.
Qed.
Lemma stringify_lines : forall b n, complete_lines (routes_stringify n b).
Proof.
  induction b as [rs ch qs IH] using Routes_ind'. intros n. cbn [routes_stringify].
  apply lines_app; [|apply lines_app].
  - apply lines_concat. intros p _. rewrite !app_assoc. apply lines_nl.
  - apply lines_concat. intros r _. unfold resource_stringify. rewrite !app_assoc. apply lines_nl.
  - apply lines_concat. intros [seg child] Hin. rewrite app_assoc, app_assoc.
    apply lines_app; [apply lines_nl|]. rewrite Forall_forall in IH. exact (IH _ Hin (S n)).
Qed.
Lemma replace_app a t s s' : replace_char a t (s ++ s') = replace_char a t s ++ replace_char a t s'.
Proof. induction s as [|c s IH]; simpl; auto. rewrite IH, app_assoc. reflexivity. Qed.
Lemma replace_none a t s : ~ In a s -> replace_char a t s = s.
Proof.
  induction s as [|c s IH]; simpl; intros H; auto.
  destruct (N.eqb_spec c a) as [->|_]; [exfalso; apply H; auto|]. simpl. f_equal. apply IH. tauto.
Qed.
Lemma replace_lines l : Forall (fun x => ~ In c_nl x) l ->
  doc_prefix ++ replace_char c_nl (nl ++ doc_prefix) (unlines l) =
  unlines (map (fun x => doc_prefix ++ x) l) ++ doc_prefix.
Proof.
  induction 1 as [|x l Hx Hl IH]; [reflexivity|].
  unfold unlines. cbn [map concat]. fold (unlines l). fold (unlines (map (fun x => doc_prefix ++ x) l)).
  rewrite !replace_app, (replace_none _ _ _ Hx). cbn [replace_char]. rewrite N.eqb_refl, app_nil_r.
  change nl with [c_nl] in IH |- *. rewrite <- !app_assoc. rewrite IH. reflexivity.
Qed.
Lemma write_doc_lines b l : ~ empty_block b -> routes_stringify 1 b = unlines l ->
  Forall (fun x => ~ In c_nl x) l ->
  write_doc b = w (unlines (map (fun x => doc_prefix ++ x) l)).
Proof.
  intros Hne Hl Hf. unfold write_doc. rewrite Hl.
  pose proof (replace_lines l Hf) as H.
  set (s := replace_char c_nl (nl ++ doc_prefix) (unlines l)) in *.
  destruct l as [|x l]; [exfalso; apply Hne, stringify_empty; exact Hl|].
  assert (H8 : length doc_prefix = 8) by reflexivity.
  assert (Hs : exists u, s = u ++ doc_prefix /\ unlines (map (fun x => doc_prefix ++ x) (x :: l)) = doc_prefix ++ u).
  { unfold unlines in H at 1. cbn [map concat] in H. rewrite <- !app_assoc in H.
    apply app_inv_head in H. rewrite H.
    exists (x ++ [c_nl] ++ unlines (map (fun x => doc_prefix ++ x) l)). unfold unlines. cbn [map concat].
    rewrite <- !app_assoc. split; reflexivity. }
  destruct Hs as (u & -> & ->). rewrite app_length, H8.
  destruct (Nat.ltb_spec (length u + 8) 8) as [H0|_]; [lia|].
  replace (length u + 8 - 8) with (length u + 0) by lia. rewrite firstn_app_2.
  cbn [firstn]. rewrite app_nil_r. reflexivity.
Qed.
Lemma write_doc_ok b : ~ empty_block b -> snd (write_doc b) = ROk tt.
Proof.
  intros H. destruct (stringify_lines b 1) as (l & Hl & Hf). rewrite (write_doc_lines _ _ H Hl Hf). reflexivity.
Qed.
Lemma write_doc_panics b : empty_block b -> snd (write_doc b) = RPanic PanicSlice.
Proof. intros H. apply stringify_empty in H. unfold write_doc. rewrite H. reflexivity. Qed.

(** ** Status of the generator *)
Lemma seq_ok a b : snd a = ROk tt -> snd (a >> b) = snd b /\ w_text (a >> b) = w_text a ++ w_text b.
Proof.
  destruct a as [l [[]| | |]], b as [l' st]; simpl; try discriminate. intros _.
  split; auto. unfold w_text. simpl. apply concat_app.
Qed.
Lemma seq_fail a b : snd a <> ROk tt -> snd (a >> b) = snd a.
Proof. destruct a as [l [[]| | |]]; simpl; congruence. Qed.
Lemma all_ok l : Forall (fun a => snd a = ROk tt) l -> snd (w_all l) = ROk tt.
Proof.
  induction 1 as [|a l Ha _ IH]; [reflexivity|]. cbn [w_all]. rewrite (proj1 (seq_ok _ _ Ha)). exact IH.
Qed.
Lemma all_map_ok {A} (f : A -> W) l : (forall x, In x l -> snd (f x) = ROk tt) -> snd (w_all (map f l)) = ROk tt.
Proof. intros H. apply all_ok. apply Forall_forall. intros a Ha. apply in_map_iff in Ha. destruct Ha as (x & <- & Hx). auto. Qed.
Lemma lines_ok l : snd (w_lines l) = ROk tt.
Proof. apply all_map_ok. reflexivity. Qed.
Ltac seqs := repeat first
  [ reflexivity
  | match goal with |- snd (?a >> ?b) = ROk tt =>
      let H := fresh in assert (H : snd a = ROk tt); [|rewrite (proj1 (seq_ok a b H)); clear H] end
  | apply all_map_ok; intros ? _; reflexivity ].
Lemma write_path_ok dyn l : snd (write_path dyn l) = ROk tt.
Proof.
  induction l as [|[c|p|] l IH]; simpl; [reflexivity| | |].
  - destruct (write_path dyn l) as [x st]. exact IH.
  - destruct (write_path dyn l) as [x st]. exact IH.
  - destruct l as [|c l]; [exact IH|]. destruct (write_path dyn (c :: l)) as [x st]. exact IH.
Qed.
Lemma write_action_ok ind a : snd (write_action ind a) = ROk tt.
Proof.
  unfold write_action. seqs; try apply write_path_ok.
  - destruct (a_route_params a), (a_query_params a); seqs.
  - destruct (a_route_params a), (a_query_params a); seqs.
Qed.
Lemma write_route_enum_ok ind m : snd (write_route_enum ind m) = ROk tt.
Proof. unfold write_route_enum. seqs. destruct (str_eqb ind (lit "    ")); reflexivity. Qed.
Fixpoint FlattenedModule_ind' (P : FlattenedModule -> Prop)
  (H : forall name acts mods, (forall s, In s mods -> P s) -> P (mkModule name acts mods)) m {struct m} : P m :=
  match m with
  | mkModule name acts mods =>
      H name acts mods
        ((fix go l : forall s, In s l -> P s :=
            match l with
            | [] => fun s (Hin : In s []) => match Hin with end
            | x :: l' => fun s (Hin : In s (x :: l')) =>
                match Hin with
                | or_introl E => eq_ind x P (FlattenedModule_ind' P H x) s E
                | or_intror Hin' => go l' s Hin'
                end
            end) mods)
  end.
Lemma codegen_module_ok headers : forall m ind, snd (codegen_module headers m ind) = ROk tt.
Proof.
  induction m as [name acts mods IH] using FlattenedModule_ind'. intros ind. cbn [codegen_module].
  seqs.
  - unfold write_headers. seqs. destruct headers; reflexivity.
  - apply all_map_ok. intros a _. apply write_action_ok.
  - apply all_map_ok. intros s Hs. seqs. apply IH. exact Hs.
  - apply write_route_enum_ok.
Qed.
Lemma codegen_trie_text c t body : to_trie (flattened_routes (c_routes c)) = ROk t ->
  gen_trie (S (trie_height t)) t = ROk body ->
  snd (codegen_trie (S (trie_height t)) t 2) = ROk tt /\
  w_text (codegen_trie (S (trie_height t)) t 2) = pr_block 2 body.
Proof.
  intros Ht Hb. pose proof (codegen_trie_renders (S (trie_height t)) t 2) as H. rewrite Hb in H. exact H.
Qed.
Lemma codegen_ok c : generates c -> snd (codegen c) = ROk tt.
Proof.
  intros (H1 & H2 & H3). unfold codegen.
  destruct (flattened_modules_names (c_routes c)) as [[[root ->] _]|[_ H]]; [|contradiction].
  apply to_trie_untyped in H2. destruct H2 as [t Ht]. rewrite Ht.
  destruct (gen_trie_config _ _ Ht) as [body Hb].
  seqs; try apply lines_ok.
  - apply write_doc_ok. exact H3.
  - apply codegen_module_ok.
  - apply (codegen_trie_text c t body Ht Hb).
Qed.
Lemma codegen_panics c :
  (~ NoDup (struct_names (c_routes c)) ->
   snd (codegen c) = RPanic PanicUnwrapNone \/ snd (codegen c) = RPanic PanicDuplicateAction) /\
  (NoDup (struct_names (c_routes c)) -> empty_block (c_routes c) -> snd (codegen c) = RPanic PanicSlice) /\
  (NoDup (struct_names (c_routes c)) -> ~ empty_block (c_routes c) ->
   ~ NoDup (block_paths_untyped (c_routes c)) -> snd (codegen c) = RPanic PanicDuplicatePath).
Proof.
  unfold codegen.
  destruct (flattened_modules_names (c_routes c)) as [[[root ->] H1]|[(p & -> & Hp) H1]].
  - split; [contradiction|].
    rewrite (proj1 (seq_ok _ _ (lines_ok preamble1))). split; intros _ H2.
    + apply write_doc_panics in H2. rewrite seq_fail; congruence.
    + intros H3. rewrite (proj1 (seq_ok _ _ (write_doc_ok _ H2))).
      rewrite (proj1 (seq_ok _ _ (lines_ok preamble2))).
      rewrite (proj1 (seq_ok _ _ (codegen_module_ok _ _ _))).
      rewrite (proj1 (seq_ok (wl []) _ eq_refl)).
      rewrite (proj1 (seq_ok _ _ (lines_ok boilerplate))).
      destruct (to_trie_dup (c_routes c)) as [[t Ht]|E].
      * exfalso. apply H3. apply to_trie_untyped. eauto.
      * rewrite E. reflexivity.
  - split; [|split; contradiction]. intros _. destruct Hp as [-> | ->]; [left|right]; reflexivity.
Qed.
Lemma generates_dec c : generates c \/ ~ generates c.
Proof.
  assert (D1 : forall l : list (list str * str), NoDup l \/ ~ NoDup l).
  { intros l. destruct (ListDec.NoDup_dec (ltac:(repeat decide equality) : forall x y : list str * str, {x = y} + {x <> y}) l); auto. }
  assert (D2 : forall l : list (list (str + str)), NoDup l \/ ~ NoDup l).
  { intros l. destruct (ListDec.NoDup_dec (ltac:(repeat decide equality) : forall x y : list (str + str), {x = y} + {x <> y}) l); auto. }
  unfold generates. destruct (D1 (struct_names (c_routes c))); [|tauto].
  destruct (D2 (block_paths_untyped (c_routes c))); [|tauto].
  assert (De : empty_block (c_routes c) \/ ~ empty_block (c_routes c)).
  { rewrite <- stringify_empty. destruct (routes_stringify 1 (c_routes c)); [left|right]; congruence. }
  destruct De; tauto.
Qed.
Lemma codegen_status c :
  (generates c /\ snd (codegen c) = ROk tt) \/ (~ generates c /\ exists p, snd (codegen c) = RPanic p).
Proof.
  destruct (generates_dec c) as [H|H]; [left|right]; split; auto using codegen_ok.
  destruct (codegen_panics c) as (P1 & P2 & P3). unfold generates in H.
  destruct (flattened_modules_names (c_routes c)) as [[_ H1]|[_ H1]].
  - destruct (to_trie_dup (c_routes c)) as [Ht|Ht].
    + apply to_trie_untyped in Ht. exists PanicSlice. apply P2; auto.
      rewrite <- stringify_empty. destruct (routes_stringify 1 (c_routes c)) eqn:E; auto.
      exfalso. apply H. split; [exact H1|]. split; [exact Ht|]. rewrite <- stringify_empty. congruence.
    + assert (H2 : ~ NoDup (block_paths_untyped (c_routes c))).
      { rewrite <- to_trie_untyped. intros [t E]. congruence. }
      destruct (routes_stringify 1 (c_routes c)) as [|x l] eqn:E.
      * exists PanicSlice. apply P2; auto. apply stringify_empty. exact E.
      * exists PanicDuplicatePath. apply P3; auto. rewrite <- stringify_empty. congruence.
  - destruct (P1 H1) as [E|E]; eauto.
Qed.

(** ** The whole text *)
Lemma codegen_text c : snd (codegen c) = ROk tt ->
  exists root l body,
    flattened_modules (c_routes c) = ROk root /\
    routes_stringify 1 (c_routes c) = unlines l /\ Forall (fun x => ~ In c_nl x) l /\
    gen_program c = ROk body /\
    w_text (codegen c) =
      w_text (w_lines preamble1)
      ++ unlines (map (fun x => doc_prefix ++ x) l)
      ++ w_text (w_lines preamble2)
      ++ w_text (codegen_module (c_headers c) root (lit "    "))
      ++ nl
      ++ w_text (w_lines boilerplate)
      ++ pr_block 2 body
      ++ unlines [lit "    }"; []; lit "} // mod routes"].
Proof.
  intros H. destruct (codegen_status c) as [[(H1 & H2 & H3) _]|[_ [p Hp]]]; [|congruence]. clear H.
  destruct (flattened_modules_names (c_routes c)) as [[[root Hr] _]|[_ Hx]]; [|contradiction].
  apply to_trie_untyped in H2. destruct H2 as [t Ht]. destruct (gen_trie_config _ _ Ht) as [body Hb].
  destruct (stringify_lines (c_routes c) 1) as (l & Hl & Hf).
  exists root, l, body. split; [exact Hr|]. split; [exact Hl|]. split; [exact Hf|].
  split; [unfold gen_program; rewrite Ht; exact Hb|].
  unfold codegen. rewrite Hr, Ht, (write_doc_lines _ _ H3 Hl Hf).
  destruct (codegen_trie_text c t body Ht Hb) as [E1 E2].
  rewrite (proj2 (seq_ok _ _ (lines_ok preamble1))). f_equal.
  rewrite (proj2 (seq_ok (w _) _ eq_refl)). f_equal.
  { unfold w_text. simpl. apply app_nil_r. }
  rewrite (proj2 (seq_ok _ _ (lines_ok preamble2))). f_equal.
  rewrite (proj2 (seq_ok _ _ (codegen_module_ok _ _ _))). f_equal.
  rewrite (proj2 (seq_ok (wl []) _ eq_refl)). f_equal.
  rewrite (proj2 (seq_ok _ _ (lines_ok boilerplate))). f_equal.
  rewrite (proj2 (seq_ok _ _ E1)). rewrite E2. reflexivity.
Qed.

(** ** Arbitrary writers *)
Lemma run_chunks_spec wr l : forall st,
  (run_chunks wr st l = (concat l, true)) \/
  (exists t, run_chunks wr st l = (t, false) /\ is_prefix_of t (concat l)).
Proof.
  induction l as [|s l IH]; intros st; [left; reflexivity|]. cbn [run_chunks concat].
  destruct (wr_write wr st s) as [st'|n].
  - destruct (IH st') as [E|(t & E & u & Hu)]; rewrite E.
    + left. reflexivity.
    + right. exists (s ++ t). split; auto. exists u. rewrite Hu, app_assoc. reflexivity.
  - right. eexists. split; [reflexivity|]. exists (skipn n s ++ concat l).
    rewrite app_assoc, firstn_skipn. reflexivity.
Qed.
Lemma run_on_spec wr a :
  (run_on wr a = (w_text a, snd a)) \/
  (exists t, run_on wr a = (t, RErr WriterError) /\ is_prefix_of t (w_text a)).
Proof.
  unfold run_on, w_text. destruct (run_chunks_spec wr (fst a) (wr_init wr)) as [->|(t & -> & Ht)]; [left|right]; eauto.
Qed.
Lemma run_on_total wr a : (forall st s, exists st', wr_write wr st s = inl st') ->
  run_on wr a = (w_text a, snd a).
Proof.
  intros H. unfold run_on, w_text. generalize (wr_init wr). induction (fst a) as [|s l IH]; intros st; [reflexivity|].
  cbn [run_chunks concat]. destruct (H st s) as [st' ->]. specialize (IH st').
  destruct (run_chunks wr st' l) as [t ok]. injection IH as -> E. rewrite E. reflexivity.
Qed.
Lemma run_chunks_failing wr l1 s l2 n : forall st st1,
  accepts wr st l1 st1 -> wr_write wr st1 s = inr n ->
  run_chunks wr st (l1 ++ s :: l2) = (concat l1 ++ firstn n s, false).
Proof.
  induction l1 as [|a l1 IH]; intros st st1 H Hn; inversion H; subst.
  - cbn [app run_chunks concat]. rewrite Hn. reflexivity.
  - cbn [app run_chunks concat]. match goal with H : wr_write _ _ a = _ |- _ => rewrite H end.
    erewrite IH by eassumption. rewrite <- app_assoc. reflexivity.
Qed.
Lemma run_on_failing wr a l1 s l2 st n :
  fst a = l1 ++ s :: l2 -> accepts wr (wr_init wr) l1 st -> wr_write wr st s = inr n ->
  run_on wr a = (concat l1 ++ firstn n s, RErr WriterError).
Proof. intros E H Hn. unfold run_on. rewrite E. erewrite run_chunks_failing by eassumption. reflexivity. Qed.
Lemma run_on_accepts wr a st : accepts wr (wr_init wr) (fst a) st -> run_on wr a = (w_text a, snd a).
Proof.
  unfold run_on, w_text. generalize (wr_init wr). induction (fst a) as [|s l IH]; intros st0 H; inversion H; subst; [reflexivity|].
  cbn [run_chunks concat]. match goal with H : wr_write _ _ s = _ |- _ => rewrite H end.
  match goal with H : accepts _ _ l _ |- _ => specialize (IH _ H) end.
  match goal with |- context [run_chunks wr ?x l] => destruct (run_chunks wr x l) as [t ok] end. injection IH as -> E. rewrite E. reflexivity.
Qed.

(** ** Case conversion *)
Lemma to_lower_not_upper c : is_upper (to_lower c) = false.
Proof.
  unfold to_lower, is_upper. destruct ((65 <=? c) && (c <=? 90))%N eqn:E; auto.
  apply andb_true_iff in E. rewrite N.leb_le, N.leb_le in E.
  apply andb_false_iff. right. apply N.leb_gt. lia.
Qed.
Lemma to_upper_not_lower c : is_lower (to_upper c) = false.
Proof.
  unfold to_upper, is_lower. destruct ((97 <=? c) && (c <=? 122))%N eqn:E; auto.
  apply andb_true_iff in E. rewrite N.leb_le, N.leb_le in E.
  apply andb_false_iff. left. apply N.leb_gt. lia.
Qed.
Lemma snake_no_upper s c : In c (to_snake_case s) -> is_upper c = false.
Proof.
  assert (H : forall l, In c (snake_loop l) -> is_upper c = false).
  { induction l as [|x l IH]; simpl; [tauto|]. destruct (is_upper x) eqn:E; simpl.
    - intros [<-|[<-|H]]; auto. apply to_lower_not_upper.
    - intros [<-|H]; auto. }
  destruct s as [|x s]; [intros []|]. apply H.
Qed.
Lemma snake_same s : (forall c, In c s -> is_upper c = false) -> to_snake_case s = s.
Proof.
  intros H. assert (Hl : forall l, (forall c, In c l -> is_upper c = false) -> snake_loop l = l).
  { induction l as [|x l IH]; simpl; intros Hx; auto. rewrite (Hx x) by auto. f_equal. apply IH. auto. }
  destruct s as [|x s]; [reflexivity|]. unfold to_snake_case.
  assert (E : to_lower x = x) by (unfold to_lower; rewrite (H x) by (left; reflexivity); reflexivity).
  rewrite E. apply Hl. exact H.
Qed.
Lemma snake_idem s : to_snake_case (to_snake_case s) = to_snake_case s.
Proof. apply snake_same. intros c. apply snake_no_upper. Qed.
Lemma caps_head s c t : to_caps_case s = c :: t -> is_lower c = false.
Proof.
  destruct s as [|x s]; [discriminate|]. unfold to_caps_case. cbn [caps_loop].
  destruct (N.eqb (to_upper x) c_under).
  - destruct s as [|y s]; [discriminate|]. intros [= <- _]. apply to_upper_not_lower.
  - intros [= <- _]. apply to_upper_not_lower.
Qed.

Lemma codegen_program_text c : snd (codegen c) = ROk tt ->
  exists head body,
    gen_program c = ROk body /\
    w_text (codegen c) = head ++ w_text (w_lines boilerplate) ++ pr_block 2 body
                         ++ unlines [lit "    }"; []; lit "} // mod routes"].
Proof.
  intros H. destruct (codegen_text c H) as (root & l & body & _ & _ & _ & Hb & ->).
  exists (w_text (w_lines preamble1) ++ unlines (map (fun x => doc_prefix ++ x) l)
          ++ w_text (w_lines preamble2) ++ w_text (codegen_module (c_headers c) root (lit "    ")) ++ nl), body.
  split; [exact Hb|]. generalize (w_text (w_lines preamble1)) (w_text (w_lines preamble2))
    (w_text (w_lines boilerplate)) (w_text (codegen_module (c_headers c) root (lit "    "))).
  intros. rewrite <- !app_assoc. reflexivity.
Qed.
Lemma preamble2_head : is_prefix_of (lit "    //! ```" ++ nl) (w_text (w_lines preamble2)).
Proof. eexists. vm_compute. reflexivity. Qed.
Lemma codegen_doc c : snd (codegen c) = ROk tt ->
  exists lines rest,
    unlines lines = routes_stringify 1 (c_routes c) /\ Forall (fun x => ~ In c_nl x) lines /\
    w_text (codegen c) =
      w_text (w_lines preamble1) ++ unlines (map (fun x => lit "    //! " ++ x) lines) ++ rest /\
    is_prefix_of (lit "    //! ```" ++ nl) rest.
Proof.
  intros H. destruct (codegen_text c H) as (root & l & body & _ & Hl & Hf & Hb & ->).
  eexists l, _. split; [exact (eq_sym Hl)|]. split; [exact Hf|]. split; [reflexivity|].
  destruct (preamble2_head) as [t Ht]. rewrite Ht. eexists. rewrite <- (app_assoc _ t). reflexivity.
Qed.
Lemma lines_of_unlines l : Forall (fun x => ~ In c_nl x) l -> lines_of (unlines l) = l.
Proof.
  unfold unlines. induction 1 as [|x l Hx Hl IH]; [reflexivity|]. cbn [map concat]. rewrite <- app_assoc.
  cbn [app]. induction x as [|c x IHx]; cbn [app lines_of].
  - rewrite N.eqb_refl, IH. reflexivity.
  - destruct (N.eqb_spec c c_nl) as [->|_]; [exfalso; apply Hx; left; reflexivity|].
    rewrite IHx by (intros H; apply Hx; right; exact H). reflexivity.
Qed.
