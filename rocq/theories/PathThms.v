(** * PathThms: [to_path] *)
From Coq Require Import Permutation.
From Verif Require Import Base Core Trie Flat MiniRust Gen ToPath Spec SpecMatch SpecPath BaseFacts TrieFacts
  NodeFacts CompFacts RunFacts FlatFacts MatchFacts MatchProps MatchThms GenThms ItemText ItemFacts.

(** ** Reaching a block along an uncaptured path *)
Section Reach.
Context {T E : Type}.
Variable rt : runtime T E.
Let parse := rt_parse rt.

Lemma choose_static b s child : NoDup (block_paths b) -> plain_statics b ->
  In (Static s, child) (rt_routes b) ->
  (dynamic_children (rt_routes b) <> [] -> length (statics (rt_routes b)) = 1) ->
  choose b s = Some (None, child).
Proof.
  intros Hn Hpb Hin Hone. unfold choose. pose proof (proj2 (statics_In _ _ _) Hin) as Hst.
  destruct (least_dynamic (dynamic_children (rt_routes b))) as [[p c]|] eqn:El.
  - apply least_some in El. specialize (Hone El).
    destruct (statics (rt_routes b)) as [|[s' c'] [|? ?]]; try discriminate. destruct Hst as [[= -> ->]|[]].
    assert (Hss : strip s s = Some []) by (apply strip_Some; rewrite app_nil_r; reflexivity).
    rewrite Hss. reflexivity.
  - rewrite (static_child_nodup _ _ _ (block_paths_statics _ Hn) Hst). reflexivity.
Qed.
Lemma choose_dynamic b p child seg :
  least_dynamic (dynamic_children (rt_routes b)) = Some (p, child) ->
  (forall s child', statics (rt_routes b) = [(s, child')] -> strip s seg = None) ->
  choose b seg = Some (Some p, child).
Proof.
  intros Hl Hone. unfold choose. rewrite Hl.
  destruct (statics (rt_routes b)) as [|[s c'] [|? ?]] eqn:Es; auto.
  rewrite (Hone s c') by reflexivity. reflexivity.
Qed.
Lemma choose_inv b seg o child : choose b seg = Some (o, child) ->
  match o with
  | None => dynamic_children (rt_routes b) <> [] -> length (statics (rt_routes b)) = 1
  | Some p => least_dynamic (dynamic_children (rt_routes b)) = Some (p, child) /\
              forall s child', statics (rt_routes b) = [(s, child')] -> strip s seg = None
  end.
Proof.
  unfold choose. destruct (least_dynamic (dynamic_children (rt_routes b))) as [[p c]|] eqn:El.
  - destruct (statics (rt_routes b)) as [|[s c'] [|? ?]] eqn:Es.
    + intros [= <- <-]. split; [reflexivity|discriminate].
    + destruct (strip s seg) as [[|x t]|] eqn:Et; try discriminate; intros [= <- <-].
      * reflexivity.
      * split; [reflexivity|]. intros s0 c0 [= <- _]. exact Et.
    + intros [= <- <-]. split; [reflexivity|discriminate].
  - apply least_none in El. rewrite El. intros H. destruct o; [|congruence].
    destruct (static_child seg _); discriminate.
Qed.

(** The end of a text, and one segment less. *)
Lemma reads_end b text seg s : reads b text [seg] [s] ->
  (text = s /\ (s = [] -> open_end b [seg])) \/ text = s ++ [c_slash].
Proof. intros [[-> H]|[_ ->]]; [left|right]; auto. Qed.
Lemma reads_below b seg child text pat s s' segs : NoDup (block_paths b) -> pat <> [] ->
  In (seg, child) (rt_routes b) -> reads b text (seg :: pat) (s :: s' :: segs) ->
  exists text', text = s ++ c_slash :: text' /\ reads child text' pat (s' :: segs).
Proof.
  intros Hn Hne Hin [[-> H]|[_ ->]].
  - exists (join (s' :: segs)). split; [reflexivity|]. left. split; [reflexivity|].
    intros Hl. specialize (H Hl). inversion H as [|? ? child' ? Hin' Ho]; subst; [congruence|].
    rewrite (block_child_unique _ _ _ _ Hn Hin Hin'). exact Ho.
  - exists (join (s' :: segs) ++ [c_slash]). split; [cbn [join]; rewrite <- app_assoc; reflexivity|].
    right. split; [discriminate|reflexivity].
Qed.
Lemma here_found (x : Routes) q (a : @args T) : rt_resources x <> [] -> here (E := E) x q a = Found x q a.
Proof. unfold here. destruct (rt_resources x); congruence. Qed.
Lemma go_found (x : Routes) q (a : @args T) tail : rt_resources x <> [] -> plain_statics x ->
  tail = [] \/ tail = [c_slash] ->
  go_in x (tree_find parse x) q a tail = Found x (q ++ rt_query x) a.
Proof.
  intros Hx Hp [->| ->]; cbn [go_in].
  - apply here_found. exact Hx.
  - rewrite N.eqb_refl, find_nil by exact Hp. destruct (rt_resources x); congruence.
Qed.
Lemma find_reads : forall pat segs (vals : @args T), matches parse pat segs vals ->
  forall b q0 x q a text, block_at b pat q0 x -> uncaptured b pat segs ->
  NoDup (block_paths b) -> every_block plain_statics b ->
  rt_resources x <> [] -> reads b text pat segs ->
  tree_find parse b q a text = Found x (q ++ q0) (a ++ vals).
Proof.
  intros pat segs vals Hm.
  induction Hm as [|s pat segs vals Hm IH|p v seg pat segs vals Hns Hu Hp Hm IH];
    intros b q0 x q a text Hb Hcap Hn Hpl Hx Hr.
  - inversion Hb; subst. destruct Hr as [[-> _]|[Hr _]]; [|congruence]. cbn [join].
    rewrite find_nil by (apply every_block_here; exact Hpl).
    destruct (rt_resources x); [congruence|]. rewrite app_nil_r. reflexivity.
  - inversion Hb as [|? ? child ? q1 ? Hin Hb']; subst.
    inversion Hcap as [|? ? child' ? ? Hin' Hone Hcap'|]; subst.
    pose proof (every_block_here _ _ Hpl) as Hpb.
    rewrite <- (block_child_unique _ _ _ _ Hn Hin Hin') in Hcap'. clear child' Hin'.
    destruct (Hpb s child Hin) as [Hs1 Hs2].
    pose proof (choose_static b s child Hn Hpb Hin Hone) as Hch.
    destruct segs as [|seg' segs].
    + inversion Hm; subst. inversion Hb'; subst.
      assert (Ht : exists tail, text = s ++ tail /\ (tail = [] \/ tail = [c_slash])).
      { destruct (reads_end _ _ _ _ Hr) as [[-> _]| ->]; [exists []; rewrite app_nil_r|eexists]; eauto. }
      destruct Ht as (tail & -> & Ht). rewrite find_choose by (first [exact Hpb|destruct s; [congruence|discriminate]]).
      rewrite segment_unique by (first [exact Hs2|destruct Ht as [->| ->]; [left|right; eexists]; reflexivity]).
      cbn [fst snd]. rewrite Hch.
      rewrite go_found by (auto; apply (every_block_here _ _ (every_block_child _ _ _ _ Hpl Hin))).
      rewrite app_nil_r, app_assoc. reflexivity.
    + destruct (reads_below b (Static s) child text pat s seg' segs) as (text' & -> & Hr'); auto.
      { inversion Hm; discriminate. }
      rewrite find_choose by (auto; destruct s; discriminate).
      rewrite segment_unique by (auto; right; eexists; reflexivity). cbn [fst snd]. rewrite Hch.
      cbn [go_in]. rewrite N.eqb_refl. rewrite (IH child q1 x (q ++ rt_query b) a text'); auto.
      * rewrite app_assoc. reflexivity.
      * eapply block_paths_child; eauto.
      * eapply every_block_child; eauto.
  - inversion Hb as [|? ? child ? q1 ? Hin Hb']; subst.
    inversion Hcap as [| |? ? child' ? ? ? Hdyn Hone Hcap']; subst.
    pose proof (every_block_here _ _ Hpl) as Hpb.
    pose proof (proj1 (dynamic_children_In _ _ _) (least_in _ _ Hdyn)) as Hin'.
    rewrite <- (block_child_unique _ _ _ _ Hn Hin Hin') in *. clear child' Hin'.
    pose proof (choose_dynamic b p child seg Hdyn Hone) as Hch.
    destruct segs as [|seg' segs].
    + inversion Hm; subst. inversion Hb'; subst.
      assert (Ht : exists tail, text = seg ++ tail /\ (tail = [] \/ tail = [c_slash]) /\
                     (text = [] -> open_end b [Dynamic p])).
      { destruct (reads_end _ _ _ _ Hr) as [[-> Ho]| ->]; [exists []; rewrite app_nil_r; auto|].
        eexists. split; [reflexivity|]. split; [right; reflexivity|]. destruct seg; discriminate. }
      destruct Ht as (tail & -> & Ht & Ho).
      assert (Hseg : segment (seg ++ tail) = (seg, tail)).
      { apply segment_unique; [exact Hns|]. destruct Ht as [->| ->]; [left|right; eexists]; reflexivity. }
      assert (Hf : tree_find parse b q a (seg ++ tail) =
                   find_dyn parse p x (tree_find parse x) (q ++ rt_query b) a (seg ++ tail)).
      { destruct (seg ++ tail) as [|c0 t0] eqn:Et.
        - rewrite find_nil by exact Hpb. specialize (Ho eq_refl).
          inversion Ho as [? ? Hr0 Hs0|? ? ? ? _ Ho']; subst; [|inversion Ho'].
          rewrite Hr0, Hdyn. destruct (statics (rt_routes b)) as [|[[|y [|z s]] c'] [|? ?]] eqn:Es; auto.
          exfalso. apply (Hs0 Hr0 (least_some _ _ Hdyn) _ _ Es). reflexivity.
        - rewrite find_choose by (auto; discriminate). rewrite Hseg. cbn [fst snd]. rewrite Hch. reflexivity. }
      rewrite Hf. unfold find_dyn. rewrite Hseg, Hu, Hp.
      rewrite go_found by (auto; apply (every_block_here _ _ (every_block_child _ _ _ _ Hpl Hin))).
      rewrite app_assoc. reflexivity.
    + destruct (reads_below b (Dynamic p) child text pat seg seg' segs) as (text' & -> & Hr'); auto.
      { inversion Hm; discriminate. }
      rewrite find_choose by (auto; destruct seg; discriminate).
      rewrite segment_unique by (auto; right; eexists; reflexivity). cbn [fst snd]. rewrite Hch.
      unfold find_dyn. rewrite segment_unique by (auto; right; eexists; reflexivity). rewrite Hu, Hp.
      cbn [go_in]. rewrite N.eqb_refl. rewrite (IH child q1 x (q ++ rt_query b) (a ++ [(p, v)]) text'); auto.
      * rewrite <- !app_assoc. reflexivity.
      * eapply block_paths_child; eauto.
      * eapply every_block_child; eauto.
Qed.

(** and back *)
Lemma reads_cons b seg child text pat s segs : In (seg, child) (rt_routes b) ->
  reads child text pat segs -> reads b (s ++ c_slash :: text) (seg :: pat) (s :: segs).
Proof.
  intros Hin Hr. destruct segs as [|s' segs].
  - destruct Hr as [[-> H]|[H _]]; [|congruence]. right. split; [discriminate|reflexivity].
  - destruct Hr as [[-> H]|[_ ->]].
    + left. split; [reflexivity|]. intros Hl. eapply open_below; eauto.
    + right. split; [discriminate|]. rewrite (join_cons s) by discriminate. rewrite <- app_assoc. reflexivity.
Qed.
Lemma found_reads : forall b q a text b' q' a', every_block plain_statics b ->
  tree_find parse b q a text = Found b' q' a' ->
  exists pat segs vals q0,
    block_at b pat q0 b' /\ q' = q ++ q0 /\ a' = a ++ vals /\
    matches parse pat segs vals /\ uncaptured b pat segs /\ reads b text pat segs.
Proof.
  induction b as [b IH] using Routes_children_ind. intros q a text b' q' a' Hpl H.
  pose proof (every_block_here _ _ Hpl) as Hpb.
  assert (Hgo : forall seg child s qq aa tail, In (seg, child) (rt_routes b) ->
    go_in child (tree_find parse child) qq aa tail = Found b' q' a' ->
    (s = [] -> tail = [] -> open_end b [seg]) ->
    exists pat segs vals q0,
      block_at child pat q0 b' /\ q' = qq ++ q0 /\ a' = aa ++ vals /\
      matches parse pat segs vals /\ uncaptured child pat segs /\ reads b (s ++ tail) (seg :: pat) (s :: segs)).
  { intros seg child s qq aa tail Hin Hg Ho. destruct tail as [|c t]; cbn [go_in] in Hg.
    - unfold here in Hg. destruct (rt_resources child) as [|r rs] eqn:Er; [discriminate|].
      injection Hg as <- <- <-. exists [], [], [], (rt_query child). rewrite !app_nil_r.
      split; [constructor|]. split; [reflexivity|]. split; [reflexivity|]. split; [constructor|].
      split; [constructor|]. left. split; [reflexivity|]. cbn [last]. auto.
    - destruct (N.eqb_spec c c_slash) as [->|]; [|discriminate].
      destruct (IH _ _ Hin _ _ _ _ _ _ (every_block_child _ _ _ _ Hpl Hin) Hg)
        as (pat & segs & vals & q0 & H1 & H2 & H3 & H4 & H5 & H6).
      exists pat, segs, vals, q0. split; [exact H1|]. split; [exact H2|]. split; [exact H3|]. split; [exact H4|].
      split; [exact H5|]. eapply reads_cons; eauto. }
  assert (Hdy : forall p child, least_dynamic (dynamic_children (rt_routes b)) = Some (p, child) ->
    (forall s c', statics (rt_routes b) = [(s, c')] -> strip s (fst (segment text)) = None) ->
    (text = [] -> open_end b [Dynamic p]) ->
    find_dyn parse p child (tree_find parse child) (q ++ rt_query b) a text = Found b' q' a' ->
    exists pat segs vals q0,
      block_at b pat q0 b' /\ q' = q ++ q0 /\ a' = a ++ vals /\
      matches parse pat segs vals /\ uncaptured b pat segs /\ reads b text pat segs).
  { intros p child Hl Hone Ho Hf. unfold find_dyn in Hf.
    pose proof (segment_app text) as Ha. pose proof (segment_no_slash text) as Hns.
    destruct (segment text) as [seg tail]. cbn [fst snd] in *. subst text.
    destruct (utf8_valid seg) eqn:Eu; [|discriminate].
    destruct (parse (p_typ p) seg) as [v|e] eqn:Ep; [|discriminate].
    pose proof (proj1 (dynamic_children_In _ _ _) (least_in _ _ Hl)) as Hin.
    destruct (Hgo (Dynamic p) child seg _ _ _ Hin Hf) as (pat & segs & vals & q0 & H1 & H2 & H3 & H4 & H5 & H6).
    { intros -> ->. apply Ho. reflexivity. }
    exists (Dynamic p :: pat), (seg :: segs), ((p, v) :: vals), (rt_query b ++ q0).
    split; [econstructor; eauto|]. split; [rewrite H2, app_assoc; reflexivity|].
    split; [rewrite H3, <- app_assoc; reflexivity|]. split; [constructor; auto|].
    split; [econstructor; eauto|exact H6]. }
  destruct text as [|c0 t0].
  - rewrite find_nil in H by exact Hpb. destruct (rt_resources b) as [|r rs] eqn:Er.
    + destruct (least_dynamic (dynamic_children (rt_routes b))) as [[p child]|] eqn:El; [|discriminate].
      assert (Hs : no_short_static b /\ find_dyn parse p child (tree_find parse child) (q ++ rt_query b) a [] = Found b' q' a').
      { unfold no_short_static.
        destruct (statics (rt_routes b)) as [|[[|y [|z s]] c'] [|? ?]] eqn:Es; try discriminate; (split; [|exact H]);
          intros _ _ s0 c0 Hs0; try discriminate; injection Hs0 as <- _; discriminate. }
      destruct Hs as [Hs Hf]. apply (Hdy p child); auto.
      * intros s c' Hst. assert (Hne : s <> []).
        { apply (Hpb s c'). apply statics_In. rewrite Hst. left. reflexivity. }
        destruct s; [congruence|reflexivity].
      * intros _. constructor; auto.
    + injection H as <- <- <-. exists [], [], [], (rt_query b). rewrite !app_nil_r.
      split; [constructor|]. split; [reflexivity|]. split; [reflexivity|]. split; [constructor|]. split; [constructor|].
      left. split; [reflexivity|]. discriminate.
  - rewrite find_choose in H by (auto; discriminate).
    destruct (choose b (fst (segment (c0 :: t0)))) as [[[p|] child]|] eqn:Ec; [| |discriminate].
    + destruct (choose_inv _ _ _ _ Ec) as [Hl Hone]. apply (Hdy p child); auto. discriminate.
    + pose proof (choose_inv _ _ _ _ Ec) as Hone. cbv beta iota in Hone. apply choose_in in Ec.
      pose proof (segment_app (c0 :: t0)) as Ha. set (s := fst (segment (c0 :: t0))) in *.
      destruct (Hgo (Static s) child s _ _ _ Ec H) as (pat & segs & vals & q0 & H1 & H2 & H3 & H4 & H5 & H6).
      { intros E1 E2. rewrite E1, E2 in Ha. discriminate. }
      rewrite Ha in H6. exists (Static s :: pat), (s :: segs), vals, (rt_query b ++ q0).
      split; [econstructor; eauto|]. split; [rewrite H2, app_assoc; reflexivity|]. split; [exact H3|].
      split; [constructor; exact H4|]. split; [econstructor; eauto|exact H6].
Qed.
Lemma find_uncaptured pat segs (vals : @args T) b q0 x q a :
  matches parse pat segs vals -> block_at b pat q0 x -> uncaptured b pat segs ->
  NoDup (block_paths b) -> every_block plain_statics b ->
  rt_resources x <> [] -> last segs [c_slash] <> [] ->
  tree_find parse b q a (join segs) = Found x (q ++ q0) (a ++ vals).
Proof.
  intros Hm Hb Hc Hn Hp Hx Hl. eapply find_reads; eauto. left. split; [reflexivity|]. congruence.
Qed.
Lemma first_answer method b r q (a : @args T) : first_resource_for method b r ->
  answer (E := E) method (rt_resources b) q a = RunResult (hit (r_is_redirect r) (route_for r q a)).
Proof.
  intros (l1 & l2 & Hr1 & Hr2 & Hr3). unfold answer. rewrite Hr1.
  assert (Hf : find (fun r => str_eqb method (method_display (r_method r))) (l1 ++ r :: l2) = Some r).
  { clear -Hr2 Hr3. induction l1 as [|r1 l1 IH]; simpl.
    - rewrite Hr2, str_eqb_refl. reflexivity.
    - destruct (str_eqb_spec method (method_display (r_method r1))) as [Heq|].
      + exfalso. apply (Hr3 r1); [left; reflexivity|auto].
      + apply IH. intros r' Hin. apply Hr3. right. exact Hin. }
  rewrite Hf. unfold hit. destruct (r_is_redirect r); reflexivity.
Qed.
Lemma reach c method pat q b r segs (a : @args T) : runnable c ->
  every_block plain_statics (c_routes c) ->
  block_at (c_routes c) pat q b -> first_resource_for method b r ->
  matches parse pat segs a -> uncaptured (c_routes c) pat segs -> last segs [c_slash] <> [] ->
  match_route rt c (c_slash :: join segs) method =
  Some (RunResult (hit (r_is_redirect r) (route_for r q a))).
Proof.
  intros Hc Hp Hb Hr Hm Hcap Hl. rewrite match_find by exact Hc. cbn [no_slash].
  rewrite N.eqb_refl.
  assert (Hne : rt_resources b <> []).
  { destruct Hr as (l1 & l2 & -> & _). destruct l1; discriminate. }
  fold parse. rewrite (find_uncaptured pat segs a (c_routes c) q b [] []); auto.
  - cbn [app finish]. f_equal. apply first_answer. exact Hr.
  - apply compiles_paths. apply Hc.
Qed.
(** Exactly these requests are answered with a route. *)
Lemma match_reads c path method redirect v : runnable c -> every_block plain_statics (c_routes c) ->
  match_route rt c path method = Some (RunResult (hit redirect v)) <->
  exists pat q b r segs a,
    block_at (c_routes c) pat q b /\ first_resource_for method b r /\ r_is_redirect r = redirect /\
    reads (c_routes c) (no_slash path) pat segs /\ matches parse pat segs a /\
    uncaptured (c_routes c) pat segs /\ v = route_for r q a.
Proof.
  intros Hc Hp. rewrite match_eq by exact Hc. split.
  - intros H. destruct (tree_find (rt_parse rt) (c_routes c) [] [] (no_slash path)) as [b q a| |p e|] eqn:Ef;
      cbn [finish] in H; try (unfold hit in H; destruct redirect; discriminate).
    destruct (found_reads _ _ _ _ _ _ _ Hp Ef) as (pat & segs & vals & q0 & H1 & H2 & H3 & H4 & H5 & H6).
    simpl in H2, H3. subst q0 vals.
    destruct (answer_cases rt method b q a) as [(r & Hr & Ha)|[_ Ha]]; rewrite Ha in H.
    + assert (Hh : hit (E := E) (r_is_redirect r) (route_for r q a) = hit redirect v) by congruence.
      apply hit_inj in Hh. destruct Hh as [Hh1 Hh2].
      exists pat, q, b, r, segs, a. repeat (split; auto).
    + exfalso. unfold hit in H. destruct redirect; discriminate.
  - intros (pat & q & b & r & segs & a & H1 & H2 & H3 & H4 & H5 & H6 & ->).
    assert (Hne : rt_resources b <> []).
    { destruct H2 as (l1 & l2 & -> & _). destruct l1; discriminate. }
    fold parse. rewrite (find_reads pat segs a H5 (c_routes c) q b [] []); auto.
    + cbn [app finish]. rewrite <- H3. apply first_answer. exact H2.
    + apply compiles_paths. apply Hc.
Qed.
End Reach.

(** ** What [to_path] prints *)
Lemma dynamics_params p : dynamics p = path_params p.
Proof. induction p as [|[s|d] p IH]; simpl; congruence. Qed.

Lemma format_plain s t args : forallb format_char s = true ->
  format (s ++ t) args = option_map (app (utf8 s)) (format t args).
Proof.
  induction s as [|c s IH]; cbn [forallb app format].
  - intros _. destruct (format t args); reflexivity.
  - rewrite andb_true_iff. intros [Hc Hs].
    assert (Hn : N.eqb c c_lbrace = false /\ N.eqb c c_rbrace = false).
    { unfold format_char in Hc. cbn [existsb] in Hc. apply negb_true_iff in Hc.
      apply orb_false_iff in Hc. destruct Hc as [H1 Hc]. apply orb_false_iff in Hc. tauto. }
    destruct Hn as [-> ->]. rewrite IH by exact Hs. destruct (format t args) as [x|]; [|reflexivity].
    cbn [option_map utf8 flat_map]. rewrite app_assoc. reflexivity.
Qed.
Lemma format_slash t args : format (c_slash :: t) args = option_map (cons c_slash) (format t args).
Proof. cbn [format]. destruct (format t args); reflexivity. Qed.
Lemma format_hole t x args : format (lit "{}" ++ t) (x :: args) = option_map (app x) (format t args).
Proof. reflexivity. Qed.

Section Print.
Context {T : Type}.
Variable show : str -> T -> bytes.

Fixpoint shown (ps : list Param) (vals : list T) : list bytes :=
  match ps, vals with
  | p :: ps', v :: vals' => show (p_typ p) v :: shown ps' vals'
  | _, _ => []
  end.
Lemma format_texts : forall pat vals, forallb format_segment pat = true ->
  length vals = length (path_params pat) ->
  format (join (map (fun s => match s with Static t => t | Dynamic _ => lit "{}" end) pat))
         (shown (path_params pat) vals) = Some (join (path_texts show pat vals)).
Proof.
  induction pat as [|s pat IH]; intros vals Hf Hl.
  - destruct vals; [reflexivity|discriminate].
  - cbn [forallb] in Hf. apply andb_true_iff in Hf. destruct Hf as [Hs Hf].
    destruct s as [t|d]; cbn [path_params map path_texts shown] in *.
    + cbn [format_segment] in Hs. destruct pat as [|s' pat].
      * destruct vals; [|discriminate]. cbn [map join path_texts path_params shown].
        pose proof (format_plain t [] [] Hs) as H. rewrite app_nil_r in H. rewrite H. cbn [format option_map].
        rewrite app_nil_r. reflexivity.
      * specialize (IH vals Hf Hl). cbn [map] in *. rewrite join_cons by discriminate.
        rewrite format_plain by exact Hs. rewrite format_slash, IH. cbn [option_map].
        rewrite join_cons; [reflexivity|]. destruct s'; cbn [path_texts]; [discriminate|].
        destruct vals; [discriminate|discriminate].
    + destruct vals as [|v vals]; [discriminate|]. cbn [shown path_texts]. simpl in Hl. injection Hl as Hl.
      destruct pat as [|s' pat].
      * destruct vals; [|discriminate]. cbn [map join path_texts path_params shown]. cbn. rewrite app_nil_r. reflexivity.
      * specialize (IH vals Hf Hl). cbn [map] in *. rewrite join_cons by discriminate.
        rewrite format_hole, format_slash, IH. cbn [option_map].
        rewrite join_cons; [reflexivity|]. destruct s'; cbn [path_texts]; [discriminate|].
        destruct vals; [discriminate|discriminate].
Qed.

Lemma map_fst_combine {A B} (l : list A) (l' : list B) : length l' = length l -> map fst (combine l l') = l.
Proof. revert l'. induction l as [|x l IH]; intros [|y l'] H; try discriminate; simpl in *; auto. f_equal. apply IH. congruence. Qed.
Lemma arguments_ok decl fs binds : NoDup (map fst decl) -> NoDup (map fst fs) -> forall ps vals, length vals = length ps ->
  incl (map p_name ps) binds -> incl (map (fun p => (p_name p, TyUser (p_typ p))) ps) decl ->
  incl (combine (map p_name ps) (map Given vals)) fs ->
  arguments show decl fs binds (map p_name ps) = Some (shown ps vals).
Proof.
  intros Hd Hn. induction ps as [|p ps IH]; intros [|v vals] Hl Hb Ht Hi; try discriminate; [reflexivity|].
  cbn [arguments shown map]. rewrite (proj2 (mem_In _ _) (Hb _ (or_introl eq_refl))).
  rewrite (lookup_nodup (p_name p) decl (TyUser (p_typ p)) Hd) by (apply Ht; left; reflexivity).
  rewrite (lookup_nodup (p_name p) fs (Given v) Hn) by (apply Hi; left; reflexivity).
  rewrite (IH vals); [reflexivity|simpl in Hl; congruence| | |]; intros y Hy; [apply Hb|apply Ht|apply Hi]; right; exact Hy.
Qed.

Lemma module_ok_variants root m : module_ok root m = true ->
  NoDup (map (fun a => to_caps_case (a_name a)) (m_actions m)) /\
  NoDup (map (fun s => to_caps_case (m_name s)) (m_modules m)) /\
  NoDup (map (fun s => to_snake_case (m_name s)) (m_modules m)) /\
  NoDup (map fst (variants m)) /\
  (forall a, In a (m_actions m) -> NoDup (map fd_name (action_fields a)) /\ forallb format_segment (a_path a) = true) /\
  (forall s, In s (m_modules m) -> module_ok false s = true).
Proof.
  destruct m as [name acts subs]. cbn [module_ok m_actions m_modules].
  rewrite !andb_true_iff. intros [[[[[[[[_ _] _] _] H0] H1] H2] _] H3].
  apply nodup_strs_NoDup in H0, H1. apply NoDup_app_r in H0.
  split; [eapply NoDup_app_l; eauto|]. split; [eapply NoDup_app_r; eauto|].
  split; [eapply NoDup_app_r; eauto|]. split; [rewrite variants_names; exact H1|].
  rewrite forallb_forall in H2, H3. split; auto.
  intros a Ha. specialize (H2 a Ha). cbv zeta in H2. rewrite !andb_true_iff in H2.
  destruct H2 as [[[_ H2] _] H4]. split; auto. apply nodup_strs_NoDup; auto.
Qed.
Lemma run_action hs root m a fs : module_ok root m = true -> In a (m_actions m) ->
  run_struct show (module_items root hs m) (to_caps_case (a_name a)) fs =
  match arguments show (action_decl a) fs (action_names a) (map p_name (a_route_params a)) with
  | Some l => format (lit "/" ++ path_text (fun _ => lit "{}") (a_path a)) l
  | None => None
  end.
Proof.
  intros Hok Ha. destruct (module_ok_variants _ _ Hok) as (N1 & _). unfold run_struct.
  rewrite items_structs_of, items_struct_paths_of.
  rewrite (lookup_key caps_name action_decl (m_actions m) a N1 Ha : lookup (to_caps_case (a_name a)) _ = _).
  rewrite (lookup_key caps_name action_path (m_actions m) a N1 Ha : lookup (to_caps_case (a_name a)) _ = _).
  reflexivity.
Qed.
Lemma mem_variant m v : In v (map fst (variants m)) -> mem v (map fst (variants m)) = true.
Proof. apply mem_In. Qed.
Lemma route_dispatch hs : forall m root, module_ok root m = true ->
  forall mods a fs, In (mods, a) (module_actions m) ->
  run_enum show (module_items root hs m) (lit "Route") (map to_caps_case mods ++ [to_caps_case (a_name a)]) fs =
  match arguments show (action_decl a) fs (action_names a) (map p_name (a_route_params a)) with
  | Some l => format (lit "/" ++ path_text (fun _ => lit "{}") (a_path a)) l
  | None => None
  end /\
  NoDup (map fd_name (action_fields a)) /\ forallb format_segment (a_path a) = true.
Proof.
  induction m as [name acts subs IH] using FM_ind'. intros root Hok mods a fs Ha.
  destruct (module_ok_variants _ _ Hok) as (N1 & N2 & N3 & Hv & Hf & Hs). cbn [m_actions m_modules] in *. destruct mods as [|k mods].
  - rewrite in_module_actions_nil in Ha. cbn [map app run_enum]. cbn [m_actions] in Ha.
    rewrite items_enums_of, items_enum_paths_of. cbn [lookup]. rewrite str_eqb_refl.
    assert (Hin : In (to_caps_case (a_name a), TyItem [] (to_caps_case (a_name a))) (variants (mkModule name acts subs))).
    { unfold variants. apply in_app_iff. left. apply in_map_iff. exists a. auto. }
    rewrite mem_variant by (apply (in_map fst) in Hin; exact Hin).
    rewrite (lookup_nodup _ _ _ Hv Hin). split; [|apply Hf; exact Ha]. apply run_action; assumption.
  - rewrite in_module_actions_cons in Ha. destruct Ha as (s & Hin & <- & Ha). cbn [map app run_enum]. cbn [m_modules] in Hin.
    rewrite items_enums_of, items_enum_paths_of. cbn [lookup]. rewrite str_eqb_refl.
    assert (Hi : In (to_caps_case (m_name s), TyItem [to_snake_case (m_name s)] (lit "Route")) (variants (mkModule name acts subs))).
    { unfold variants. apply in_app_iff. right. apply in_map_iff. exists s. auto. }
    rewrite mem_variant by (apply (in_map fst) in Hi; exact Hi).
    rewrite (lookup_nodup _ _ _ Hv Hi), items_mods_of. cbn [m_modules].
    rewrite (lookup_key (fun s => to_snake_case (m_name s)) (fun s => module_items false hs s) subs s N3 Hin).
    apply (IH s Hin false); auto.
Qed.
Lemma to_path_text c pat q b r vals opts fs : compiles c = true ->
  block_at (c_routes c) pat q b -> In r (rt_resources b) -> r_is_redirect r = false ->
  struct_fields pat (q ++ r_query r) vals opts fs ->
  to_path show c (map to_caps_case (r_modules r)) (to_caps_case (r_name r)) fs =
  Some (c_slash :: join (path_texts show pat vals)).
Proof.
  intros Hc Hb Hr Hd (L1 & L2 & HP). unfold to_path. rewrite Hc. unfold compiles in Hc.
  destruct (flattened_modules (c_routes c)) as [root| | |] eqn:Er; try discriminate.
  destruct (gen_program c); try discriminate. rewrite !andb_true_iff in Hc. destruct Hc as [[Hok _] _].
  destruct (flattened_modules_tree _ _ Er) as (_ & _ & HPa & _).
  set (act := mkAction (r_name r) (r_method r) pat (path_params pat) (q ++ r_query r)).
  assert (Ha : In (r_modules r, act) (module_actions root)).
  { eapply Permutation_in; [symmetry; exact HPa|]. apply blocks_at in Hb. unfold config_actions.
    apply in_concat. exists (block_actions (pat, q, b)). split; [apply in_map; exact Hb|].
    cbn [block_actions]. apply in_map_iff. exists r. split; [reflexivity|]. apply filter_In.
    rewrite Hd. auto. }
  destruct (route_dispatch (c_headers c) root true Hok (r_modules r) act fs Ha) as (H1 & H2 & H3).
  change (r_name r) with (a_name act). rewrite H1.
  assert (Hn : NoDup (map fst fs)).
  { eapply Permutation_NoDup; [apply Permutation_map; symmetry; exact HP|].
    rewrite map_app, !map_fst_combine by (rewrite !map_length; auto).
    unfold action_fields in H2. rewrite map_app, !map_map in H2. exact H2. }
  cbn [a_route_params act]. rewrite (arguments_ok (action_decl act) fs (action_names act)) with (vals := vals).
  - cbn [a_path act]. rewrite path_text_join.
    change (lit "/" ++ ?x) with (c_slash :: x). rewrite format_slash.
    rewrite format_texts by auto. reflexivity.
  - rewrite decl_names, <- field_names. exact H2.
  - exact Hn.
  - exact L1.
  - intros y Hy. unfold action_names. apply in_or_app. left. exact Hy.
  - intros y Hy. unfold action_decl. apply in_or_app. left. exact Hy.
  - intros y Hy. eapply Permutation_in; [symmetry; exact HP|]. apply in_or_app. left. exact Hy.
Qed.
End Print.

(** ** Round trip *)
Lemma utf8_ascii_text s : ascii_text s -> utf8 s = s.
Proof.
  induction 1 as [|c s Hc Hs IH]; [reflexivity|]. cbn [utf8 flat_map]. fold (utf8 s). rewrite IH.
  unfold utf8_char. apply N.ltb_lt in Hc. rewrite Hc. reflexivity.
Qed.
Lemma texts_match {T E} (rt : runtime T E) (show : str -> T -> bytes) : forall pat vals,
  (forall s, In (Static s) pat -> ascii_text s) -> length vals = length (path_params pat) ->
  (forall p v, In (p, v) (combine (path_params pat) vals) ->
     ~ In c_slash (show (p_typ p) v) /\ utf8_valid (show (p_typ p) v) = true /\
     rt_parse rt (p_typ p) (show (p_typ p) v) = inl v) ->
  matches (rt_parse rt) pat (path_texts show pat vals) (combine (path_params pat) vals).
Proof.
  induction pat as [|[s|p] pat IH]; intros vals Ha Hl Hv; cbn [path_params path_texts] in *.
  - destruct vals; [constructor|discriminate].
  - rewrite utf8_ascii by (apply Ha; left; reflexivity). constructor. apply IH; auto.
    intros s' Hs. apply Ha. right. exact Hs.
  - destruct vals as [|v vals]; [discriminate|]. cbn [combine] in *.
    destruct (Hv p v (or_introl eq_refl)) as (H1 & H2 & H3). constructor; auto.
    apply IH; [intros s' Hs; apply Ha; right; exact Hs|simpl in Hl; congruence|].
    intros p' v' Hin. apply Hv. right. exact Hin.
Qed.
Lemma utf8_long s : length s <= length (utf8 s).
Proof.
  induction s as [|c s IH]; [apply le_n|]. unfold utf8 in *. cbn [flat_map]. rewrite app_length. cbn [length].
  enough (1 <= length (utf8_char c)) by lia. unfold utf8_char. repeat destruct (_ <? _)%N; simpl; lia.
Qed.
Lemma utf8_same s : utf8 s = s -> ascii_text s.
Proof.
  induction s as [|c s IH]; intros H; [constructor|]. unfold utf8 in H. cbn [flat_map] in H. fold (utf8 s) in H.
  unfold utf8_char in H. destruct (N.ltb_spec c 128) as [Hc|_].
  - constructor; [exact Hc|]. apply IH. injection H as H. exact H.
  - exfalso. apply (f_equal (@length N)) in H. pose proof (utf8_long s) as L.
    repeat destruct (_ <? _)%N; rewrite app_length in H; simpl in H; lia.
Qed.
Lemma uncaptured_ascii {T} (show : str -> T -> bytes) : forall pat b vals,
  uncaptured b pat (path_texts show pat vals) -> forall s, In (Static s) pat -> ascii_text s.
Proof.
  induction pat as [|[s|p] pat IH]; intros b vals H s' Hs; [destruct Hs| |].
  - cbn [path_texts] in H. inversion H as [|? ? ? ? ? _ _ H' Eb Ep Et|]; subst.
    destruct Hs as [Hs|Hs]; [|eapply IH; eauto]. injection Hs as Hs. apply utf8_same. congruence.
  - destruct Hs as [Hs|Hs]; [discriminate|]. cbn [path_texts] in H. destruct vals as [|v vals]; inversion H; subst. eapply IH; eauto.
Qed.
Lemma to_path_round {T E} (rt : runtime T E) (show : str -> T -> bytes) c pat q b r vals opts fs path :
  runnable c -> every_block plain_statics (c_routes c) ->
  block_at (c_routes c) pat q b -> r_is_redirect r = false ->
  first_resource_for (method_display (r_method r)) b r ->
  struct_fields pat (q ++ r_query r) vals opts fs ->
  (forall p v, In (p, v) (combine (path_params pat) vals) ->
     ~ In c_slash (show (p_typ p) v) /\ utf8_valid (show (p_typ p) v) = true /\
     rt_parse rt (p_typ p) (show (p_typ p) v) = inl v) ->
  uncaptured (c_routes c) pat (path_texts show pat vals) ->
  last (path_texts show pat vals) [c_slash] <> [] ->
  to_path show c (map to_caps_case (r_modules r)) (to_caps_case (r_name r)) fs = Some path ->
  match_route rt c path (method_display (r_method r)) =
  Some (RunResult (MRoute {| rv_modules := map to_caps_case (r_modules r);
                             rv_name := to_caps_case (r_name r);
                             rv_fields := map (fun pv : Param * T => (p_name (fst pv), FvVal (p_typ (fst pv)) (snd pv)))
                                              (combine (path_params pat) vals)
                                          ++ map (fun p => (p_name p, FvNone)) (q ++ r_query r) |})).
Proof.
  intros Hc Hp Hb Hd Hr Hs Hv Hcap Hl Ht.
  assert (Hin : In r (rt_resources b)).
  { destruct Hr as (l1 & l2 & -> & _). apply in_or_app. right. left. reflexivity. }
  rewrite (to_path_text show c pat q b r vals opts fs) in Ht; auto; [|apply Hc]. injection Ht as <-.
  destruct Hs as (L1 & _).
  rewrite (reach rt c _ pat q b r _ (combine (path_params pat) vals)); auto.
  - unfold hit, route_for. rewrite Hd. do 3 f_equal.
  - apply texts_match; auto. exact (uncaptured_ascii show pat _ _ Hcap).
Qed.
