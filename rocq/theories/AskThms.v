(** * AskThms: the questions that a matcher asks *)
From Verif Require Import Base Core Trie Flat MiniRust Gen Spec SpecMatch SpecChange SpecAsk BaseFacts
  NodeFacts RunFacts MatchFacts MatchProps MatchThms ChangeThms.

Section Ask.
Context {T E : Type}.
Variable rt : runtime T E.

Definition asks (pat : list PathSegment) (b : Routes) (segs : list bytes) : Prop :=
  (exists q x, block_at b pat q x) /\ begins pat segs.
Lemma same_tail (rt' : runtime T E) s pat seg segs : same_answers rt rt' (s :: pat) (seg :: segs) -> same_answers rt rt' pat segs.
Proof. intros H i p x Hp Hs. exact (H (S i) p x Hp Hs). Qed.

Lemma find_asks b : every_block plain_statics b -> forall q a rest,
  exists pat, asks pat b (split_slash rest) /\
    forall rt' : runtime T E, same_answers rt rt' pat (split_slash rest) ->
      tree_find (rt_parse rt) b q a rest = tree_find (rt_parse rt') b q a rest.
Proof.
  induction b as [rs ch qs IH] using Routes_ind'. intros Hp q a rest. rewrite Forall_forall in IH.
  set (b := mkRoutes rs ch qs) in *.
  assert (Hpb : plain_statics b) by (apply every_block_here; exact Hp).
  assert (IHc : forall seg c, In (seg, c) (rt_routes b) -> forall q a rest, exists pat, asks pat c (split_slash rest) /\
            forall rt' : runtime T E, same_answers rt rt' pat (split_slash rest) ->
              tree_find (rt_parse rt) c q a rest = tree_find (rt_parse rt') c q a rest).
  { intros seg c Hin. apply (IH (seg, c) Hin). exact (every_block_child _ _ seg c Hp Hin). }
  clear IH.
  assert (Hnone : asks [] b (split_slash rest)) by (split; [exists (rt_query b), b; constructor|exact I]).
  (* into a child *)
  assert (Hgo : forall seg c, In (seg, c) (rt_routes b) -> (match seg with Static s => fst (segment rest) = s | Dynamic _ => True end) ->
            forall q a, exists pat, asks (seg :: pat) b (split_slash rest) /\
              forall rt' : runtime T E, same_answers rt rt' (seg :: pat) (split_slash rest) ->
                go_in c (tree_find (rt_parse rt) c) q a (snd (segment rest)) = go_in c (tree_find (rt_parse rt') c) q a (snd (segment rest))).
  { intros seg c Hin Hseg q1 a1. rewrite split_segment. pose proof (IHc seg c Hin q1 a1) as Hc.
    assert (Hat : forall pat segs, asks pat c segs -> asks (seg :: pat) b (fst (segment rest) :: segs)).
    { intros pat segs ((q2 & x & Hx) & Hb). split.
      - eexists. exists x. exact (block_step _ _ _ _ _ _ Hin Hx).
      - destruct seg as [s|p]; cbn [begins]; [split; [exact Hseg|exact Hb]|exact Hb]. }
    destruct (snd (segment rest)) as [|y t]; cbn [go_in].
    - exists []. split; [apply Hat; split; [exists (rt_query c), c; constructor|exact I]|]. reflexivity.
    - destruct (Hc t) as (pat & Ha & He). exists pat. split; [apply Hat, Ha|].
      intros rt' Hs. apply same_tail in Hs. destruct (N.eqb y c_slash); [apply He, Hs|reflexivity]. }
  (* into a parameter *)
  assert (Hdyn : forall p c, In (Dynamic p, c) (rt_routes b) -> forall q a, exists pat, asks pat b (split_slash rest) /\
            forall rt' : runtime T E, same_answers rt rt' pat (split_slash rest) ->
              find_dyn (rt_parse rt) p c (tree_find (rt_parse rt) c) q a rest = find_dyn (rt_parse rt') p c (tree_find (rt_parse rt') c) q a rest).
  { intros p c Hin q1 a1. unfold find_dyn. destruct (segment rest) as [s tail] eqn:Es. cbn [fst snd] in Hgo.
    destruct (utf8_valid s) eqn:Eu.
    2: { exists []. split; [exact Hnone|reflexivity]. }
    assert (Hask : forall pat rt', same_answers rt rt' (Dynamic p :: pat) (split_slash rest) ->
              rt_parse rt (p_typ p) s = rt_parse rt' (p_typ p) s).
    { intros pat rt' H. apply (H 0%nat p s); [reflexivity| |exact Eu]. rewrite split_segment, Es. reflexivity. }
    destruct (rt_parse rt (p_typ p) s) as [v|e] eqn:Ep.
    - destruct (Hgo _ _ Hin I q1 (a1 ++ [(p, v)])) as (pat & Ha & He). exists (Dynamic p :: pat). split; [exact Ha|].
      intros rt' Hs. rewrite <- (Hask _ _ Hs). apply He, Hs.
    - destruct (Hgo _ _ Hin I q1 a1) as (pat & Ha & _). exists (Dynamic p :: pat). split; [exact Ha|].
      intros rt' Hs. rewrite <- (Hask _ _ Hs). reflexivity. }
  destruct rest as [|c0 rest0].
  - destruct (rt_resources b) eqn:Er.
    2: { exists []. split; [exact Hnone|]. intros rt' _. rewrite !find_nil by exact Hpb; rewrite Er. reflexivity. }
    destruct (least_dynamic (dynamic_children (rt_routes b))) as [[p c]|] eqn:El.
    2: { exists []. split; [exact Hnone|]. intros rt' _. rewrite !find_nil by exact Hpb; rewrite Er, El. reflexivity. }
    assert (Hin : In (Dynamic p, c) (rt_routes b)) by (apply dynamic_children_In, least_in; exact El).
    destruct (Hdyn p c Hin (q ++ rt_query b) a) as (pat & Ha & He). exists pat. split; [exact Ha|].
    intros rt' Hs. rewrite !find_nil by exact Hpb; rewrite Er, El. specialize (He rt' Hs).
    destruct (statics (rt_routes b)) as [|[[|y [|z u]] c1] [|? ?]]; auto.
  - assert (Hne : c0 :: rest0 <> []) by discriminate.
    set (rest := c0 :: rest0) in *. destruct (choose b (fst (segment rest))) as [[[p|] c]|] eqn:Ec.
    + apply choose_in in Ec as Hin. destruct (Hdyn p c Hin (q ++ rt_query b) a) as (pat & Ha & He). exists pat. split; [exact Ha|].
      intros rt' Hs. rewrite !find_choose by assumption; rewrite Ec. apply He, Hs.
    + apply choose_in in Ec as Hin. destruct (Hgo _ c Hin eq_refl (q ++ rt_query b) a) as (pat & Ha & He).
      exists (Static (fst (segment rest)) :: pat). split; [exact Ha|]. intros rt' Hs. rewrite !find_choose by assumption; rewrite Ec. apply He, Hs.
    + exists []. split; [exact Hnone|]. intros rt' _. rewrite !find_choose by assumption; rewrite Ec. reflexivity.
Qed.
Lemma match_asks c path : runnable c -> every_block plain_statics (c_routes c) ->
  exists pat, (exists q b, block_at (c_routes c) pat q b) /\ begins pat (all_segments path) /\
    forall (rt' : runtime T E) method, same_answers rt rt' pat (all_segments path) ->
      match_route rt' c path method = match_route rt c path method.
Proof.
  intros Hr Hp. destruct (find_asks _ Hp [] [] (no_slash path)) as (pat & [Ha Hb] & He).
  exists pat. split; [exact Ha|]. split; [exact Hb|]. intros rt' method Hs.
  rewrite !match_find by exact Hr. rewrite (He rt' Hs). reflexivity.
Qed.
End Ask.
Lemma match_declared {T E} (rt rt' : runtime T E) c path method : runnable c -> every_block plain_statics (c_routes c) ->
  (forall t seg, declared_type c t -> In seg (all_segments path) -> utf8_valid seg = true -> rt_parse rt t seg = rt_parse rt' t seg) ->
  match_route rt c path method = match_route rt' c path method.
Proof.
  intros Hr Hp H. destruct (match_asks rt c path Hr Hp) as (pat & (q & b & Hb) & _ & He). symmetry. apply He.
  intros i p seg Hi Hs Hu. apply H; [|eapply nth_error_In; exact Hs|exact Hu].
  exists pat, q, b, p. split; [exact Hb|]. split; [eapply nth_error_In; exact Hi|reflexivity].
Qed.
