(** * PassThms: values are passed on as they are parsed *)
From Verif Require Import Base Core Trie Flat MiniRust Gen Spec SpecMatch SpecMount SpecPass BaseFacts
  NodeFacts RunFacts MatchFacts MatchProps MatchThms MountThms.

Section Pass.
Context {T E T' E' : Type}.
Variable rt : runtime T E.
Variable rt' : runtime T' E'.
Variable R : str -> T -> T' -> Prop.
Variable S : E -> E' -> Prop.
(** An error where the other one has a value. *)
Variable L : str -> E -> T' -> Prop.
Hypothesis alike : forall t x, utf8_valid x = true ->
  match rt_parse rt t x, rt_parse rt' t x with
  | inl v, inl v' => R t v v'
  | inr e, inr e' => S e e'
  | inr e, inl v' => L t e v'
  | inl _, inr _ => False
  end.
Let tfind := @tree_find T E (rt_parse rt).
Let tfind' := @tree_find T' E' (rt_parse rt').

Definition arg_alike (x : Param * T) (y : Param * T') : Prop := fst x = fst y /\ R (p_typ (fst x)) (snd x) (snd y).
Definition found_alike (f : found T E) (f' : found T' E') : Prop :=
  match f, f' with
  | Found b q a, Found b' q' a' => b = b' /\ q = q' /\ Forall2 arg_alike a a'
  | Nothing, Nothing => True
  | Stop, Stop => True
  | Bad p e, Bad p' e' => p = p' /\ S e e' \/ exists v', L (p_typ p) e v'
  | Bad p e, Found _ _ a' => exists v', In (p, v') a' /\ L (p_typ p) e v'
  | Bad p e, _ => exists v', L (p_typ p) e v'
  | _, _ => False
  end.
Definition run_alike (b : Routes) : Prop := forall q a a' rest, Forall2 arg_alike a a' ->
  found_alike (tfind b q a rest) (tfind' b q a' rest).

Lemma here_alike b q a a' : Forall2 arg_alike a a' -> found_alike (here b q a) (here b q a').
Proof. intros H. unfold here. destruct (rt_resources b); cbn; auto. Qed.
Lemma go_alike b q a a' tail : run_alike b -> Forall2 arg_alike a a' ->
  found_alike (go_in b (tfind b) q a tail) (go_in b (tfind' b) q a' tail).
Proof.
  intros H Ha. destruct tail as [|c tail]; cbn [go_in]; [apply here_alike; exact Ha|].
  destruct (N.eqb c c_slash); [apply H; exact Ha|exact I].
Qed.
(** Parameters stay. *)
Lemma find_keeps b q a rest b1 q1 a1 : tfind' b q a rest = Found b1 q1 a1 -> exists a2, a1 = a ++ a2.
Proof.
  intros H. pose proof (find_shift rt' b [] a q [] rest) as Hs. cbn [app] in Hs. rewrite app_nil_r in Hs. fold tfind' in Hs. rewrite H in Hs.
  destruct (tfind' b q [] rest) as [b2 q2 a2| | |]; try discriminate Hs. injection Hs as _ _ ->. exists a2. reflexivity.
Qed.
Lemma go_keeps b q a tail b1 q1 a1 : go_in b (tfind' b) q a tail = Found b1 q1 a1 -> exists a2, a1 = a ++ a2.
Proof.
  destruct tail as [|c tail]; cbn [go_in].
  - unfold here. destruct (rt_resources b); [discriminate|]. intros [= _ _ <-]. exists []. rewrite app_nil_r. reflexivity.
  - destruct (N.eqb c c_slash); [|discriminate]. apply find_keeps.
Qed.
Lemma dyn_alike p b q a a' rest : run_alike b -> Forall2 arg_alike a a' ->
  found_alike (find_dyn (rt_parse rt) p b (tfind b) q a rest) (find_dyn (rt_parse rt') p b (tfind' b) q a' rest).
Proof.
  intros H Ha. unfold find_dyn. destruct (segment rest) as [seg tail]. destruct (utf8_valid seg) eqn:Eu; [|exact I].
  pose proof (alike (p_typ p) seg Eu) as Hp.
  destruct (rt_parse rt (p_typ p) seg) as [v|e]; destruct (rt_parse rt' (p_typ p) seg) as [v'|e']; try contradiction.
  - apply go_alike; [exact H|]. apply Forall2_app; [exact Ha|]. constructor; [split; [reflexivity|exact Hp]|constructor].
  - destruct (go_in b (tfind' b) q (a' ++ [(p, v')]) tail) as [b1 q1 a1| | |] eqn:Eg; cbn; eauto.
    destruct (go_keeps _ _ _ _ _ _ _ Eg) as [a2 ->]. exists v'. split; [|exact Hp].
    apply in_or_app. left. apply in_or_app. right. left. reflexivity.
  - cbn. auto.
Qed.
Lemma stat_alike ss q a a' rest : (forall s b, In (s, b) ss -> run_alike b) -> Forall2 arg_alike a a' ->
  found_alike (find_stat (map (fun sx => (fst sx, fkid (rt_parse rt) (snd sx))) ss) q a rest)
              (find_stat (map (fun sx => (fst sx, fkid (rt_parse rt') (snd sx))) ss) q a' rest).
Proof.
  intros H Ha. induction ss as [|[s b] ss IH]; [exact I|]. cbn [map find_stat fst snd].
  unfold fkid at 1 3. destruct (after_segment s rest).
  - apply go_alike; [|exact Ha]. apply (H s). left. reflexivity.
  - apply IH. intros s' b' Hin. apply (H s'). right. exact Hin.
Qed.
Lemma find_alike b : run_alike b.
Proof.
  induction b as [b IH] using Routes_children_ind. intros q a a' rest Ha. unfold tfind, tfind'. rewrite !find_eq. fold tfind tfind'.
  assert (Hd : forall p child, least_dynamic (dynamic_children (rt_routes b)) = Some (p, child) -> run_alike child).
  { intros p child Hl. apply (IH (Dynamic p)). apply dynamic_children_In. apply least_in. exact Hl. }
  assert (Hss : forall s child, In (s, child) (statics (rt_routes b)) -> run_alike child).
  { intros s child Hl. apply (IH (Static s)). apply statics_In. exact Hl. }
  destruct (rt_resources b) as [|r rs]; [|destruct rest as [|c rest]; [cbn; auto|]];
    (destruct (least_dynamic (dynamic_children (rt_routes b))) as [[p child]|] eqn:El;
      [|apply stat_alike; [exact Hss|exact Ha]]);
    destruct (statics (rt_routes b)) as [|[s child'] [|? ?]] eqn:Es;
    try (apply dyn_alike; [eapply Hd; reflexivity|exact Ha]);
    (destruct ((length s =? 1) && _); [exact I|]);
    (destruct (strip s _) as [tail|];
       [apply go_alike; [apply (Hss s); left; reflexivity|exact Ha] | apply dyn_alike; [eapply Hd; reflexivity|exact Ha]]).
Qed.
Lemma route_for_alike r q a a' : Forall2 arg_alike a a' -> route_alike R (route_for r q a) (route_for r q a').
Proof.
  intros Ha. split; [reflexivity|]. split; [reflexivity|]. cbn [route_for rv_fields]. apply Forall2_app.
  - induction Ha as [|[p v] [p' v'] a a' [H1 H2] _ IH]; constructor; [|exact IH]. cbn [fst snd] in *. subst p'. repeat split; auto.
  - generalize (q ++ r_query r). intros l. induction l; constructor; [split; cbn; auto|assumption].
Qed.
Lemma finish_alike method f f' : found_alike f f' ->
  (forall p e, f <> Bad p e) \/ (forall t e v', ~ L t e v') ->
  result_alike R S (finish method f) (finish method f').
Proof.
  intros H HL. destruct f as [b q a| |p e|], f' as [b' q' a'| |p' e'|]; cbn [found_alike] in H; try contradiction; try exact I;
    try solve [destruct HL as [HL|HL]; [destruct (HL _ _ eq_refl)|]; destruct H as [v' H]; [..]; first [destruct H as [_ H]|idtac]; destruct (HL _ _ _ H)].
  - destruct H as (<- & <- & Ha). cbn [finish]. unfold answer. destruct (find _ (rt_resources b)) as [r|]; [|exact I].
    destruct (r_is_redirect r); exact (route_for_alike r q a a' Ha).
  - destruct HL as [HL|HL]; [destruct (HL _ _ eq_refl)|]. destruct H as [[<- H]|[v' H]]; [split; [reflexivity|exact H]|destruct (HL _ _ _ H)].
Qed.
End Pass.

Section Answers.
Context {T E T' E' : Type}.
Lemma answers_alike (rt : runtime T E) (rt' : runtime T' E') R S c path method : runnable c ->
  (forall t x, utf8_valid x = true -> parsed_alike R S (rt_parse rt t x) (rt_parse rt' t x) t) ->
  exists r r', match_route rt c path method = Some r /\ match_route rt' c path method = Some r' /\ result_alike R S r r'.
Proof.
  intros Hc H. rewrite !match_find by exact Hc. do 2 eexists. split; [reflexivity|]. split; [reflexivity|].
  eapply (finish_alike R S (fun _ _ _ => False)); [|right; intros; tauto].
  apply find_alike; [|constructor]. intros t x Hx. specialize (H t x Hx). unfold parsed_alike in H.
  destruct (rt_parse rt t x), (rt_parse rt' t x); auto.
Qed.
End Answers.
Section Raw.
Context {T E : Type}.
Variable rt : runtime T E.
Let fails t e (x : str * bytes) := fst x = t /\ rt_parse rt t (snd x) = inr e.
Lemma raw_alike b q rest : found_alike (E' := Empty_set) (parses_to rt) (fun _ _ => False) fails
  (tree_find (rt_parse rt) b q [] rest) (tree_find (rt_parse raw) b q [] rest).
Proof.
  apply find_alike; [|constructor]. intros t x _. cbn. destruct (rt_parse rt t x) eqn:Ep; split; auto.
Qed.
(** First split, then parse. *)
Lemma answer_raw c path method : runnable c -> ~ is_parse_error (match_route rt c path method) ->
  exists r r', match_route rt c path method = Some r /\ match_route raw c path method = Some r' /\
    result_alike (parses_to rt) (fun _ _ => False) r r'.
Proof.
  intros Hc H. rewrite !match_find in * by exact Hc. do 2 eexists. split; [reflexivity|]. split; [reflexivity|].
  eapply finish_alike; [apply raw_alike|]. left. intros p e Ef. apply H. rewrite Ef. do 2 eexists. reflexivity.
Qed.
(** If all texts are values, that is the answer. *)
Lemma raw_answer c path method redirect v : runnable c -> match_route raw c path method = Some (RunResult (hit redirect v)) ->
  (forall n t x, In (n, FvVal t x) (rv_fields v) -> exists w, rt_parse rt t (snd x) = inl w) ->
  exists w, match_route rt c path method = Some (RunResult (hit redirect w)) /\ route_alike (parses_to rt) w v.
Proof.
  intros Hc H Hv. rewrite match_find in H by exact Hc. rewrite match_find by exact Hc. apply (f_equal (fun o => match o with Some r => r | None => RunPanic end)) in H.
  pose proof (raw_alike (c_routes c) [] (no_slash path)) as Ha.
  assert (Hn : forall p e, tree_find (rt_parse rt) (c_routes c) [] [] (no_slash path) <> Bad p e).
  { intros p e Ef. rewrite Ef in Ha. destruct (tree_find (rt_parse raw) (c_routes c) [] [] (no_slash path)) as [b q a| |p' e'|];
      try (destruct redirect; discriminate H).
    cbn [found_alike] in Ha. destruct Ha as (x & Hx & Ht & He). cbn [finish] in H. unfold answer in H.
    destruct (find _ (rt_resources b)) as [r|]; [|destruct redirect; discriminate H].
    assert (E2 : v = route_for r q a) by (destruct redirect, (r_is_redirect r); injection H; auto; discriminate).
    destruct (Hv (p_name p) (p_typ p) x) as [w Hw]; [|congruence].
    rewrite E2. cbn [route_for rv_fields]. apply in_or_app. left. apply in_map_iff. exists (p, x). split; [reflexivity|exact Hx]. }
  pose proof (finish_alike _ _ _ method _ _ Ha (or_introl Hn)) as Hr. rewrite H in Hr.
  destruct (finish method (tree_find (rt_parse rt) (c_routes c) [] [] (no_slash path))) as [[| |w|w|n e]|];
    destruct redirect; cbn in Hr; try contradiction; exists w; split; (reflexivity || exact Hr).
Qed.
End Raw.
