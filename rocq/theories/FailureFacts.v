(** * FailureFacts: how builds end *)
From Verif Require Import Base Core Nom Parse Gen Build SpecMatch SpecGrammar SpecBuild SpecFailure ParseFacts GrammarFacts ReportFacts BuildFacts GenThms.

Lemma load_announced wo b f A (k : RouteConfig -> run A) : let p := in_dir (b_source_dir b) f in
  bind (load wo b (FromFile f)) k =
  match wo_read wo p with
  | inr e => (announced b p ++ [says (lit "Unable to load file " ++ p ++ lit ": " ++ e)], Exited 101)
  | inl text =>
      match route_config_p (wo_alnum wo) text, wo_diagnosis wo text with
      | POk _ c, _ => (announced b p ++ fst (k c), snd (k c))
      | PFuel, _ => (announced b p, Hung)
      | _, Some report => (announced b p ++ [says (lit "Unable to parse route config file " ++ p ++ lit ":"); Stderr report], Exited 101)
      | _, None => (announced b p ++ [says (lit "Unable to parse route config file " ++ p ++ lit ":")], Panicked PanicSlice)
      end
  end.
Proof.
  cbv zeta. unfold load, announced, says. set (p := in_dir (b_source_dir b) f).
  replace ((lit "Unable to parse route config file " ++ p ++ lit ":") ++ [c_nl])
    with (lit "Unable to parse route config file " ++ p ++ lit ":" ++ [c_nl]) by (rewrite <- !app_assoc; reflexivity).
  destruct (wo_read wo p) as [text|e]; [|destruct (b_use_cargo b); reflexivity].
  destruct (route_config_p (wo_alnum wo) text) as [r c| | |]; destruct (b_use_cargo b); destruct (wo_diagnosis wo text); try reflexivity;
    cbn; destruct (k c); reflexivity.
Qed.
Lemma diagnosed wo text : exists rep, wo_diagnosis wo text = Some rep.
Proof.
  destruct (diagnosis_some (wo_alnum wo) (wo_keep wo) (wo_code wo) (wo_debug_kind wo) (wo_debug_context wo) (wo_errors wo) text [])
    as (rep & H & _). exists rep. exact H.
Qed.
(** The three ways. *)
Inductive ended (wo : world) (b : Builder) : run unit -> Prop :=
| ended_refused es : refused wo b es -> ended wo b (es, Exited 101)
| ended_done es os c t text : taken wo b es c -> opened wo b os t -> run_on (wo_writer wo t) (codegen c) = (text, ROk tt) ->
    ended wo b (es ++ os ++ [Write t text], Finished tt)
| ended_panic es os c t text p : taken wo b es c -> opened wo b os t -> run_on (wo_writer wo t) (codegen c) = (text, RPanic p) ->
    ended wo b (es ++ os ++ [Write t text], Panicked p).

Lemma after_input wo b es c t0 : taken wo b es c -> b_target b = Some t0 ->
  let r := bind (open_target wo b t0) (fun out => generate wo out c) in ended wo b (es ++ fst r, snd r).
Proof.
  intros Hc Ht. cbv zeta.
  assert (Hg : forall os t, opened wo b os t -> ended wo b (es ++ os ++ fst (generate wo t c), snd (generate wo t c))).
  { intros os t Ho. unfold generate. destruct (run_on (wo_writer wo t) (codegen c)) as [text st] eqn:E.
    destruct st as [u|x|p|]; cbn.
    - destruct u. apply (ended_done wo b es os c t text Hc Ho E).
    - apply ended_refused. apply (unwritten wo b es c os t text x Hc Ho E).
    - apply (ended_panic wo b es os c t text p Hc Ho E).
    - exfalso. destruct (codegen_status c) as [[_ Hs]|[_ [p Hs]]]; 
        destruct (run_on_spec (wo_writer wo t) (codegen c)) as [E2|(x & E2 & _)]; rewrite E2 in E; try congruence;
        rewrite Hs in E; discriminate. }
  destruct t0 as [f|]; unfold open_target.
  - set (p := in_dir (b_target_dir b) f). pose proof (placed_in (b_target_dir b) f) as Hp. fold p in Hp.
    destruct (wo_create wo p) as [e|] eqn:E.
    + cbn. apply ended_refused. apply (uncreatable wo b es c f p e Hc Ht Hp E).
    + specialize (Hg [Create p] (ToFile p) (opened_file wo b f p Ht Hp E)). cbn in *. destruct (generate wo (ToFile p) c) as [l o]. exact Hg.
  - specialize (Hg [] ToStdout (opened_stdout wo b Ht)). cbn in *. destruct (generate wo ToStdout c) as [l o]. exact Hg.
Qed.
Lemma build_ended wo b : ended wo b (build wo b).
Proof.
  unfold build. destruct (b_source b) as [s|] eqn:Es; [|apply ended_refused; constructor; exact Es].
  destruct (b_target b) as [t|] eqn:Et; [|apply ended_refused; constructor; [congruence|exact Et]].
  assert (Et' : b_target b <> None) by congruence.
  destruct s as [f|c].
  - rewrite load_announced. set (p := in_dir (b_source_dir b) f). pose proof (placed_in (b_source_dir b) f) as Hp. fold p in Hp.
    destruct (wo_read wo p) as [text|e] eqn:Er; [|apply ended_refused; apply (unreadable wo b f p e Es Et' Hp Er)].
    destruct (diagnosed wo text) as [rep Hrep]. rewrite Hrep.
    pose proof (parse_total (wo_alnum wo) text) as Hf.
    assert (Hno : route_config_p (wo_alnum wo) text = PErr \/ route_config_p (wo_alnum wo) text = PFail ->
      ended wo b (announced b p ++ [says (lit "Unable to parse route config file " ++ p ++ lit ":"); Stderr rep], Exited 101)).
    { intros H. apply parse_rejects in H. apply ended_refused. apply (rejected wo b f p text rep Es Et' Hp Er H Hrep). }
    destruct (route_config_p (wo_alnum wo) text) as [r c| | |] eqn:E; try congruence; try (apply Hno; auto).
    apply after_input; [|exact Et]. apply parse_reads in E as E2. destruct E2 as [-> _]. apply parse_exact in E.
    apply (taken_file wo b f p text c Es Hp Er E).
  - cbn [load ret bind]. pose proof (after_input wo b [] c t (taken_config wo b c Es) Et) as H. cbv zeta in H.
    destruct (bind (open_target wo b t) (fun out => generate wo out c)) as [l o]. exact H.
Qed.

(** ** Only one way *)
Lemma taken_fun wo b es c es' c' : taken wo b es c -> taken wo b es' c' -> es = es' /\ c = c'.
Proof.
  intros [d H|f p text d H1 H2 H3 H4] [d' H'|f' p' text' d' H1' H2' H3' H4']; try congruence.
  - split; [reflexivity|congruence].
  - rewrite H1 in H1'. injection H1' as <-. apply placed_iff in H2, H2'. subst p p'. split; [reflexivity|].
    rewrite H3 in H3'. injection H3' as <-. exact (text_unique _ _ _ _ H4 H4').
Qed.
Lemma opened_fun wo b es t es' t' : opened wo b es t -> opened wo b es' t' -> es = es' /\ t = t'.
Proof.
  intros [H|f p H1 H2 H3] [H'|f' p' H1' H2' H3']; try congruence; [auto|].
  rewrite H1 in H1'. injection H1' as <-. apply placed_iff in H2, H2'. subst p p'. auto.
Qed.
Lemma ended_fun wo b r r' : ended wo b r -> ended wo b r' -> r = r'.
Proof.
  assert (Hs : forall es c, taken wo b es c -> b_source b <> None) by (intros es c [d H|f p text d H _ _ _]; congruence).
  assert (Ht : forall es t, opened wo b es t -> b_target b <> None) by (intros es t [H|f p H _ _]; congruence).
  assert (Hi : forall es c f p, taken wo b es c -> b_source b = Some (FromFile f) -> placed (b_source_dir b) f p ->
     exists text, wo_read wo p = inl text /\ config_text (wo_alnum wo) c text).
  { intros es c f p [d H|f' p' text d H H2 H3 H4] H' Hp; [congruence|]. rewrite H in H'. injection H' as <-.
    apply placed_iff in H2, Hp. subst p p'. eauto. }
  assert (Ho : forall es t f p, opened wo b es t -> b_target b = Some (ToFile f) -> placed (b_target_dir b) f p -> wo_create wo p = None).
  { intros es t f p [H|f' p' H H2 H3] H' Hp; [congruence|]. rewrite H in H'. injection H' as <-.
    apply placed_iff in H2, Hp. subst p p'. exact H3. }
  assert (G : forall es c os t es' c' os' t', taken wo b es c -> opened wo b os t -> taken wo b es' c' -> opened wo b os' t' ->
     es = es' /\ c = c' /\ os = os' /\ t = t').
  { intros es c os t es' c' os' t' A B A' B'. destruct (taken_fun _ _ _ _ _ _ A A'), (opened_fun _ _ _ _ _ _ B B'). auto. }
  assert (R : forall es os c t, refused wo b es -> forall es0, taken wo b es0 c -> opened wo b os t ->
     exists x text, run_on (wo_writer wo t) (codegen c) = (text, RErr x)).
  { intros es os c t H es0 Hc Hopen. destruct H as [H|H1 H2|f p e H1 H2 H3 H4|f p text rep H1 H2 H3 H4 H5 H6|es c' f p e H1 H2 H3 H4|es c' os' t' text x H1 H2 H3].
    - destruct (Hs _ _ Hc H).
    - destruct (Ht _ _ Hopen H2).
    - destruct (Hi _ _ _ _ Hc H1 H3) as (text & E & _). congruence.
    - destruct (Hi _ _ _ _ Hc H1 H3) as (text' & E & E2). exfalso. apply H5. exists c. congruence.
    - pose proof (Ho _ _ _ _ Hopen H2 H3). congruence.
    - destruct (G _ _ _ _ _ _ _ _ Hc Hopen H1 H2) as (_ & <- & _ & <-). eauto. }
  intros H H'. destruct H as [es H|es os c t text Hc Hopen H|es os c t text p Hc Hopen H];
    destruct H' as [es' H'|es' os' c' t' text' Hc' Hopen' H'|es' os' c' t' text' p' Hc' Hopen' H'];
    try (destruct (R _ _ _ _ H _ Hc' Hopen') as (? & ? & ?); congruence);
    try (destruct (R _ _ _ _ H' _ Hc Hopen) as (? & ? & ?); congruence);
    try (destruct (G _ _ _ _ _ _ _ _ Hc Hopen Hc' Hopen') as (<- & <- & <- & <-); rewrite H in H'; congruence).
  f_equal.
  destruct H as [H|H1 H2|f p e H1 H2 H3 H4|f p text rep H1 H2 H3 H4 H5 H6|es c f p e H1 H2 H3 H4|es c os t text x H1 H2 H3];
  destruct H' as [H'|H1' H2'|f' p' e' H1' H2' H3' H4'|f' p' text' rep' H1' H2' H3' H4' H5' H6'|es' c' f' p' e' H1' H2' H3' H4'
                 |es' c' os' t' text' x' H1' H2' H3']; try congruence;
  try (match goal with Hx : taken wo b _ _, Hy : b_source b = None |- _ => destruct (Hs _ _ Hx Hy) end);
  try (match goal with Hx : opened wo b _ _, Hy : b_target b = None |- _ => destruct (Ht _ _ Hx Hy) end);
  try (match goal with Hx : taken wo b _ ?c, Hy : b_source b = Some (FromFile _), Hz : placed (b_source_dir b) _ _ |- _ =>
         destruct (Hi _ _ _ _ Hx Hy Hz) as (tx & Etx & Ctx); exfalso; try congruence;
         match goal with Hn : ~ (exists _, _) |- _ => apply Hn; exists c; congruence end end);
  try (match goal with Hx : opened wo b _ _, Hy : b_target b = Some (ToFile _), Hz : placed (b_target_dir b) _ _ |- _ =>
         pose proof (Ho _ _ _ _ Hx Hy Hz); congruence end);
  try (match goal with Hx : b_source b = Some (FromFile ?f), Hy : b_source b = Some (FromFile ?f2), Hp : placed _ ?f ?p, Hp2 : placed _ ?f2 ?p2 |- _ =>
         rewrite Hx in Hy; injection Hy as <-; apply placed_iff in Hp, Hp2; subst p p2; congruence end).
  - destruct (taken_fun _ _ _ _ _ _ H1 H1') as [<- <-]. rewrite H2 in H2'. injection H2' as <-. apply placed_iff in H3, H3'. subst p p'. congruence.
  - destruct (G _ _ _ _ _ _ _ _ H1 H2 H1' H2') as (<- & <- & <- & <-). rewrite H3 in H3'. congruence.
Qed.
Lemma build_says wo b es : build wo b = (es, Exited 101) <-> refused wo b es.
Proof.
  pose proof (build_ended wo b) as H. split.
  - intros E. rewrite E in H. inversion H. assumption.
  - intros Hr. exact (ended_fun wo b _ _ H (ended_refused wo b es Hr)).
Qed.
Lemma build_done wo b es : build wo b = (es, Finished tt) <->
  exists pre os c t, taken wo b pre c /\ opened wo b os t /\
    run_on (wo_writer wo t) (codegen c) = (w_text (codegen c), ROk tt) /\ es = pre ++ os ++ [Write t (w_text (codegen c))].
Proof.
  pose proof (build_ended wo b) as H. split.
  - intros E. rewrite E in H. inversion H as [|pre os c t text H1 H2 H3 H4|]. subst es.
    assert (text = w_text (codegen c)) as ->.
    { destruct (run_on_spec (wo_writer wo t) (codegen c)) as [E2|(x & E2 & _)]; rewrite E2 in H3; congruence. }
    exists pre, os, c, t. auto.
  - intros (pre & os & c & t & H1 & H2 & H3 & ->). exact (ended_fun wo b _ _ H (ended_done wo b _ _ _ _ _ H1 H2 H3)).
Qed.
Lemma build_panics wo b es p : build wo b = (es, Panicked p) <->
  exists pre os c t text, taken wo b pre c /\ opened wo b os t /\
    run_on (wo_writer wo t) (codegen c) = (text, RPanic p) /\ es = pre ++ os ++ [Write t text].
Proof.
  pose proof (build_ended wo b) as H. split.
  - intros E. rewrite E in H. inversion H as [| |pre os c t text q H1 H2 H3 H4]. subst es q. exists pre, os, c, t, text. auto.
  - intros (pre & os & c & t & text & H1 & H2 & H3 & ->). exact (ended_fun wo b _ _ H (ended_panic wo b _ _ _ _ _ _ H1 H2 H3)).
Qed.
Lemma build_ends wo b : exists es, build wo b = (es, Exited 101) \/ build wo b = (es, Finished tt) \/ exists p, build wo b = (es, Panicked p).
Proof. destruct (build_ended wo b); eexists; eauto. Qed.

(** ** The environment *)
Lemma env_says wo es : builder_from_env wo = (es, Exited 101) <->
  exists msg, es = [says msg] /\
   (unset wo (lit "CARGO_MANIFEST_DIR") msg \/
    (exists d, wo_var wo (lit "CARGO_MANIFEST_DIR") = Value d) /\ unset wo (lit "OUT_DIR") msg).
Proof.
  unfold builder_from_env, env_dir. split.
  - intros H. destruct (wo_var wo (lit "CARGO_MANIFEST_DIR")) as [d| |] eqn:E1.
    + destruct (wo_var wo (lit "OUT_DIR")) as [d'| |] eqn:E2; [discriminate| |]; (eexists; split; [|right; split; [eauto|constructor; exact E2]]);
        exact (eq_sym (f_equal fst H)).
    + eexists. split; [|left; apply not_present; exact E1]. exact (eq_sym (f_equal fst H)).
    + eexists. split; [|left; apply not_unicode; exact E1]. exact (eq_sym (f_equal fst H)).
  - intros (msg & -> & [H|[[d Hd] H]]).
    + destruct H as [H|H]; rewrite H; reflexivity.
    + rewrite Hd. destruct H as [H|H]; rewrite H; reflexivity.
Qed.
