(** * BuildFacts: the builder *)
From Verif Require Import Base Core Nom Parse Flat Gen Spec SpecGen GenThms BaseFacts ParseFacts RoundFacts
  SpecMatch SpecParse SpecGrammar GrammarFacts ReportFacts Build SpecBuild.

Lemma placed_iff dir f p : placed dir f p <-> p = in_dir dir f.
Proof.
  destruct dir as [d|]; [|reflexivity]. unfold placed, in_dir, path_join.
  assert (Ha : is_absolute f = true <-> hd_error f = Some c_slash).
  { unfold is_absolute. change (lit "/") with [c_slash]. destruct f as [|c f]; [split; discriminate|].
    cbn [is_prefix hd_error]. destruct (N.eqb_spec c_slash c) as [<-|Hc]; cbn [andb].
    - split; reflexivity.
    - split; [discriminate|]. intros [= E]. congruence. }
  assert (He : ends_with_slash d = true <-> d = [] \/ exists d', d = d' ++ [c_slash]).
  { unfold ends_with_slash. destruct d as [|c d _] using rev_ind; [cbn; tauto|]. rewrite rev_app_distr. cbn [rev app].
    rewrite N.eqb_eq. split.
    - intros ->. right. eauto.
    - intros [H|[d' H]]; [destruct d; discriminate|]. apply app_inj_tail in H. apply H. }
  destruct (is_absolute f).
  - split; [|intros ->; constructor; apply Ha; reflexivity].
    intros H. destruct H as [d f H|d f H _|d f H _ _]; [reflexivity| |]; exfalso; apply H, Ha; reflexivity.
  - assert (Hn : hd_error f <> Some c_slash) by (intros E; apply Ha in E; discriminate).
    destruct (ends_with_slash d).
    + split; [|intros ->; constructor 2; [exact Hn|apply He; reflexivity]].
      intros H. destruct H as [d f H|d f _ _|d f _ H1 H2]; [congruence|reflexivity|].
      destruct (proj1 He eq_refl) as [E|[d' E]]; [congruence|exfalso; exact (H2 d' E)].
    + change (lit "/" ++ f) with (c_slash :: f). split.
      * intros H. destruct H as [d f H|d f _ H|d f _ _ _]; [congruence| |reflexivity]. apply He in H. discriminate.
      * intros ->. constructor 3; [exact Hn| |].
        { intros E. assert (false = true) by (apply He; auto). discriminate. }
        { intros d' E. assert (false = true) by (apply He; eauto). discriminate. }
Qed.
Lemma placed_in dir f : placed dir f (in_dir dir f).
Proof. apply placed_iff. reflexivity. Qed.

(** ** Loading *)
Definition load_events (b : Builder) (p : str) : list event :=
  (if b_use_cargo b then [Stdout (lit "cargo:rerun-if-changed=" ++ p ++ [c_nl])] else []) ++ [Read p].
Lemma load_file wo b f : exists es o,
  load wo b (FromFile f) = (load_events b (in_dir (b_source_dir b) f) ++ es, o) /\
  Forall (fun e => exists s, e = Stderr s) es /\
  ((exists c text, o = Finished c /\ es = [] /\ wo_read wo (in_dir (b_source_dir b) f) = inl text /\
      route_config_p (wo_alnum wo) text = POk [] c) \/
   (o <> Hung /\ status o = Some 101 /\
    forall text c, wo_read wo (in_dir (b_source_dir b) f) = inl text -> route_config_p (wo_alnum wo) text <> POk [] c)).
Proof.
  unfold load. set (p := in_dir (b_source_dir b) f).
  assert (Hpre : forall A (k : run A), bind (if b_use_cargo b then emit (Stdout (lit "cargo:rerun-if-changed=" ++ p ++ [c_nl])) else ret tt)
            (fun _ => bind (emit (Read p)) (fun _ => k)) = (load_events b p ++ fst k, snd k)).
  { intros A [l o]. unfold load_events. destruct (b_use_cargo b); reflexivity. }
  rewrite Hpre. clear Hpre.
  destruct (wo_read wo p) as [text|e].
  - pose proof (parse_total (wo_alnum wo) text) as Hf.
    destruct (route_config_p (wo_alnum wo) text) as [r c| | |] eqn:E; try congruence.
    + exists [], (Finished c). cbn [ret fst snd]. split; [reflexivity|]. split; [constructor|]. left.
      apply parse_reads in E as E2. destruct E2 as [-> _]. exists c, text. auto.
    + destruct (wo_diagnosis wo text) as [rep|]; cbn [emit exit_101 bind fst snd app].
      * eexists. eexists. split; [reflexivity|]. split; [repeat constructor; eauto|]. right. split; [discriminate|]. split; [reflexivity|].
        intros text' c [= <-]. rewrite E. discriminate.
      * eexists. eexists. split; [reflexivity|]. split; [repeat constructor; eauto|]. right. split; [discriminate|]. split; [reflexivity|].
        intros text' c [= <-]. rewrite E. discriminate.
    + destruct (wo_diagnosis wo text) as [rep|]; cbn [emit exit_101 bind fst snd app].
      * eexists. eexists. split; [reflexivity|]. split; [repeat constructor; eauto|]. right. split; [discriminate|]. split; [reflexivity|].
        intros text' c [= <-]. rewrite E. discriminate.
      * eexists. eexists. split; [reflexivity|]. split; [repeat constructor; eauto|]. right. split; [discriminate|]. split; [reflexivity|].
        intros text' c [= <-]. rewrite E. discriminate.
  - cbn [fail emit exit_101 bind fst snd app]. eexists. eexists. split; [reflexivity|]. split; [repeat constructor; eauto|]. right.
    split; [discriminate|]. split; [reflexivity|]. intros text c H. discriminate.
Qed.
(** Neither a file nor generated code is touched by loading. *)
Definition harmless (e : event) : Prop := ~ is_write e /\ ~ is_create e.
Lemma harmless_stderr es : Forall (fun e => exists s, e = Stderr s) es -> Forall harmless es.
Proof.
  intros H. eapply Forall_impl; [|exact H]. intros e [s ->]. split; [intros (? & ? & E); discriminate|intros (? & E); discriminate].
Qed.
Lemma harmless_load b p : Forall harmless (load_events b p).
Proof.
  unfold load_events. destruct (b_use_cargo b); repeat (apply Forall_cons || apply Forall_nil);
    (split; [intros (? & ? & E); discriminate|intros (? & E); discriminate]).
Qed.
Lemma load_spec wo b s : b_source b = Some s -> exists es o, load wo b s = (es, o) /\ Forall harmless es /\
  ((exists c, o = Finished c /\ input_ok wo b c) \/
   (status o = Some 101 /\ (forall c, o <> Finished c) /\ forall c, ~ input_ok wo b c)).
Proof.
  intros Hb. destruct s as [f|c].
  - destruct (load_file wo b f) as (es & o & E & Hes & H). exists (load_events b (in_dir (b_source_dir b) f) ++ es), o.
    split; [exact E|]. split; [apply Forall_app; split; [apply harmless_load|apply harmless_stderr; exact Hes]|].
    destruct H as [(c & text & -> & _ & H1 & H2)|(Hh & Hs & Hno)].
    + left. exists c. split; [reflexivity|]. right. exists f, (in_dir (b_source_dir b) f), text.
      split; [exact Hb|]. split; [apply placed_in|]. split; [exact H1|]. apply parse_exact. exact H2.
    + right. split; [exact Hs|]. split; [intros c ->; discriminate|]. intros c [H|(f' & p & text & H & Hp & Hr & Ht)]; [congruence|].
      rewrite Hb in H. injection H as <-. apply placed_iff in Hp. subst p. apply (Hno text c Hr). apply parse_exact. exact Ht.
  - exists [], (Finished c). split; [reflexivity|]. split; [constructor|]. left. exists c. split; [reflexivity|]. left. exact Hb.
Qed.
Lemma input_ok_fun wo b c c' : input_ok wo b c -> input_ok wo b c' -> c = c'.
Proof.
  intros [H|(f & p & text & H & Hp & Hr & Ht)] [H'|(f' & p' & text' & H' & Hp' & Hr' & Ht')]; try congruence.
  rewrite H in H'. injection H' as <-. apply placed_iff in Hp, Hp'. subst. rewrite Hr in Hr'. injection Hr' as <-. exact (text_unique _ _ _ _ Ht Ht').
Qed.

(** ** Opening *)
Lemma open_spec wo b t : b_target b = Some t -> exists es o, open_target wo b t = (es, o) /\
  ((exists t', o = Finished t' /\ output_ok wo b t' /\ es = match t' with ToStdout => [] | ToFile p => [Create p] end) \/
   (status o = Some 101 /\ (forall t', o <> Finished t') /\ (forall t', ~ output_ok wo b t') /\ Forall harmless es)).
Proof.
  intros Hb. destruct t as [f|]; unfold open_target.
  - set (p := in_dir (b_target_dir b) f). destruct (wo_create wo p) as [e|] eqn:E.
    + eexists. eexists. split; [reflexivity|]. right. split; [reflexivity|]. split; [discriminate|]. split.
      * intros t' [[H _]|(f' & p' & H & Hp & Hc & ->)]; [congruence|]. rewrite Hb in H. injection H as <-.
        apply placed_iff in Hp. subst p'. fold p in Hc. congruence.
      * apply harmless_stderr. repeat constructor. eauto.
    + eexists. eexists. split; [reflexivity|]. left. exists (ToFile p). split; [reflexivity|]. split; [|reflexivity].
      right. exists f, p. split; [exact Hb|]. split; [apply placed_in|]. auto.
  - eexists. eexists. split; [reflexivity|]. left. exists ToStdout. split; [reflexivity|]. split; [left; auto|reflexivity].
Qed.
Lemma output_ok_fun wo b t t' : output_ok wo b t -> output_ok wo b t' -> t = t'.
Proof.
  intros [[H ->]|(f & p & H & Hp & _ & ->)] [[H' ->]|(f' & p' & H' & Hp' & _ & ->)]; try congruence.
  rewrite H in H'. injection H' as <-. apply placed_iff in Hp, Hp'. congruence.
Qed.

(** ** Generating *)
Lemma generate_spec wo t c : exists es o, generate wo t c = (Write t (fst (run_on (wo_writer wo t) (codegen c))) :: es, o) /\
  Forall harmless es /\
  ((o = Finished tt /\ es = [] /\ run_on (wo_writer wo t) (codegen c) = (w_text (codegen c), ROk tt)) \/
   (status o = Some 101 /\ o <> Finished tt /\ run_on (wo_writer wo t) (codegen c) <> (w_text (codegen c), ROk tt))).
Proof.
  unfold generate. destruct (run_on_spec (wo_writer wo t) (codegen c)) as [E|(x & E & _)]; rewrite E; cbn [fst].
  - assert (Hst : snd (codegen c) = ROk tt \/ exists p, snd (codegen c) = RPanic p).
    { destruct (codegen_status c) as [[_ H]|[_ H]]; auto. }
    destruct Hst as [Hst|[p Hst]]; rewrite Hst.
    + exists [], (Finished tt). split; [reflexivity|]. split; [constructor|]. left. auto.
    + exists [], (Panicked p). split; [reflexivity|]. split; [constructor|]. right. repeat split; discriminate.
  - eexists. eexists. split; [reflexivity|]. split; [apply harmless_stderr; repeat constructor; eauto|]. right. repeat split; discriminate.
Qed.

(** ** The whole build *)
Lemma build_spec wo b : exists es o, build wo b = (es, o) /\
  ((exists c t pre, o = Finished tt /\ input_ok wo b c /\ output_ok wo b t /\
      run_on (wo_writer wo t) (codegen c) = (w_text (codegen c), ROk tt) /\
      es = pre ++ [Write t (w_text (codegen c))] /\ Forall (fun e => ~ is_write e) pre) \/
   (status o = Some 101 /\ o <> Finished tt /\
    forall c t, input_ok wo b c -> output_ok wo b t -> run_on (wo_writer wo t) (codegen c) <> (w_text (codegen c), ROk tt))) /\
  ((forall c, ~ input_ok wo b c) \/ b_target b = None -> Forall harmless es).
Proof.
  assert (Hfail : forall (msg : str), exists es o, (fail msg : run unit) = (es, o) /\ status o = Some 101 /\ o <> Finished tt /\ Forall harmless es).
  { intros msg. eexists. eexists. split; [reflexivity|]. split; [reflexivity|]. split; [discriminate|].
    apply harmless_stderr. repeat constructor. eauto. }
  assert (Hoff : forall (msg : str), (forall c t, input_ok wo b c -> output_ok wo b t -> False) ->
            exists es o, (fail msg : run unit) = (es, o) /\
              ((exists c t pre, o = Finished tt /\ input_ok wo b c /\ output_ok wo b t /\
      run_on (wo_writer wo t) (codegen c) = (w_text (codegen c), ROk tt) /\
      es = pre ++ [Write t (w_text (codegen c))] /\ Forall (fun e => ~ is_write e) pre) \/
   (status o = Some 101 /\ o <> Finished tt /\
    forall c t, input_ok wo b c -> output_ok wo b t -> run_on (wo_writer wo t) (codegen c) <> (w_text (codegen c), ROk tt))) /\
  ((forall c, ~ input_ok wo b c) \/ b_target b = None -> Forall harmless es)).
  { intros msg Hno. destruct (Hfail msg) as (es & o & E & H1 & H2 & H3). exists es, o. split; [exact E|]. split; [|auto].
    right. split; [exact H1|]. split; [exact H2|]. intros c t Hc Ht. destruct (Hno c t Hc Ht). }
  unfold build. destruct (b_source b) as [s|] eqn:Es.
  2: { apply Hoff. intros c t [H|(f & p & text & H & _)] _; congruence. }
  destruct (b_target b) as [t|] eqn:Et.
  2: { apply Hoff. intros c t _ [[H _]|(f & p & H & _)]; congruence. }
  clear Hoff Hfail.
  destruct (load_spec wo b s Es) as (es1 & o1 & E1 & H1 & [(c & -> & Hc)|(Hst & Hn & Hno)]); rewrite E1.
  2: { assert (Eo : exists o2, bind (es1, o1) (fun input => bind (open_target wo b t) (fun out => generate wo out input)) = (es1, o2) /\ status o2 = Some 101 /\ o2 <> Finished tt).
       { destruct o1 as [c|n|p|]; cbn [status bind] in *; [destruct (Hn c eq_refl)| | |discriminate];
           (eexists; split; [reflexivity|]; split; [exact Hst|discriminate]). }
       destruct Eo as (o2 & Eo & Hs2 & Hf2). exists es1, o2. split; [exact Eo|]. split; [|auto]. right. split; [exact Hs2|].
       split; [exact Hf2|]. intros c t' Hc. destruct (Hno c Hc). }
  destruct (open_spec wo b t Et) as (es2 & o2 & E2 & [(t' & -> & Ht & He2)|(Hst & Hn & Hno & Hes2)]); cbn [bind]; rewrite E2.
  2: { assert (Eo : exists o3, bind (es2, o2) (fun out => generate wo out c) = (es2, o3) /\ status o3 = Some 101 /\ o3 <> Finished tt).
       { destruct o2 as [x|n|p|]; cbn [status bind] in *; [destruct (Hn x eq_refl)| | |discriminate];
           (eexists; split; [reflexivity|]; split; [exact Hst|discriminate]). }
       destruct Eo as (o3 & Eo & Hs3 & Hf3). rewrite Eo. exists (es1 ++ es2), o3. split; [reflexivity|]. split.
       - right. split; [exact Hs3|]. split; [exact Hf3|]. intros c' t' _ Ht. destruct (Hno t' Ht).
       - intros _. apply Forall_app. auto. }
  destruct (generate_spec wo t' c) as (es3 & o3 & E3 & Hes3 & H3). cbn [bind]. rewrite E3.
  exists (es1 ++ es2 ++ Write t' (fst (run_on (wo_writer wo t') (codegen c))) :: es3), o3. split; [reflexivity|]. split.
  - destruct H3 as [(-> & -> & Hr)|(Hst & Hn & Hr)].
    + left. exists c, t', (es1 ++ es2). rewrite Hr. cbn [fst]. rewrite app_assoc. repeat split; try assumption.
      apply Forall_app. split; [eapply Forall_impl; [|exact H1]; intros e [He _]; exact He|]. subst es2.
      destruct t' as [p|]; repeat constructor. intros (? & ? & E). discriminate.
    + right. split; [exact Hst|]. split; [exact Hn|]. intros c2 t2 Hc2 Ht2.
      rewrite (input_ok_fun _ _ _ _ Hc2 Hc), (output_ok_fun _ _ _ _ Ht2 Ht). exact Hr.
  - intros [Hno|E]; [destruct (Hno c Hc)|congruence].
Qed.
Lemma build_finished wo b : snd (build wo b) = Finished tt <->
  exists c t, input_ok wo b c /\ output_ok wo b t /\ run_on (wo_writer wo t) (codegen c) = (w_text (codegen c), ROk tt).
Proof.
  destruct (build_spec wo b) as (es & o & E & H & _). rewrite E. cbn [snd]. split.
  - intros ->. destruct H as [(c & t & pre & _ & H1 & H2 & H3 & _)|(_ & H & _)]; [eauto|congruence].
  - intros (c & t & H1 & H2 & H3). destruct H as [(_ & _ & _ & H & _)|(_ & _ & H)]; [exact H|]. destruct (H c t H1 H2 H3).
Qed.
Lemma build_fails wo b : snd (build wo b) <> Finished tt -> status (snd (build wo b)) = Some 101.
Proof.
  destruct (build_spec wo b) as (es & o & E & H & _). rewrite E. cbn [snd]. intros Hn.
  destruct H as [(_ & _ & _ & H & _)|(H & _)]; [congruence|exact H].
Qed.
Lemma build_output wo b c t : snd (build wo b) = Finished tt -> input_ok wo b c -> output_ok wo b t ->
  exists pre, fst (build wo b) = pre ++ [Write t (w_text (codegen c))] /\ Forall (fun e => ~ is_write e) pre.
Proof.
  destruct (build_spec wo b) as (es & o & E & H & _). rewrite E. cbn [fst snd]. intros -> Hc Ht.
  destruct H as [(c' & t' & pre & _ & Hc' & Ht' & _ & He & Hp)|(_ & H & _)]; [|congruence].
  rewrite (input_ok_fun _ _ _ _ Hc Hc'), (output_ok_fun _ _ _ _ Ht Ht'). eauto.
Qed.
Lemma build_untouched wo b : (forall c, ~ input_ok wo b c) \/ b_target b = None ->
  forall e, In e (fst (build wo b)) -> ~ is_create e /\ ~ is_write e.
Proof.
  destruct (build_spec wo b) as (es & o & E & _ & H). rewrite E. cbn [fst]. intros Hno e He.
  specialize (H Hno). rewrite Forall_forall in H. destruct (H e He). auto.
Qed.

(** ** Rejected files *)
Lemma build_rejected wo b f p text :
  b_source b = Some (FromFile f) -> b_target b <> None -> placed (b_source_dir b) f p ->
  wo_read wo p = inl text -> (~ exists c, config_text (wo_alnum wo) c text) ->
  exists pre rep, build wo b =
    (pre ++ [Read p; Stderr (lit "Unable to parse route config file " ++ p ++ lit ":" ++ [c_nl]); Stderr rep], Exited 101) /\
    Forall is_stdout pre /\ wo_diagnosis wo text = Some rep /\ rep <> [].
Proof.
  intros Hs Ht Hp Hr Hno. apply placed_iff in Hp. unfold build. rewrite Hs. destruct (b_target b) as [t|]; [|congruence].
  unfold load. rewrite <- Hp, Hr.
  destruct (diagnosis_some (wo_alnum wo) (wo_keep wo) (wo_code wo) (wo_debug_kind wo) (wo_debug_context wo) (wo_errors wo) text []) as (rep & Hd & Hn).
  exists (if b_use_cargo b then [Stdout (lit "cargo:rerun-if-changed=" ++ p ++ [c_nl])] else []), rep.
  assert (Hd' : wo_diagnosis wo text = Some rep) by exact Hd. split; [|split; [|split; [exact Hd'|]]].
  - apply parse_rejects in Hno. destruct Hno as [E|E]; rewrite E, Hd'; destruct (b_use_cargo b); reflexivity.
  - destruct (b_use_cargo b); repeat constructor. exists (lit "cargo:rerun-if-changed=" ++ p ++ [c_nl]). reflexivity.
  - intros E. apply Hno. apply Hn. exact E.
Qed.

(** ** Cargo *)
Lemma generate_stdout wo t c : Forall (fun e => ~ is_stdout e) (fst (generate wo t c)).
Proof.
  unfold generate. destruct (run_on (wo_writer wo t) (codegen c)) as [x [| | |]]; cbn;
    repeat constructor; intros [? E]; discriminate.
Qed.
Lemma open_stdout wo b t : Forall (fun e => ~ is_stdout e) (fst (open_target wo b t)).
Proof.
  unfold open_target. destruct t as [f|]; [|constructor]. destruct (wo_create wo _); cbn; repeat constructor; intros [? E]; discriminate.
Qed.
Lemma bind_forall {A B} (P : event -> Prop) (m : run A) (f : A -> run B) :
  Forall P (fst m) -> (forall a, Forall P (fst (f a))) -> Forall P (fst (bind m f)).
Proof.
  intros Hm Hf. destruct m as [l [a|n|p|]]; cbn [bind fst] in *; auto. specialize (Hf a). destruct (f a) as [l' o]. cbn [fst] in *.
  apply Forall_app. auto.
Qed.
Lemma bind_prefix {A B} (m : run A) (f : A -> run B) l r o : m = (l ++ r, o) ->
  exists r', fst (bind m f) = l ++ r ++ r' /\ (forall P : event -> Prop, (forall a, Forall P (fst (f a))) -> Forall P r').
Proof.
  intros ->. destruct o as [a|n|p|]; cbn [bind fst].
  - destruct (f a) as [l' o'] eqn:E. cbn [fst]. exists l'. rewrite <- app_assoc. split; [reflexivity|]. intros P H. specialize (H a).
    rewrite E in H. exact H.
  - exists []. rewrite app_nil_r. split; [reflexivity|]. constructor.
  - exists []. rewrite app_nil_r. split; [reflexivity|]. constructor.
  - exists []. rewrite app_nil_r. split; [reflexivity|]. constructor.
Qed.
Lemma build_rerun wo b f p : b_use_cargo b = true -> b_source b = Some (FromFile f) -> b_target b <> None ->
  placed (b_source_dir b) f p ->
  exists rest, fst (build wo b) = Stdout (lit "cargo:rerun-if-changed=" ++ p ++ [c_nl]) :: Read p :: rest /\
    Forall (fun e => ~ is_stdout e) rest.
Proof.
  intros Hc Hs Ht Hp. apply placed_iff in Hp. subst p. unfold build. rewrite Hs. destruct (b_target b) as [t|]; [|congruence].
  destruct (load_file wo b f) as (es & o & E & Hes & _).
  destruct (bind_prefix _ (fun input => bind (open_target wo b t) (fun out => generate wo out input)) _ _ _ E) as (r & Er & Hr).
  rewrite Er. unfold load_events. rewrite Hc. cbn [app]. exists (es ++ r). split; [reflexivity|]. apply Forall_app. split.
  - eapply Forall_impl; [|exact Hes]. intros e [s ->] [? H]. discriminate.
  - apply Hr. intros c. apply bind_forall; [apply open_stdout|]. intros out. apply generate_stdout.
Qed.
Lemma build_no_rerun wo b : b_use_cargo b = false \/ (exists c, b_source b = Some (FromConfig c)) ->
  Forall (fun e => ~ is_stdout e) (fst (build wo b)).
Proof.
  intros H. unfold build.
  assert (Hf : forall msg, Forall (fun e => ~ is_stdout e) (fst (fail msg : run unit))).
  { intros msg. cbn. repeat constructor. intros [? E]. discriminate. }
  destruct (b_source b) as [s|] eqn:Es; [|apply Hf]. destruct (b_target b) as [t|]; [|apply Hf].
  apply bind_forall.
  - destruct s as [f|c]; [|constructor]. destruct H as [H|[c H]]; [|discriminate].
    destruct (load_file wo b f) as (es & o & E & Hes & _). rewrite E. cbn [fst]. unfold load_events. rewrite H. cbn [app].
    constructor; [intros [? E2]; discriminate|]. eapply Forall_impl; [|exact Hes]. intros e [x ->] [? E2]. discriminate.
  - intros c. apply bind_forall; [apply open_stdout|]. intros out. apply generate_stdout.
Qed.

(** ** Builders *)
Lemma from_env_spec wo :
  (exists s t, wo_var wo (lit "CARGO_MANIFEST_DIR") = Value s /\ wo_var wo (lit "OUT_DIR") = Value t /\
     builder_from_env wo = ([], Finished (mkBuilder true (Some s) None (Some t) None))) \/
  (exists msg, builder_from_env wo = ([Stderr msg], Exited 101) /\
     ((forall s, wo_var wo (lit "CARGO_MANIFEST_DIR") <> Value s) \/ (forall t, wo_var wo (lit "OUT_DIR") <> Value t))).
Proof.
  unfold builder_from_env, env_dir.
  destruct (wo_var wo (lit "CARGO_MANIFEST_DIR")) as [s| |] eqn:E1.
  - destruct (wo_var wo (lit "OUT_DIR")) as [t| |] eqn:E2.
    + left. exists s, t. auto.
    + right. eexists. split; [reflexivity|]. right. discriminate.
    + right. eexists. split; [reflexivity|]. right. discriminate.
  - right. eexists. split; [reflexivity|]. left. discriminate.
  - right. eexists. split; [reflexivity|]. left. discriminate.
Qed.
Lemma use_cargo_flag wo s t b b' es :
  b_use_cargo builder_new = false /\
  (builder_from_env wo = (es, Finished b') -> b_use_cargo b' = true) /\
  b_use_cargo (set_source s b) = b_use_cargo b /\ b_use_cargo (set_target t b) = b_use_cargo b.
Proof.
  split; [reflexivity|]. split; [|split; reflexivity].
  destruct (from_env_spec wo) as [(d & d' & _ & _ & ->)|(m & -> & _)]; [intros [= <- <-]; reflexivity|discriminate].
Qed.

(** ** What is created *)
Lemma build_created wo b p :
  In (Create p) (fst (build wo b)) ->
  (exists c, input_ok wo b c) /\ exists f, b_target b = Some (ToFile f) /\ placed (b_target_dir b) f p.
Proof.
  unfold build. intros H. destruct (b_source b) as [s|] eqn:Es; [|destruct H as [H|[]]; discriminate].
  destruct (b_target b) as [t|] eqn:Et; [|destruct H as [H|[]]; discriminate].
  assert (Hh : forall es, Forall harmless es -> ~ In (Create p) es).
  { intros es Hes Hi. rewrite Forall_forall in Hes. destruct (Hes _ Hi) as [_ Hc]. apply Hc. eexists. reflexivity. }
  destruct (load_spec wo b s Es) as (es1 & o1 & E1 & H1 & [(c & -> & Hc)|(Hst & Hn & Hno)]); rewrite E1 in H.
  2: { exfalso. apply (Hh es1 H1). destruct o1 as [c|n|q|]; try exact H. destruct (Hn c eq_refl). }
  cbn [bind] in H. split; [eauto|].
  destruct (open_spec wo b t Et) as (es2 & o2 & E2 & [(t' & -> & Ht & He2)|(Hst & Hn & Hno & Hes2)]); rewrite E2 in H.
  2: { exfalso. destruct o2 as [x|n|q|]; cbn [bind fst] in H; [destruct (Hn x eq_refl)| | |];
         (apply in_app_or in H; destruct H as [H|H]; [exact (Hh es1 H1 H)|exact (Hh es2 Hes2 H)]). }
  cbn [bind] in H. destruct (generate_spec wo t' c) as (es3 & o3 & E3 & Hes3 & _). rewrite E3 in H. cbn [fst] in H.
  apply in_app_or in H. destruct H as [H|H]; [destruct (Hh es1 H1 H)|]. apply in_app_or in H.
  destruct H as [H|[H|H]]; [|discriminate|destruct (Hh es3 Hes3 H)]. subst es2.
  destruct Ht as [[_ ->]|(f & q & Hf & Hp & _ & ->)]; [destruct H|]. destruct H as [[= <-]|[]]. exists f. split; [congruence|exact Hp].
Qed.

(** ** The command line *)
Lemma cmd_ok wo name path args c :
  wo_read wo path = inl c ->
  forall cfg, config_text (wo_alnum wo) cfg c -> snd (codegen cfg) = ROk tt ->
  (forall st s, exists st', wr_write (wo_writer wo ToStdout) st s = inl st') ->
  cmd_main wo (name :: path :: args) = ([Read path; Write ToStdout (w_text (codegen cfg))], Finished tt).
Proof.
  intros Hr cfg Hc Hg Hw. apply parse_exact in Hc. unfold cmd_main, build, output_stdout, input_file, set_target, set_source, builder_new, load, open_target, generate.
  cbn [b_source b_target b_source_dir b_target_dir b_use_cargo in_dir]. rewrite Hr, Hc. cbn [bind ret emit app].
  rewrite (run_on_total _ _ Hw), Hg. reflexivity.
Qed.
Lemma cmd_status wo name path args :
  status (snd (cmd_main wo (name :: path :: args))) = Some 0 \/
  status (snd (cmd_main wo (name :: path :: args))) = Some 101.
Proof.
  unfold cmd_main. set (b := output_stdout _). pose proof (build_fails wo b) as H.
  destruct (snd (build wo b)) as [[]|n|p|]; [left; reflexivity|right; apply H; discriminate..].
Qed.
Lemma cmd_finished wo name path args :
  snd (cmd_main wo (name :: path :: args)) = Finished tt <->
  exists text cfg, wo_read wo path = inl text /\ config_text (wo_alnum wo) cfg text /\
    run_on (wo_writer wo ToStdout) (codegen cfg) = (w_text (codegen cfg), ROk tt).
Proof.
  cbn [cmd_main]. rewrite build_finished. split.
  - intros (c & t & [H|(f & p & text & H & Hp & Hr & Ht)] & Hout & Hw); [discriminate|]. injection H as <-.
    apply placed_iff in Hp. cbn in Hp. subst p. exists text, c. split; [exact Hr|]. split; [exact Ht|].
    destruct Hout as [[_ ->]|(f & p & H & _)]; [exact Hw|discriminate].
  - intros (text & cfg & Hr & Hc & Hw). exists cfg, ToStdout. split; [|split; [left; auto|exact Hw]].
    right. exists path, path, text. repeat split; assumption.
Qed.
Lemma cmd_events wo name path args e :
  In e (fst (cmd_main wo (name :: path :: args))) ->
  e = Read path \/ (exists s, e = Write ToStdout s) \/ (exists s, e = Stderr s).
Proof.
  cbn [cmd_main]. set (b := output_stdout _). revert e. apply Forall_forall. unfold build. cbn [b output_stdout set_target input_file set_source b_source b_target].
  fold b. apply bind_forall.
  - destruct (load_file wo b path) as (es & o & E & Hes & _). rewrite E. cbn [fst]. apply Forall_app. split; [|eapply Forall_impl; [|exact Hes]; auto].
    repeat constructor.
  - intros c. cbn [open_target ret bind]. unfold generate.
    destruct (run_on (wo_writer wo ToStdout) (codegen c)) as [x [u|er|q|]]; cbn; repeat (apply Forall_cons || apply Forall_nil); eauto.
Qed.
Lemma cmd_usage wo name :
  cmd_main wo [name] = ([Stderr (lit "Usage: " ++ name ++ lit " ROUTE_FILE" ++ [c_nl])], Finished tt).
Proof. reflexivity. Qed.

(** ** From a file or from a configuration *)
Lemma build_either wo b f p text c :
  placed (b_source_dir b) f p -> wo_read wo p = inl text -> config_text (wo_alnum wo) c text -> b_target b <> None ->
  build wo (input_file f b) =
  ((if b_use_cargo b then [Stdout (lit "cargo:rerun-if-changed=" ++ p ++ [c_nl])] else []) ++ Read p :: fst (build wo (input_config c b)),
   snd (build wo (input_config c b))).
Proof.
  intros Hp Hr Hc Ht. apply placed_iff in Hp. apply parse_exact in Hc.
  unfold build, input_file, input_config, set_source. cbn [b_source b_target]. destruct (b_target b) as [t|]; [|congruence].
  unfold load. cbn [b_source_dir b_use_cargo]. rewrite <- Hp, Hr, Hc.
  unfold open_target. cbn [b_target_dir].
  destruct (b_use_cargo b); cbn [bind ret emit app fst snd]; destruct (bind _ (fun out => generate wo out c)); reflexivity.
Qed.
Lemma wf_either ualnum c : wf_config ualnum c -> exists text, forall wo b f p,
  wo_alnum wo = ualnum -> placed (b_source_dir b) f p -> wo_read wo p = inl text -> b_target b <> None ->
  snd (build wo (input_file f b)) = snd (build wo (input_config c b)) /\
  filter (fun e => match e with Create _ | Write _ _ => true | _ => false end) (fst (build wo (input_file f b))) =
  filter (fun e => match e with Create _ | Write _ _ => true | _ => false end) (fst (build wo (input_config c b))).
Proof.
  intros H. destruct (config_exists ualnum c H) as [text Ht]. exists text. intros wo b f p <- Hp Hr Htar.
  rewrite (build_either wo b f p text c Hp Hr Ht Htar). split; [reflexivity|]. cbn [fst]. destruct (b_use_cargo b); reflexivity.
Qed.
Lemma stringify_either wo b f p c : wf_config (wo_alnum wo) c -> lines_within 7 c ->
  placed (b_source_dir b) f p -> wo_read wo p = inl (config_stringify c) -> b_target b <> None ->
  snd (build wo (input_file f b)) = snd (build wo (input_config c b)) /\
  filter (fun e => match e with Create _ | Write _ _ => true | _ => false end) (fst (build wo (input_file f b))) =
  filter (fun e => match e with Create _ | Write _ _ => true | _ => false end) (fst (build wo (input_config c b))).
Proof.
  intros Hw Hl Hp Hr Ht. pose proof (round_trip (wo_alnum wo) c Hw Hl) as H. apply parse_exact in H.
  rewrite (build_either wo b f p _ c Hp Hr H Ht). split; [reflexivity|]. cbn [fst]. destruct (b_use_cargo b); reflexivity.
Qed.
(** A static segment with a character such as a hyphen. *)
Lemma no_file ualnum c pat q b s child x : block_at (c_routes c) pat q b -> In (Static s, child) (rt_routes b) ->
  In x s -> ~ ident_char ualnum x -> ~ exists text, config_text ualnum c text.
Proof.
  intros Hb Hin Hx Hn [text Ht]. apply parse_exact in Ht. destruct (proj2 (config_writable ualnum c) (ex_intro _ text Ht)) as [_ Hw].
  destruct (Hw _ _ _ Hb) as (_ & _ & Hs & _). rewrite Forall_forall in Hs. specialize (Hs _ Hin). cbn [fst wf_segment] in Hs.
  destruct Hs as [_ Hs]. rewrite Forall_forall in Hs. exact (Hn (Hs x Hx)).
Qed.
