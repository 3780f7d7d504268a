(** * DiskThms: the files before and after a build *)
From Verif Require Import Base Core Nom Parse Flat Gen Build SpecParse SpecGrammar SpecBuild SpecFailure SpecGen SpecDisk BaseFacts
  GrammarFacts GenThms BuildFacts FailureFacts.

(** ** Route files and generated code *)
Section Slash.
Variable ualnum : char -> bool.
Notation free s := (~ In c_slash s).
Lemma ident_free s : ident ualnum s -> free s.
Proof.
  intros [_ H] Hin. rewrite Forall_forall in H. specialize (H _ Hin). unfold ident_char, c_slash in H. lia.
Qed.
Lemma blanks_free s : blanks s -> free s.
Proof. intros H Hin. unfold blanks in H. rewrite Forall_forall in H. specialize (H _ Hin). discriminate H. Qed.
Lemma newline_free s : newline s -> free s.
Proof. intros H Hin. destruct H; vm_compute in Hin; intuition discriminate. Qed.
Lemma newlines_free s : newlines s -> free s.
Proof.
  induction 1 as [e H|e es H _ IH]; [apply newline_free, H|]. rewrite in_app_iff. intros [Hi|Hi]; [exact (newline_free _ H Hi)|exact (IH Hi)].
Qed.
Lemma margin_free n : free (margin n).
Proof. unfold margin. induction n as [|n IH]; [intros []|]. cbn [repeat concat]. rewrite in_app_iff. intros [Hi|Hi]; [|exact (IH Hi)]. vm_compute in Hi. intuition discriminate. Qed.
Lemma app_free (a b : str) : free a -> free b -> free (a ++ b).
Proof. intros Ha Hb. rewrite in_app_iff. tauto. Qed.
Ltac pieces := repeat apply app_free; auto using ident_free, blanks_free, newlines_free, margin_free;
  try (intros Hs; vm_compute in Hs; intuition discriminate).
Lemma param_free p s : param_text ualnum p s -> free s.
Proof. intros H. destruct H. pieces. Qed.
Lemma segment_free p s : segment_text ualnum p s -> free s.
Proof. intros H. destruct H; [apply ident_free; assumption|]. pieces. eapply param_free; eassumption. Qed.
Lemma query_free n p s : query_text ualnum n p s -> free s.
Proof. intros H. destruct H. pieces. eapply param_free; eassumption. Qed.
Lemma path_free ms n s : path_text ualnum ms n s -> free s.
Proof. induction 1; pieces. Qed.
Lemma target_free r ms n s : target_text ualnum r ms n s -> free s.
Proof. intros H. destruct H; pieces; eapply path_free; eassumption. Qed.
Lemma texts_free {A} (P : A -> str -> Prop) l s : (forall x t, P x t -> free t) -> texts P l s -> free s.
Proof. intros H. induction 1 as [|x xs s rest Hx _ IH]; [intros []|]. apply app_free; [exact (H _ _ Hx)|exact IH]. Qed.
Lemma resource_free n r s : resource_text ualnum n r s -> free s.
Proof.
  intros H. destruct H as [m ms k redirect query v w e s Hv Ht He Hq]. pieces.
  - intros Hi. apply (in_map to_lower) in Hi. rewrite Hv in Hi. destruct m; vm_compute in Hi; intuition discriminate.
  - eapply target_free; eassumption.
  - eapply texts_free; [|eassumption]. intros. eapply query_free; eassumption.
Qed.
Fixpoint block_free n b s (H : block_text ualnum n b s) : free s
with nested_free n l s (H : nested_texts ualnum n l s) : free s.
Proof.
  - destruct H as [n rs ch qs s1 s2 s3 _ H1 H2 H3]. apply app_free; [|apply app_free].
    + eapply texts_free; [|exact H1]. intros. eapply query_free; eassumption.
    + eapply texts_free; [|exact H2]. intros. eapply resource_free; eassumption.
    + exact (nested_free _ _ _ H3).
  - destruct H as [n|n seg child ch w e s rest H1 H2 H3 H4]; [intros []|]. apply app_free; [apply margin_free|].
    apply app_free; [exact (segment_free _ _ H1)|]. apply app_free; [apply newlines_free, H2|].
    apply app_free; [exact (block_free _ _ _ H3)|exact (nested_free _ _ _ H4)].
Qed.
(** After the last slash of a route file there is a line break. *)
Lemma last_slash (a b a' b' : str) : free b -> free b' -> a ++ c_slash :: b = a' ++ c_slash :: b' -> b = b'.
Proof.
  revert a'. induction a as [|x a IH]; intros [|x' a'] Hb Hb' E; cbn [app] in E.
  - injection E as E. exact E.
  - exfalso. apply Hb. apply (f_equal (@tl N)) in E. cbn [tl] in E. rewrite E. apply in_or_app. right. left. reflexivity.
  - exfalso. apply Hb'. apply (f_equal (@tl N)) in E. cbn [tl] in E. rewrite <- E. apply in_or_app. right. left. reflexivity.
  - apply (f_equal (@tl N)) in E. cbn [tl] in E. exact (IH a' Hb Hb' E).
Qed.
Lemma code_no_routes c c' : snd (codegen c) = ROk tt -> ~ config_text ualnum c' (w_text (codegen c)).
Proof.
  intros Hc H. destruct (codegen_text c Hc) as (root & l & body & _ & _ & _ & _ & Et). rewrite Et in H. clear Et Hc.
  assert (Eu : unlines [lit "    }"; []; lit "} // mod routes"] =
    (unlines [lit "    }"; []] ++ lit "} /") ++ c_slash :: (lit " mod routes" ++ [c_nl])) by reflexivity.
  rewrite Eu, !app_assoc in H. revert H. match goal with |- config_text _ _ (?x ++ _) -> _ => generalize x end. intros u H.
  inversion H as [hs b e0 s e w _ _ He Hb Ec Es].
  assert (Ew : e ++ w = lit " mod routes" ++ [c_nl]).
  { eapply (last_slash (e0 ++ s)); [| |rewrite <- app_assoc; exact Es].
    - apply app_free; [apply newlines_free, He|exact (block_free _ _ _ Hb)].
    - intros Hi. vm_compute in Hi. intuition discriminate. }
  destruct He as [e Hn|e es Hn _]; destruct Hn; vm_compute in Ew; discriminate Ew.
Qed.
End Slash.

(** ** Builds *)
Lemma str_eqb_self p : str_eqb p p = true.
Proof. destruct (str_eqb_spec p p); congruence. Qed.
Lemma after_announced b p es d : after (announced b p ++ es) d = after es d.
Proof. unfold announced. destruct (b_use_cargo b); reflexivity. Qed.
Lemma after_taken wo b pre c es d : taken wo b pre c -> after (pre ++ es) d = after es d.
Proof. intros H. destruct H; [reflexivity|apply after_announced]. Qed.
Lemma placed_inj dir f p p' : placed dir f p -> placed dir f p' -> p = p'.
Proof. rewrite !placed_iff. congruence. Qed.
Lemma target_unique b p p' : target_path b p -> target_path b p' -> p = p'.
Proof. intros (f & H1 & H2) (f' & H1' & H2'). rewrite H1 in H1'. injection H1' as <-. exact (placed_inj _ _ _ _ H2 H2'). Qed.
(** What the files are after a build that finished. *)
Lemma after_done wo b pre os c t text d : taken wo b pre c -> opened wo b os t ->
  forall p, after (pre ++ os ++ [Write t text]) d p =
    match t with ToFile q => if str_eqb p q then Some text else d p | ToStdout => d p end.
Proof.
  intros Hp Ho p. rewrite (after_taken _ _ _ _ _ _ Hp). destruct Ho as [H|f q H1 H2 H3]; cbn; [reflexivity|].
  unfold put. rewrite str_eqb_self. destruct (str_eqb p q); reflexivity.
Qed.
Lemma opened_target wo b os q : opened wo b os (ToFile q) -> target_path b q.
Proof. intros H. inversion H as [|f p H1 H2 H3]; subst. exists f. auto. Qed.
Lemma taken_input wo b pre c : taken wo b pre c -> input_ok wo b c.
Proof. intros H. destruct H as [c H|f p text c H1 H2 H3 H4]; [left; exact H|]. right. exists f, p, text. auto. Qed.
Lemma build_files wo missing d b es : build (on_disk wo missing d) b = (es, Finished tt) ->
  exists c, input_ok (on_disk wo missing d) b c /\
    (forall p, target_path b p -> after es d p = Some (w_text (codegen c))) /\
    (forall p, ~ target_path b p -> after es d p = d p).
Proof.
  intros H. apply build_done in H as (pre & os & c & t & Hp & Ho & _ & ->). exists c. split; [exact (taken_input _ _ _ _ Hp)|].
  split; intros p Ht; rewrite (after_done _ _ _ _ _ _ _ _ Hp Ho).
  - destruct Ho as [Hs|f q H1 H2 H3].
    + destruct Ht as (f & Hf & _). congruence.
    + rewrite (target_unique b p q Ht) by (exists f; auto). rewrite str_eqb_self. reflexivity.
  - destruct t as [q|]; [|reflexivity]. destruct (str_eqb_spec p q) as [->|]; [|reflexivity]. destruct Ht. exact (opened_target _ _ _ _ Ho).
Qed.
(** The build depends on the text of the source only. *)
Lemma taken_disk wo missing d d' b pre c : (forall p, source_path b p -> d' p = d p) ->
  taken (on_disk wo missing d) b pre c -> taken (on_disk wo missing d') b pre c.
Proof.
  intros Hs H. destruct H as [c H|f p text c H1 H2 H3 H4]; [apply taken_config, H|]. apply taken_file with (f := f) (text := text); auto.
  cbn [on_disk wo_read] in *. rewrite (Hs p) by (exists f; auto). exact H3.
Qed.
Lemma opened_disk wo missing d d' b os t : opened (on_disk wo missing d) b os t -> opened (on_disk wo missing d') b os t.
Proof. intros H. destruct H as [H|f p H1 H2 H3]; [apply opened_stdout, H|]. apply (opened_file _ b f p); assumption. Qed.
Lemma build_source wo missing d d' b es : (forall p, source_path b p -> d' p = d p) ->
  build (on_disk wo missing d) b = (es, Finished tt) -> build (on_disk wo missing d') b = (es, Finished tt).
Proof.
  intros Hs H. apply build_done in H as (pre & os & c & t & Hp & Ho & Hw & ->). apply build_done. exists pre, os, c, t.
  split; [exact (taken_disk _ _ _ _ _ _ _ Hs Hp)|]. split; [exact (opened_disk _ _ _ _ _ _ _ Ho)|]. split; [exact Hw|reflexivity].
Qed.
Lemma build_skipped wo missing d d' b es : build (on_disk wo missing d) b = (es, Finished tt) ->
  (forall p, source_path b p -> d' p = d p) -> (forall p, target_path b p -> d' p = after es d p) ->
  build (on_disk wo missing d') b = (es, Finished tt) /\ forall p, after es d' p = d' p.
Proof.
  intros H Hs Ht. split; [exact (build_source _ _ _ _ _ _ Hs H)|].
  apply build_done in H as (pre & os & c & t & Hp & Ho & Hw & ->). intros p.
  pose proof (after_done _ _ _ _ _ _ (w_text (codegen c)) d Hp Ho) as E. pose proof (after_done _ _ _ _ _ _ (w_text (codegen c)) d' Hp Ho) as E'.
  rewrite E'. destruct t as [q|]; [|reflexivity]. destruct (str_eqb_spec p q) as [->|]; [|reflexivity].
  rewrite (Ht q (opened_target _ _ _ _ Ho)), E, str_eqb_self. reflexivity.
Qed.
Lemma build_twice wo missing d b es : build (on_disk wo missing d) b = (es, Finished tt) ->
  (forall p, source_path b p -> ~ target_path b p) ->
  build (on_disk wo missing (after es d)) b = (es, Finished tt) /\ forall p, after es (after es d) p = after es d p.
Proof.
  intros H Hd. destruct (build_files _ _ _ _ _ H) as (c & _ & _ & Hother).
  apply (build_skipped wo missing d (after es d) b es H); [|reflexivity]. intros p Hp. apply Hother, Hd, Hp.
Qed.
(** The source as target: no further build. *)
Lemma build_onto wo missing d b es p : build (on_disk wo missing d) b = (es, Finished tt) ->
  source_path b p -> target_path b p ->
  status (snd (build (on_disk wo missing (after es d)) b)) = Some 101 /\
  forall q, after (fst (build (on_disk wo missing (after es d)) b)) (after es d) q = after es d q.
Proof.
  intros H Hs Ht. destruct (build_files _ _ _ _ _ H) as (c & Hi & Hfile & _). specialize (Hfile p Ht).
  assert (Hg : snd (codegen c) = ROk tt).
  { apply build_done in H as (pre & os & c0 & t & Hp & Ho & Hw & _).
    assert (c0 = c) as ->.
    { apply taken_input in Hp. clear - Hp Hi. destruct Hp as [E1|(f & q & x & E1 & E2 & E3 & E4)], Hi as [G1|(g & q' & x' & G1 & G2 & G3 & G4)]; try congruence.
      assert (f = g) as <- by congruence. rewrite (placed_inj _ _ _ _ E2 G2), G3 in E3. injection E3 as <-.
      apply parse_exact in E4, G4. congruence. }
    destruct (run_on_spec (wo_writer (on_disk wo missing d) t) (codegen c)) as [E|(x & E & _)]; rewrite E in Hw; congruence. }
  assert (Hn : forall c', ~ input_ok (on_disk wo missing (after es d)) b c').
  { intros c' [E|(f & q & x & E1 & E2 & E3 & E4)]; destruct Hs as (g & G1 & G2); [congruence|].
    assert (f = g) as <- by congruence. rewrite (placed_inj _ _ _ _ E2 G2) in E3. cbn [on_disk wo_read] in E3. rewrite Hfile in E3.
    injection E3 as <-. exact (code_no_routes _ c c' Hg E4). }
  split.
  - apply build_fails. intros E. apply build_finished in E as (c' & t & Hc' & _). exact (Hn _ Hc').
  - assert (Hu : Forall (fun e => forall d0, happens d0 e = d0) (fst (build (on_disk wo missing (after es d)) b))).
    { apply Forall_forall. intros e He. destruct (build_untouched _ _ (or_introl Hn) e He) as [H1 H2].
      intros d0. destruct e as [|x|x|x|x y]; try reflexivity; [destruct H1; exists x; reflexivity|destruct H2; exists x, y; reflexivity]. }
    intros q. clear - Hu. unfold after at 1. induction Hu as [|e l He _ IH]; [reflexivity|]. cbn [fold_left]. rewrite He. exact IH.
Qed.
Lemma finished_events wo b : snd (build wo b) = Finished tt -> build wo b = (fst (build wo b), Finished tt).
Proof. destruct (build wo b). cbn [fst snd]. intros ->. reflexivity. Qed.
