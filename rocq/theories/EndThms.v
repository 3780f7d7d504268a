(** * EndThms: from the route file to the answers *)
From Verif Require Import Base Core Nom Parse Flat MiniRust Gen Items Spec SpecMatch SpecParse SpecCompile SpecGen SpecCost
  MatchFacts CostFacts MatchThms ParseFacts RelineFacts RoundFacts GenThms ItemFacts ItemThms Build SpecBuild BuildFacts.

Lemma ident_plain ualnum s : ident ualnum s -> s <> [] /\ ~ In c_slash s /\ ~ In c_cr s.
Proof.
  intros [H1 H2]. split; [exact H1|]. rewrite Forall_forall in H2.
  split; intros H; specialize (H2 _ H); unfold ident_char, c_slash, c_cr in H2; lia.
Qed.
Lemma parsed_plain ualnum text rest c : route_config_p ualnum text = POk rest c ->
  every_block plain_statics (c_routes c) /\ no_returns c.
Proof.
  intros H. destruct (proj1 (proj2 (parse_reads ualnum text rest c H))) as [_ Hw]. split.
  - intros p q x Hx s child Hin. destruct (Hw _ _ _ Hx) as (_ & _ & Hs & _). rewrite Forall_forall in Hs.
    specialize (Hs _ Hin). simpl in Hs. apply ident_plain in Hs. tauto.
  - intros p q x s Hx Hin. destruct (Hw _ _ _ Hx) as (_ & Hr & Hs & Hq). rewrite Forall_forall in Hr, Hs, Hq.
    assert (Hp : forall p' s, wf_param ualnum p' -> In s (param_texts p') -> ~ In c_cr s).
    { intros p' s' [Hn Ht] [<-|[<-|[]]]; eapply ident_plain; eauto. }
    unfold block_texts in Hin. rewrite !in_app_iff, !in_flat_map in Hin.
    destruct Hin as [(p' & Hi & Hs')|[(r & Hi & Hs')|([seg child] & Hi & Hs')]].
    + eapply Hp; [apply Hq; exact Hi|exact Hs'].
    + destruct (Hr _ Hi) as (Hm & Hn & Hrq). unfold resource_texts in Hs'. simpl in Hs'.
      rewrite in_app_iff, in_flat_map in Hs'. rewrite Forall_forall in Hm, Hrq.
      destruct Hs' as [<-|[Hs'|(p' & Hi' & Hs')]].
      * eapply ident_plain; eauto.
      * eapply ident_plain. apply Hm. exact Hs'.
      * eapply Hp; [apply Hrq; exact Hi'|exact Hs'].
    + specialize (Hs _ Hi). cbn [fst] in *. destruct seg as [t|p']; cbn [segment_texts wf_segment] in *.
      * destruct Hs' as [<-|[]]. eapply ident_plain; eauto.
      * eapply Hp; eauto.
Qed.

Lemma end_to_end wo b : snd (build wo b) = Finished tt ->
  exists c t pre root lines body,
    input_ok wo b c /\ output_ok wo b t /\
    flattened_modules (c_routes c) = ROk root /\
    routes_stringify 1 (c_routes c) = unlines lines /\
    fst (build wo b) = pre ++ [Write t
      (w_text (w_lines preamble1)
       ++ unlines (map (fun x => lit "    //! " ++ x) lines)
       ++ w_text (w_lines preamble2)
       ++ pr_items (lit "    ") (module_items true (c_headers c) root)
       ++ nl
       ++ w_text (w_lines boilerplate)
       ++ pr_block 2 body
       ++ unlines [lit "    }"; []; lit "} // mod routes"])] /\
    Forall (fun e => ~ is_write e) pre /\
    (runnable c -> forall T E (rt : runtime T E) path method, exists n,
       takes_block rt (items_env (module_items true (c_headers c) root)) (prologue_env path method) body n
         (outcome_of (tree_match (rt_parse rt) method c path))).
Proof.
  intros H. destruct (proj1 (build_finished wo b) H) as (c & t & Hi & Ho & Hr).
  destruct (build_output wo b c t H Hi Ho) as (pre & Hf & Hp).
  assert (Hok : snd (codegen c) = ROk tt).
  { destruct (run_on_spec (wo_writer wo t) (codegen c)) as [Hx|(x & Hx & _)]; rewrite Hr in Hx; congruence. }
  destruct (items_text c Hok) as (root & lines & body & Hroot & Hl & _ & Hb & Ht).
  exists c, t, pre, root, lines, body. rewrite <- Ht. split; [exact Hi|]. split; [exact Ho|]. split; [exact Hroot|].
  split; [exact Hl|]. split; [exact Hf|]. split; [exact Hp|].
  intros Hrun T E rt path method.
  destruct (match_route_cost rt c path method Hrun) as (root' & body' & r & n & H1 & H2 & H3 & H4 & _).
  assert (root' = root) by congruence. assert (body' = body) by congruence. subst root' body'.
  rewrite match_route_tree in H3 by apply Hrun. injection H3 as <-. exists n.
  rewrite items_env_module; [exact H4|].
  destruct Hrun as (Hc & _). unfold compiles in Hc. rewrite Hroot, Hb in Hc. rewrite !andb_true_iff in Hc. apply Hc.
Qed.
