(** * CompileExamples: files that do not compile *)
From Verif Require Import Base Core Flat MiniRust Gen Spec SpecMatch SpecGen SpecCompile CompileFacts MatchFacts Examples.

Definition ordinaryb (s : str) : bool :=
  is_ident s && forallb (fun c => negb (is_upper c)) s && match s with c :: _ => is_lower c | [] => false end.
Lemma ordinaryb_ok s : ordinaryb s = true -> ordinary s.
Proof.
  unfold ordinaryb, ordinary. rewrite !andb_true_iff, forallb_forall. intros [[H1 H2] H3].
  split; auto. split.
  - intros c Hc. apply negb_true_iff. auto.
  - destruct s; [discriminate|exact H3].
Qed.
Definition ordinary_namesb (c : RouteConfig) : bool :=
  every_blockb (fun b => forallb ordinaryb (block_names b)) (c_routes c).
Lemma ordinary_namesb_ok c : ordinary_namesb c = true -> ordinary_names c.
Proof.
  intros H p q x s Hx. revert s. refine (every_blockb_ok _ (fun b => forall s, In s (block_names b) -> ordinary s)
    (c_routes c) _ H p q x Hx).
  intros b Hb s Hs. apply ordinaryb_ok. rewrite forallb_forall in Hb. auto.
Qed.
Definition unlucky : list RouteConfig := map read
  [ [ "/"; "  GET string" ];
    [ "/"; "  GET home"; "  {id: u32}"; "    GET result" ];
    [ "/"; "  GET my::as_ref"; "  x"; "    GET as_ref" ];
    [ "/"; "  GET error" ];
    [ "/"; "  GET ok" ];
    [ "/"; "  GET option"; "  x"; "    [page: u32]"; "    GET list" ];
    [ "/"; "  GET none"; "  x"; "    [page: u32]"; "    GET list" ];
    [ "/"; "  GET p" ];
    [ "/"; "  GET std::io" ];
    [ "/"; "  GET fmt::show" ];
    [ "/"; "  GET route" ] ]%string.
Lemma unlucky_none c : In c unlucky ->
  ordinary_names c /\ separate c /\ (exists text, codegen c = (text, ROk tt)) /\ compiles c = false.
Proof.
  intros Hc. assert (H : forallb (fun c => ordinary_namesb c && separateb c && negb (compiles c)
                && match snd (codegen c) with ROk _ => true | _ => false end) unlucky = true)
    by (vm_compute; reflexivity).
  rewrite forallb_forall in H. specialize (H c Hc).
  rewrite !andb_true_iff in H. destruct H as [[[H1 H2] H3] H4].
  split; [apply ordinary_namesb_ok; exact H1|]. split; [apply separateb_ok; exact H2|].
  split; [|apply negb_true_iff; exact H3].
  destruct (codegen c) as [text st] eqn:E. cbn [snd] in H4. destruct st as [[]| | |]; try discriminate. eauto.
Qed.
