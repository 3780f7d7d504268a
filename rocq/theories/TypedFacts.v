(** * TypedFacts: a program that is accepted runs, and gives a typed answer *)
From Verif Require Import Base BaseFacts Core Trie Flat MiniRust Gen GenFacts ExecFacts CostFacts SpecCost SpecTyped.

Section Typed.
Context {T E : Type}.
Variable rt : runtime T E.
Variable senv : struct_env.
Variable size : nat.                                      (* of the path *)

Definition fits (v : val T) (t : ty) : Prop :=
  match v, t with
  | VUsize _, TUsize | VBytes _, TBytes | VStr _, TStr => True
  | VVal t' _, TVal t => t' = t
  | _, _ => False
  end.
Definition entry_fits (a : str * (bool * val T)) (b : str * (bool * ty)) : Prop :=
  fst a = fst b /\ fst (snd a) = fst (snd b) /\ fits (snd (snd a)) (snd (snd b)) /\
  (fst a = s_path -> match snd (snd a) with VBytes l => length l = size | _ => True end).
Definition env_fits (en : env T) (te : tenv) : Prop := Forall2 entry_fits en te.

Lemma lookup_fits en te x m t : env_fits en te -> lookup x te = Some (m, t) ->
  exists v, lookup x en = Some (m, v) /\ fits v t /\ (x = s_path -> match v with VBytes l => length l = size | _ => True end).
Proof.
  induction 1 as [|[y [m1 v]] [z [m2 t']] en te (H1 & H2 & H3 & H4) H IH]; [discriminate|].
  cbn [fst snd] in *. subst z m2. cbn [lookup]. destruct (str_eqb y x) eqn:Ex; [|exact IH].
  intros [= -> ->]. apply str_eqb_eq in Ex. subst y. exists v. auto.
Qed.
Lemma usize_fits en te x m t : env_fits en te -> lookup x te = Some (m, t) -> is_usize t = true ->
  exists n, get_usize rt en x = Some n.
Proof.
  intros He Hl Hu. destruct (lookup_fits _ _ _ _ _ He Hl) as (v & Hv & Hf & _). unfold get_usize. rewrite Hv.
  destruct t, v; cbn in *; try discriminate; try contradiction; eauto. subst t0. rewrite Hu. eauto.
Qed.
Lemma expr_fits en te e : env_fits en te -> check_expr te e = true -> exists n, eval_expr rt en e = Some n.
Proof.
  intros He. destruct e as [x|n|x n]; cbn [check_expr eval_expr]; [|eauto|].
  - destruct (lookup x te) as [[m t]|] eqn:El; [|discriminate]. intros H. eapply usize_fits; eauto.
  - destruct (lookup x te) as [[m t]|] eqn:El; [|discriminate]. intros H.
    destruct (usize_fits _ _ _ _ _ He El H) as [k ->]. eauto.
Qed.
Lemma slice_fits en te x a b : env_fits en te -> check_slice te x a b = true -> exists r, eval_slice rt en x a b = Some r.
Proof.
  intros He. unfold check_slice, eval_slice. rewrite !andb_true_iff. intros [[H1 H2] H3].
  destruct (lookup x te) as [[m t]|] eqn:El; [|discriminate].
  destruct (lookup_fits _ _ _ _ _ He El) as (v & -> & Hf & _).
  destruct (expr_fits _ _ _ He H2) as [i ->]. destruct (expr_fits _ _ _ He H3) as [j ->].
  destruct t; try discriminate. destruct v; try contradiction. eauto.
Qed.
Lemma bexpr_fits en te c : env_fits en te -> check_bexpr te c = true -> exists r, eval_bexpr rt en c = Some r.
Proof.
  intros He. induction c as [a b|a b|a b|a b|c IHc d IHd|x a b t]; cbn [check_bexpr eval_bexpr]; rewrite andb_true_iff; intros [H1 H2].
  1-4: unfold cmp_expr; destruct (expr_fits _ _ _ He H1) as [i ->]; destruct (expr_fits _ _ _ He H2) as [j ->]; eauto.
  - destruct (IHc H1) as [[[|]|] ->]; eauto.
  - destruct (slice_fits _ _ _ _ _ He H1) as [[l|] ->]; eauto.
Qed.
Lemma scrut_fits en te sc : env_fits en te -> check_scrut te sc = true -> exists r, eval_scrut rt en sc = Some r.
Proof.
  intros He. destruct sc as [x|x a b]; cbn [check_scrut eval_scrut]; [|apply slice_fits; exact He].
  destruct (lookup x te) as [[m t]|] eqn:El; [|discriminate].
  destruct (lookup_fits _ _ _ _ _ He El) as (v & -> & Hf & _).
  destruct t; try discriminate. destruct v; try contradiction. eauto.
Qed.
Lemma add_fits en te x n m : env_fits en te -> lookup x te = Some (m, TUsize) -> m = true ->
  exists en' k, lookup x en = Some (m, VUsize k) /\ add_assign x n en = Some en' /\ env_fits en' te /\
    lookup x en' = Some (m, VUsize (k + n)).
Proof.
  intros He Hl ->. induction He as [|[y [m1 v]] [z [m2 t']] en te (H1 & H2 & H3 & H4) H IH]; [discriminate|].
  cbn [fst snd] in *. subst z m2. cbn [lookup add_assign] in *. destruct (str_eqb y x) eqn:Ex.
  - injection Hl as -> ->. destruct v; try contradiction. do 2 eexists. split; [reflexivity|]. split; [reflexivity|].
    split; [constructor; [repeat split|exact H]|]. cbn [lookup]. rewrite Ex. reflexivity.
  - destruct (IH Hl) as (en' & k & G1 & G2 & G3 & G4). rewrite G2. do 2 eexists. split; [exact G1|]. split; [reflexivity|].
    split; [constructor; [repeat split; auto|exact G3]|]. cbn [lookup]. rewrite Ex. exact G4.
Qed.

(** ** Answers *)
Lemma nodup_strs_nodup l : nodup_strs l = true -> NoDup l.
Proof.
  induction l as [|x l IH]; cbn [nodup_strs]; [constructor|]. rewrite andb_true_iff, negb_true_iff. intros [H1 H2].
  constructor; [|apply IH; exact H2]. intros Hin. apply not_true_iff_false in H1. apply H1.
  apply existsb_exists. exists x. split; [exact Hin|apply str_eqb_eq; reflexivity].
Qed.
Lemma fields_fit en te fs l : env_fits en te ->
  forallb (fun f : str * field_init =>
             match lookup_field fs (fst f) with
             | None => false
             | Some fd =>
                 match snd f with
                 | FNone => fd_opt fd && negb (unit_struct senv (lit "None"))
                 | FVar => negb (fd_opt fd) &&
                     match lookup (fst f) te with
                     | Some (_, TVal t) => str_eqb t (fd_typ fd)
                     | Some (_, TUsize) => str_eqb s_usize (fd_typ fd)
                     | _ => false
                     end
                 end
             end) l = true ->
  exists r, eval_fields en l = Some r /\ map fst r = map fst l /\
    forall x v, In (x, v) r -> exists fd, lookup_field fs x = Some fd /\ field_fits fd v.
Proof.
  intros He. induction l as [|[x i] l IH]; cbn [forallb eval_fields]; [eexists; repeat split; intros ? ? []|].
  rewrite andb_true_iff. intros [H1 H2]. destruct (IH H2) as (r & Hr & Hm & Hf). rewrite Hr.
  cbn [fst snd] in H1. destruct (lookup_field fs x) as [fd|] eqn:El; [|discriminate].
  destruct i; apply andb_true_iff in H1; destruct H1 as [Ho Ht].
  - apply negb_true_iff in Ho. destruct (lookup x te) as [[m t]|] eqn:Ee; [|discriminate].
    destruct (lookup_fits _ _ _ _ _ He Ee) as (v & -> & Hv & _).
    destruct t, v; try discriminate; try contradiction; eexists; (split; [reflexivity|]); cbn [map fst]; rewrite Hm;
      (split; [reflexivity|]); intros y w [[= <- <-]|Hin]; eauto; exists fd; (split; [exact El|]); cbn [field_fits];
      (split; [exact Ho|]); apply str_eqb_eq in Ht.
    + symmetry. exact Ht.
    + cbn [fits] in Hv. congruence.
  - eexists. split; [reflexivity|]. cbn [map fst]. rewrite Hm. split; [reflexivity|].
    intros y w [[= <- <-]|Hin]; eauto.
Qed.
Lemma ret_fits en te r : env_fits en te -> check_ret senv te r = true ->
  exists m, eval_ret en r = ORet (E := E) m /\ answer_fits senv m.
Proof.
  intros He. destruct r as [| |redirect mods name fields]; cbn [check_ret eval_ret].
  1-2: eexists; split; [reflexivity|exact I].
  destruct (lookup_struct senv mods name) as [fs|] eqn:El; [|discriminate].
  rewrite !andb_true_iff. intros [[[_ H1] H2] H3].
  destruct (fields_fit _ _ _ _ He H3) as (l & -> & Hm & Hf). eexists. split; [reflexivity|].
  assert (H : route_fits senv (mkRoute (map snd mods) name l)).
  { exists mods, fs. split; [exact El|]. split; [reflexivity|]. cbn [rv_fields]. split; [|split; [|exact Hf]].
    - rewrite Hm. apply nodup_strs_nodup. exact H1.
    - intros fd Hin. rewrite Hm. rewrite forallb_forall in H2. specialize (H2 _ Hin). apply existsb_exists in H2.
      destruct H2 as (f & Hf1 & Hf2). apply str_eqb_eq in Hf2. rewrite <- Hf2. apply in_map. exact Hf1. }
  destruct redirect; exact H.
Qed.

(** ** Blocks whose loops are those of [write_dynamic] *)
Inductive looping : stmt -> Prop :=
| looping_simple s : compound s = false -> looping s
| looping_if c body : Forall looping body -> looping (SIf c body)
| looping_match sc arms : Forall (fun a : arm_head * list stmt => Forall looping (snd a)) arms -> looping (SMatch sc arms)
| looping_while : looping (SWhile (BAnd (BLt (EVar s_i) (EVar s_len))
                     (BSliceNe s_path (EVar s_i) (EPlus s_i 1) (lit "/"))) [SAdd s_i 1]).

Definition ends (te : tenv) (d : bool) (o : outcome T E) : Prop :=
  match o with
  | ONext en => d = false /\ env_fits en te
  | ORet m => answer_fits senv m
  | OPanic => True
  | OStuck | OFuel => False
  end.
Lemma leave_fits en te ext d (o : outcome T E) : env_fits en te ->
  ends (ext ++ te) d o -> ends te d (leave en o).
Proof.
  intros He. destruct o as [en'| | | |]; cbn [ends leave]; auto. intros [Hd H]. split; [exact Hd|].
  apply Forall2_app_inv_r in H. destruct H as (l1 & l2 & H1 & H2 & ->).
  assert (L : forall (a : env T) b, env_fits a b -> length a = length b) by (intros a b; induction 1; cbn; auto).
  rewrite app_length, (L _ _ H2), (L _ _ He). replace (length l1 + length te - length te) with (length l1 + 0) by lia.
  rewrite skipn_app, Nat.add_0_r, skipn_all, Nat.sub_diag. exact H2.
Qed.
Lemma check_grows te s rest te' d : check_stmt senv te s rest = Some (te', d) -> exists ext, te' = ext ++ te.
Proof.
  destruct s as [|x e|x src a b|x src what|x n|c body|c body|sc arms|r].
  1-5,9: cbn [check_stmt].
  - intros [= <- <-]. exists []. reflexivity.
  - destruct (_ && _); [|discriminate]. intros [= <- <-]. eexists [_]. reflexivity.
  - destruct (_ && _); [|discriminate]. intros [= <- <-]. eexists [_]. reflexivity.
  - destruct (lookup src te) as [[m []]|]; try discriminate. destruct (infer senv x rest); [|discriminate].
    destruct (no_variable senv x); [discriminate|]. intros [= <- <-]. eexists [_]. reflexivity.
  - destruct (lookup x te) as [[[] []]|]; try discriminate. intros [= <- <-]. exists []. reflexivity.
  - destruct (check_ret senv te r); [|discriminate]. intros [= <- <-]. exists []. reflexivity.
  - rewrite check_stmt_while. destruct (check_bexpr te c); [|discriminate].
    destruct (check_block senv te body false); [|discriminate]. intros [= <- <-]. exists []. reflexivity.
  - rewrite check_stmt_if. destruct (check_bexpr te c); [|discriminate].
    destruct (check_block senv te body false); [|discriminate]. intros [= <- <-]. exists []. reflexivity.
  - rewrite check_stmt_match. destruct (_ && _); [|discriminate].
    destruct (check_arms senv te arms); [|discriminate]. intros [= <- <-]. exists []. reflexivity.
Qed.
Definition runs (s : stmt) : Prop := forall en te rest te' d fuel,
  looping s -> size < fuel -> env_fits en te -> check_stmt senv te s rest = Some (te', d) ->
  ends te' d (exec_stmt rt senv fuel en s rest).
Lemma block_runs l : Forall runs l -> forall en te d0 d fuel,
  Forall looping l -> size < fuel -> env_fits en te -> check_block senv te l d0 = Some d -> (d0 = true -> d = true) /\
  exists ext, ends (ext ++ te) (d && negb d0) (exec_block rt senv fuel en l).
Proof.
  induction 1 as [|s l Hs _ IH]; intros en te d0 d fuel Hl Hf He H.
  - injection H as <-. split; [auto|]. exists []. cbn [exec_block ends app]. split; [destruct d0; reflexivity|exact He].
  - rewrite check_block_cons in H. rewrite exec_block_cons. inversion Hl as [|? ? Hl1 Hl2]; subst.
    destruct (check_stmt senv te s l) as [[te' d']|] eqn:Es; [|discriminate].
    pose proof (Hs en te l te' d' fuel Hl1 Hf He Es) as Hr. destruct (check_grows _ _ _ _ _ Es) as [ext ->].
    assert (Hmon : forall l te d0 d, check_block senv te l d0 = Some d -> d0 = true -> d = true).
    { clear. induction l as [|s l IH]; intros te d0 d H Hd; [injection H as <-; exact Hd|].
      rewrite check_block_cons in H. destruct (check_stmt senv te s l) as [[te' d']|]; [|discriminate].
      apply (IH _ _ _ H). rewrite Hd. reflexivity. }
    split; [intros Hd; apply (Hmon _ _ _ _ H); rewrite Hd; reflexivity|].
    destruct (exec_stmt rt senv fuel en s l) as [en'| | | |]; try contradiction; try (exists []; exact Hr).
    destruct Hr as [-> Hr]. rewrite orb_false_r in H.
    destruct (IH en' (ext ++ te) d0 d fuel Hl2 Hf Hr H) as (_ & ext' & G). exists (ext' ++ ext).
    rewrite <- app_assoc. exact G.
Qed.
Lemma body_runs l en te d fuel : Forall runs l ->
  Forall looping l -> size < fuel -> env_fits en te -> check_block senv te l false = Some d ->
  ends te d (leave en (exec_block rt senv fuel en l)).
Proof.
  intros Hr Hl Hf He H. destruct (block_runs l Hr en te false d fuel Hl Hf He H) as (_ & ext & G).
  rewrite andb_true_r in G. eapply leave_fits; eauto.
Qed.
Lemma ends_false te d (o : outcome T E) : ends te d o -> ends te false o.
Proof. destruct o; cbn [ends]; auto. intros [_ H]. auto. Qed.
Lemma loop_runs fuel te : lookup s_i te = Some (true, TUsize) ->
  check_bexpr te (BAnd (BLt (EVar s_i) (EVar s_len)) (BSliceNe s_path (EVar s_i) (EPlus s_i 1) (lit "/"))) = true ->
  forall k en n, env_fits en te -> lookup s_i en = Some (true, VUsize n) -> size - n < k ->
  ends te false (exec_loop rt senv fuel (BAnd (BLt (EVar s_i) (EVar s_len))
    (BSliceNe s_path (EVar s_i) (EPlus s_i 1) (lit "/"))) [SAdd s_i 1] k en).
Proof.
  intros Hi Hc. pose proof Hc as Hc'. cbn [check_bexpr] in Hc'. rewrite !andb_true_iff in Hc'.
  destruct Hc' as [[_ Hlen] [Hsl _]]. unfold check_slice in Hsl. rewrite !andb_true_iff in Hsl. destruct Hsl as [[Hp _] _].
  destruct (lookup s_path te) as [[mp []]|] eqn:Ep; try discriminate. clear Hp.
  induction k as [|k IH]; intros en n He Hn Hk; [lia|]. cbn [exec_loop].
  destruct (lookup_fits _ _ _ _ _ He Ep) as (v & Hv & Hfv & Hsize). destruct v as [| b | |]; try contradiction.
  specialize (Hsize eq_refl). destruct (expr_fits _ _ _ He Hlen) as [len Hle].
  assert (Hg : get_usize rt en s_i = Some n) by (unfold get_usize; rewrite Hn; reflexivity).
  cbn [eval_bexpr]. unfold cmp_expr. cbn [eval_expr] in *. rewrite Hg, Hle.
  destruct (n <? len); [|split; [reflexivity|exact He]].
  unfold eval_slice. rewrite Hv. cbn [eval_expr]. rewrite Hg. unfold slice.
  destruct ((n <=? n + 1) && (n + 1 <=? length b)) eqn:Eb; [|exact I].
  apply andb_true_iff in Eb. destruct Eb as [_ Eb]. apply Nat.leb_le in Eb.
  destruct (negb _); [|split; [reflexivity|exact He]].
  destruct (add_fits _ _ s_i 1 _ He Hi eq_refl) as (en' & n' & G1 & G2 & G3 & G4).
  rewrite Hn in G1. injection G1 as <-. cbn [exec_block exec_stmt]. rewrite G2. cbn [leave].
  assert (L : forall (a : env T) b, env_fits a b -> length a = length b) by (intros a' b'; induction 1; cbn; auto).
  rewrite (L _ _ G3), (L _ _ He), Nat.sub_diag. cbn [skipn]. apply (IH en' (n + 1)); auto. lia.
Qed.
Lemma arms_run fuel en te v arms : Forall (fun a : arm_head * list stmt => Forall runs (snd a)) arms ->
  Forall (fun a : arm_head * list stmt => Forall looping (snd a)) arms -> size < fuel -> env_fits en te ->
  existsb (fun a => is_wild (fst a)) arms = true -> forall d, check_arms senv te arms = Some d ->
  ends te d (exec_arms rt senv fuel en v arms).
Proof.
  intros Hr Hl Hf He. induction Hr as [|[h body] arms Hx _ IH]; [discriminate|].
  inversion Hl as [|? ? Hl1 Hl2]; subst. cbn [snd] in Hx, Hl1. intros Hw d H. cbn [check_arms] in H.
  destruct (check_arm senv te (h, body)) as [d1|] eqn:E1; [|discriminate].
  destruct (check_arms senv te arms) as [d2|] eqn:E2; [|discriminate]. injection H as <-.
  cbn [exec_arms].
  assert (Hgo : arm_matches h v = true -> ends te d1 (leave en (exec_block rt senv fuel en body))).
  { intros Hm. unfold check_arm in E1. destruct h; try discriminate.
    - destruct (plain_lit t); [|discriminate]. apply body_runs; assumption.
    - destruct (plain_lit t); [|discriminate]. destruct body as [|[] []]; try discriminate. apply body_runs; assumption.
    - destruct body as [|[] []]; try discriminate. apply body_runs; assumption.
    - destruct body; [|discriminate]. injection E1 as <-. cbn [exec_block leave ends]. rewrite Nat.sub_diag. split; [reflexivity|exact He]. }
  assert (Hd : forall o, ends te d1 o -> ends te (d1 && d2) o).
  { intros [] H; cbn [ends] in *; auto. destruct H as [-> H]. auto. }
  assert (Hd' : forall o, ends te d2 o -> ends te (d1 && d2) o).
  { intros [] H; cbn [ends] in *; auto. destruct H as [-> H]. split; [apply andb_false_r|exact H]. }
  destruct (arm_matches h v) eqn:Em; [auto|].
  apply Hd'. apply IH; auto. cbn [existsb fst] in Hw. destruct (is_wild h) eqn:Ew; [|exact Hw].
  destruct h; discriminate.
Qed.
Lemma all_run s : runs s.
Proof.
  induction s as [s Hs|c body IH|c body IH|sc arms IH] using stmt_ind'; intros en te rest te' d fuel Hl Hf He H.
  - destruct s as [|x e|x src a b|x src what|x n|c body|c body|sc arms|r]; try discriminate; cbn [check_stmt exec_stmt] in *.
    + injection H as <- <-. split; [reflexivity|exact He].
    + destruct (check_expr te e) eqn:Ee; [|discriminate]. destruct (negb _); [|discriminate]. injection H as <- <-.
      destruct (expr_fits _ _ _ He Ee) as [n ->]. split; [reflexivity|].
      constructor; [|exact He]. repeat split.
    + destruct (check_slice te src a b) eqn:Ee; [|discriminate]. destruct (negb _); [|discriminate]. injection H as <- <-.
      destruct (slice_fits _ _ _ _ _ He Ee) as [[l|] ->]; [|exact I]. destruct (utf8_valid l); [|exact I].
      split; [reflexivity|]. constructor; [|exact He]. repeat split.
    + destruct (lookup src te) as [[m t]|] eqn:El; [|discriminate]. destruct t; try discriminate.
      destruct (lookup_fits _ _ _ _ _ He El) as (v & -> & Hv & _). destruct v; try contradiction.
      destruct (infer senv x rest) as [t|]; [|discriminate]. destruct (no_variable senv x); [discriminate|].
      injection H as <- <-. destruct (rt_parse rt t b) as [v|e]; [|exact I].
      split; [reflexivity|]. constructor; [|exact He]. repeat split.
    + destruct (lookup x te) as [[m t]|] eqn:El; [|discriminate]. destruct m; [|discriminate]. destruct t; try discriminate.
      injection H as <- <-. destruct (add_fits _ _ x n _ He El eq_refl) as (en' & k & _ & -> & G & _).
      split; [reflexivity|exact G].
    + destruct (check_ret senv te r) eqn:Er; [|discriminate]. injection H as <- <-.
      destruct (ret_fits _ _ _ He Er) as (m & -> & G). exact G.
  - inversion Hl as [s' Hs'| | |]; subst; [discriminate|]. rewrite check_stmt_while in H. rewrite exec_stmt_while.
    destruct (check_bexpr te _) eqn:Ec; [|discriminate].
    destruct (check_block senv te _ false) as [d'|] eqn:Eb; [|discriminate]. injection H as <- <-.
    cbn [check_block check_stmt] in Eb. destruct (lookup s_i te) as [[m t]|] eqn:El; [|discriminate].
    destruct m; [|discriminate]. destruct t; try discriminate.
    destruct (lookup_fits _ _ _ _ _ He El) as (v & Hv & Hfv & _). destruct v; try contradiction.
    eapply loop_runs; eauto. lia.
  - inversion Hl as [s' Hs'|c' body' Hl'| |]; subst; [discriminate|]. rewrite check_stmt_if in H. rewrite exec_stmt_if.
    destruct (check_bexpr te c) eqn:Ec; [|discriminate].
    destruct (check_block senv te body false) as [d'|] eqn:Eb; [|discriminate]. injection H as <- <-.
    destruct (bexpr_fits _ _ _ He Ec) as [[[|]|] ->]; [|split; [reflexivity|exact He]|exact I].
    eapply ends_false. eapply body_runs; eauto.
  - inversion Hl as [s' Hs'| |sc' arms' Hl'|]; subst; [discriminate|]. rewrite check_stmt_match in H. rewrite exec_stmt_match.
    destruct (check_scrut te sc) eqn:Ec; [|discriminate]. destruct (existsb _ arms) eqn:Ew; [|discriminate].
    destruct (check_arms senv te arms) as [d'|] eqn:Ea; [|discriminate]. injection H as <- <-.
    destruct (scrut_fits _ _ _ He Ec) as [[v|] ->]; [|exact I].
    apply arms_run; auto.
Qed.
Lemma program_runs l en te d fuel : Forall looping l -> size < fuel -> env_fits en te ->
  check_block senv te l false = Some d -> ends te d (leave en (exec_block rt senv fuel en l)).
Proof. intros. apply body_runs; auto. apply Forall_forall. intros. apply all_run. Qed.
End Typed.

(** ** The loops of the generated programs *)
Ltac loops := repeat first [ apply looping_while | apply looping_if | apply looping_match
  | apply looping_simple; reflexivity | apply Forall_cons | apply Forall_nil ]; cbn [snd].
Lemma block_loops o : Forall looping (methods_block o).
Proof.
  unfold methods_block. destruct (has_resources o) as [fr|]; constructor; [|constructor].
  apply looping_if. constructor; [|constructor]. apply looping_match. apply Forall_app. split; [|loops].
  apply Forall_forall. intros a Ha. apply in_map_iff in Ha. destruct Ha as (r & <- & _). cbn [snd]. loops.
Qed.
Lemma expect_loops n u : looping (expect n u).
Proof. unfold expect. loops. Qed.
Lemma trie_loops : forall fuel t b, gen_trie fuel t = ROk b -> Forall looping b.
Proof.
  induction fuel as [|fuel IH]; intros t b H; [discriminate|]. cbn [gen_trie] in H.
  destruct (gen_children (gen_trie fuel) t) as [b'| | |] eqn:Eg; try discriminate. injection H as <-.
  apply Forall_app. split; [apply block_loops|].
  assert (Hdyn : forall n c b, gen_dynamic (gen_trie fuel) c n = ROk b -> Forall looping b).
  { intros n c b Hg. apply gen_dynamic_inv in Hg. destruct Hg as (b'' & Hg & ->). unfold dynamic_block.
    apply Forall_app. split; [loops|eapply IH; eauto]. }
  assert (Hmany : gen_many (gen_trie fuel) t = ROk b' -> Forall looping b').
  { unfold gen_many. destruct (unamb t) as [[u l] next]. destruct u as [|u0 us].
    - destruct (gen_arms (gen_trie fuel) (t_children t)) as [arms| | |] eqn:Ea; try discriminate.
      intros [= <-].
      assert (Harms : Forall (fun a : arm_head * list stmt => Forall looping (snd a)) arms).
      { clear Eg. revert arms Ea. generalize (t_children t). intros l0. induction l0 as [|[k child] l0 IHl]; intros arms0 Ha; [injection Ha as <-; constructor|].
        destruct k as [c|n|]; cbn [gen_arms] in Ha.
        + destruct (gen_trie fuel child) as [bb| | |] eqn:Eb; try discriminate. cbn [rbind] in Ha.
          destruct (gen_arms (gen_trie fuel) l0) as [arms'| | |] eqn:Ea; try discriminate.
          injection Ha as <-. constructor; [|apply IHl; reflexivity]. constructor; [apply looping_simple; reflexivity|].
          eapply IH; eauto.
        + destruct (gen_dynamic (gen_trie fuel) child n) as [bb| | |] eqn:Eb; try discriminate.
          injection Ha as <-. constructor; [|constructor]. eapply Hdyn; eauto.
        + destruct (gen_arms (gen_trie fuel) l0) as [arms'| | |] eqn:Ea; try discriminate.
          injection Ha as <-. constructor; [apply Forall_nil|apply IHl; reflexivity]. }
      repeat match goal with |- Forall _ (_ ++ _) => apply Forall_app; split end.
      + destruct (find_dynamic (t_children t)); loops.
      + constructor; [loops|]. constructor; [|constructor].
        apply looping_match. apply Forall_app. split; [exact Harms|loops].
    - destruct (find_dynamic (t_children t)) as [[name dchild]|] eqn:Ef; try discriminate.
      destruct (gen_trie fuel next) as [bn| | |] eqn:En; try discriminate. cbn [rbind].
      destruct (gen_dynamic (gen_trie fuel) dchild name) as [bd| | |] eqn:Ed; try discriminate.
      intros [= <-]. cbn [app]. loops; eauto. }
  unfold gen_children in Eg. destruct (t_children t) as [|[k child] rest] eqn:Ech.
  { injection Eg as <-. loops. }
  destruct rest as [|k2 rest].
  2: { destruct k; apply Hmany; exact Eg. }
  destruct k as [c|n|].
  - destruct (chase child) as [more child'].
    destruct (gen_trie fuel child') as [bb| | |] eqn:Eb; try discriminate. injection Eg as <-.
    constructor; [loops|]. constructor; [apply expect_loops|]. eapply IH; eauto.
  - destruct (gen_dynamic (gen_trie fuel) child n) as [bb| | |] eqn:Eb; try discriminate. injection Eg as <-.
    constructor; [apply looping_simple; reflexivity|]. eapply Hdyn; eauto.
  - destruct (gen_trie fuel child) as [bb| | |] eqn:Eb; try discriminate. injection Eg as <-.
    constructor; [|constructor; [apply expect_loops|eapply IH; eauto]].
    destruct (has_resources (t_data child)) as [fr|] eqn:Er.
    + pose proof (block_loops (t_data child)) as H. unfold methods_block in H. rewrite Er in H. inversion H; assumption.
    + loops.
Qed.

(** ** Every configuration that compiles *)
Theorem compiled_answers {T E} (rt : runtime T E) c path method : compiles c = true ->
  exists root r, flattened_modules (c_routes c) = ROk root /\ match_route rt c path method = Some r /\
    match r with RunResult m => answer_fits (module_structs [] root) m | RunPanic => True end.
Proof.
  intros H. pose proof H as Hc. unfold match_route. rewrite H. unfold compiles in H.
  destruct (flattened_modules (c_routes c)) as [root| | |]; try discriminate.
  destruct (gen_program c) as [body| | |] eqn:Eg; try discriminate.
  rewrite !andb_true_iff in H. destruct H as [_ H].
  destruct (check_block (module_structs [] root) prologue_tenv body false) as [d|] eqn:Eb; [|discriminate]. subst d.
  assert (Hl : Forall looping body).
  { unfold gen_program in Eg. destruct (to_trie (flattened_routes (c_routes c))) as [t| | |]; try discriminate. eapply trie_loops; eauto. }
  pose proof (program_runs rt (module_structs [] root) (length path) body (prologue_env path method) prologue_tenv true
    (S (length path)) Hl ltac:(lia)) as G. exists root. unfold run_program.
  assert (He : env_fits (length path) (prologue_env (T := T) path method) prologue_tenv).
  { repeat (constructor; [repeat split; try discriminate|]). constructor. }
  specialize (G He Eb). unfold leave in G.
  destruct (exec_block rt (module_structs [] root) (S (length path)) (prologue_env path method) body) as [en|m| | |];
    cbn [ends] in G; try contradiction.
  - destruct G as [G _]. discriminate.
  - exists (RunResult m). auto.
  - exists RunPanic. auto.
Qed.
