(** * CliFacts: proofs about Cli.v *)
From Coq Require Import Permutation.
From Verif Require Import Base Core Flat MiniRust Gen Items ToPath Build Cli Spec SpecMatch SpecCompile SpecPath SpecBack SpecCli
  BaseFacts FlatFacts ItemFacts ItemText NodeFacts RunFacts MatchFacts MatchProps MatchThms CompileFacts PathThms BackThms.

Section Debug.
Context {T E : Type}.
Variable debug : str -> T -> bytes.
Variable debug_error : E -> bytes.
Variable of_usize : nat -> T.
Variable show : str -> T -> bytes.
Variable rt : runtime T E.
Notation parse := (rt_parse rt).

(** ** Structs *)
Definition one_text (xt : str * ty) (v : field_value T) : bytes :=
  utf8 (fst xt) ++ lit ": " ++ match snd xt, v with
                               | TyUser t, Given v => debug t v
                               | TyOption t, Query o => option_text debug t o
                               | _, _ => []
                               end.
Definition fits (t : ty) (v : field_value T) : Prop :=
  match t, v with TyUser _, Given _ => True | TyOption _, Query _ => True | _, _ => False end.
Lemma debug_field_fits x t v : fits t v -> exists s, debug_field debug t v = Some s /\ one_text (x, t) v = utf8 x ++ lit ": " ++ s.
Proof.
  destruct t as [t|t|ms n], v as [v|[v|]]; cbn [fits]; intros H; try contradiction; eexists; split; reflexivity.
Qed.
Lemma debug_rest fs : forall decl vs, Forall2 (fun xt v => lookup (fst xt) fs = Some v /\ fits (snd xt) v) decl vs ->
  debug_fields debug false decl fs =
  Some (match decl with [] => [] | _ => lit ", " end ++ commas (map (fun xv => one_text (fst xv) (snd xv)) (combine decl vs)) ++ lit " }").
Proof.
  induction 1 as [|[x t] v decl vs (Hl & Hf) H IH]; cbn [debug_fields combine map commas]; [reflexivity|].
  cbn [fst snd] in *. rewrite Hl. destruct (debug_field_fits x t v Hf) as (u & Hu & Et). rewrite Hu.
  rewrite IH, Et. f_equal.
  destruct H as [|xt' v' decl' vs' H1 H]; cbn [combine map commas].
  - rewrite !app_nil_l, <- !app_assoc. reflexivity.
  - rewrite <- !app_assoc. reflexivity.
Qed.
Lemma debug_struct_text name items decl fs vs : lookup name (structs_of items) = Some decl ->
  Forall2 (fun xt v => lookup (fst xt) fs = Some v /\ fits (snd xt) v) decl vs ->
  debug_struct debug items name fs = Some (struct_text (utf8 name) (map (fun xv => one_text (fst xv) (snd xv)) (combine decl vs))).
Proof.
  intros Hd H. unfold debug_struct. rewrite Hd. destruct H as [|[x t] v decl vs (Hl & Hf) H].
  - cbn [debug_fields option_map combine map struct_text]. rewrite app_nil_r. reflexivity.
  - cbn [debug_fields combine map struct_text]. cbn [fst snd] in *. rewrite Hl.
    destruct (debug_field_fits x t v Hf) as (u & Hu & Et). rewrite Hu, (debug_rest fs decl vs H).
    cbn [option_map]. rewrite Et. f_equal. f_equal.
    destruct H as [|xt' v' decl' vs' H1 H]; cbn [combine map commas]; rewrite <- ?app_assoc; reflexivity.
Qed.

(** ** The enums *)
Lemma debug_dispatch hs : forall m root, module_ok root m = true ->
  forall mods a fs, In (mods, a) (module_actions m) ->
  exists items, lookup (to_caps_case (a_name a)) (structs_of items) = Some (action_decl a) /\
  NoDup (map fd_name (action_fields a)) /\
  debug_enum debug (module_items root hs m) (lit "Route") (map to_caps_case mods ++ [to_caps_case (a_name a)]) fs =
  option_map (inside (map utf8 (map to_caps_case mods ++ [to_caps_case (a_name a)])))
    (debug_struct debug items (to_caps_case (a_name a)) fs).
Proof.
  induction m as [name acts subs IH] using FM_ind'. intros root Hok mods a fs Ha.
  destruct (module_ok_variants _ _ Hok) as (N1 & N2 & N3 & Hv & Hf & Hs). cbn [m_actions m_modules] in *. destruct mods as [|k mods].
  - rewrite in_module_actions_nil in Ha. cbn [map app debug_enum]. cbn [m_actions] in Ha.
    rewrite items_enums_of. cbn [lookup]. rewrite str_eqb_refl.
    assert (Hin : In (to_caps_case (a_name a), TyItem [] (to_caps_case (a_name a))) (variants (mkModule name acts subs))).
    { unfold variants. apply in_app_iff. left. apply in_map_iff. exists a. auto. }
    rewrite (lookup_nodup _ _ _ Hv Hin). exists (module_items root hs (mkModule name acts subs)).
    split; [|split; [apply Hf; exact Ha|]].
    + rewrite items_structs_of. cbn [m_actions].
      exact (lookup_key caps_name action_decl acts a N1 Ha : lookup (to_caps_case (a_name a)) _ = _).
    + destruct (debug_struct _ _ _ _); reflexivity.
  - rewrite in_module_actions_cons in Ha. destruct Ha as (s & Hin & <- & Ha). cbn [map app debug_enum]. cbn [m_modules] in Hin.
    rewrite items_enums_of. cbn [lookup]. rewrite str_eqb_refl.
    assert (Hi : In (to_caps_case (m_name s), TyItem [to_snake_case (m_name s)] (lit "Route")) (variants (mkModule name acts subs))).
    { unfold variants. apply in_app_iff. right. apply in_map_iff. exists s. auto. }
    rewrite (lookup_nodup _ _ _ Hv Hi), items_mods_of. cbn [m_modules].
    rewrite (lookup_key (fun s => to_snake_case (m_name s)) (fun s => module_items false hs s) subs s N3 Hin).
    destruct (IH s Hin false (Hs s Hin) mods a fs Ha) as (items & H1 & H2 & H3).
    exists items. split; [exact H1|]. split; [exact H2|]. rewrite H3.
    destruct (debug_struct _ _ _ _); reflexivity.
Qed.

Lemma decl_fits fs : NoDup (map fst fs) -> forall ps vals qs opts,
  length vals = length ps -> length opts = length qs ->
  incl (combine (map p_name ps) (map Given vals) ++ combine (map p_name qs) (map Query opts)) fs ->
  Forall2 (fun xt v => lookup (fst xt) fs = Some v /\ fits (snd xt) v)
    (map (fun p => (p_name p, TyUser (p_typ p))) ps ++ map (fun p => (p_name p, TyOption (p_typ p))) qs)
    (map Given vals ++ map Query opts).
Proof.
  intros Hn ps vals qs opts L1 L2 Hi. apply Forall2_app.
  - assert (H : incl (combine (map p_name ps) (map Given vals)) fs) by (intros x Hx; apply Hi, in_or_app; left; exact Hx).
    clear Hi. revert vals L1 H. induction ps as [|p ps IH]; intros [|v vals] L1 H; try discriminate; cbn [map combine]; constructor.
    + cbn [fst snd fits]. split; [|exact I]. apply lookup_nodup; [exact Hn|]. apply H. left. reflexivity.
    + apply IH; [simpl in L1; congruence|]. intros x Hx. apply H. right. exact Hx.
  - assert (H : incl (combine (map p_name qs) (map Query opts)) fs) by (intros x Hx; apply Hi, in_or_app; right; exact Hx).
    clear Hi. revert opts L2 H. induction qs as [|p qs IH]; intros [|v opts] L2 H; try discriminate; cbn [map combine]; constructor.
    + cbn [fst snd fits]. split; [|exact I]. apply lookup_nodup; [exact Hn|]. apply H. left. reflexivity.
    + apply IH; [simpl in L2; congruence|]. intros x Hx. apply H. right. exact Hx.
Qed.
Lemma decl_texts : forall ps vals qs opts, length vals = length ps -> length opts = length qs ->
  map (fun xv => one_text (fst xv) (snd xv))
    (combine (map (fun p => (p_name p, TyUser (p_typ p))) ps ++ map (fun p => (p_name p, TyOption (p_typ p))) qs)
             (map Given vals ++ map Query opts)) =
  map (fun pv : Param * T => utf8 (p_name (fst pv)) ++ lit ": " ++ debug (p_typ (fst pv)) (snd pv)) (combine ps vals)
  ++ map (fun po : Param * option T => utf8 (p_name (fst po)) ++ lit ": " ++ option_text debug (p_typ (fst po)) (snd po))
         (combine qs opts).
Proof.
  intros ps. induction ps as [|p ps IH]; intros [|v vals] qs opts L1 L2; try discriminate; cbn [map combine app].
  - revert opts L2. induction qs as [|p qs IH]; intros [|o opts] L2; try discriminate; [reflexivity|].
    cbn [map combine fst snd]. rewrite IH by (simpl in L2; congruence). reflexivity.
  - rewrite IH by (auto; simpl in L1; congruence). reflexivity.
Qed.
Lemma debug_text c pat q b r vals opts fs : compiles c = true ->
  block_at (c_routes c) pat q b -> In r (rt_resources b) -> r_is_redirect r = false ->
  struct_fields pat (q ++ r_query r) vals opts fs ->
  debug_route debug c (map to_caps_case (r_modules r)) (to_caps_case (r_name r)) fs =
  Some (route_text debug (map to_caps_case (r_modules r)) (to_caps_case (r_name r)) pat vals (q ++ r_query r) opts).
Proof.
  intros Hc Hb Hr Hd (L1 & L2 & HP). unfold debug_route. rewrite Hc. unfold compiles in Hc.
  destruct (flattened_modules (c_routes c)) as [root| | |] eqn:Er; try discriminate.
  destruct (gen_program c); try discriminate. rewrite !andb_true_iff in Hc. destruct Hc as [[Hok _] _].
  destruct (flattened_modules_tree _ _ Er) as (_ & _ & HPa & _).
  set (act := mkAction (r_name r) (r_method r) pat (path_params pat) (q ++ r_query r)).
  assert (Ha : In (r_modules r, act) (module_actions root)).
  { eapply Permutation_in; [symmetry; exact HPa|]. apply blocks_at in Hb. unfold config_actions.
    apply in_concat. exists (block_actions (pat, q, b)). split; [apply in_map; exact Hb|].
    cbn [block_actions]. apply in_map_iff. exists r. split; [reflexivity|]. apply filter_In.
    rewrite Hd. auto. }
  destruct (debug_dispatch (c_headers c) root true Hok (r_modules r) act fs Ha) as (items & H1 & H2 & H3).
  change (r_name r) with (a_name act). rewrite H3.
  assert (Hn : NoDup (map fst fs)).
  { eapply Permutation_NoDup; [apply Permutation_map; symmetry; exact HP|].
    rewrite map_app, !map_fst_combine by (rewrite !map_length; auto).
    unfold action_fields in H2. rewrite map_app, !map_map in H2. exact H2. }
  rewrite (debug_struct_text _ items (action_decl act) fs (map Given vals ++ map Query opts) H1).
  - cbn [option_map]. unfold route_text, value_text, action_decl. cbn [a_route_params a_query_params act].
    rewrite decl_texts by auto. reflexivity.
  - unfold action_decl. cbn [a_route_params a_query_params act]. apply decl_fits; auto.
    intros x Hx. eapply Permutation_in; [symmetry; exact HP|exact Hx].
Qed.

(** ** Names of parameters *)
Lemma emitted_ident c p q x d child : runnable c -> emitted (c_routes c) p q x -> first_param x = Some (d, child) ->
  is_ident (p_name d) = true.
Proof.
  intros (Hc & _ & Hred) He Hf. destruct (compiles_typed c Hred Hc) as (_ & _ & Hg & Hm).
  destruct (mo_param c Hm _ _ _ _ _ He Hf) as (_ & _ & _ & (p' & q' & y & r & He' & Hr) & _).
  pose proof (emitted_param _ _ _ _ _ _ _ _ _ He Hf He') as Hy. set (q0 := q ++ q') in Hy.
  assert (Hin : In (p_name d) (map p_name (path_params (p ++ Dynamic d :: p')))).
  { rewrite path_params_dynamics, dynamics_app, map_app. apply in_or_app. right. left. reflexivity. }
  destruct (r_is_redirect r) eqn:Ed.
  - destruct (mo_resource c Hm _ _ _ _ Hy Hr) as (_ & _ & H). destruct (H Ed) as (a & (ms & Ha & _) & P & _).
    apply (gn_fields c Hg ms a (p_name d) Ha). apply in_or_app. left.
    eapply Permutation_in; [exact P|exact Hin].
  - pose proof (emitted_block _ _ _ _ Hy) as Hb.
    apply (gn_fields c Hg (r_modules r) (mkAction (r_name r) (r_method r) (p ++ Dynamic d :: p')
             (path_params (p ++ Dynamic d :: p')) (q0 ++ r_query r))).
    + unfold in_module, config_actions. apply in_concat. eexists. split; [apply in_map, blocks_at, Hb|].
      cbn [block_actions]. apply in_map_iff. exists r. split; [reflexivity|]. apply filter_In. rewrite Ed. auto.
    + apply in_or_app. left. exact Hin.
Qed.

Lemma bad_emitted : forall b q a rest p e, tree_find parse b q a rest = Bad p e ->
  exists pat q0 x child, emitted b pat q0 x /\ first_param x = Some (p, child).
Proof.
  induction b as [b IH] using Routes_children_ind. intros q a rest p e H.
  pose proof (find_move parse b q a rest) as M. rewrite H in M. clear H.
  inversion M as [Hr Hn Heq| | |s child tail Hin Hr Heq|p' child Hin Hleast Heq]; subst.
  - destruct tail as [|c t]; cbn [go_in] in Heq.
    + unfold here in Heq. destruct (rt_resources child); discriminate.
    + destruct (N.eqb c c_slash); [|discriminate].
      destruct (IH _ _ Hin _ _ _ _ _ Heq) as (pat & q0 & x & child' & H1 & H2).
      exists (Static s :: pat), (rt_query b ++ q0), x, child'. split; [eapply emitted_static; eauto|exact H2].
  - unfold find_dyn in Heq. destruct (segment rest) as [seg tail].
    destruct (utf8_valid seg); [|discriminate].
    destruct (parse (p_typ p') seg) as [v|e'].
    + destruct tail as [|c t]; cbn [go_in] in Heq.
      * unfold here in Heq. destruct (rt_resources child); discriminate.
      * destruct (N.eqb c c_slash); [|discriminate].
        destruct (IH _ _ Hin _ _ _ _ _ Heq) as (pat & q0 & x & child' & H1 & H2).
        exists (Dynamic p' :: pat), (rt_query b ++ q0), x, child'. split; [eapply emitted_dynamic; eauto|exact H2].
    + injection Heq as -> _. exists [], (rt_query b), b, child. split; [constructor|exact Hleast].
Qed.
Lemma ident_ascii s : is_ident s = true -> forall c, In c s -> ident_char c = true.
Proof.
  destruct s as [|c s]; [discriminate|]. cbn [is_ident]. rewrite !andb_true_iff, forallb_forall.
  intros [[[H1 H2] _] _] d [<-|Hd]; [unfold ident_char; rewrite H1; reflexivity|auto].
Qed.
Lemma ident_char_plain c : ident_char c = true -> (c < 128)%N /\ c <> c_quote /\ c <> 92%N.
Proof.
  unfold ident_char, ident_start, is_upper, is_lower, is_digit, c_under, c_quote.
  rewrite !orb_true_iff, !andb_true_iff, !N.leb_le, N.eqb_eq. lia.
Qed.
Lemma ident_debug s : is_ident s = true -> debug_string s = c_quote :: s ++ [c_quote] /\ utf8 s = s.
Proof.
  intros H. pose proof (ident_ascii s H) as Hs. clear H.
  assert (Hu : utf8 s = s).
  { apply utf8_ascii_text. apply Forall_forall. intros c Hc. apply ident_char_plain, Hs, Hc. }
  split; [|exact Hu]. unfold debug_string, quoted. cbn [app]. f_equal. f_equal. rewrite <- Hu at 2. unfold utf8.
  clear Hu. induction s as [|c s IH]; [reflexivity|]. cbn [flat_map].
  destruct (ident_char_plain c (Hs c (or_introl eq_refl))) as (_ & H1 & H2).
  apply N.eqb_neq in H1, H2. rewrite H1, H2. cbn [orb]. f_equal. apply IH. intros d Hd. apply Hs. right. exact Hd.
Qed.
Lemma error_ident c path method x e : runnable c ->
  match_route rt c path method = Some (RunResult (MError x e)) -> is_ident x = true.
Proof.
  intros Hc H. apply match_eq in H; auto.
  destruct (tree_find parse (c_routes c) [] [] (no_slash path)) as [b q a| |p e'|] eqn:Ef; cbn [finish] in H; try discriminate.
  - destruct (answer_cases rt method b q a) as [(r & _ & Ha)|[_ Ha]]; rewrite Ha in H; [|discriminate].
    unfold hit in H. destruct (r_is_redirect r); discriminate.
  - injection H as <- _. destruct (bad_emitted _ _ _ _ _ _ Ef) as (pat & q0 & y & child & H1 & H2).
    eapply emitted_ident; eauto.
Qed.

(** ** The program *)
Notation cli := (cli_main debug debug_error of_usize show rt).
Lemma cli_answer c name path rest m : compiles c = true -> forallb utf8_valid (name :: path :: rest) = true ->
  match_route rt c path (lit "GET") = Some (RunResult m) ->
  forall d l, result_debug debug debug_error of_usize c m = Some d -> cli_line debug_error of_usize show c m = Some l ->
  prints (cli c (name :: path :: rest)) d l.
Proof. intros Hc Ha Hm d l Hd Hl. unfold prints, cli_main. rewrite Hc, Ha, Hm, Hd, Hl. reflexivity. Qed.

Lemma as_fields_perm pat query (vals : list T) v : length vals = length (path_params pat) ->
  Permutation (rv_fields v)
    (map (fun pv : Param * T => (p_name (fst pv), FvVal (p_typ (fst pv)) (snd pv))) (combine (path_params pat) vals)
     ++ map (fun p => (p_name p, FvNone)) query) ->
  struct_fields pat query vals (no_values query) (as_fields of_usize v).
Proof.
  intros L P. split; [exact L|]. split; [apply map_length|]. unfold as_fields.
  eapply Permutation_trans; [apply Permutation_map; exact P|]. rewrite map_app, !map_map. cbn [fst snd].
  apply Permutation_app; clear P.
  - revert vals L. induction (path_params pat) as [|p ps IH]; intros [|v' vals] L; try discriminate; [constructor|].
    cbn [combine map fst snd]. apply perm_skip, IH. simpl in L. congruence.
  - unfold no_values. induction query as [|p qs IH]; [constructor|]. cbn [map combine]. apply perm_skip, IH.
Qed.
Lemma route_perm r q pat segs (a : @args T) : matches parse pat segs a ->
  length (map snd a) = length (path_params pat) /\
  Permutation (rv_fields (route_for r q a))
    (map (fun pv : Param * T => (p_name (fst pv), FvVal (p_typ (fst pv)) (snd pv))) (combine (path_params pat) (map snd a))
     ++ map (fun p => (p_name p, FvNone)) (q ++ r_query r)).
Proof.
  intros H. pose proof (matched_params rt _ _ _ H) as Hp. rewrite <- Hp, !map_length. split; [reflexivity|].
  unfold route_for. cbn [rv_fields]. apply Permutation_app_tail. clear.
  induction a as [|[p v] a IH]; [constructor|]. cbn [map combine fst snd]. apply perm_skip, IH.
Qed.
Lemma cli_route c name path rest v : runnable c -> forallb utf8_valid (name :: path :: rest) = true ->
  match_route rt c path (lit "GET") = Some (RunResult (MRoute v)) ->
  exists pat q b r segs a,
    block_at (c_routes c) pat q b /\ first_resource_for (lit "GET") b r /\ r_is_redirect r = false /\
    spells path segs /\ matches parse pat segs a /\
    prints (cli c (name :: path :: rest))
      (lit "Ok(Match::Route("
       ++ route_text debug (map to_caps_case (r_modules r)) (to_caps_case (r_name r)) pat (map snd a) (q ++ r_query r)
            (no_values (q ++ r_query r)) ++ lit "))")
      (lit "Route to /" ++ join (path_texts show pat (map snd a))).
Proof.
  intros Hc Ha Hm. destruct (sound rt c path _ false v Hc Hm) as (pat & q & b & r & segs & a & H1 & H2 & H3 & H4 & H5 & ->).
  exists pat, q, b, r, segs, a. do 5 (split; [assumption|]). destruct Hc as (Hc & Hc').
  pose proof (first_in _ _ _ H2) as Hin. destruct (route_perm r q _ _ _ H5) as [L P].
  pose proof (as_fields_perm _ _ _ _ L P) as Hs.
  eapply cli_answer; [exact Hc|exact Ha|exact Hm| |]; cbn [result_debug cli_line hit route_for rv_modules rv_name].
  - rewrite (debug_text c pat q b r (map snd a) (no_values (q ++ r_query r))); auto.
  - rewrite (to_path_text show c pat q b r (map snd a) (no_values (q ++ r_query r))); auto.
Qed.
Lemma cli_redirect c name path rest v : runnable c -> forallb utf8_valid (name :: path :: rest) = true ->
  match_route rt c path (lit "GET") = Some (RunResult (MRedirect v)) ->
  exists pat segs a pat' q' b' r' vals,
    spells path segs /\ matches parse pat segs a /\
    block_at (c_routes c) pat' q' b' /\ In r' (rt_resources b') /\ r_is_redirect r' = false /\
    rv_modules v = map to_caps_case (r_modules r') /\ rv_name v = to_caps_case (r_name r') /\
    Forall2 (fun p' x => exists p, In (p, x) a /\ p_name p = p_name p' /\ p_typ p = p_typ p') (path_params pat') vals /\
    prints (cli c (name :: path :: rest))
      (lit "Ok(Match::Redirect("
       ++ route_text debug (map to_caps_case (r_modules r')) (to_caps_case (r_name r')) pat' vals (q' ++ r_query r')
            (no_values (q' ++ r_query r')) ++ lit "))")
      (lit "Redirect to /" ++ join (path_texts show pat' vals)).
Proof.
  intros Hc Ha Hm.
  destruct (back_redirect rt show c path _ v Hc Hm)
    as (pat & segs & a & fs & pat' & q' & b' & r' & vals & H1 & H2 & H3 & H4 & H5 & H6 & H7 & H8 & H9 & P & H10).
  exists pat, segs, a, pat', q', b', r', vals. do 8 (split; [assumption|]). destruct Hc as (Hc & Hc').
  assert (L : length vals = length (path_params pat')).
  { clear - H9. induction H9; simpl; congruence. }
  pose proof (as_fields_perm _ _ _ _ L P) as Hs.
  eapply cli_answer; [exact Hc|exact Ha|exact Hm| |]; cbn [result_debug cli_line]; rewrite H7, H8.
  - rewrite (debug_text c pat' q' b' r' vals (no_values (q' ++ r_query r'))); auto.
  - rewrite (to_path_text show c pat' q' b' r' vals (no_values (q' ++ r_query r'))); auto.
Qed.
Lemma cli_not_found c name path rest : runnable c -> forallb utf8_valid (name :: path :: rest) = true ->
  match_route rt c path (lit "GET") = Some (RunResult MNotFound) ->
  prints (cli c (name :: path :: rest)) (lit "Ok(Match::NotFound)") (lit "No matching route.").
Proof. intros Hc Ha Hm. eapply cli_answer; [apply Hc|exact Ha|exact Hm|reflexivity|reflexivity]. Qed.
Lemma cli_not_allowed c name path rest : runnable c -> forallb utf8_valid (name :: path :: rest) = true ->
  match_route rt c path (lit "GET") = Some (RunResult MNotAllowed) ->
  prints (cli c (name :: path :: rest)) (lit "Ok(Match::NotAllowed)") (lit "Route does not support method.").
Proof. intros Hc Ha Hm. eapply cli_answer; [apply Hc|exact Ha|exact Hm|reflexivity|reflexivity]. Qed.
Lemma cli_error c name path rest x e : runnable c -> forallb utf8_valid (name :: path :: rest) = true ->
  match_route rt c path (lit "GET") = Some (RunResult (MError x e)) ->
  prints (cli c (name :: path :: rest))
    (lit "Err(wayfinder::Error { param: """ ++ x ++ lit """, what: " ++ debug_error e ++ lit " })")
    (lit "Error: Error parsing '" ++ x ++ lit "' parameter " ++ debug_error e).
Proof.
  intros Hc Ha Hm. destruct (ident_debug x (error_ident c path _ x e Hc Hm)) as [Hd Hu].
  eapply cli_answer; [apply Hc|exact Ha|exact Hm| |]; cbn [result_debug cli_line]; unfold error_debug, error_display;
    rewrite ?Hd, ?Hu; f_equal.
  change (lit "wayfinder::Error { param: ") with (lit "wayfinder::Error { param: " ++ []).
  repeat (rewrite <- ?app_assoc; cbn [app]). reflexivity.
Qed.
Lemma cli_panic c name path rest : runnable c -> forallb utf8_valid (name :: path :: rest) = true ->
  match_route rt c path (lit "GET") = Some RunPanic ->
  cli c (name :: path :: rest) = Some ([], Panicked PanicSlice).
Proof. intros Hc Ha Hm. unfold cli_main. rewrite (proj1 Hc), Ha, Hm. reflexivity. Qed.
Lemma cli_others c name path rest : runnable c -> forallb utf8_valid (name :: path :: rest) = true ->
  (match_route rt c path (lit "GET") = Some (RunResult MNotFound) ->
     prints (cli c (name :: path :: rest)) (lit "Ok(Match::NotFound)") (lit "No matching route.")) /\
  (match_route rt c path (lit "GET") = Some (RunResult MNotAllowed) ->
     prints (cli c (name :: path :: rest)) (lit "Ok(Match::NotAllowed)") (lit "Route does not support method.")) /\
  (forall x e, match_route rt c path (lit "GET") = Some (RunResult (MError x e)) ->
     prints (cli c (name :: path :: rest))
       (lit "Err(wayfinder::Error { param: """ ++ x ++ lit """, what: " ++ debug_error e ++ lit " })")
       (lit "Error: Error parsing '" ++ x ++ lit "' parameter " ++ debug_error e)) /\
  (match_route rt c path (lit "GET") = Some RunPanic ->
     exists p, cli c (name :: path :: rest) = Some ([], Panicked p)).
Proof.
  intros Hc Ha. split; [apply cli_not_found; auto|]. split; [apply cli_not_allowed; auto|].
  split; [intros x e; apply cli_error; auto|]. intros H. eexists. apply cli_panic; auto.
Qed.
Lemma cli_usage c args : compiles c = true ->
  (forall name, args = [name] -> utf8_valid name = true ->
     cli c args = Some ([Stderr (lit "Usage: " ++ name ++ lit " ROUTE_TO_TEST" ++ [c_nl])], Finished tt)) /\
  (args = [] -> exists p, cli c args = Some ([], Panicked p)) /\
  ((exists x, In x args /\ utf8_valid x = false) -> exists p, cli c args = Some ([], Panicked p)).
Proof.
  intros Hc. unfold cli_main. rewrite Hc. split; [|split].
  - intros name -> Hn. cbn [forallb]. rewrite Hn. reflexivity.
  - intros ->. eexists. reflexivity.
  - intros (x & Hx & Hu). destruct (forallb utf8_valid args) eqn:Ef; [|eexists; reflexivity].
    rewrite forallb_forall in Ef. rewrite (Ef x Hx) in Hu. discriminate.
Qed.
Lemma cli_finishes c name path rest : runnable c -> every_block no_short_static (c_routes c) ->
  forallb utf8_valid (name :: path :: rest) = true ->
  exists parsed line, prints (cli c (name :: path :: rest)) parsed line.
Proof.
  intros Hc Hn Ha. pose proof (match_find rt c path (lit "GET") Hc) as H.
  destruct (finish _ _) as [m|].
  - destruct m as [| |v|v|x e].
    + do 2 eexists. apply cli_not_found; auto.
    + do 2 eexists. apply cli_not_allowed; auto.
    + destruct (cli_route c name path rest v Hc Ha H) as (? & ? & ? & ? & ? & ? & _ & _ & _ & _ & _ & Hp). eauto.
    + destruct (cli_redirect c name path rest v Hc Ha H) as (? & ? & ? & ? & ? & ? & ? & ? & _ & _ & _ & _ & _ & _ & _ & _ & Hp). eauto.
    + do 2 eexists. apply cli_error; auto. exact H.
  - exfalso. cbn [forallb] in Ha. rewrite !andb_true_iff in Ha. destruct Ha as (_ & Ha & _).
    exact (no_panic rt c path (lit "GET") Hc Hn Ha H).
Qed.

(** Asking again for the printed path. *)
Lemma last_app {A} (l : list A) x d : last (l ++ [x]) d = x.
Proof. induction l as [|y l IH]; [reflexivity|]. cbn [app]. destruct (l ++ [x]) eqn:El; [destruct l; discriminate|]. exact IH. Qed.
Lemma join_snoc segs s : segs <> [] -> join (segs ++ [s]) = join segs ++ c_slash :: s.
Proof.
  intros H. destruct segs as [|x segs]; [congruence|]. clear H. revert x. induction segs as [|y segs IH]; intros x; [reflexivity|].
  cbn [app]. rewrite join_cons by discriminate. cbn [app] in IH. rewrite IH, (join_cons x) by discriminate.
  rewrite <- app_assoc. reflexivity.
Qed.
Lemma uncaptured_emitted b pat segs : uncaptured b pat segs -> exists q x, emitted b pat q x.
Proof.
  induction 1 as [b|b s child pat segs Hin _ _ (q & x & IH)|b p child pat seg segs Hl _ _ (q & x & IH)].
  - exists (rt_query b), b. constructor.
  - exists (rt_query b ++ q), x. eapply emitted_static; eauto.
  - exists (rt_query b ++ q), x. eapply emitted_dynamic; eauto.
Qed.
Lemma same_again c path v : runnable c -> every_block plain_statics (c_routes c) ->
  (forall t text x, parse t text = inl x -> show t x = text) ->
  (forall u, path <> u ++ [c_slash; c_slash]) ->
  match_route rt c path (lit "GET") = Some (RunResult (MRoute v)) ->
  exists p, to_path show c (rv_modules v) (rv_name v) (as_fields of_usize v) = Some p /\
    match_route rt c p (lit "GET") = Some (RunResult (MRoute v)) /\
    (utf8_valid path = true -> utf8_valid p = true).
Proof.
  intros Hc Hp Hinv Hu Hm. pose proof Hm as Hm'. change (MRoute ?v) with (hit (E := E) false v) in Hm'.
  apply match_reads in Hm'; auto. destruct Hm' as (pat & q & b & r & segs & a & H1 & H2 & H3 & H4 & H5 & H6 & ->).
  destruct (route_perm r q _ _ _ H5) as [L P]. pose proof (as_fields_perm _ _ _ _ L P) as Hs.
  exists (c_slash :: join segs). split; [|split; [|intros Hv; apply utf8_valid_no_slash in Hv; destruct H4 as [[Et _]|[_ Et]]; rewrite Et in Hv;
    [exact Hv|change [c_slash] with (c_slash :: []) in Hv; rewrite utf8_valid_slash, andb_true_r in Hv; exact Hv]]].
  - cbn [route_for rv_modules rv_name].
    rewrite (to_path_text show c pat q b r (map snd a) (no_values (q ++ r_query r))); auto; [|apply Hc|exact (first_in _ _ _ H2)].
    rewrite (texts_segs rt show pat segs a H5); auto.
    intros s Hsi. destruct (uncaptured_emitted _ _ _ H6) as (q0 & x & Hx). apply plain_ascii.
    eapply emitted_plain; [apply (mo_shape c (runnable_matcher c Hc))|exact Hx|exact Hsi].
  - change (MRoute ?v) with (hit (E := E) false v). apply match_reads; auto.
    exists pat, q, b, r, segs, a. do 3 (split; [assumption|]). split; [|auto].
    cbn [no_slash]. rewrite N.eqb_refl. left. split; [reflexivity|]. intros Hl.
    destruct H4 as [[_ Ho]|[Hne Ht]]; [auto|]. exfalso.
    destruct (exists_last Hne) as (l & s & ->). rewrite last_app in Hl. subst s.
    destruct l as [|x l].
    + cbn [app join] in Ht. unfold no_slash in Ht. destruct path as [|ch p]; [discriminate|].
      destruct (N.eqb_spec ch c_slash) as [->|].
      * subst p. exact (Hu [] eq_refl).
      * injection Ht as -> _. congruence.
    + rewrite join_snoc in Ht by discriminate. rewrite <- app_assoc in Ht. cbn [app] in Ht.
      unfold no_slash in Ht. destruct path as [|ch p].
      * apply (f_equal (@length N)) in Ht. rewrite app_length in Ht. simpl in Ht. lia.
      * destruct (N.eqb_spec ch c_slash) as [->|].
        -- subst p. exact (Hu (c_slash :: join (x :: l)) eq_refl).
        -- exact (Hu _ Ht).
Qed.
Lemma cli_again c name path rest v : runnable c -> every_block plain_statics (c_routes c) ->
  (forall t text x, parse t text = inl x -> show t x = text) ->
  forallb utf8_valid (name :: path :: rest) = true -> (forall u, path <> u ++ [c_slash; c_slash]) ->
  match_route rt c path (lit "GET") = Some (RunResult (MRoute v)) ->
  exists parsed p, prints (cli c (name :: path :: rest)) parsed (lit "Route to " ++ p) /\
    cli c (name :: p :: rest) = cli c (name :: path :: rest).
Proof.
  intros Hc Hp Hinv Ha Hu Hm. destruct (same_again c path v Hc Hp Hinv Hu Hm) as (p & Hp1 & Hp2 & Hp3).
  destruct (cli_route c name path rest v Hc Ha Hm) as (pat & q & b & r & segs & a & _ & _ & _ & _ & _ & Hpr).
  assert (Hq : exists d, prints (cli c (name :: path :: rest)) d (lit "Route to " ++ p)).
  { unfold prints, cli_main in Hpr. rewrite (proj1 Hc), Ha, Hm in Hpr.
    destruct (result_debug debug debug_error of_usize c (MRoute v)) as [d|] eqn:Ed; [|discriminate]. exists d.
    eapply cli_answer; [apply Hc|exact Ha|exact Hm|exact Ed|]. cbn [cli_line]. rewrite Hp1. reflexivity. }
  destruct Hq as (d & Hq). exists d, p. split; [exact Hq|].
  assert (Hv : forallb utf8_valid (name :: p :: rest) = true).
  { cbn [forallb] in *. rewrite !andb_true_iff in *. destruct Ha as (A1 & A2 & A3). auto. }
  unfold cli_main. rewrite (proj1 Hc), Ha, Hv, Hm, Hp2. reflexivity.
Qed.
End Debug.
