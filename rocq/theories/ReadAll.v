(** * ReadAll: reading a generated module *)
From Verif Require Import Base BaseFacts Core Trie Flat MiniRust Gen Spec SpecMatch SpecGen SpecCompile Items SpecItems Fixed RLex RRead SpecRead SpecCost
  LexFacts ExecFacts CostFacts CompFacts MatchFacts FlatFacts NodeFacts GenThms ItemText CompileFacts ItemFacts ItemThms FixedFacts ReadFacts ReadItems CanonFacts ReadGood.

Local Notation w s := (Word (lit s)) (only parsing).
Local Notation o s := (Op (lit s)) (only parsing).

(** ** The fixed text *)

(** Text that ends with a line break. *)
Lemma lex_closed t a ts s : t = a ++ nl -> lex a = Some ts -> lex (t ++ s) = pre ts (lex s).
Proof. intros -> H. rewrite <- app_assoc. apply lex_closed_line. exact H. Qed.
Definition file_toks : list tok := [w "pub"; w "mod"; w "routes"; o "{"].
Definition allow_toks (x : str) : list tok := [o "#"; o "!"; o "["; w "allow"; o "("; Word x; o ")"; o "]"].
Definition allowed : list str := [lit "dead_code"; lit "unused_imports"; lit "unused_mut"; lit "unused_variables"].
Ltac closed_text t := let x := eval vm_compute in (removelast t) in
  apply (lex_closed t x); vm_compute; reflexivity.
Lemma lex_preamble1 s : lex (w_text (w_lines preamble1) ++ s) = pre file_toks (lex s).
Proof. closed_text (w_text (w_lines preamble1)). Qed.
Lemma lex_preamble2 s : lex (w_text (w_lines preamble2) ++ s) = pre (flat_map allow_toks allowed) (lex s).
Proof. closed_text (w_text (w_lines preamble2)). Qed.
Definition fixed_pieces : list piece :=
  flat_map (fun it =>
              let ts := tokens (concat (map (fun l => l ++ nl) (pr_fixed it))) in
              match it with FxBlank => [] | FxText _ => [(ts, DUse ts)] | _ => [(ts, DOther ts)] end) fixed_code.
Definition fn_start : list tok := fn_head ++ [o ","; o ")"] ++ fn_result.
Definition pstmt_toks (p : pstmt) : list tok := tokens (pr_pstmt p).
Lemma lex_boilerplate s : lex (w_text (w_lines boilerplate) ++ s)
  = pre (flat_map fst fixed_pieces ++ fn_start ++ flat_map pstmt_toks prologue) (lex s).
Proof. closed_text (w_text (w_lines boilerplate)). Qed.
Lemma lex_docs l s : Forall (fun x => doc_line x = true) l ->
  lex (unlines (map (fun x => lit "    //! " ++ x) l) ++ s) = lex s.
Proof.
  induction 1 as [|x l Hx Hl IH]; [reflexivity|]. unfold unlines. cbn [map concat]. fold (unlines (map (fun x => lit "    //! " ++ x) l)).
  change [c_nl] with nl. rewrite <- !app_assoc.
  change (lit "    //! " ++ x ++ nl ++ unlines (map (fun x => lit "    //! " ++ x) l) ++ s)
    with (lit "    " ++ lit "//" ++ (lit "! " ++ x) ++ nl ++ unlines (map (fun x => lit "    //! " ++ x) l) ++ s).
  rewrite lex_lit_space, lex_comment; [exact IH|]. unfold doc_line in *. rewrite forallb_app, Hx. reflexivity.
Qed.

(** The declarations in it. *)
Lemma other_reads ts : ts <> [] -> item_tokens 0 ts = Some (ts, []) ->
  (forall r, r_allow (ts ++ r) = None /\ r_use (ts ++ r) = None /\ r_struct (ts ++ r) = None /\ r_enum (ts ++ r) = None /\
             r_impl (ts ++ r) = None /\ (key "pub" ;- key "mod") (ts ++ r) = None /\ r_fn (ts ++ r) = None) ->
  reads_as (ts, DOther ts).
Proof.
  intros Hn Ht H. split; [exact Hn|]. cbn [fst snd]. split; [apply H|]. intros fuel r Hf.
  destruct fuel; [destruct ts; [congruence|cbn in Hf; lia]|]. cbn [r_decl].
  destruct (H r) as (_ & H1 & H2 & H3 & H4 & H5 & H6).
  rewrite skip_or by exact H1. rewrite skip_or by (unfold then_ at 1; rewrite H2; reflexivity).
  rewrite skip_or by (unfold then_ at 1; rewrite H3; reflexivity). rewrite skip_or by (unfold then_ at 1; rewrite H4; reflexivity).
  rewrite skip_or.
  - rewrite skip_or by exact H6. rewrite (item_tokens_more _ _ _ r Ht). reflexivity.
  - unfold then_ at 1 in H5. unfold then_ at 1. destruct (key "pub" (ts ++ r)) as [[u r']|]; [|reflexivity].
    unfold then_ at 1. rewrite H5. reflexivity.
Qed.
Lemma fixed_read : Forall reads_as fixed_pieces.
Proof.
  let l := eval vm_compute in fixed_pieces in change fixed_pieces with l.
  repeat (apply Forall_cons;
    [first [ apply use_reads; eexists; split; [reflexivity|vm_compute; reflexivity]
           | apply other_reads; [discriminate|vm_compute; reflexivity|intros r; repeat split; reflexivity] ]|]).
  apply Forall_nil.
Qed.

(** ** [match_route] *)

Lemma pstmt_stops_of s r : good_stmt s -> stoks s <> [] -> r_pstmt (stoks s ++ r) = None.
Proof.
  intros Hg Hn. unfold r_pstmt. destruct s as [|x e|x src a b|x src what|x n|c body|c body|sc arms|v]; cbn [stoks app good_stmt] in *;
    try reflexivity; [congruence|..].
  - destruct Hg as [Hx He]. onward. rewrite skip_or by (unfold then_ at 1; unfold key; rewrite not_keyword by (exact Hx || (cbn; tauto)); reflexivity).
    onward. destruct e as [y|n|y n]; cbn [etoks app good_expr] in *; [onward; reflexivity|reflexivity|onward; reflexivity].
  - destruct Hg as (Hx & _). onward. rewrite skip_or by (unfold then_ at 1; unfold key; rewrite not_keyword by (exact Hx || (cbn; tauto)); reflexivity).
    onward. reflexivity.
  - destruct Hg as (Hx & Hs & _). onward. rewrite skip_or by (unfold then_ at 1; unfold key; rewrite not_keyword by (exact Hx || (cbn; tauto)); reflexivity).
    onward. reflexivity.
  - unfold then_ at 1. unfold key. rewrite not_keyword by (exact Hg || (cbn; tauto)). reflexivity.
Qed.
Lemma pstmt_stops l r : good_block l -> r_pstmt (flat_map stoks l ++ o "}" :: r) = None.
Proof.
  induction l as [|s l IH]; intros Hg; [reflexivity|]. destruct Hg as [Hs Hl]. cbn [flat_map]. rewrite <- app_assoc.
  destruct (stoks s) eqn:E; [apply IH; exact Hl|]. rewrite <- E. apply pstmt_stops_of; [exact Hs|congruence].
Qed.
Lemma pstmts_read l r : good_block l ->
  many_ r_pstmt (flat_map pstmt_toks prologue ++ flat_map stoks l ++ o "}" :: r) = Some (prologue, flat_map stoks l ++ o "}" :: r).
Proof.
  intros Hl. rewrite (many__map r_pstmt pstmt_toks (fun p => p)); [reflexivity|apply pstmt_stops; exact Hl|].
  intros p Hp. unfold prologue in Hp. cbn [In] in Hp. destruct Hp as [<-|[<-|[<-|[<-|[]]]]]; split; (discriminate || reflexivity).
Qed.
Definition fn_piece (body : list stmt) : piece :=
  (fn_start ++ flat_map pstmt_toks prologue ++ flat_map stoks body ++ [o "}"], DFn prologue (canon_block body)).
Lemma eat_all_app l ts : eat_all l (l ++ ts) = Some (tt, ts).
Proof. induction l as [|t l IH]; [reflexivity|]. cbn [eat_all app]. rewrite (go_on _ _ _ _ _ (eat_same _ _)). exact IH. Qed.
Lemma fn_reads body : good_block body -> reads_as (fn_piece body).
Proof.
  intros Hg. split; [discriminate|]. cbn [fn_piece fst snd]. split; [reflexivity|]. intros fuel r Hf.
  destruct fuel; [rewrite app_length in Hf; cbn in Hf; lia|]. cbn [r_decl].
  other. other. other. other. other. apply take_or. unfold r_fn, fn_start. rewrite <- !app_assoc.
  rewrite (go_on _ _ _ _ _ (eat_all_app _ _)). cbn [app]. rewrite (go_on _ _ _ tt (o ")" :: fn_result ++ flat_map pstmt_toks prologue ++ flat_map stoks body ++ o "}" :: r)) by reflexivity.
  onward. rewrite (go_on _ _ _ _ _ (eat_all_app _ _)). rewrite (go_on _ _ _ _ _ (pstmts_read body r Hg)).
  rewrite (go_on _ _ _ _ _ (read_block body (S (length (flat_map stoks body ++ o "}" :: r))) r Hg ltac:(rewrite app_length; cbn; lia))).
  onward. reflexivity.
Qed.

(** ** The file *)

Lemma allows_read ps r : ps <> [] -> Forall reads_as ps ->
  many_ r_allow (flat_map allow_toks allowed ++ flat_map fst ps ++ r) = Some ([tt; tt; tt; tt], flat_map fst ps ++ r).
Proof.
  intros Hn Hp. rewrite (many__map r_allow allow_toks (fun _ => tt)); [reflexivity| |].
  - destruct ps as [|p ps]; [congruence|]. inversion Hp as [|? ? H _]; subst. cbn [flat_map]. rewrite <- app_assoc. apply H.
  - intros x Hx. unfold allowed in Hx. cbn [In] in Hx. destruct Hx as [<-|[<-|[<-|[<-|[]]]]]; split; (discriminate || reflexivity).
Qed.
Lemma file_reads ps : ps <> [] -> Forall reads_as ps ->
  r_file (lit "routes") (file_toks ++ flat_map allow_toks allowed ++ flat_map fst ps ++ [o "}"]) = Some (map snd ps).
Proof.
  intros Hn Hp. unfold r_file. set (n := length _).
  assert (Hlen : length (flat_map fst ps) <= n) by (unfold n; rewrite !app_length; lia). clearbody n.
  unfold file_toks. cbn [app]. onward. rewrite (go_on _ _ _ _ _ (eat_same _ _)). onward.
  rewrite (go_on _ _ _ _ _ (allows_read ps [o "}"] Hn Hp)). rewrite (go_on _ _ _ _ _ (read_pieces n ps [] Hp Hlen)).
  onward. reflexivity.
Qed.
Lemma sort_app a b : sort_decls (a ++ b) =
  mkReading (rd_items (sort_decls a) ++ rd_items (sort_decls b)) (rd_others (sort_decls a) ++ rd_others (sort_decls b))
            (rd_fns (sort_decls a) ++ rd_fns (sort_decls b)).
Proof. unfold sort_decls. cbn [rd_items rd_others rd_fns]. rewrite !flat_map_app. reflexivity. Qed.
Lemma sort_items l : forall items, all_items l = Some items -> sort_decls l = mkReading items [] [].
Proof.
  induction l as [|d l IH]; intros items H; cbn [all_items] in H; [injection H as <-; reflexivity|].
  change (d :: l) with ([d] ++ l). rewrite sort_app. destruct d; try discriminate H.
  - rewrite (IH _ H). reflexivity.
  - destruct (all_items l) as [l'|]; [|discriminate]. injection H as <-. rewrite (IH _ eq_refl). reflexivity.
Qed.
Lemma sort_fixed : sort_decls (map snd fixed_pieces) = mkReading [] fixed_tokens [].
Proof. vm_compute. reflexivity. Qed.

Lemma doc_lines l : Forall (fun x => ~ In c_nl x) l -> forallb (fun x => negb (N.eqb x c_cr)) (unlines l) = true ->
  Forall (fun x => doc_line x = true) l.
Proof.
  intros H Hc. rewrite forallb_forall in Hc. rewrite Forall_forall in *. intros x Hx. apply doc_line_iff. intros c Hin. split.
  - intros ->. exact (H x Hx Hin).
  - intros ->. specialize (Hc c_cr). rewrite N.eqb_refl in Hc. discriminate Hc. unfold unlines. apply in_concat.
    exists (x ++ [c_nl]). split; [apply in_map_iff; eauto|]. apply in_app_iff. left. exact Hin.
Qed.
Lemma types_typed c root : flattened_modules (c_routes c) = ROk root -> ident_types c ->
  forall ms a, In (ms, a) (module_actions root) -> typed a.
Proof.
  intros Hr Ht ms a Ha f Hf. pose proof (items_declare c root Hr) as HP. rewrite items_structs_module in HP.
  eapply (Ht (map to_snake_case ms) (to_caps_case (a_name a)) (action_fields a)); [|exact Hf].
  apply (Permutation.Permutation_in _ HP). apply in_map_iff. exists (ms, a). auto.
Qed.
Lemma compiles_codegen c : compiles c = true -> snd (codegen c) = ROk tt.
Proof.
  intros H. apply codegen_ok. unfold compiles in H. unfold generates.
  destruct (flattened_modules_names (c_routes c)) as [[[root Hr] Hn]|[(pk & Hpk & _) Hn]]; [|rewrite Hpk in H; discriminate].
  rewrite Hr in H. unfold gen_program in H.
  destruct (to_trie_dup (c_routes c)) as [[t Ht]|Ht]; [|rewrite Ht in H; discriminate]. rewrite Ht in H. cbn [rbind] in H.
  destruct (gen_trie_config _ _ Ht) as [body Hb]. rewrite Hb, !andb_true_iff in H. destruct H as [[G _] _].
  apply (module_ok_names c root Hr) in G.
  split; [exact Hn|]. split; [apply to_trie_untyped; eauto|]. intros (E1 & E2 & E3). apply (gn_some _ G). unfold config_actions.
  destruct (c_routes c) as [rs ch qs]. simpl in E1, E2, E3. subst. reflexivity.
Qed.
Definition module_tail : str := unlines [lit "    }"; []; lit "} // mod routes"].
Lemma lex_tail : lex module_tail = Some [o "}"; o "}"].
Proof. vm_compute. reflexivity. Qed.
Lemma module_lexes c root body : snd (codegen c) = ROk tt -> doc_ok c = true ->
  flattened_modules (c_routes c) = ROk root -> gen_program c = ROk body ->
  good_items (module_items true (c_headers c) root) ->
  exists d, lex (w_text (codegen c)) =
    pre (file_toks ++ flat_map allow_toks allowed ++ flat_map itoks (module_items true (c_headers c) root)
         ++ flat_map fst fixed_pieces ++ fn_start ++ flat_map pstmt_toks prologue) (lex (pr_block d body ++ module_tail)).
Proof.
  intros Hok Hd Hr Hb Hgood.
  destruct (codegen_text c Hok) as (root' & l & body' & Hr' & Hl & Hnl & Hb' & Htext).
  rewrite Hr in Hr'. rewrite Hb in Hb'. injection Hr' as <-. injection Hb' as <-.
  rewrite codegen_items_text in Htext. rewrite Htext. eexists. unfold doc_prefix.
  rewrite lex_preamble1, lex_docs by (apply doc_lines; [exact Hnl|rewrite <- Hl; exact Hd]).
  rewrite lex_preamble2, (lex_items (lit "    ") _ lex_lit_space Hgood), lex_nl, lex_boilerplate.
  rewrite <- !pre_app, <- !app_assoc. reflexivity.
Qed.
Lemma good_reads c root body : snd (codegen c) = ROk tt -> doc_ok c = true ->
  flattened_modules (c_routes c) = ROk root -> gen_program c = ROk body ->
  good_items (module_items true (c_headers c) root) -> good_block body ->
  read_module (lit "routes") (w_text (codegen c))
  = Some (mkReading (bare_items (module_items true (c_headers c) root)) fixed_tokens [(prologue, canon_block body)]).
Proof.
  intros Hok Hd Hr Hb Hgood Hgb. destruct (module_lexes c root body Hok Hd Hr Hb Hgood) as [d Hlex].
  set (items := module_items true (c_headers c) root) in *.
  destruct (read_items items Hgood) as (ps & H1 & H2 & H3).
  set (all := ps ++ fixed_pieces ++ [fn_piece body]).
  assert (Hall : Forall reads_as all).
  { apply Forall_app. split; [exact H2|]. apply Forall_app. split; [exact fixed_read|].
    constructor; [apply fn_reads; exact Hgb|constructor]. }
  unfold read_module. rewrite Hlex, lex_block by exact Hgb. rewrite lex_tail, <- !pre_app, pre_some, <- !app_assoc.
  replace (file_toks ++ flat_map allow_toks allowed ++ flat_map itoks items ++ flat_map fst fixed_pieces ++ fn_start ++
           flat_map pstmt_toks prologue ++ flat_map stoks body ++ [o "}"; o "}"])
    with (file_toks ++ flat_map allow_toks allowed ++ flat_map fst all ++ [o "}"]).
  - rewrite (file_reads all); [|unfold all; intros E; apply app_eq_nil in E; destruct E as [_ E]; apply app_eq_nil in E; destruct E; discriminate|exact Hall].
    cbn [option_map]. unfold all. rewrite !map_app, !sort_app. pose proof (sort_items _ _ H3) as Hps. pose proof sort_fixed as Hfx.
    unfold piece in *. rewrite Hps, Hfx. cbn [rd_items rd_others rd_fns map sort_decls flat_map fn_piece snd app]. rewrite !app_nil_r. reflexivity.
  - unfold all. rewrite !flat_map_app. rewrite <- H1. unfold fn_piece. cbn [flat_map fst]. rewrite app_nil_r, <- !app_assoc. reflexivity.
Qed.
Lemma module_reads c : compiles c = true -> use_headers c -> ident_types c ->
  exists root body,
    flattened_modules (c_routes c) = ROk root /\ gen_program c = ROk body /\
    read_module (lit "routes") (w_text (codegen c))
    = Some (mkReading (bare_items (module_items true (c_headers c) root)) fixed_tokens [(prologue, canon_block body)]).
Proof.
  intros Hc Hh Ht.
  assert (Hok : snd (codegen c) = ROk tt) by (apply compiles_codegen; exact Hc).
  destruct (codegen_text c Hok) as (root & l & body & Hr & _ & _ & Hb & _). exists root, body.
  split; [exact Hr|]. split; [exact Hb|].
  destruct (proj1 (items_check c root body Hr Hb) Hc) as (Hi & Hd & Hk). set (items := module_items true (c_headers c) root) in *.
  assert (Hgood : good_items items).
  { apply good_module; [apply Forall_forall; exact Hh|apply (types_typed c root Hr Ht)|exact Hi]. }
  apply good_reads; auto.
  eapply check_block_good; [apply items_env_ident; exact Hgood|apply prologue_ident|apply (program_shaped c body Hb)|exact Hk].
Qed.

(** ** Compiling and running the text *)

Lemma toks_eqb_refl a : toks_eqb a a = true.
Proof. induction a as [|x a IH]; [reflexivity|]. cbn [toks_eqb]. rewrite tok_eqb_refl. exact IH. Qed.
Lemma tokss_eqb_refl a : tokss_eqb a a = true.
Proof. induction a as [|x a IH]; [reflexivity|]. cbn [tokss_eqb]. rewrite toks_eqb_refl. exact IH. Qed.
Lemma text_compiles c root body : compiles c = true -> use_headers c -> ident_types c ->
  flattened_modules (c_routes c) = ROk root -> gen_program c = ROk body ->
  compile_text (w_text (codegen c)) = Some (items_env (module_items true (c_headers c) root), prologue, canon_block body).
Proof.
  intros Hc Hh Ht Hr Hb. destruct (module_reads c Hc Hh Ht) as (root' & body' & Hr' & Hb' & H).
  rewrite Hr in Hr'. rewrite Hb in Hb'. injection Hr' as <-. injection Hb' as <-.
  unfold compile_text. rewrite H. cbn [rd_items rd_others rd_fns]. rewrite items_env_bare, tokss_eqb_refl. cbn [andb].
  destruct (proj1 (fixed_check c root body Hr Hb) Hc) as (Hi & _ & te & Hte & Hk).
  rewrite (items_ok_bare _ _ Hi). unfold parameters. rewrite Hte, (check_block_canon _ _ _ _ _ Hk). reflexivity.
Qed.
Lemma text_runs {T E} (rt : runtime T E) c path method : compiles c = true -> use_headers c -> ident_types c ->
  run_text rt (w_text (codegen c)) path method = match_route rt c path method.
Proof.
  intros Hc Hh Ht. destruct (module_reads c Hc Hh Ht) as (root & body & Hr & Hb & _).
  unfold run_text. rewrite (text_compiles c root body Hc Hh Ht Hr Hb).
  destruct (fixed_runs rt c root body path method Hc Hr Hb) as (en & Hen & ->). rewrite Hen, exec_block_canon. reflexivity.
Qed.
Lemma text_accepted c : compiles c = true -> use_headers c -> ident_types c ->
  exists program, compile_text (w_text (codegen c)) = Some program.
Proof.
  intros Hc Hh Ht. destruct (module_reads c Hc Hh Ht) as (root & body & Hr & Hb & _). eexists.
  exact (text_compiles c root body Hc Hh Ht Hr Hb).
Qed.
Lemma text_matches {T E} (rt : runtime T E) c path method : runnable c -> use_headers c -> ident_types c ->
  run_text rt (w_text (codegen c)) path method = Some (tree_match (rt_parse rt) method c path).
Proof. intros (H1 & H2 & H3) Hh Ht. rewrite (text_runs rt c path method H1 Hh Ht). apply match_route_tree; assumption. Qed.
