(** * ItemThms: the generated module as items *)
From Coq Require Import Permutation.
From Verif Require Import Base Core Trie Flat MiniRust Gen Items Spec SpecMatch SpecGen SpecItems BaseFacts CompFacts
  FlatFacts MatchFacts GenThms CompileFacts ItemText ItemFacts.

Lemma params_dynamics p : path_params p = dynamics p.
Proof. induction p as [|[s|d] p IH]; simpl; congruence. Qed.

Lemma root_params b root : flattened_modules b = ROk root ->
  forall ms a, In (ms, a) (module_actions root) -> a_route_params a = dynamics (a_path a).
Proof.
  intros H ms a Ha. destruct (flattened_modules_tree _ _ H) as (_ & _ & HP & _).
  apply (Permutation_in _ HP) in Ha. unfold config_actions in Ha. apply in_concat in Ha.
  destruct Ha as (l & Hl & Ha). apply in_map_iff in Hl. destruct Hl as ([[p q] b'] & <- & _).
  cbn [block_actions] in Ha. apply in_map_iff in Ha. destruct Ha as (r & Hr & _). inversion Hr; subst.
  cbn [a_route_params a_path]. apply params_dynamics.
Qed.

Lemma items_text c : snd (codegen c) = ROk tt ->
  exists root l body,
    flattened_modules (c_routes c) = ROk root /\
    routes_stringify 1 (c_routes c) = unlines l /\ Forall (fun x => ~ In c_nl x) l /\
    gen_program c = ROk body /\
    w_text (codegen c) =
      w_text (w_lines preamble1)
      ++ unlines (map (fun x => lit "    //! " ++ x) l)
      ++ w_text (w_lines preamble2)
      ++ pr_items (lit "    ") (module_items true (c_headers c) root)
      ++ nl
      ++ w_text (w_lines boilerplate)
      ++ pr_block 2 body
      ++ unlines [lit "    }"; []; lit "} // mod routes"].
Proof.
  intros H. destruct (codegen_text c H) as (root & l & body & H1 & H2 & Hnl & H3 & H4).
  exists root, l, body. rewrite codegen_items_text in H4. auto.
Qed.

Lemma items_check c root body : flattened_modules (c_routes c) = ROk root -> gen_program c = ROk body ->
  let items := module_items true (c_headers c) root in
  compiles c = true <->
  items_ok true items = true /\ doc_ok c = true /\
  check_block (items_env items) prologue_tenv body false = Some true.
Proof.
  intros Hr Hb. cbv zeta. unfold compiles. rewrite Hr, Hb.
  rewrite (items_ok_module (c_headers c) root true (root_params _ _ Hr) (or_introl eq_refl)).
  destruct (module_ok true root) eqn:Hok; [|cbn [andb]; intuition congruence].
  rewrite (items_env_module _ _ Hok).
  rewrite !andb_true_iff. destruct (check_block _ _ _ _) as [[|]|]; intuition congruence.
Qed.

Lemma items_declare c root : flattened_modules (c_routes c) = ROk root ->
  Permutation (items_structs (module_items true (c_headers c) root)) (config_structs (c_routes c)).
Proof.
  intros Hr. rewrite items_structs_module.
  destruct (flattened_modules_tree _ _ Hr) as (_ & _ & HP & _).
  eapply perm_trans; [apply Permutation_map; exact HP|]. match goal with |- Permutation ?x ?y => replace y with x; [apply Permutation_refl|] end.
  unfold config_actions, config_structs. rewrite flat_map_concat_map, concat_map, map_map. f_equal.
  apply map_ext. intros [[p q] b]. cbn [block_actions]. rewrite map_map. apply map_ext. intros r. reflexivity.
Qed.

Lemma items_enum hs : forall m root, enum_complete (module_items root hs m).
Proof.
  intros m root. exists (variants m), (map m_name (m_modules m)).
  rewrite items_enums_of, items_enum_paths_of, items_mods_of, items_struct_paths_of, items_structs_of.
  rewrite !map_map. cbn [fst snd]. repeat split; reflexivity.
Qed.
Lemma in_items_mod hs root m k l : In (ItMod k l) (module_items root hs m) ->
  exists s, In s (m_modules m) /\ l = module_items false hs s.
Proof.
  intros H. assert (Hin : In (k, l) (mods_of (module_items root hs m))).
  { unfold mods_of. apply in_flat_map. exists (ItMod k l). split; [exact H|left; reflexivity]. }
  rewrite items_mods_of in Hin. apply in_map_iff in Hin. destruct Hin as (s & [= _ <-] & Hs). eauto.
Qed.
Lemma items_enums_complete hs items path l : module_at items path l ->
  forall root m, items = module_items root hs m -> enum_complete l.
Proof.
  induction 1 as [items|items k l path l' Hin Hat IH]; intros root m ->.
  - apply items_enum.
  - apply in_items_mod in Hin. destruct Hin as (s & _ & ->). apply (IH false s). reflexivity.
Qed.

(** ** [format!] *)
Lemma format_doubled s t args : format (flat_map doubled s ++ t) args = option_map (app (utf8 s)) (format t args).
Proof.
  induction s as [|c s IH].
  - cbn. destruct (format t args); reflexivity.
  - cbn [flat_map]. rewrite <- app_assoc. change (utf8 (c :: s)) with (utf8_char c ++ utf8 s).
    unfold doubled at 1. destruct (N.eqb c c_lbrace) eqn:E; [|destruct (N.eqb c c_rbrace) eqn:E'].
    + apply N.eqb_eq in E. subst c. cbn [orb app]. change (format (c_lbrace :: c_lbrace :: flat_map doubled s ++ t) args)
        with (option_map (cons c_lbrace) (format (flat_map doubled s ++ t) args)).
      rewrite IH. destruct (format t args); reflexivity.
    + apply N.eqb_eq in E'. subst c. cbn [orb app]. change (format (c_rbrace :: c_rbrace :: flat_map doubled s ++ t) args)
        with (option_map (cons c_rbrace) (format (flat_map doubled s ++ t) args)).
      rewrite IH. destruct (format t args); reflexivity.
    + cbn [orb app format]. rewrite E, E', IH. destruct (format t args); cbn; [|reflexivity].
      rewrite app_assoc. reflexivity.
Qed.
Lemma format_template l : format (template_of l) (holes_of l) = Some (shown_of l).
Proof.
  induction l as [|[s|v] l IH]; [reflexivity| |].
  - cbn [template_of holes_of shown_of flat_map app] in *. rewrite format_doubled.
    unfold template_of, holes_of, shown_of in IH. rewrite IH. reflexivity.
  - change (template_of (inr v :: l)) with (c_lbrace :: c_rbrace :: template_of l).
    change (holes_of (inr v :: l)) with (v :: holes_of l). change (shown_of (inr v :: l)) with (v ++ shown_of l).
    change (format (c_lbrace :: c_rbrace :: template_of l) (v :: holes_of l)) with (option_map (app v) (format (template_of l) (holes_of l))).
    rewrite IH. reflexivity.
Qed.
(** Nothing else is a template. *)
Lemma format_only args t out : format t args = Some out ->
  exists l, t = template_of l /\ args = holes_of l /\ out = shown_of l.
Proof.
  remember (length t) as n eqn:En. assert (Hn : length t <= n) by lia. clear En. revert t args out Hn.
  induction n as [|n IH]; intros [|c t] args out Hn H; cbn [length] in Hn; try lia;
    try solve [cbn [format] in H; destruct args; [|discriminate H]; injection H as <-; exists []; auto].
  cbn [format] in H. destruct (N.eqb c c_lbrace) eqn:E1; [|destruct (N.eqb c c_rbrace) eqn:E2].
  - apply N.eqb_eq in E1. subst c. destruct t as [|d t]; [discriminate H|]. cbn [length] in Hn.
    destruct (N.eqb d c_rbrace) eqn:E2; [|destruct (N.eqb d c_lbrace) eqn:E3; [|discriminate H]].
    + apply N.eqb_eq in E2. subst d. destruct args as [|x args]; [discriminate H|].
      destruct (format t args) as [o|] eqn:Ef; [|discriminate H]. injection H as <-.
      destruct (IH t args o) as (l & -> & -> & ->); [lia|exact Ef|]. exists (inr x :: l). auto.
    + apply N.eqb_eq in E3. subst d. destruct (format t args) as [o|] eqn:Ef; [|discriminate H]. injection H as <-.
      destruct (IH t args o) as (l & -> & -> & ->); [lia|exact Ef|]. exists (inl [c_lbrace] :: l). auto.
  - apply N.eqb_eq in E2. subst c. destruct t as [|d t]; [discriminate H|]. cbn [length] in Hn.
    destruct (N.eqb d c_rbrace) eqn:E3; [|discriminate H]. apply N.eqb_eq in E3. subst d.
    destruct (format t args) as [o|] eqn:Ef; [|discriminate H]. injection H as <-.
    destruct (IH t args o) as (l & -> & -> & ->); [lia|exact Ef|]. exists (inl [c_rbrace] :: l). auto.
  - destruct (format t args) as [o|] eqn:Ef; [|discriminate H]. injection H as <-.
    destruct (IH t args o) as (l & -> & -> & ->); [lia|exact Ef|]. exists (inl [c] :: l).
    split; [|split; [reflexivity|]].
    + unfold template_of at 2. cbn [flat_map]. unfold doubled. rewrite E1, E2. reflexivity.
    + unfold shown_of, utf8. cbn [flat_map]. rewrite app_nil_r. reflexivity.
Qed.
Lemma format_exact t args out : format t args = Some out <->
  exists l, t = template_of l /\ args = holes_of l /\ out = shown_of l.
Proof. split; [apply format_only|]. intros (l & -> & -> & ->). apply format_template. Qed.
