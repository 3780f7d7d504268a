(** * ReadExamples: examples for the properties of the reader *)
From Verif Require Import Base BaseFacts Core Nom Parse Flat MiniRust Gen Spec SpecMatch SpecGen Items SpecItems Fixed RLex RRead SpecCompile MatchFacts CompileFacts SpecRead ReadAll Examples Golden GoldenTests GoalText.

Definition ident_typesb (c : RouteConfig) : bool :=
  forallb (fun s : list str * str * list field_decl => forallb (fun f => is_ident (fd_typ f)) (snd s)) (config_structs (c_routes c)).
Lemma ident_typesb_ok c : ident_typesb c = true -> ident_types c.
Proof.
  intros H mods n fs f Hin Hf. unfold ident_typesb in H. rewrite forallb_forall in H.
  specialize (H _ Hin). cbn [snd] in H. rewrite forallb_forall in H. exact (H f Hf).
Qed.
Lemma shop_headers : use_headers shop.
Proof.
  intros h Hh. vm_compute in Hh. destruct Hh as [<-|[]]. exists [tokens (lit "use uuid::Uuid;")].
  split; [vm_compute; reflexivity|]. constructor; [|constructor]. eexists. split; vm_compute; reflexivity.
Qed.
Lemma shop_types : ident_types shop.
Proof. apply ident_typesb_ok. vm_compute. reflexivity. Qed.
(** The first [old] in [s] replaced by [new]. *)
Fixpoint replace_first (old new s : str) : str :=
  if str_eqb (firstn (length old) s) old then new ++ skipn (length old) s
  else match s with [] => [] | c :: s' => c :: replace_first old new s' end.
Definition tampered (old new : string) (c : RouteConfig) : str := replace_first (lit old) (lit new) (w_text (codegen c)).

(** The configuration of wayfinder-tests/cases/example. *)
Definition example_config : RouteConfig := parsed example_routes.
Lemma example_parsed : route_config_p no_ualnum (unlines example_routes) = POk [] example_config.
Proof. vm_compute. reflexivity. Qed.
Lemma example_generates : w_text (codegen example_config) = unlines example_rs.
Proof. vm_compute. reflexivity. Qed.
Lemma example_runnable : runnable example_config.
Proof. apply runnableb_ok. vm_compute. reflexivity. Qed.
Lemma example_headers : use_headers example_config.
Proof.
  intros h Hh. vm_compute in Hh. destruct Hh as [<-|[]]. exists [tokens (lit "use uuid::Uuid;")].
  split; [vm_compute; reflexivity|]. constructor; [|constructor]. eexists. split; vm_compute; reflexivity.
Qed.
Lemma example_types : ident_types example_config.
Proof. apply ident_typesb_ok. vm_compute. reflexivity. Qed.
Lemma goal_reads : read_module (lit "routes") (unlines goal_rs) = read_module (lit "routes") (unlines example_rs).
Proof. vm_compute. reflexivity. Qed.
Lemma goal_matches {T E} (rt : runtime T E) path method :
  run_text rt (unlines goal_rs) path method = Some (tree_match (rt_parse rt) method example_config path).
Proof.
  rewrite <- (text_matches rt example_config path method example_runnable example_headers example_types).
  rewrite example_generates. unfold run_text, compile_text. rewrite goal_reads. reflexivity.
Qed.
Lemma goal_is_example {T E} (rt : runtime T E) path method :
  exists c, route_config_p no_ualnum (unlines example_routes) = POk [] c /\ runnable c /\
    run_text rt (unlines goal_rs) path method = Some (tree_match (rt_parse rt) method c path) /\
    run_text rt (unlines goal_rs) path method = match_route rt c path method.
Proof.
  exists example_config. split; [exact example_parsed|]. split; [exact example_runnable|].
  rewrite goal_matches. split; [reflexivity|].
  rewrite <- (text_matches rt example_config path method example_runnable example_headers example_types).
  apply text_runs; [apply example_runnable|exact example_headers|exact example_types].
Qed.
Lemma goal_same : unlines goal_rs <> unlines example_rs /\
  read_module (lit "routes") (unlines goal_rs) = read_module (lit "routes") (unlines example_rs) /\
  read_module (lit "routes") (unlines goal_rs) <> None.
Proof.
  split; [|split].
  - intros H. apply str_eqb_eq in H. vm_compute in H. discriminate H.
  - exact goal_reads.
  - vm_compute. discriminate.
Qed.

(** [plain_config], computed. *)
Definition plain_paramb (p : Param) : bool := is_ident (p_name p) && is_ident (p_typ p).
Definition plain_segmentb (s : PathSegment) : bool :=
  match s with Static t => forallb plain_char t | Dynamic p => plain_paramb p end.
Definition plain_resourceb (r : Resource) : bool :=
  is_ident (to_caps_case (r_name r)) &&
  forallb (fun m => is_ident (to_snake_case m) && is_ident (to_caps_case m)) (r_modules r) &&
  forallb plain_paramb (r_query r).
Definition plain_configb (c : RouteConfig) : bool :=
  doc_ok c &&
  forallb (fun e : list PathSegment * list Param * Routes =>
             forallb plain_segmentb (fst (fst e)) && forallb plain_paramb (snd (fst e)) &&
             forallb plain_resourceb (rt_resources (snd e))) (blocks (c_routes c)).
Lemma plain_params_ok l : forallb plain_paramb l = true -> Forall plain_param l.
Proof.
  intros H. apply Forall_forall. intros p Hp. rewrite forallb_forall in H.
  apply andb_true_iff. exact (H p Hp).
Qed.
Lemma plain_configb_ok c : plain_configb c = true -> plain_config c.
Proof.
  unfold plain_configb. intros H. apply andb_true_iff in H as [Hd H].
  split; [apply doc_ok_iff; exact Hd|].
  intros p q b Hb. apply blocks_at in Hb. rewrite forallb_forall in H. specialize (H _ Hb).
  cbn [fst snd] in H. apply andb_true_iff in H as [H Hr]. apply andb_true_iff in H as [Hp Hq].
  split; [|split; [exact (plain_params_ok _ Hq)|]].
  - apply Forall_forall. intros s Hs. rewrite forallb_forall in Hp. specialize (Hp s Hs).
    destruct s as [t|x]; [exact Hp|]. apply andb_true_iff. exact Hp.
  - apply Forall_forall. intros r Hin. rewrite forallb_forall in Hr. specialize (Hr r Hin).
    unfold plain_resourceb in Hr. apply andb_true_iff in Hr as [Hr Hqs]. apply andb_true_iff in Hr as [Hn Hm].
    split; [exact Hn|]. split; [|exact (plain_params_ok _ Hqs)].
    apply Forall_forall. intros m Hin'. rewrite forallb_forall in Hm. apply andb_true_iff. exact (Hm m Hin').
Qed.
(** Routes that are generated and do not compile: a static sibling that extends
    another, static siblings of a parameter, two names that become one, a
    parameter of the matcher's names, and a parameter twice in a path. *)
Definition rejected : list RouteConfig :=
  [ read [ "/"; "  user"; "    GET user"; "  users"; "    GET users" ];
    read [ "/"; "  GET home"; "  about"; "    GET about"; "  blog"; "    GET blog"; "  {id: String}"; "    GET show" ];
    read [ "/"; "  GET update"; "  PUT Update" ];
    read [ "/"; "  people"; "    {path: String}"; "      GET show" ];
    read [ "/"; "  people"; "    {id: String}"; "      books"; "        {id: String}"; "          GET show" ] ]%string.
