(** * Examples: concrete configurations for the property files

    Route files are written as text and read by the model of the parser.  The
    checkers below decide the side conditions of the theorems. *)
From Verif Require Import Base Core Nom Parse Flat MiniRust Gen Spec SpecMatch BaseFacts MatchFacts.

Definition file (l : list string) : str := concat (map (fun s => lit s ++ nl) l).
Definition read (l : list string) : RouteConfig :=
  match route_config_p (fun _ => false) (file l) with
  | POk _ c => c
  | _ => mkConfig [] (mkRoutes [] [] [])
  end.

(** [FromStr] for the examples: [u32] wants digits, any other type takes
    anything; a value is its text. *)
Definition ex_parse (t s : str) : bytes + unit :=
  if str_eqb t (lit "u32") || str_eqb t (lit "usize") then
    match s with
    | [] => inr tt
    | _ => if forallb is_digit s then inl s else inr tt
    end
  else inl s.
Definition ex_usize (s : bytes) : nat := N.to_nat (fold_left (fun n c => (10 * n + (c - 48))%N) s 0%N).
Definition ex_rt : runtime bytes unit := {| rt_parse := ex_parse; rt_usize := ex_usize |}.

Definition ex_show (t : str) (v : bytes) : bytes := v.
Lemma ex_inverse t text x : rt_parse ex_rt t text = inl x -> ex_show t x = text.
Proof.
  cbn [rt_parse ex_rt]. unfold ex_parse, ex_show.
  destruct (_ || _); [destruct text as [|c s]; [discriminate|destruct (forallb _ _); [|discriminate]]|]; congruence.
Qed.

Definition every_blockb (P : Routes -> bool) (b : Routes) : bool :=
  forallb (fun e : list PathSegment * list Param * Routes => P (snd e)) (blocks b).
Lemma every_blockb_ok (P : Routes -> bool) (Q : Routes -> Prop) b :
  (forall x, P x = true -> Q x) -> every_blockb P b = true -> every_block Q b.
Proof.
  intros HPQ H p q x Hx. apply HPQ. apply blocks_at in Hx.
  unfold every_blockb in H. rewrite forallb_forall in H. exact (H _ Hx).
Qed.
Definition every_paramb (P : Param -> bool) (c : RouteConfig) : bool :=
  forallb (fun e : list PathSegment * list Param * Routes => forallb P (path_params (fst (fst e))))
          (blocks (c_routes c)).
Lemma every_paramb_ok P c path q b p : every_paramb P c = true ->
  In (path, q, b) (blocks (c_routes c)) -> In p (path_params path) -> P p = true.
Proof.
  unfold every_paramb. rewrite forallb_forall. intros H Hb Hp.
  specialize (H _ Hb). cbn [fst snd] in H. rewrite forallb_forall in H. exact (H _ Hp).
Qed.
Lemma not_mem (x : str) l : negb (existsb (str_eqb x) l) = true -> ~ In x l.
Proof.
  intros H Hin. apply negb_true_iff in H. assert (existsb (str_eqb x) l = true); [|congruence].
  apply existsb_exists. exists x. split; auto. apply str_eqb_refl.
Qed.
Definition separateb : RouteConfig -> bool :=
  every_paramb (fun p => negb (existsb (str_eqb (p_name p)) matcher_names)).
Lemma separateb_ok c : separateb c = true -> separate c.
Proof. intros H path q b p Hb Hp. apply not_mem. exact (every_paramb_ok _ _ _ _ _ _ H Hb Hp). Qed.
Definition hygienicb : RouteConfig -> bool :=
  every_paramb (fun p => negb (str_eqb (p_typ p) (lit "usize"))
                         || negb (existsb (str_eqb (p_name p)) position_names)).
Lemma hygienicb_ok c : hygienicb c = true -> hygienic c.
Proof.
  intros H path q b p Hb Hp Ht. apply not_mem.
  pose proof (every_paramb_ok _ _ _ _ _ _ H Hb Hp) as H1. cbv beta in H1.
  rewrite Ht, str_eqb_refl in H1. exact H1.
Qed.
Fixpoint strs_eqb (a b : list str) : bool :=
  match a, b with
  | [], [] => true
  | x :: a', y :: b' => str_eqb x y && strs_eqb a' b'
  | _, _ => false
  end.
Definition redirects_typedb (c : RouteConfig) : bool :=
  let acts := config_actions (c_routes c) in
  forallb (fun e : list PathSegment * list Param * Routes =>
    forallb (fun r => negb (r_is_redirect r) ||
      forallb (fun ma : list str * FlattenedAction =>
        negb (strs_eqb (map to_snake_case (fst ma)) (map to_snake_case (r_modules r))
              && str_eqb (to_caps_case (a_name (snd ma))) (to_caps_case (r_name r))) ||
        forallb (fun p => forallb (fun p' =>
          negb (str_eqb (p_name p') (p_name p)) || str_eqb (p_typ p') (p_typ p))
          (a_route_params (snd ma) ++ a_query_params (snd ma))) (path_params (fst (fst e)))) acts)
      (rt_resources (snd e))) (blocks (c_routes c)).
Lemma strs_eqb_refl l : strs_eqb l l = true.
Proof. induction l as [|x l IH]; auto. simpl. rewrite str_eqb_refl. exact IH. Qed.
Lemma redirects_typedb_ok c : redirects_typedb c = true -> redirects_typed c.
Proof.
  unfold redirects_typedb, redirects_typed. rewrite forallb_forall.
  intros H path q b r p mods a p' Hb Hr Hred Hp Hma Hm _ Hn Hp' Hpn.
  specialize (H _ Hb). simpl in H. rewrite forallb_forall in H. specialize (H _ Hr).
  rewrite Hred in H. simpl in H. rewrite forallb_forall in H. specialize (H _ Hma). simpl in H.
  rewrite Hm, strs_eqb_refl, Hn, str_eqb_refl in H. simpl in H.
  rewrite forallb_forall in H. specialize (H _ Hp). rewrite forallb_forall in H. specialize (H _ Hp').
  rewrite Hpn, str_eqb_refl in H. simpl in H. apply str_eqb_eq. exact H.
Qed.
Definition runnableb (c : RouteConfig) : bool := compiles c && hygienicb c && redirects_typedb c.
Lemma runnableb_ok c : runnableb c = true -> runnable c.
Proof.
  unfold runnableb. rewrite !andb_true_iff. intros [[H1 H2] H3].
  split; [exact H1|]. split; [apply hygienicb_ok|apply redirects_typedb_ok]; assumption.
Qed.
Definition isnil {A} (l : list A) : bool := match l with [] => true | _ => false end.
Lemma isnil_ok {A} (l : list A) : isnil l = true <-> l = [].
Proof. destruct l; simpl; split; congruence. Qed.
Definition plain_staticsb (b : Routes) : bool :=
  forallb (fun nr : PathSegment * Routes =>
             match fst nr with
             | Static s => negb (isnil s) && negb (existsb (N.eqb c_slash) s)
             | Dynamic _ => true
             end) (rt_routes b).
Lemma plain_staticsb_ok b : plain_staticsb b = true -> plain_statics b.
Proof.
  unfold plain_staticsb. rewrite forallb_forall. intros H s child Hin. specialize (H _ Hin). simpl in H.
  apply andb_true_iff in H. destruct H as [H1 H2]. split.
  - intros ->. discriminate.
  - intros Hs. apply negb_true_iff in H2.
    assert (existsb (N.eqb c_slash) s = true); [|congruence].
    apply existsb_exists. exists c_slash. split; [exact Hs|apply N.eqb_refl].
Qed.
Definition dynamic_has_resourcesb (b : Routes) : bool :=
  isnil (dynamic_children (rt_routes b)) || negb (isnil (rt_resources b)).
Lemma dynamic_has_resourcesb_ok b : dynamic_has_resourcesb b = true -> dynamic_has_resources b.
Proof.
  unfold dynamic_has_resourcesb, dynamic_has_resources.
  destruct (dynamic_children (rt_routes b)), (rt_resources b); simpl; congruence.
Qed.
Definition no_mixedb (b : Routes) : bool :=
  isnil (dynamic_children (rt_routes b)) || isnil (statics (rt_routes b)).
Lemma no_mixedb_ok b : no_mixedb b = true -> no_mixed b.
Proof.
  unfold no_mixedb, no_mixed.
  destruct (dynamic_children (rt_routes b)), (statics (rt_routes b)); simpl; congruence.
Qed.
Definition one_dynamicb (b : Routes) : bool := (length (dynamic_children (rt_routes b)) <=? 1)%nat.
Lemma one_dynamicb_ok b : one_dynamicb b = true -> one_dynamic b.
Proof. apply Nat.leb_le. Qed.
Definition no_short_staticb (b : Routes) : bool :=
  negb (isnil (rt_resources b)) || isnil (dynamic_children (rt_routes b)) ||
  match statics (rt_routes b) with [([_], _)] => false | _ => true end.
Lemma no_short_staticb_ok b : no_short_staticb b = true -> no_short_static b.
Proof.
  unfold no_short_staticb, no_short_static. intros H Hr Hd s child Hs. rewrite Hr, Hs in H. simpl in H.
  destruct (dynamic_children (rt_routes b)); [congruence|]. simpl in H.
  destruct s as [|x [|y s]]; simpl; congruence.
Qed.

(** A small application: no static sibling next to a dynamic segment. *)
Definition shop : RouteConfig := read
  [ "use uuid::Uuid;";
    "";
    "/";
    "  [lang: String]";
    "  GET home";
    "  people";
    "    GET people::index";
    "    POST people::create";
    "      [force: bool]";
    "    {id: u32}";
    "      GET people::show";
    "      PUT people::update";
    "      books";
    "        GET people::books";
    "        {isbn: String}";
    "          GET people::book";
    "      me";
    "        GET -> people::show";
    "  about";
    "    GET about" ]%string.
(** The same with a static sibling. *)
Definition mixed : RouteConfig := read
  [ "/";
    "  people";
    "    GET people::index";
    "    new";
    "      GET people::make";
    "    {id: String}";
    "      GET people::show";
    "      DELETE people::remove" ]%string.
Example shop_runnable : runnable shop.
Proof. apply runnableb_ok. vm_compute. reflexivity. Qed.
Example mixed_runnable : runnable mixed.
Proof. apply runnableb_ok. vm_compute. reflexivity. Qed.
Ltac block_check ok := eapply every_blockb_ok; [exact ok|vm_compute; reflexivity].
Example shop_plain : every_block plain_statics (c_routes shop).
Proof. block_check plain_staticsb_ok. Qed.
Example shop_no_mixed : every_block no_mixed (c_routes shop).
Proof. block_check no_mixedb_ok. Qed.
Example shop_dynamic : every_block dynamic_has_resources (c_routes shop).
Proof. block_check dynamic_has_resourcesb_ok. Qed.
Example shop_one_dynamic : every_block one_dynamic (c_routes shop).
Proof. block_check one_dynamicb_ok. Qed.
Example shop_no_short : every_block no_short_static (c_routes shop).
Proof. block_check no_short_staticb_ok. Qed.
Example mixed_plain : every_block plain_statics (c_routes mixed).
Proof. block_check plain_staticsb_ok. Qed.
Example mixed_dynamic : every_block dynamic_has_resources (c_routes mixed).
Proof. block_check dynamic_has_resourcesb_ok. Qed.
Example mixed_no_short : every_block no_short_static (c_routes mixed).
Proof. block_check no_short_staticb_ok. Qed.
