(** * ItemFacts: what the items of a generated module declare, and whether rustc accepts them *)
From Verif Require Import Base Core Trie Flat MiniRust Gen Items Spec SpecMatch SpecGen BaseFacts CompFacts FlatFacts
  MatchFacts GenThms ItemText CompileFacts.

(** ** What the module declares *)
Definition action_decl (a : FlattenedAction) : list (str * ty) :=
  map (fun p => (p_name p, TyUser (p_typ p))) (a_route_params a)
  ++ map (fun p => (p_name p, TyOption (p_typ p))) (a_query_params a).
Definition caps_name (a : FlattenedAction) : str := to_caps_case (a_name a).
Definition action_path (a : FlattenedAction) : list str * str * list str :=
  (action_names a, lit "/" ++ path_text (fun _ => lit "{}") (a_path a), map p_name (a_route_params a)).
Definition variants (m : FlattenedModule) : list (str * ty) :=
  map (fun a => (to_caps_case (a_name a), TyItem [] (to_caps_case (a_name a)))) (m_actions m)
  ++ map (fun s => (to_caps_case (m_name s), TyItem [to_snake_case (m_name s)] (lit "Route"))) (m_modules m).

Lemma flat_map_nil {A B} (f : A -> list B) l : (forall x, In x l -> f x = []) -> flat_map f l = [].
Proof. induction l as [|x l IH]; intros H; [reflexivity|]. cbn. rewrite (H x (or_introl eq_refl)). apply IH. intros y Hy. apply H. right. exact Hy. Qed.
Lemma flat_map_flat_map {A B C} (f : B -> list C) (g : A -> list B) l :
  flat_map f (flat_map g l) = flat_map (fun x => flat_map f (g x)) l.
Proof. induction l as [|x l IH]; [reflexivity|]. cbn. rewrite flat_map_app, IH. reflexivity. Qed.
Lemma flat_map_one {A B} (f : A -> B) l : flat_map (fun x => [f x]) l = map f l.
Proof. induction l as [|x l IH]; [reflexivity|]. cbn. rewrite IH. reflexivity. Qed.
Lemma header_none {A} (f : item -> list A) hs : (forall t, f (ItLine t) = []) -> f ItBlank = [] ->
  flat_map f (header_items hs) = [].
Proof.
  intros H1 H2. apply flat_map_nil. intros x Hx. unfold header_items in Hx. apply in_app_iff in Hx.
  destruct Hx as [Hx|Hx].
  - apply in_map_iff in Hx. destruct Hx as (h & <- & _). apply H1.
  - destruct hs; [destruct Hx|]. destruct Hx as [<-|[]]. exact H2.
Qed.

Section Decl.
Variables (root : bool) (hs : list Header) (m : FlattenedModule).
Notation items := (module_items root hs m).
Lemma items_flat {A} (f : item -> list A) : (forall t, f (ItLine t) = []) -> f ItBlank = [] ->
  flat_map f items =
  flat_map (fun a => flat_map f (action_items a)) (m_actions m)
  ++ flat_map (fun s => f (ItMod (to_snake_case (m_name s)) (module_items false hs s))) (m_modules m)
  ++ flat_map f (enum_items root m).
Proof.
  intros H1 H2. destruct m as [name acts mods]. cbn [module_items m_actions m_modules].
  rewrite !flat_map_app, (header_none f hs H1 H2), !flat_map_flat_map. cbn [app flat_map]. f_equal. f_equal.
  apply flat_map_ext. intros s. rewrite H2, !app_nil_r. reflexivity.
Qed.
Lemma items_structs_of : structs_of items = map (fun a => (caps_name a, action_decl a)) (m_actions m).
Proof.
  unfold structs_of. rewrite items_flat by reflexivity. cbn [flat_map action_items enum_items app].
  rewrite (flat_map_nil _ (m_modules m)) by reflexivity. rewrite app_nil_r. apply flat_map_one.
Qed.
Lemma items_struct_paths_of : struct_paths_of items = map (fun a => (caps_name a, action_path a)) (m_actions m).
Proof.
  unfold struct_paths_of. rewrite items_flat by reflexivity. cbn [flat_map action_items enum_items app].
  rewrite (flat_map_nil _ (m_modules m)) by reflexivity. rewrite app_nil_r. apply flat_map_one.
Qed.
Lemma items_mods_of :
  mods_of items = map (fun s => (to_snake_case (m_name s), module_items false hs s)) (m_modules m).
Proof.
  unfold mods_of. rewrite items_flat by reflexivity. cbn [flat_map action_items enum_items app].
  rewrite (flat_map_nil _ (m_actions m)) by reflexivity. rewrite app_nil_r. apply flat_map_one.
Qed.
Lemma items_enums_of : enums_of items = [(lit "Route", variants m)].
Proof.
  unfold enums_of. rewrite items_flat by reflexivity. cbn [flat_map action_items enum_items app].
  rewrite (flat_map_nil _ (m_actions m)), (flat_map_nil _ (m_modules m)) by reflexivity. reflexivity.
Qed.
Lemma items_enum_paths_of : enum_paths_of items = [(lit "Route", map fst (variants m))].
Proof.
  unfold enum_paths_of. rewrite items_flat by reflexivity. cbn [flat_map action_items enum_items app].
  rewrite (flat_map_nil _ (m_actions m)), (flat_map_nil _ (m_modules m)) by reflexivity.
  unfold variants. rewrite map_app, !map_map. reflexivity.
Qed.
Lemma items_mods_item {A} (f : item -> list A) : (forall n l, f (ItMod n l) = []) ->
  flat_map (fun s => f (ItMod (to_snake_case (m_name s)) (module_items false hs s))) (m_modules m) = [].
Proof. intros H. apply flat_map_nil. intros x _. apply H. Qed.
End Decl.

Lemma field_of_decl a : map field_of (action_decl a) = action_fields a.
Proof. unfold action_decl, action_fields. rewrite map_app, !map_map. reflexivity. Qed.
Lemma item_structs_module hs : forall m root path,
  flat_map (item_structs path) (module_items root hs m) =
  map (fun ma : list str * FlattenedAction =>
         (path ++ map to_snake_case (fst ma), to_caps_case (a_name (snd ma)), action_fields (snd ma)))
      (module_actions m).
Proof.
  induction m as [name acts mods IH] using FM_ind'. intros root path.
  rewrite items_flat by reflexivity. cbn [m_actions m_modules module_actions].
  cbn [flat_map action_items item_structs enum_items app]. rewrite map_app, map_map. cbn [fst snd map].
  rewrite !app_nil_r. f_equal.
  - rewrite flat_map_one. apply map_ext. intros a. rewrite <- field_of_decl. reflexivity.
  - rewrite concat_map, map_map, flat_map_concat_map. f_equal. apply map_ext_in. intros s Hs. rewrite (IH s Hs), map_map.
    apply map_ext. intros [ms a]. cbn [fst snd map]. rewrite <- app_assoc. reflexivity.
Qed.
Lemma items_structs_module hs m : items_structs (module_items true hs m) =
  map (fun ma : list str * FlattenedAction =>
         (map to_snake_case (fst ma), to_caps_case (a_name (snd ma)), action_fields (snd ma))) (module_actions m).
Proof. apply item_structs_module. Qed.
Lemma flat_map_pick {A} (f : A -> str) (g : A -> str) l s : NoDup (map f l) -> In s l ->
  flat_map (fun x => if str_eqb (f x) (f s) then [g x] else []) l = [g s].
Proof.
  induction l as [|x l IH]; intros Hn Hs; [destruct Hs|]. cbn [map flat_map] in *. inversion Hn as [|? ? H1 H2]; subst.
  destruct (str_eqb_spec (f x) (f s)) as [E|E].
  - assert (x = s) as ->.
    { destruct Hs as [->|Hs]; auto. exfalso. apply H1. rewrite E. apply in_map. exact Hs. }
    cbn [app]. f_equal. apply flat_map_nil. intros y Hy. destruct (str_eqb_spec (f y) (f s)) as [E'|]; [|reflexivity].
    exfalso. apply H1. rewrite <- E'. apply in_map. exact Hy.
  - destruct Hs as [->|Hs]; [congruence|]. apply IH; assumption.
Qed.
Lemma items_holders root hs m s : NoDup (map (fun s => to_snake_case (m_name s)) (m_modules m)) -> In s (m_modules m) ->
  holders (module_items root hs m) (to_snake_case (m_name s)) = [to_caps_case (m_name s)].
Proof.
  intros Hn Hs. unfold holders. rewrite items_enums_of. cbn [lookup]. rewrite str_eqb_refl. unfold variants.
  rewrite flat_map_app, (flat_map_nil _ (map _ (m_actions m))).
  2: { intros v Hv. apply in_map_iff in Hv. destruct Hv as (a & <- & _). reflexivity. }
  cbn [app]. rewrite <- (flat_map_pick (fun s => to_snake_case (m_name s)) (fun s => to_caps_case (m_name s)) _ _ Hn Hs).
  rewrite flat_map_concat_map, map_map, flat_map_concat_map. f_equal. apply map_ext. intros x. cbn [fst snd].
  rewrite str_eqb_refl, andb_true_r. reflexivity.
Qed.
Lemma item_env_module hs : forall m root path, module_ok root m = true ->
  flat_map (item_env (holders (module_items root hs m)) path) (module_items root hs m) = module_structs path m.
Proof.
  induction m as [name acts mods IH] using FM_ind'. intros root path Hok.
  destruct (module_ok_parts _ _ Hok) as (_ & Hn & _ & Hsub).
  rewrite items_flat by reflexivity. pose proof (items_holders root hs (mkModule name acts mods)) as Hh.
  set (holder := holders _) in *. clearbody holder. cbn [m_actions m_modules module_structs] in *.
  cbn [flat_map action_items item_env enum_items app]. rewrite app_nil_r. f_equal.
  - rewrite flat_map_one. apply map_ext. intros a. rewrite <- field_of_decl. reflexivity.
  - rewrite flat_map_concat_map. f_equal. apply map_ext_in. intros s Hs.
    rewrite (Hh s Hn Hs). cbn [flat_map]. rewrite app_nil_r. apply IH; auto.
Qed.
Lemma items_env_module hs m : module_ok true m = true -> items_env (module_items true hs m) = module_structs [] m.
Proof. apply item_env_module. Qed.

(** ** Format strings *)
Lemma holes_app s : forall t, t = [] \/ (exists t', t = c_slash :: t') ->
  holes (s ++ t) = match holes s, holes t with Some a, Some b => Some (a + b) | _, _ => None end.
Proof.
  assert (H : forall n s, length s <= n -> forall t, t = [] \/ (exists t', t = c_slash :: t') ->
    holes (s ++ t) = match holes s, holes t with Some a, Some b => Some (a + b) | _, _ => None end).
  2:{ intros t Ht. eapply H; [apply le_n|exact Ht]. }
  clear s. induction n as [|n IH]; intros s Hl t Ht.
  - destruct s; [|simpl in Hl; lia]. cbn [app holes]. destruct (holes t); reflexivity.
  - destruct s as [|c s]; [cbn [app holes]; destruct (holes t); reflexivity|].
    cbn [app holes]. simpl in Hl. destruct (N.eqb c c_lbrace).
    + destruct s as [|d s].
      * cbn [app]. destruct Ht as [->|[t' ->]]; reflexivity.
      * cbn [app]. destruct (N.eqb d c_rbrace); [|reflexivity]. simpl in Hl. rewrite (IH s ltac:(lia) t Ht).
        destruct (holes s), (holes t); reflexivity.
    + destruct (format_char c); [|reflexivity]. apply IH; [lia|exact Ht].
Qed.
Lemma holes_zero s : holes s = Some 0 <-> forallb format_char s = true.
Proof.
  assert (H : forall n s, length s <= n -> (holes s = Some 0 <-> forallb format_char s = true)).
  2:{ apply (H (length s)). apply le_n. }
  clear s. induction n as [|n IH]; intros s Hl; (destruct s as [|c s]; [split; reflexivity|]); [simpl in Hl; lia|].
  cbn [holes forallb]. simpl in Hl. destruct (N.eqb_spec c c_lbrace) as [->|_].
  - split; [|discriminate]. destruct s as [|d s]; [discriminate|].
    destruct (N.eqb d c_rbrace); [|discriminate]. destruct (holes s); discriminate.
  - destruct (format_char c); [|split; discriminate]. apply IH. lia.
Qed.
Definition seg_text (s : PathSegment) : str := match s with Static t => t | Dynamic _ => lit "{}" end.
Lemma template_flat p : lit "/" ++ path_text (fun _ => lit "{}") p =
  match p with [] => [c_slash] | _ => flat_map (fun s => c_slash :: seg_text s) p end.
Proof. destruct p; reflexivity. Qed.
Lemma flat_head p : flat_map (fun s => c_slash :: seg_text s) p = [] \/
  exists t, flat_map (fun s => c_slash :: seg_text s) p = c_slash :: t.
Proof. destruct p as [|s p]; [left; reflexivity|right; cbn; eauto]. Qed.
Lemma holes_flat : forall p,
  (forall k, holes (flat_map (fun s => c_slash :: seg_text s) p) = Some k -> length (dynamics p) <= k) /\
  (holes (flat_map (fun s => c_slash :: seg_text s) p) = Some (length (dynamics p)) <->
   forallb format_segment p = true).
Proof.
  induction p as [|s p [IH1 IH2]].
  - split; [intros k _; apply Nat.le_0_l|split; reflexivity].
  - cbn [flat_map app]. change (holes (c_slash :: ?l)) with (holes l). rewrite (holes_app _ _ (flat_head p)).
    destruct s as [t|d]; cbn [seg_text dynamics length forallb format_segment].
    + split.
      * intros k. destruct (holes t); [|discriminate]. destruct (holes (flat_map _ p)) as [b|]; [|discriminate].
        intros [= <-]. specialize (IH1 b eq_refl). lia.
      * rewrite andb_true_iff, <- holes_zero, <- IH2. split.
        -- destruct (holes t) as [a|]; [|discriminate]. destruct (holes (flat_map _ p)) as [b|]; [|discriminate].
           specialize (IH1 b eq_refl). intros [= E]. split; f_equal; lia.
        -- intros [-> ->]. reflexivity.
    + change (holes (lit "{}")) with (Some 1). split.
      * intros k. destruct (holes (flat_map _ p)) as [b|]; [|discriminate].
        intros [= <-]. specialize (IH1 b eq_refl). lia.
      * rewrite <- IH2. destruct (holes (flat_map _ p)) as [b|]; split; try discriminate; intros [= E]; f_equal; lia.
Qed.
Lemma template_holes p :
  holes (lit "/" ++ path_text (fun _ => lit "{}") p) = Some (length (dynamics p)) <-> forallb format_segment p = true.
Proof.
  rewrite template_flat. destruct p as [|s p]; [split; reflexivity|]. apply (holes_flat (s :: p)).
Qed.

(** ** The check *)
Lemma mem_In x l : mem x l = true <-> In x l.
Proof.
  unfold mem. rewrite existsb_exists. split.
  - intros (y & Hy & E). destruct (str_eqb_spec x y) as [->|]; [exact Hy|discriminate].
  - intros H. exists x. rewrite str_eqb_refl. auto.
Qed.
Lemma negb_mem x l : negb (mem x l) = true <-> ~ In x l.
Proof. rewrite negb_true_iff, <- mem_In. destruct (mem x l); split; congruence. Qed.
Lemma subset_incl l l' : subset l l' = true <-> incl l l'.
Proof. unfold subset. rewrite forallb_forall. split; intros H x Hx; apply mem_In, H, Hx. Qed.
Lemma lookup_nodup {A} x (l : list (str * A)) v : NoDup (map fst l) -> In (x, v) l -> lookup x l = Some v.
Proof.
  induction l as [|[y w] l IH]; simpl; intros Hn Hin; [destruct Hin|].
  inversion Hn as [|? ? H1 H2]; subst. destruct Hin as [[= -> ->]|Hin].
  - rewrite str_eqb_refl. reflexivity.
  - destruct (str_eqb_spec y x) as [->|]; auto. exfalso. apply H1. apply in_map_iff. exists (x, v). auto.
Qed.
Lemma lookup_key {A B} (key : A -> str) (f : A -> B) l x : NoDup (map key l) -> In x l ->
  lookup (key x) (map (fun y => (key y, f y)) l) = Some (f x).
Proof.
  intros Hn Hx. apply lookup_nodup.
  - rewrite map_map. exact Hn.
  - apply in_map_iff. exists x. auto.
Qed.

Definition no_breaks (s : str) : Prop := forall c, In c s -> c <> c_nl /\ c <> c_cr.
Lemma doc_line_iff s : doc_line s = true <-> no_breaks s.
Proof.
  unfold doc_line, no_breaks. rewrite forallb_forall. split; intros H c Hc; specialize (H c Hc).
  - rewrite andb_true_iff, !negb_true_iff, !N.eqb_neq in H. exact H.
  - rewrite andb_true_iff, !negb_true_iff, !N.eqb_neq. exact H.
Qed.
Lemma breaks_app a b : no_breaks (a ++ b) <-> no_breaks a /\ no_breaks b.
Proof.
  unfold no_breaks. split.
  - intros H. split; intros c Hc; apply H, in_app_iff; auto.
  - intros [H1 H2] c Hc. apply in_app_iff in Hc. destruct Hc; auto.
Qed.
Lemma ident_breaks s : is_ident s = true -> no_breaks s.
Proof.
  destruct s as [|c s]; [discriminate|]. cbn [is_ident]. rewrite !andb_true_iff, forallb_forall.
  intros [[[H1 H2] _] _] x Hx.
  assert (H : ident_char x = true).
  { destruct Hx as [<-|Hx]; [unfold ident_char; rewrite H1; reflexivity|apply H2; exact Hx]. }
  split; intros ->; vm_compute in H; discriminate.
Qed.
Lemma format_breaks s : forallb format_char s = true -> no_breaks s.
Proof. rewrite forallb_forall. intros H c Hc. specialize (H c Hc). split; intros ->; discriminate. Qed.
Lemma lit_breaks s : forallb (fun c => negb (N.eqb c c_nl) && negb (N.eqb c c_cr)) (lit s) = true -> no_breaks (lit s).
Proof. apply doc_line_iff. Qed.
Lemma path_text_breaks dyn p : (forall s, In s p -> no_breaks (match s with Static t => t | Dynamic d => dyn (p_name d) end)) ->
  no_breaks (path_text dyn p).
Proof.
  intros H. destruct p as [|s p]; [intros c []|]. unfold path_text. apply breaks_app. split; [apply (H s); left; reflexivity|].
  intros c Hc. apply in_flat_map in Hc. destruct Hc as (s' & Hs' & Hc). apply in_app_iff in Hc.
  destruct Hc as [[<-|[]]|Hc]; [split; discriminate|]. exact (H s' (or_intror Hs') c Hc).
Qed.
Lemma action_doc_line a : forallb format_segment (a_path a) = true ->
  (forall p, In (Dynamic p) (a_path a) -> is_ident (p_name p) = true) -> doc_line (action_doc a) = true.
Proof.
  intros H1 H2. apply doc_line_iff. unfold action_doc. rewrite !breaks_app.
  split; [apply lit_breaks; reflexivity|]. split; [destruct (a_method a); apply lit_breaks; reflexivity|].
  split; [apply lit_breaks; reflexivity|]. split; [|apply lit_breaks; reflexivity].
  apply path_text_breaks. intros [t|d] Hs.
  - rewrite forallb_forall in H1. apply format_breaks. exact (H1 _ Hs).
  - rewrite !breaks_app. split; [apply lit_breaks; reflexivity|]. split; [|apply lit_breaks; reflexivity].
    apply ident_breaks, H2, Hs.
Qed.
Lemma enum_doc_line root name : root = true \/ is_ident (to_snake_case name) = true -> doc_line (enum_doc root name) = true.
Proof.
  intros H. apply doc_line_iff. unfold enum_doc. destruct root; [apply lit_breaks; reflexivity|].
  destruct H as [H|H]; [discriminate|]. rewrite !breaks_app.
  split; [apply lit_breaks; reflexivity|]. split; [apply ident_breaks; exact H|apply lit_breaks; reflexivity].
Qed.

(** [module_ok] without the modules in the module. *)
Definition top (root : bool) (m : FlattenedModule) : bool :=
  let actions := m_actions m in let modules := m_modules m in
  let structs := map (fun a => to_caps_case (a_name a)) actions in
  let mods := map (fun s => to_snake_case (m_name s)) modules in
  let variants := structs ++ map (fun s => to_caps_case (m_name s)) modules in
  match actions, modules with [], [] => false | _, _ => true end
  && forallb is_ident structs && forallb is_ident mods && forallb is_ident variants
  && nodup_strs (used_names root actions ++ structs ++ mods)
  && nodup_strs variants
  && forallb (fun a => let names := map fd_name (action_fields a) in
                       forallb (fun x => is_ident x && negb (prelude_ctor x)) names && nodup_strs names
                       && forallb (fun x => negb (existsb (str_eqb x) (unit_names actions))) names
                       && forallb format_segment (a_path a)) actions
  && (if root then negb (existsb (str_eqb (lit "Ok")) (unit_names actions)) else true).
Lemma module_ok_top root m : module_ok root m = top root m && forallb (module_ok false) (m_modules m).
Proof. destruct m. reflexivity. Qed.

Section Scope.
Variables (root : bool) (hs : list Header) (m : FlattenedModule).
Notation items := (module_items root hs m).
Notation acts := (m_actions m).
Notation mods := (m_modules m).
Notation structs := (map (fun a => to_caps_case (a_name a)) acts).
Notation snakes := (map (fun s => to_snake_case (m_name s)) mods).

Lemma in_items it : In it items <->
  In it (header_items hs) \/ (exists a, In a acts /\ In it (action_items a)) \/
  (exists s, In s mods /\ (it = ItMod (to_snake_case (m_name s)) (module_items false hs s) \/ it = ItBlank)) \/
  In it (enum_items root m).
Proof.
  destruct m as [name a s]. cbn [module_items m_actions m_modules]. rewrite !in_app_iff, !in_flat_map.
  split; intros [H|[H|[H|H]]]; auto.
  - right. right. left. destruct H as (x & Hx & [<-|[<-|[]]]); exists x; auto.
  - right. right. left. destruct H as (x & Hx & [->| ->]); exists x; cbn; auto.
Qed.
Lemma types_items : types_of items = structs ++ [lit "Route"] ++ snakes.
Proof.
  unfold types_of. rewrite items_structs_of, items_enums_of, items_mods_of, !map_map. reflexivity.
Qed.
Lemma units_items : units_of items = unit_names acts.
Proof.
  unfold units_of, unit_names. rewrite items_structs_of. generalize acts. intros l.
  induction l as [|a l IH]; [reflexivity|]. cbn [map filter snd]. unfold has_params, action_decl in *.
  destruct (a_route_params a), (a_query_params a); cbn [map app negb]; rewrite ?map_cons, IH; reflexivity.
Qed.
Lemma option_mention a : In (lit "Option") (flat_map (fun f : str * ty => match snd f with TyOption _ => [lit "Option"] | _ => [] end)
    (action_decl a)) <-> a_query_params a <> [].
Proof.
  unfold action_decl. rewrite flat_map_app, in_app_iff, !in_flat_map. split.
  - intros [(f & Hf & H)|(f & Hf & H)]; apply in_map_iff in Hf; destruct Hf as (p & <- & Hp); cbn in H.
    + destruct H.
    + intros E. rewrite E in Hp. destruct Hp.
  - intros H. right. destruct (a_query_params a) as [|p l]; [congruence|].
    exists (p_name p, TyOption (p_typ p)). split; [left; reflexivity|left; reflexivity].
Qed.
Lemma mentions_items x : In x (flat_map mentions items) <->
  x = lit "String" \/ (x = lit "Option" /\ exists a, In a acts /\ a_query_params a <> []).
Proof.
  rewrite items_flat by reflexivity. rewrite !in_app_iff, !in_flat_map.
  split.
  - intros [(a & Ha & H)|[(s & Hs & H)|H]].
    + cbn [flat_map action_items mentions app] in H. apply in_app_iff in H.
      destruct H as [H|[<-|[]]]; [|left; reflexivity]. right. fold (action_decl a) in H.
      assert (E : x = lit "Option").
      { apply in_flat_map in H. destruct H as (f & _ & H). destruct (snd f); [destruct H|destruct H as [<-|[]]; reflexivity|destruct H]. }
      split; [exact E|]. exists a. split; [exact Ha|]. apply option_mention. rewrite E in H. exact H.
    + destruct H.
    + left. destruct H as (it & [<-|[<-|[<-|[]]]] & H); [destruct H|destruct H|]. destruct H as [<-|[]]. reflexivity.
  - intros [->|[-> (a & Ha & H)]].
    + right. right. eexists. split; [right; right; left; reflexivity|left; reflexivity].
    + left. exists a. split; [exact Ha|]. cbn [flat_map action_items mentions app]. apply in_app_iff. left.
      apply option_mention. exact H.
Qed.
Lemma used_iff x : In x (used_names root acts) <->
  x = lit "Route" \/ In x (flat_map mentions items ++ (if root then fixed_mentions else [])) \/
  In x (if root then fixed_types else []).
Proof.
  rewrite in_app_iff, mentions_items. unfold used_names. rewrite !in_app_iff.
  assert (Ho : In x (if existsb (fun a => match a_query_params a with [] => false | _ => true end) acts
                     then [lit "Option"] else []) <-> x = lit "Option" /\ exists a, In a acts /\ a_query_params a <> []).
  { destruct (existsb _ acts) eqn:E.
    - split.
      + intros [<-|[]]. split; [reflexivity|]. apply existsb_exists in E. destruct E as (a & Ha & E). exists a.
        split; [exact Ha|]. destruct (a_query_params a); [discriminate|discriminate].
      + intros [-> _]. left. reflexivity.
    - split; [intros []|]. intros [_ (a & Ha & H)]. exfalso.
      assert (existsb (fun a => match a_query_params a with [] => false | _ => true end) acts = true); [|congruence].
      apply existsb_exists. exists a. split; [exact Ha|]. destruct (a_query_params a); [congruence|reflexivity]. }
  rewrite Ho. unfold fixed_types, fixed_mentions. destruct root; cbn [In]; intuition (subst; auto 12).
Qed.

Lemma decl_names a : map fst (action_decl a) = action_names a.
Proof. unfold action_decl, action_names. rewrite map_app, !map_map. reflexivity. Qed.
Lemma field_names a : map fd_name (action_fields a) = action_names a.
Proof. unfold action_fields, action_names. rewrite map_app, !map_map. reflexivity. Qed.
Lemma variants_names : map fst (variants m) = structs ++ map (fun s => to_caps_case (m_name s)) mods.
Proof. unfold variants. rewrite map_app, !map_map. reflexivity. Qed.

(** Distinct names. *)
Lemma names_iff :
  (NoDup (used_names root acts ++ structs ++ snakes)) <->
  (NoDup (types_of items ++ (if root then fixed_types else [])) /\
   forall x, In x (flat_map mentions items ++ (if root then fixed_mentions else [])) -> ~ In x (types_of items)).
Proof.
  rewrite types_items. change ([lit "Route"] ++ snakes) with (lit "Route" :: snakes). rewrite !NoDup_app_iff.
  assert (Hf : NoDup (if root then fixed_types else [])).
  { apply nodup_strs_NoDup. destruct root; reflexivity. }
  assert (Hr : ~ In (lit "Route") (if root then fixed_types else [])).
  { destruct root; cbn; intuition discriminate. }
  assert (Hm : ~ In (lit "Route") (flat_map mentions items ++ (if root then fixed_mentions else []))).
  { rewrite in_app_iff, mentions_items. intros [[H|[H _]]|H]; try discriminate. destruct root; cbn in H; intuition discriminate. }
  split.
  - intros (U & (N1 & N2 & N3) & D).
    assert (D' : forall x, In x (used_names root acts) -> ~ In x structs /\ ~ In x snakes).
    { intros x Hx. specialize (D x Hx). rewrite in_app_iff in D. tauto. }
    assert (HR : ~ In (lit "Route") structs /\ ~ In (lit "Route") snakes).
    { apply D'. apply used_iff. left. reflexivity. }
    split.
    + split.
      { split; [exact N1|]. split.
        - constructor; [exact (proj2 HR)|exact N2].
        - intros x Hx [<-|Hx']; [exact (proj1 HR Hx)|exact (N3 x Hx Hx')]. }
      split; [exact Hf|]. intros x Hx Hx'.
      assert (Hu : In x (used_names root acts)) by (apply used_iff; right; right; exact Hx').
      destruct (D' x Hu) as [H1 H2]. apply in_app_iff in Hx. destruct Hx as [Hx|[<-|Hx]]; auto.
    + intros x Hx Hx'.
      assert (Hu : In x (used_names root acts)) by (apply used_iff; right; left; exact Hx).
      destruct (D' x Hu) as [H1 H2]. apply in_app_iff in Hx'. destruct Hx' as [Hx'|[<-|Hx']]; auto.
  - intros [[(N1 & N2 & N3) (_ & F)] M]. inversion N2 as [|? ? R2 N4]; subst.
    split; [apply used_nodup|]. split.
    { split; [exact N1|]. split; [exact N4|]. intros x Hx Hx'. apply (N3 x Hx). right. exact Hx'. }
    intros x Hx Hx'. apply in_app_iff in Hx'.
    assert (Hin : In x (structs ++ lit "Route" :: snakes)).
    { apply in_app_iff. destruct Hx' as [Hx'|Hx']; [left|right; right]; exact Hx'. }
    apply used_iff in Hx. destruct Hx as [->|[Hx|Hx]].
    + destruct Hx' as [Hx'|Hx']; [apply (N3 _ Hx'); left; reflexivity|exact (R2 Hx')].
    + exact (M x Hx Hin).
    + exact (F x Hin Hx).
Qed.

Hypothesis Hparams : forall a, In a acts -> a_route_params a = dynamics (a_path a).
Hypothesis Hname : root = true \/ is_ident (to_snake_case (m_name m)) = true.

Lemma in_dynamics p d : In (Dynamic d) p -> In d (dynamics p).
Proof.
  induction p as [|s p IH]; [intros []|]. intros [->|H]; [left; reflexivity|].
  destruct s; cbn; auto.
Qed.
Lemma holes_ok a : In a acts ->
  (match holes (lit "/" ++ path_text (fun _ => lit "{}") (a_path a)) with
   | Some k => (k =? length (map p_name (a_route_params a)))%nat | None => false end = true <->
   forallb format_segment (a_path a) = true).
Proof.
  intros Ha. rewrite <- template_holes, map_length, (Hparams a Ha).
  destruct (holes _) as [k|]; [|split; discriminate]. rewrite Nat.eqb_eq. split; congruence.
Qed.

(** The items of one action. *)
Lemma forallb_both {A} (f g : A -> bool) l : forallb (fun x => f x && g x) l = forallb f l && forallb g l.
Proof.
  induction l as [|x l IH]; [reflexivity|]. cbn [forallb]. rewrite IH.
  destruct (f x), (g x), (forallb f l); reflexivity.
Qed.
Lemma action_ok_iff a : In a acts -> NoDup structs ->
  (forallb (beside_ok items) (action_items a) = true <->
   (let names := map fd_name (action_fields a) in
    forallb (fun x => is_ident x && negb (prelude_ctor x)) names && nodup_strs names
    && forallb (fun x => negb (existsb (str_eqb x) (unit_names acts))) names
    && forallb format_segment (a_path a)) = true).
Proof.
  intros Ha Hn. cbv zeta. rewrite field_names. cbn [forallb action_items beside_ok].
  rewrite items_structs_of. change (to_caps_case (a_name a)) with (caps_name a).
  rewrite (lookup_key caps_name action_decl acts a) by (exact Hn || exact Ha).
  fold (action_decl a). rewrite decl_names, units_items. unfold names_ok.
  rewrite (forallb_both is_ident), (forallb_both (fun x => negb (mem x _))).
  rewrite !andb_true_iff, (holes_ok a Ha), !subset_incl. split.
  - intros [[_ [H1 H2]] [_ [[[[[[H3 H4] H5] [H6 H6']] H7] H8] _]]]. auto 8.
  - intros [[[[H1 H1'] H2] H3] H4]. split; [split; [|split; assumption]|].
    + apply action_doc_line; [exact H4|]. intros p Hp. rewrite forallb_forall in H1. apply H1.
      unfold action_names. apply in_app_iff. left. apply in_map. rewrite (Hparams a Ha). apply in_dynamics. exact Hp.
    + split; [reflexivity|]. split; [|split; reflexivity]. split.
      { split; [split; [split; [split; [exact H2|]|]|]|]; auto using incl_refl. }
      apply forallb_forall. intros x Hx. rewrite andb_true_iff. split.
      * apply mem_In. unfold action_names. apply in_app_iff. left. exact Hx.
      * apply in_map_iff in Hx. destruct Hx as (p & <- & Hp).
        rewrite (lookup_nodup (p_name p) (action_decl a) (TyUser (p_typ p))); [reflexivity| |].
        -- rewrite decl_names. apply nodup_strs_NoDup. exact H2.
        -- unfold action_decl. apply in_app_iff. left. apply in_map_iff. exists p. auto.
Qed.

(** Those of the enum. *)
Lemma unit_names_structs x : In x (unit_names acts) -> In x structs.
Proof.
  unfold unit_names. intros H. apply in_map_iff in H. destruct H as (a & <- & Ha). apply filter_In in Ha.
  apply (in_map (fun a => to_caps_case (a_name a))). apply Ha.
Qed.
Lemma route_not_unit : ~ In (lit "route") (unit_names acts).
Proof.
  intros H. apply unit_names_structs in H. apply in_map_iff in H. destruct H as (a & E & _).
  apply caps_head in E. vm_compute in E. discriminate.
Qed.
Lemma payloads_ok v : In v (variants m) -> NoDup snakes -> declared items (snd v) = true /\ has_to_path items (snd v) = true.
Proof.
  unfold variants, declared, has_to_path, payload_ok. intros Hv Hn. apply in_app_iff in Hv.
  destruct Hv as [Hv|Hv]; apply in_map_iff in Hv; destruct Hv as (x & <- & Hx); cbn [snd].
  - rewrite items_structs_of, items_struct_paths_of, !map_map. cbn [fst].
    split; apply mem_In; apply in_map_iff; exists x; auto.
  - rewrite items_mods_of, (lookup_key (fun s => to_snake_case (m_name s)) (fun s => module_items false hs s) mods x Hn Hx).
    rewrite items_enums_of, items_enum_paths_of. split; reflexivity.
Qed.
Lemma enum_ok_iff : NoDup snakes ->
  (forallb (beside_ok items) (enum_items root m) = true <->
   match acts, mods with [], [] => false | _, _ => true end = true /\
   forallb is_ident (structs ++ map (fun s => to_caps_case (m_name s)) mods) = true /\
   nodup_strs (structs ++ map (fun s => to_caps_case (m_name s)) mods) = true).
Proof.
  intros Hn. cbn [forallb enum_items beside_ok]. rewrite items_enums_of. cbn [lookup]. rewrite str_eqb_refl.
  change (map (fun a => (to_caps_case (a_name a), TyItem [] (to_caps_case (a_name a)))) acts ++
          map (fun s => (to_caps_case (m_name s), TyItem [to_snake_case (m_name s)] (lit "Route"))) mods) with (variants m).
  rewrite <- variants_names, units_items. unfold names_ok.
  assert (He : match map fst (variants m) with [] => false | _ => true end = match acts, mods with [], [] => false | _, _ => true end).
  { rewrite variants_names. destruct acts, mods; reflexivity. }
  rewrite He, !andb_true_iff, !subset_incl, negb_mem, !forallb_forall, (enum_doc_line _ _ Hname). split.
  - intros [[[_ [H1 H2]] H3] [_ [[[[[[H4 H5] H6] H7] H8] H9] _]]]. auto.
  - intros (H1 & H2 & H3). split; [split; [split; [reflexivity|split; assumption]|]|].
    + intros v Hv. apply payloads_ok; assumption.
    + split; [reflexivity|]. split; [|reflexivity]. split; [|apply route_not_unit].
      split; [split; [split; [split; [exact H1|exact H3]|]|]|]; auto using incl_refl.
      intros v Hv. apply payloads_ok; assumption.
Qed.

Lemma locals_iff : forallb (beside_ok items) items = true <->
  (forall a, In a acts -> forallb (beside_ok items) (action_items a) = true) /\
  forallb (beside_ok items) (enum_items root m) = true.
Proof.
  rewrite forallb_forall. split.
  - intros H. split; [intros a Ha|]; apply forallb_forall; intros it Hit; apply H, in_items; [right; left; eauto|auto].
  - intros [H1 H2] it Hit. apply in_items in Hit. destruct Hit as [H|[(a & Ha & H)|[(s & Hs & [->| ->])|H]]]; try reflexivity.
    + unfold header_items in H. apply in_app_iff in H. destruct H as [H|H].
      * apply in_map_iff in H. destruct H as (h & <- & _). reflexivity.
      * destruct hs; [destruct H|]. destruct H as [<-|[]]. reflexivity.
    + specialize (H1 a Ha). rewrite forallb_forall in H1. apply H1. exact H.
    + rewrite forallb_forall in H2. apply H2. exact H.
Qed.

Lemma scope_top : scope_ok root items = true <-> top root m = true.
Proof.
  unfold scope_ok, top. cbv zeta. rewrite !andb_true_iff, !nodup_strs_NoDup, locals_iff, units_items.
  rewrite (forallb_forall (fun x => negb (mem x (types_of items)))).
  assert (HM : (forall x, In x (flat_map mentions items ++ (if root then fixed_mentions else [])) ->
                  negb (mem x (types_of items)) = true) <->
               (forall x, In x (flat_map mentions items ++ (if root then fixed_mentions else [])) ->
                  ~ In x (types_of items))).
  { split; intros H x Hx; apply negb_mem, H, Hx. }
  rewrite HM. clear HM.
  change (existsb (str_eqb (lit "Ok")) (unit_names acts)) with (mem (lit "Ok") (unit_names acts)).
  assert (HI : forallb is_ident (types_of items) = true <-> forallb is_ident structs = true /\ forallb is_ident snakes = true).
  { rewrite types_items. rewrite !forallb_app. cbn [forallb]. rewrite !andb_true_iff. split.
    - intros (H1 & [_ _] & H2). auto.
    - intros [H1 H2]. split; [exact H1|]. split; [split; reflexivity|exact H2]. }
  rewrite HI. split.
  - intros [[[[[I1 I2] N] M] O] [A E]].
    assert (N' := proj2 names_iff (conj N M)). pose proof N' as N''. rewrite !NoDup_app_iff in N''.
    destruct N'' as (_ & (S1 & S2 & _) & _).
    apply (enum_ok_iff S2) in E. destruct E as (E1 & E2 & E3). rewrite nodup_strs_NoDup in E3.
    repeat (split; [|assumption]). split; [|].
    + repeat split; assumption.
    + apply forallb_forall. intros a Ha. apply (action_ok_iff a Ha S1). apply A. exact Ha.
  - intros [[[[[[[E1 I1] I2] E2] N] E3] A] O]. rewrite <- nodup_strs_NoDup in E3.
    pose proof (proj1 names_iff N) as [N1 M]. rewrite !NoDup_app_iff in N. destruct N as (_ & (S1 & S2 & _) & _).
    split; [split; [split; [split; [split; assumption|exact N1]|exact M]|exact O]|]. split.
    + intros a Ha. apply (action_ok_iff a Ha S1). rewrite forallb_forall in A. apply A. exact Ha.
    + apply (enum_ok_iff S2). auto.
Qed.
End Scope.

Lemma items_ok_module hs : forall m root,
  (forall ms a, In (ms, a) (module_actions m) -> a_route_params a = dynamics (a_path a)) ->
  root = true \/ is_ident (to_snake_case (m_name m)) = true ->
  (items_ok root (module_items root hs m) = true <-> module_ok root m = true).
Proof.
  induction m as [name acts mods IH] using FM_ind'. intros root Hp Hn.
  rewrite module_ok_top. unfold items_ok. rewrite !andb_true_iff.
  assert (Hp1 : forall a, In a (m_actions (mkModule name acts mods)) -> a_route_params a = dynamics (a_path a)).
  { intros a Ha. apply (Hp []). apply in_module_actions_nil. exact Ha. }
  rewrite (scope_top root hs _ Hp1 Hn).
  assert (HI : top root (mkModule name acts mods) = true -> forall s, In s mods -> is_ident (to_snake_case (m_name s)) = true).
  { unfold top. cbv zeta. rewrite !andb_true_iff. intros [[[[[[[_ _] H] _] _] _] _] _] s Hs.
    rewrite forallb_forall in H. apply H. apply (in_map (fun s => to_snake_case (m_name s))). exact Hs. }
  assert (Hsub : forall s, In s mods -> is_ident (to_snake_case (m_name s)) = true ->
                 (items_ok false (module_items false hs s) = true <-> module_ok false s = true)).
  { intros s Hs Hi. apply IH; auto. intros ms a Ha. apply (Hp (m_name s :: ms)). apply in_module_actions_cons.
    exists s. auto. }
  cbn [m_modules]. rewrite !forallb_forall. split; intros [H1 H2]; (split; [exact H1|]).
  - intros s Hs. apply (Hsub s Hs (HI H1 s Hs)).
    apply (H2 (ItMod (to_snake_case (m_name s)) (module_items false hs s))). apply in_items. right. right. left.
    exists s. auto.
  - intros it Hit. apply in_items in Hit. destruct Hit as [H|[(a & Ha & H)|[(s & Hs & [->| ->])|H]]]; try reflexivity.
    + unfold header_items in H. apply in_app_iff in H. destruct H as [H|H].
      * apply in_map_iff in H. destruct H as (h & <- & _). reflexivity.
      * destruct hs; [destruct H|]. destruct H as [<-|[]]. reflexivity.
    + destruct H as [<-|[<-|[<-|[<-|[]]]]]; reflexivity.
    + apply (Hsub s Hs (HI H1 s Hs)). apply H2. exact Hs.
    + destruct H as [<-|[<-|[<-|[]]]]; reflexivity.
Qed.
