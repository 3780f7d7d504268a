(** * ItemText: the text of the generated module is that of its items *)
From Verif Require Import Base Core Trie Flat MiniRust Gen Items Spec SpecMatch SpecGen BaseFacts GenFacts CompFacts FlatFacts
  MatchFacts GenThms.

(** ** The text *)
Lemma path_text_join dyn p :
  path_text dyn p = join (map (fun s => match s with Static t => t | Dynamic d => dyn (p_name d) end) p).
Proof.
  destruct p as [|s p]; [reflexivity|]. unfold path_text. cbn [map]. revert s.
  induction p as [|s' p IH]; intros s; cbn [flat_map map join].
  - apply app_nil_r.
  - rewrite <- app_assoc. f_equal. exact (f_equal (cons c_slash) (IH s')).
Qed.
Lemma w_seq_text s b : w_text (w s >> b) = s ++ w_text b.
Proof. destruct b as [l st]. reflexivity. Qed.
Lemma write_path_seg dyn s k r :
  w_text (write_path dyn (segment_iter s ++ k :: r)) =
  w_text (write_path dyn (segment_iter s)) ++ lit "/" ++ w_text (write_path dyn (k :: r)).
Proof.
  destruct s as [t|d]; cbn [segment_iter].
  - induction t as [|c t IH]; cbn [map app].
    + cbn [write_path]. rewrite w_seq_text. reflexivity.
    + cbn [write_path]. rewrite !w_seq_text, IH, app_assoc. reflexivity.
  - cbn [write_path app]. rewrite !w_seq_text. cbn. rewrite app_nil_r. reflexivity.
Qed.
Lemma write_path_one dyn s :
  w_text (write_path dyn (segment_iter s)) =
  match s with Static t => t | Dynamic d => dyn (p_name d) end.
Proof.
  destruct s as [t|d]; cbn [segment_iter].
  - induction t as [|c t IH]; cbn [map app write_path]; [reflexivity|]. rewrite w_seq_text, IH. reflexivity.
  - cbn [write_path]. rewrite w_seq_text. apply app_nil_r.
Qed.
Lemma write_path_text dyn p : w_text (write_path dyn (path_iter p)) = path_text dyn p.
Proof.
  rewrite path_text_join.
  unfold path_iter. induction p as [|s p IH]; [reflexivity|]. cbn [map concat].
  destruct p as [|s' p].
  - cbn [map concat join]. rewrite app_nil_r. apply write_path_one.
  - cbn [map] in *. change (join (?x :: ?y :: ?l)) with (x ++ c_slash :: join (y :: l)). rewrite <- IH. cbn [concat].
    destruct (segment_iter s' ++ concat (map segment_iter p)) as [|k r] eqn:Ek.
    + apply app_eq_nil in Ek. destruct Ek as [Ek _]. destruct (segment_iter_ne _ Ek).
    + rewrite write_path_seg, write_path_one. reflexivity.
Qed.
Lemma write_path_renders dyn p : renders (write_path dyn (path_iter p)) (ROk (path_text dyn p)).
Proof. split; [apply write_path_ok|apply write_path_text]. Qed.

Definition text_of (l : list str) : str := concat (map (fun l => l ++ nl) l).
Lemma text_app a b : text_of (a ++ b) = text_of a ++ text_of b.
Proof. apply concat_map_app. Qed.
Lemma text_cons a l : text_of (a :: l) = (a ++ nl) ++ text_of l.
Proof. reflexivity. Qed.
Lemma text_nil : text_of [] = [].
Proof. reflexivity. Qed.
Lemma text_map {A} (f : A -> str) l : text_of (map f l) = concat (map (fun x => f x ++ nl) l).
Proof. unfold text_of. rewrite map_map. reflexivity. Qed.

Lemma renders_wls {A} (f : A -> str) l : renders (w_all (map (fun x => wl (f x)) l)) (ROk (text_of (map f l))).
Proof. rewrite text_map. apply renders_all. intros x _. apply renders_wl. Qed.
Lemma renders_ws {A} (f : A -> str) l : renders (w_all (map (fun x => w (f x)) l)) (ROk (flat_map f l)).
Proof. rewrite flat_map_concat_map. apply renders_all. intros x _. apply renders_w. Qed.

Ltac plain :=
  rewrite ?text_app, ?text_cons, ?text_nil; rewrite <- ?app_assoc; cbn [app]; unfold derive; lits; unfold nl;
  repeat (rewrite <- ?app_assoc; cbn [app]).

Lemma write_action_renders ind a :
  renders (write_action ind a) (ROk (text_of (flat_map (pr_item ind) (action_items a)))).
Proof.
  unfold write_action.
  set (route := a_route_params a). set (query := a_query_params a).
  set (name := to_caps_case (a_name a)).
  assert (Hfields : forall has, has = (match route, query with [], [] => false | _, _ => true end) ->
    renders (if has then
        wl (lit " {")
        >> w_all (map (fun p => wl (ind ++ lit "    pub " ++ p_name p ++ lit ": " ++ p_typ p ++ lit ",")) route)
        >> w_all (map (fun p => wl (ind ++ lit "    pub " ++ p_name p ++ lit ": Option<" ++ p_typ p ++ lit ">,")) query)
        >> wl (ind ++ lit "}")
      else wl (lit ";"))
     (ROk (if has then text_of (lit " {" ::
               map (fun f => ind ++ lit "    pub " ++ fst f ++ lit ": " ++ pr_ty (snd f) ++ lit ",")
                 (map (fun p => (p_name p, TyUser (p_typ p))) route
                  ++ map (fun p => (p_name p, TyOption (p_typ p))) query) ++ [ind ++ lit "}"])
           else text_of [lit ";"]))).
  { intros [|] _.
    - eapply renders_eq.
      { apply renders_seq_ok; [apply renders_wl|]. apply renders_seq_ok; [apply renders_wls|].
        apply renders_seq_ok; [apply renders_wls|]. apply renders_wl. }
      rewrite map_app, !map_map. cbn [fst snd pr_ty].
      rewrite (map_ext (fun p => ind ++ lit "    pub " ++ p_name p ++ lit ": Option<" ++ p_typ p ++ lit ">,")
        (fun p => ind ++ lit "    pub " ++ p_name p ++ lit ": " ++ (lit "Option<" ++ p_typ p ++ lit ">") ++ lit ","))
        by (intros p; plain; reflexivity).
      rewrite text_cons, !text_app, text_cons, text_nil, app_nil_r, <- !app_assoc. reflexivity.
    - apply renders_wl. }
  assert (Hlet : forall has, has = (match route, query with [], [] => false | _, _ => true end) ->
    renders (if has then
        w (ind ++ lit "        let " ++ name ++ lit " { ")
        >> w_all (map (fun p => w (lit "ref " ++ p_name p ++ lit ", ")) route)
        >> w_all (map (fun p => w (lit "ref " ++ p_name p ++ lit ", ")) query)
        >> wl (lit "} = self;")
      else w_ok)
     (ROk (if has then text_of [ind ++ lit "        " ++ lit "let " ++ name ++ lit " { "
            ++ flat_map (fun b => lit "ref " ++ b ++ lit ", ") (action_names a) ++ lit "} = self;"] else []))).
  { intros [|] _; [|apply renders_ok].
    eapply renders_eq.
    { apply renders_seq_ok; [apply renders_w|]. apply renders_seq_ok; [apply renders_ws|].
      apply renders_seq_ok; [apply renders_ws|]. apply renders_wl. }
    unfold action_names. rewrite flat_map_app. fold route query.
    rewrite !(flat_map_concat_map _ (map _ _)), !map_map, <- !flat_map_concat_map. plain. reflexivity. }
  eapply renders_eq.
  { apply renders_seq_ok; [apply renders_w|].
    apply renders_seq_ok; [apply write_path_renders|].
    apply renders_seq_ok; [apply renders_wl|].
    apply renders_seq_ok; [apply renders_wl|].
    apply renders_seq_ok; [apply renders_w|].
    apply renders_seq_ok; [apply Hfields; reflexivity|].
    apply renders_seq_ok; [apply renders_wl|].
    apply renders_seq_ok; [apply renders_wl|].
    apply renders_seq_ok; [apply renders_wl|].
    apply renders_seq_ok; [apply renders_wl|].
    apply renders_seq_ok; [apply Hlet; reflexivity|].
    apply renders_seq_ok; [apply renders_w|].
    apply renders_seq_ok; [apply write_path_renders|].
    apply renders_seq_ok; [apply renders_w|].
    apply renders_seq_ok; [apply renders_ws|].
    apply renders_seq_ok; [apply renders_wl|].
    apply renders_seq_ok; [apply renders_wl|].
    apply renders_seq_ok; [apply renders_wl|]. apply renders_wl. }
  unfold action_items, action_doc, pr_impl. fold route query name. cbn [flat_map pr_item app].
  rewrite (flat_map_concat_map (fun x => lit ", " ++ x) (map p_name route)), map_map, <- flat_map_concat_map.
  assert (Hn : action_names a = [] <-> route = [] /\ query = []).
  { unfold action_names. fold route query. destruct route, query; cbn; split; intros H; try discriminate; auto;
      destruct H; discriminate. }
  unfold pr_impl, derive.
  destruct (match route, query with [], [] => false | _, _ => true end) eqn:Eh.
  - destruct (map (fun p => (p_name p, TyUser (p_typ p))) route ++ map (fun p => (p_name p, TyOption (p_typ p))) query)
      as [|f fl] eqn:Ef.
    { exfalso. destruct route, query; discriminate. }
    destruct (action_names a) as [|b bl] eqn:Eb.
    { exfalso. destruct (proj1 Hn eq_refl) as [-> ->]. discriminate. }
    rewrite <- Eb, <- Ef. cbn [map app]. rewrite !text_cons, !text_app, !text_cons, !text_nil. plain. reflexivity.
  - assert (H : route = [] /\ query = []) by (destruct route, query; try discriminate; auto).
    rewrite (proj2 Hn H). destruct H as [-> ->]. cbn [map app flat_map]. plain. reflexivity.
Qed.
Lemma write_route_enum_renders ind m :
  renders (write_route_enum ind m)
    (ROk (text_of (flat_map (pr_item ind) (enum_items (str_eqb ind (lit "    ")) m)))).
Proof.
  unfold write_route_enum.
  set (acts := m_actions m). set (mods := m_modules m).
  eapply renders_eq.
  { apply renders_seq_ok.
    { instantiate (1 := (ind ++ lit "/// " ++ enum_doc (str_eqb ind (lit "    ")) (m_name m)) ++ nl).
      unfold enum_doc. destruct (str_eqb ind (lit "    ")); (eapply renders_eq; [apply renders_wl|]); plain; reflexivity. }
    apply renders_seq_ok; [apply renders_wl|]. apply renders_seq_ok; [apply renders_wl|].
    apply renders_seq_ok; [apply renders_wls|]. apply renders_seq_ok; [apply renders_wls|].
    apply renders_seq_ok; [apply renders_wl|]. apply renders_seq_ok; [apply renders_wl|].
    apply renders_seq_ok; [apply renders_wl|]. apply renders_seq_ok; [apply renders_wl|].
    apply renders_seq_ok; [apply renders_wl|]. apply renders_seq_ok; [apply renders_wl|].
    apply renders_seq_ok; [apply renders_wls|]. apply renders_seq_ok; [apply renders_wls|].
    apply renders_seq_ok; [apply renders_wl|]. apply renders_seq_ok; [apply renders_wl|]. apply renders_wl. }
  unfold enum_items, pr_impl, derive. fold acts mods. cbn [flat_map pr_item app]. unfold pr_impl.
  rewrite !map_app, !map_map. cbn [fst snd pr_ty flat_map map]. rewrite !map_app, !map_map. cbn [map].
  rewrite (map_ext (fun s => ind ++ lit "    " ++ to_caps_case (m_name s) ++ lit "("
                                ++ to_snake_case (m_name s) ++ lit "::Route),")
    (fun x => ind ++ lit "    " ++ to_caps_case (m_name x) ++ lit "("
      ++ (((to_snake_case (m_name x) ++ lit "::") ++ []) ++ lit "Route") ++ lit "),"))
    by (intros s; rewrite app_nil_r; plain; reflexivity).
  rewrite (map_ext (fun a => ind ++ lit "            Route::" ++ to_caps_case (a_name a)
                                ++ lit "(ref route) => route.to_path(),")
    (fun x => ind ++ lit "        " ++ lit "    " ++ lit "Route" ++ lit "::" ++ to_caps_case (a_name x)
      ++ lit "(ref route) => route.to_path(),"))
    by (intros s; plain; reflexivity).
  rewrite (map_ext (fun a => ind ++ lit "            Route::" ++ to_caps_case (m_name a)
                                ++ lit "(ref route) => route.to_path(),")
    (fun x => ind ++ lit "        " ++ lit "    " ++ lit "Route" ++ lit "::" ++ to_caps_case (m_name x)
      ++ lit "(ref route) => route.to_path(),"))
    by (intros s; plain; reflexivity).
  rewrite <- !app_assoc. cbn [app].
  rewrite !text_cons, !text_app, !text_cons, !text_app, !text_cons, !text_nil. cbn [app].
  generalize (enum_doc (str_eqb ind (lit "    ")) (m_name m)). intros doc.
  match goal with |- context [text_of (map ?f acts)] => generalize (text_of (map f acts)) end. intros t1.
  match goal with |- context [text_of (map ?f mods)] => generalize (text_of (map f mods)) end. intros t2.
  match goal with |- context [text_of (map ?f acts)] => generalize (text_of (map f acts)) end. intros t3.
  match goal with |- context [text_of (map ?f mods)] => generalize (text_of (map f mods)) end. intros t4.
  plain. reflexivity.
Qed.

Lemma indent_not_root ind : ind <> [] -> str_eqb (ind ++ lit "    ") (lit "    ") = false.
Proof.
  intros H. destruct (str_eqb_spec (ind ++ lit "    ") (lit "    ")) as [E|]; [|reflexivity].
  exfalso. apply H. apply (f_equal (@length _)) in E. rewrite app_length in E. destruct ind; [reflexivity|simpl in E; lia].
Qed.
Lemma codegen_module_renders headers : forall m ind, ind <> [] ->
  renders (codegen_module headers m ind)
    (ROk (pr_items ind (module_items (str_eqb ind (lit "    ")) headers m))).
Proof.
  induction m as [name acts mods IH] using FM_ind'. intros ind Hind. cbn [codegen_module module_items].
  change (pr_items ind ?l) with (text_of (flat_map (pr_item ind) l)).
  rewrite !flat_map_app, !text_app.
  apply renders_seq_ok.
  { unfold write_headers, header_items. rewrite flat_map_app, text_app. apply renders_seq_ok.
    - eapply renders_eq; [apply renders_wls|]. f_equal. clear. induction headers as [|h hs IHh]; [reflexivity|].
      cbn [map flat_map pr_item app]. f_equal. apply IHh.
    - destruct headers; [apply renders_ok|apply renders_wl]. }
  apply renders_seq_ok.
  { eapply renders_eq; [apply (renders_all _ (fun a => text_of (flat_map (pr_item ind) (action_items a)))); intros a _;
                        apply write_action_renders|].
    clear. induction acts as [|a acts IH]; [reflexivity|]. cbn [map concat flat_map]. rewrite flat_map_app, text_app, IH.
    reflexivity. }
  apply renders_seq_ok; [|apply write_route_enum_renders].
  eapply renders_eq.
  { apply (renders_all _ (fun s => text_of (flat_map (pr_item ind)
      [ItMod (to_snake_case (m_name s)) (module_items false headers s); ItBlank]))).
    intros s Hs. specialize (IH s Hs (ind ++ lit "    ")). rewrite (indent_not_root _ Hind) in IH.
    eapply renders_eq.
    { apply renders_seq_ok; [apply renders_wl|]. apply renders_seq_ok; [apply IH|].
      - destruct ind; discriminate.
      - apply renders_seq_ok; apply renders_wl. }
    change (pr_items ?i ?l) with (text_of (flat_map (pr_item i) l)).
    cbn [flat_map pr_item app]. rewrite ?text_cons, ?text_app, ?text_cons, ?text_nil.
    generalize (text_of (flat_map (pr_item (ind ++ lit "    ")) (module_items false headers s))). intros t.
    plain. reflexivity. }
  clear. induction mods as [|s mods IH]; [reflexivity|]. cbn [map concat]. rewrite IH.
  rewrite <- text_app, <- flat_map_app. reflexivity.
Qed.

Lemma codegen_items_text c root :
  w_text (codegen_module (c_headers c) root (lit "    ")) =
  pr_items (lit "    ") (module_items true (c_headers c) root).
Proof. refine (proj2 (codegen_module_renders (c_headers c) root (lit "    ") _)). discriminate. Qed.
