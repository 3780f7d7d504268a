(** * ReadGood: accepted programs are made of names and literals that read back *)
From Verif Require Import Base BaseFacts Core Trie Flat MiniRust Gen Items RLex RRead SpecRead SpecCost LexFacts ExecFacts CostFacts MatchFacts ItemFacts
  ReadFacts ReadItems.

(** ** The shape of generated statements *)

Fixpoint flat_cond (c : bexpr) : bool :=
  match c with BAnd c d => flat_cond c && match d with BAnd _ _ => false | _ => true end | _ => true end.
Fixpoint shaped (s : stmt) : bool :=
  match s with
  | SLet x _ | SLetUtf8 x _ _ _ => is_ident x
  | SLetParse x _ what => str_eqb what x
  | SWhile c body | SIf c body => flat_cond c && forallb shaped body
  | SMatch _ arms => forallb (fun a : arm_head * list stmt => forallb shaped (snd a)) arms
  | _ => true
  end.
Definition all_shaped (r : res (list stmt)) : Prop := forall b, r = ROk b -> forallb shaped b = true.
Lemma methods_shaped d : forallb shaped (methods_block d) = true.
Proof.
  unfold methods_block. destruct (has_resources d) as [route|]; [|reflexivity]. cbn [forallb shaped methods_stmt flat_cond i_eq_len andb].
  rewrite forallb_app. cbn. rewrite !andb_true_r. induction (f_resources route) as [|r l IH]; [reflexivity|exact IH].
Qed.
Section Gen.
Variable rec : ctrie -> res (list stmt).
Hypothesis rec_shaped : forall t, all_shaped (rec t).
Lemma rbind_ok {A B} (r : res A) (f : A -> res B) b : rbind r f = ROk b -> exists a, r = ROk a /\ f a = ROk b.
Proof. destruct r; cbn; try discriminate. eauto. Qed.
Lemma dynamic_shaped t n : all_shaped (gen_dynamic rec t n).
Proof.
  intros b H. unfold gen_dynamic in H. destruct (t_children t) as [|[[] c] [|]]; try discriminate H.
  apply rbind_ok in H. destruct H as (b' & Hb & [= <-]). unfold dynamic_block. rewrite forallb_app, (rec_shaped _ _ Hb), andb_true_r.
  cbn [forallb shaped flat_cond andb]. rewrite str_eqb_refl. reflexivity.
Qed.
Definition arms_shaped (arms : list (arm_head * list stmt)) : bool := forallb (fun a => forallb shaped (snd a)) arms.
Lemma gen_arms_shaped l : forall arms, gen_arms rec l = ROk arms -> arms_shaped arms = true.
Proof.
  induction l as [|[k c] l IH]; intros arms H; cbn [gen_arms] in H; [injection H as <-; reflexivity|].
  destruct k as [ch|n|].
  - apply rbind_ok in H. destruct H as (b & Hb & H). apply rbind_ok in H. destruct H as (arms' & Ha & [= <-]).
    cbn. rewrite (rec_shaped _ _ Hb). apply IH. exact Ha.
  - apply rbind_ok in H. destruct H as (b & Hb & [= <-]). cbn. rewrite (dynamic_shaped _ _ _ Hb). reflexivity.
  - apply rbind_ok in H. destruct H as (arms' & Ha & [= <-]). cbn. apply IH. exact Ha.
Qed.
Lemma many_shaped t : all_shaped (gen_many rec t).
Proof.
  intros b H. unfold gen_many in H. destruct (unamb t) as [[u l] next].
  set (start := match find_dynamic (t_children t) with Some _ => _ | None => _ end) in H.
  assert (Hs : forallb shaped start = true) by (unfold start; destruct (find_dynamic _); reflexivity).
  clearbody start.
  destruct u as [|x u].
  - apply rbind_ok in H. destruct H as (arms & Ha & [= <-]). rewrite forallb_app, Hs. cbn [forallb shaped flat_cond i_eq_len andb not_found].
    apply gen_arms_shaped in Ha. unfold arms_shaped in Ha. rewrite forallb_app, Ha. reflexivity.
  - destruct (find_dynamic (t_children t)) as [[n d]|]; [|discriminate].
    apply rbind_ok in H. destruct H as (b' & Hb & H). apply rbind_ok in H. destruct H as (d' & Hd & [= <-]).
    rewrite forallb_app, Hs. cbn [forallb shaped snd]. rewrite (rec_shaped _ _ Hb), (dynamic_shaped _ _ _ Hd).
    destruct (_ =? 1)%nat; reflexivity.
Qed.
Lemma children_shaped t : all_shaped (gen_children rec t).
Proof.
  intros b H. unfold gen_children in H. destruct (t_children t) as [|[k c] [|]] eqn:E; [injection H as <-; reflexivity| |].
  - destruct k as [ch|n|].
    + destruct (chase c) as [more c']. apply rbind_ok in H. destruct H as (b' & Hb & [= <-]).
      cbn [forallb shaped expect snd not_found]. rewrite (rec_shaped _ _ Hb). destruct (_ =? 1)%nat; reflexivity.
    + apply rbind_ok in H. destruct H as (b' & Hb & [= <-]). cbn [forallb]. rewrite (dynamic_shaped _ _ _ Hb). reflexivity.
    + apply rbind_ok in H. destruct H as (b' & Hb & [= <-]). cbn [forallb expect shaped snd]. rewrite (rec_shaped _ _ Hb).
      pose proof (methods_shaped (t_data c)) as Hm. unfold methods_block in Hm. destruct (has_resources (t_data c)); [|reflexivity].
      cbn [forallb] in Hm. rewrite andb_true_r in Hm. rewrite Hm. reflexivity.
  - destruct k; apply (many_shaped t); exact H.
Qed.
End Gen.
Lemma gen_shaped fuel : forall t, all_shaped (gen_trie fuel t).
Proof.
  induction fuel as [|fuel IH]; intros t b H; [discriminate|]. cbn [gen_trie] in H. apply rbind_ok in H.
  destruct H as (b' & Hb & [= <-]). rewrite forallb_app, methods_shaped. exact (children_shaped _ IH t b' Hb).
Qed.
Lemma program_shaped c : all_shaped (gen_program c).
Proof. intros b H. unfold gen_program in H. apply rbind_ok in H. destruct H as (t & _ & H). exact (gen_shaped _ _ _ H). Qed.

(** ** Accepted statements *)

Definition ident_tenv (te : tenv) : Prop := forall x v, In (x, v) te -> is_ident x = true.
Definition ident_senv (senv : struct_env) : Prop := forall mods n fs, In (mods, n, fs) senv ->
  Forall (fun m => is_ident (fst m) = true /\ is_ident (snd m) = true) mods /\ is_ident n = true /\
  forall fd, In fd fs -> is_ident (fd_name fd) = true.
Section Good.
Variable senv : struct_env.
Hypothesis senv_ident : ident_senv senv.

Lemma lookup_ident te x v : ident_tenv te -> lookup x te = Some v -> is_ident x = true.
Proof.
  intros Hte. induction te as [|[y u] te IH]; cbn [lookup]; [discriminate|]. destruct (str_eqb y x) eqn:E.
  - intros _. apply str_eqb_eq in E. subst y. apply (Hte x u). left. reflexivity.
  - apply IH. intros z w Hz. apply (Hte z w). right. exact Hz.
Qed.
Lemma expr_good te e : ident_tenv te -> check_expr te e = true -> good_expr e.
Proof.
  intros Hte. destruct e as [x|n|x n]; cbn [check_expr good_expr]; try exact (fun _ => I);
    destruct (lookup x te) eqn:E; try discriminate; intros _; eapply lookup_ident; eauto.
Qed.
Lemma bytes_good te x : ident_tenv te -> match lookup x te with Some (_, TBytes) => true | _ => false end = true -> is_ident x = true.
Proof. intros Hte. destruct (lookup x te) eqn:E; [|discriminate]. intros _. eapply lookup_ident; eauto. Qed.
Lemma slice_good te x a b : ident_tenv te -> check_slice te x a b = true -> is_ident x = true /\ good_expr a /\ good_expr b.
Proof.
  intros Hte H. unfold check_slice in H. rewrite !andb_true_iff in H. destruct H as [[H1 H2] H3].
  split; [eapply bytes_good; eauto|]. split; eapply expr_good; eauto.
Qed.
Lemma atom_good te c : ident_tenv te -> match c with BAnd _ _ => false | _ => true end = true ->
  check_bexpr te c = true -> good_atom c.
Proof.
  intros Hte Hc H. destruct c; cbn [check_bexpr good_atom] in *; try discriminate Hc; apply andb_true_iff in H; destruct H as [H1 H2].
  1-4: split; eapply expr_good; eauto.
  destruct (slice_good _ _ _ _ Hte H1) as (? & ? & ?). auto.
Qed.
Lemma bexpr_good te c : ident_tenv te -> flat_cond c = true -> check_bexpr te c = true -> good_bexpr c.
Proof.
  intros Hte. induction c as [a b|a b|a b|a b|c IHc d IHd|x a b t]; intros Hf H;
    try (match goal with |- good_bexpr ?c => change (good_atom c); exact (atom_good te c Hte eq_refl H) end).
  cbn [flat_cond check_bexpr good_bexpr] in *. apply andb_true_iff in Hf, H. destruct Hf, H. split; [auto|].
  eapply atom_good; eauto.
Qed.
Lemma scrut_good te sc : ident_tenv te -> check_scrut te sc = true -> good_scrut sc.
Proof.
  intros Hte. destruct sc as [x|x a b]; cbn [check_scrut good_scrut]; [apply bytes_good|apply slice_good]; exact Hte.
Qed.
Lemma ret_good te r : check_ret senv te r = true -> good_ret r.
Proof.
  destruct r as [| |redirect mods n fs]; try exact (fun _ => I). cbn [check_ret good_ret].
  destruct (lookup_struct senv mods n) as [decl|] eqn:E; [|discriminate]. apply lookup_struct_In in E.
  destruct (senv_ident _ _ _ E) as (H1 & H2 & H3). rewrite !andb_true_iff. intros [_ H]. rewrite forallb_forall in H.
  split; [exact H1|]. split; [exact H2|]. apply Forall_forall. intros f Hf. specialize (H f Hf).
  destruct (lookup_field decl (fst f)) as [fd|] eqn:Ef; [|discriminate]. apply lookup_field_In in Ef. destruct Ef as [Hin <-]. auto.
Qed.
Lemma ret_uses_ident x r : ret_uses senv x r <> [] -> is_ident x = true.
Proof.
  destruct r as [| |redirect mods n fs]; cbn [ret_uses]; try congruence.
  destruct (lookup_struct senv mods n) as [decl|] eqn:E; [|congruence]. apply lookup_struct_In in E.
  destruct (senv_ident _ _ _ E) as (_ & _ & H3). induction fs as [|[y i] fs IH]; cbn [map concat]; [congruence|].
  destruct i; [|exact IH]. destruct (str_eqb y x); [|exact IH].
  destruct (lookup_field decl x) as [fd|] eqn:Ef; [|exact IH]. intros _. apply lookup_field_In in Ef. destruct Ef as [Hin <-]. auto.
Qed.
Lemma uses_ident_of x l : Forall (fun s => stmt_uses senv x s <> [] -> is_ident x = true) l ->
  block_uses senv x l <> [] -> is_ident x = true.
Proof.
  induction 1 as [|s l Hs Hl IH]; [intros H; elim H; reflexivity|]. rewrite block_uses_cons. intros H.
  destruct (stmt_uses senv x s); [|apply Hs; discriminate]. cbn [app] in H. destruct (binds x s); [congruence|auto].
Qed.
Lemma stmt_uses_ident x s : stmt_uses senv x s <> [] -> is_ident x = true.
Proof.
  induction s as [s Hs|c body IH|c body IH|sc arms IH] using stmt_ind'.
  - destruct s; try discriminate Hs; try (intros H; elim H; reflexivity). apply ret_uses_ident.
  - rewrite stmt_uses_while. apply uses_ident_of. exact IH.
  - rewrite stmt_uses_if. apply uses_ident_of. exact IH.
  - rewrite stmt_uses_match. induction IH as [|[h body] arms Hb IH IHa]; [intros H; elim H; reflexivity|].
    cbn [map concat snd]. intros H. destruct (block_uses senv x body) eqn:E; [apply IHa; exact H|].
    apply (uses_ident_of x body Hb). rewrite E. discriminate.
Qed.
Lemma infer_ident x l t : infer senv x l = Some t -> is_ident x = true.
Proof.
  unfold infer. intros H. apply (uses_ident_of x l).
  - apply Forall_forall. intros s _. apply stmt_uses_ident.
  - intros E. rewrite E in H. discriminate.
Qed.
Lemma ident_text x : is_ident x = true -> forallb text_char x = true.
Proof.
  intros H. apply ident_wordy in H. unfold wordy in H. apply andb_true_iff in H. destruct H as [_ H].
  rewrite forallb_forall in *. intros c Hc. specialize (H c Hc). unfold text_char.
  rewrite !(ident_char_not c) by (exact H || reflexivity). reflexivity.
Qed.

Definition stmt_good (s : stmt) : Prop := forall te rest te' d, ident_tenv te -> shaped s = true ->
  check_stmt senv te s rest = Some (te', d) -> good_stmt s /\ ident_tenv te'.
Lemma bind_ident te x v : ident_tenv te -> is_ident x = true -> ident_tenv ((x, v) :: te).
Proof. intros H Hx y u [[= <- <-]|Hy]; [exact Hx|eapply H; eauto]. Qed.
Lemma block_good_of l : Forall stmt_good l -> forall te d p, ident_tenv te -> forallb shaped l = true ->
  check_block senv te l d = Some p -> good_block l.
Proof.
  induction 1 as [|s l Hs Hl IH]; intros te d p Hte Hsh H; [exact I|]. rewrite check_block_cons in H.
  cbn [forallb] in Hsh. apply andb_true_iff in Hsh. destruct Hsh as [H1 H2].
  destruct (check_stmt senv te s l) as [[te' d']|] eqn:E; [|discriminate]. destruct (Hs _ _ _ _ Hte H1 E) as [Hg Hte'].
  split; [exact Hg|]. eapply IH; eauto.
Qed.
Lemma check_stmt_good s : stmt_good s.
Proof.
  induction s as [s Hs|c body IH|c body IH|sc arms IH] using stmt_ind'; intros te rest te' d Hte Hsh H.
  - destruct s as [|x e|x src a b|x src what|x n|c body|c body|sc arms|r]; try discriminate Hs; cbn [check_stmt shaped good_stmt] in *.
    + injection H as <- <-. auto.
    + destruct (check_expr te e) eqn:E; [|discriminate]. destruct (no_variable senv x); [discriminate|]. injection H as <- <-.
      split; [|apply bind_ident; assumption]. split; [exact Hsh|]. eapply expr_good; eauto.
    + destruct (check_slice te src a b) eqn:E; [|discriminate]. destruct (no_variable senv x); [discriminate|]. injection H as <- <-.
      split; [|apply bind_ident; assumption]. split; [exact Hsh|]. eapply slice_good; eauto.
    + apply str_eqb_eq in Hsh. subst what. destruct (lookup src te) as [[m []]|] eqn:E; try discriminate.
      destruct (infer senv x rest) as [t|] eqn:Ei; [|discriminate]. destruct (no_variable senv x); [discriminate|]. injection H as <- <-.
      pose proof (infer_ident _ _ _ Ei) as Hx. split; [|apply bind_ident; assumption].
      split; [exact Hx|]. split; [eapply lookup_ident; eauto|apply ident_text; exact Hx].
    + destruct (lookup x te) as [[[] []]|] eqn:E; try discriminate. injection H as <- <-. split; [|exact Hte].
      eapply lookup_ident; eauto.
    + destruct (check_ret senv te r) eqn:E; [|discriminate]. injection H as <- <-. split; [eapply ret_good; eauto|exact Hte].
  - rewrite check_stmt_while in H. cbn [shaped good_stmt] in *. apply andb_true_iff in Hsh. destruct Hsh as [H1 H2].
    destruct (check_bexpr te c) eqn:E; [|discriminate]. destruct (check_block senv te body false) eqn:Eb; [|discriminate].
    injection H as <- <-. split; [|exact Hte]. split; [eapply bexpr_good; eauto|]. exact (block_good_of body IH _ _ _ Hte H2 Eb).
  - rewrite check_stmt_if in H. cbn [shaped good_stmt] in *. apply andb_true_iff in Hsh. destruct Hsh as [H1 H2].
    destruct (check_bexpr te c) eqn:E; [|discriminate]. destruct (check_block senv te body false) eqn:Eb; [|discriminate].
    injection H as <- <-. split; [|exact Hte]. split; [eapply bexpr_good; eauto|]. exact (block_good_of body IH _ _ _ Hte H2 Eb).
  - rewrite check_stmt_match in H. cbn [shaped good_stmt] in *. destruct (check_scrut te sc) eqn:E; [|discriminate].
    destruct (existsb _ _); [|discriminate]. cbn [andb] in H. destruct (check_arms senv te arms) as [p|] eqn:Ea; [|discriminate].
    injection H as <- <-. split; [|exact Hte]. split; [eapply scrut_good; eauto|]. clear E.
    revert p Ea Hsh. induction IH as [|[h body] arms Hb IH IHa]; intros p Ea Hsh; [exact I|].
    cbn [forallb snd check_arms fold_right] in *. apply andb_true_iff in Hsh. destruct Hsh as [H1 H2].
    destruct (check_arm senv te (h, body)) as [d1|] eqn:E1; [|discriminate].
    destruct (check_arms senv te arms) as [d2|] eqn:E2; [|discriminate].
    split; [|apply (IHa d2 eq_refl H2)]. change (good_body h body /\ good_block body).
    destruct h as [t|t| | | |]; cbn [check_arm good_body] in *; try discriminate E1.
    + destruct (plain_lit t); [|discriminate]. split; [reflexivity|]. eapply block_good_of; eauto.
    + destruct (plain_lit t); [|discriminate]. destruct body as [|[] [|]]; try discriminate E1.
      split; [split; [reflexivity|eexists; reflexivity]|]. eapply block_good_of; eauto.
    + destruct body as [|[] [|]]; try discriminate E1.
      split; [eexists; reflexivity|]. eapply block_good_of; eauto.
    + destruct body; [|discriminate]. split; [reflexivity|exact I].
Qed.
Lemma check_block_good l te d p : ident_tenv te -> forallb shaped l = true -> check_block senv te l d = Some p -> good_block l.
Proof. apply block_good_of, Forall_forall. intros s _. apply check_stmt_good. Qed.
End Good.

(** The structs of the items. *)
Lemma good_fields doc n fs : good_item (ItStruct doc n fs) -> is_ident n = true /\ forall fd, In fd (map field_of fs) -> is_ident (fd_name fd) = true.
Proof.
  intros (_ & Hn & Hf). split; [exact Hn|]. intros fd Hfd. apply in_map_iff in Hfd. destruct Hfd as ([x t] & <- & Hin).
  rewrite Forall_forall in Hf. destruct (Hf _ Hin) as [Hx _]. destruct t; exact Hx.
Qed.
Lemma holders_ident l m v : good_items l -> In v (holders l m) -> is_ident v = true.
Proof.
  intros Hl. unfold holders. destruct (lookup (lit "Route") (enums_of l)) as [vs|] eqn:E; [|intros []].
  assert (Hvs : Forall (fun v => is_ident (fst v) = true /\ good_payload (snd v)) vs).
  { apply good_items_all in Hl. rewrite Forall_forall in Hl.
    assert (Hin : exists n, In (n, vs) (enums_of l)).
    { clear -E. induction (enums_of l) as [|[k u] e IH]; cbn [lookup] in E; [discriminate|]. destruct (str_eqb k (lit "Route")).
      - injection E as ->. exists k. left. reflexivity.
      - destruct (IH E) as [n Hn]. exists n. right. exact Hn. }
    destruct Hin as [n Hin]. unfold enums_of in Hin. apply in_flat_map in Hin. destruct Hin as (it & Hit & Hin).
    specialize (Hl _ Hit). destruct it; try destruct Hin as [[= <- <-]|[]]; try destruct Hin. destruct Hl as (_ & _ & Hl). exact Hl. }
  rewrite Forall_forall in Hvs. intros H. apply in_flat_map in H. destruct H as ([x t] & Hx & Hv). destruct (Hvs _ Hx) as [Hi _].
  cbn [snd fst] in *. destruct t as [t|t|[|k [|]] n]; try destruct Hv. destruct (_ && _); [|destruct Hv]. destruct Hv as [<-|[]]. exact Hi.
Qed.
Lemma item_env_ident it : forall h path, good_item it -> (forall m v, In v (h m) -> is_ident v = true) ->
  Forall (fun m : str * str => is_ident (fst m) = true /\ is_ident (snd m) = true) path -> ident_senv (item_env h path it).
Proof.
  induction it as [it Hit|n l IH] using item_ind'; intros h path Hg Hh Hp mods m fs Hin.
  - destruct it as [t| |doc n decl|n binds t args|n l|doc n vs|n arms]; cbn [item_env In] in Hin; try contradiction Hin;
      [|destruct Hit]. destruct Hin as [Hin|[]]. injection Hin as <- <- <-. destruct (good_fields _ _ _ Hg). auto.
  - destruct Hg as [Hn Hl]. fold (good_items l) in Hl. cbn [item_env] in Hin. apply in_flat_map in Hin. destruct Hin as (v & Hv & Hin).
    apply in_flat_map in Hin. destruct Hin as (it & Hit & Hin). rewrite Forall_forall in IH.
    apply (IH it Hit (holders l) (path ++ [(n, v)])); [|intros; eapply holders_ident; eauto| |exact Hin].
    + apply good_items_all in Hl. rewrite Forall_forall in Hl. auto.
    + apply Forall_app. split; [exact Hp|]. constructor; [|constructor]. split; [exact Hn|exact (Hh _ _ Hv)].
Qed.
Lemma items_env_ident l : good_items l -> ident_senv (items_env l).
Proof.
  intros Hl mods n fs Hin. unfold items_env in Hin. apply in_flat_map in Hin. destruct Hin as (it & Hit & Hin).
  pose proof Hl as Hl'. apply good_items_all in Hl'. rewrite Forall_forall in Hl'.
  apply (item_env_ident it (holders l) []); auto. intros; eapply holders_ident; eauto.
Qed.
Lemma prologue_ident : ident_tenv prologue_tenv.
Proof. intros x v H. unfold prologue_tenv in H. cbn [In] in H. destruct H as [[= <- _]|[[= <- _]|[[= <- _]|[[= <- _]|[]]]]]; reflexivity. Qed.
