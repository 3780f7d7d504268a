(** * CheckFacts: exactly which tries give a program that passes the check

    [fine] is the condition on the trie, [trow] lists the struct literals of
    the generated program with the variables bound on the way to them. *)
From Verif Require Import Base Core Trie Flat MiniRust Gen BaseFacts ExecFacts CompFacts.

(** What [gen_children] does at a node. *)
Inductive kids :=
| KLeaf
| KSep (c : ctrie)
| KStatic (u : str) (c : ctrie)
| KDyn (n : str) (c : ctrie)
| KSplit (u : str) (next : ctrie) (n : str) (d : ctrie)
| KArms (l : list (Charlike * ctrie))
| KBad.
Definition kids_of (t : ctrie) : kids :=
  match t_children t with
  | [] => KLeaf
  | [(CSeparator, c)] => KSep c
  | [(CStatic ch, c)] => let (more, c') := chase c in KStatic (ch :: more) c'
  | [(CDynamic n, c)] => KDyn n c
  | _ =>
      let '(u, _, next) := unamb t in
      match u with
      | [] => KArms (t_children t)
      | _ :: _ =>
          match find_dynamic (t_children t) with
          | None => KBad
          | Some (n, d) => KSplit u next n d
          end
      end
  end.

Lemma kids_sub t :
  match kids_of t with
  | KSep c | KStatic _ c | KDyn _ c => exists k t', In (k, t') (t_children t) /\ subtrie c t'
  | KSplit _ next _ d => subtrie next t /\ exists k, In (k, d) (t_children t)
  | KArms l => l = t_children t
  | _ => True
  end.
Proof.
  unfold kids_of.
  assert (Hm : match (let '(u, _, next) := unamb t in
      match u with
      | [] => KArms (t_children t)
      | _ :: _ =>
          match find_dynamic (t_children t) with
          | None => KBad
          | Some (n, d) => KSplit u next n d
          end
      end) with
      | KSep c | KStatic _ c | KDyn _ c => exists k t', In (k, t') (t_children t) /\ subtrie c t'
      | KSplit _ next _ d => subtrie next t /\ exists k, In (k, d) (t_children t)
      | KArms l => l = t_children t
      | _ => True
      end).
  { pose proof (unamb_sub (trie_height t) t ltac:(lia)) as Hs.
    destruct (unamb t) as [[u l] next]. cbn [snd] in Hs. destruct u as [|uc u]; auto.
    destruct (find_dynamic (t_children t)) as [[n d]|] eqn:E; auto.
    apply find_dynamic_in in E. eauto. }
  destruct (t_children t) as [|[[ch|n|] c] [|x l]] eqn:E; try exact Hm; auto.
  - pose proof (chase_sub (trie_height c) c ltac:(lia)) as Hs. destruct (chase c) as [m c'].
    cbn [snd] in Hs. exists (CStatic ch), c. split; [left; reflexivity|exact Hs].
  - exists (CDynamic n), c. split; [left; reflexivity|constructor].
  - exists CSeparator, c. split; [left; reflexivity|constructor].
Qed.
Lemma kids_dynamic t :
  match kids_of t with
  | KDyn n c | KSplit _ _ n c => In (CDynamic n, c) (t_children t)
  | _ => True
  end.
Proof.
  unfold kids_of.
  assert (Hm : match (let '(u, _, next) := unamb t in
      match u with
      | [] => KArms (t_children t)
      | _ :: _ =>
          match find_dynamic (t_children t) with
          | None => KBad
          | Some (n, d) => KSplit u next n d
          end
      end) with
      | KDyn n c | KSplit _ _ n c => In (CDynamic n, c) (t_children t)
      | _ => True
      end).
  { destruct (unamb t) as [[u l] next]. destruct u as [|uc u]; auto.
    destruct (find_dynamic (t_children t)) as [[n d]|] eqn:E; auto. apply find_dynamic_in in E. exact E. }
  destruct (t_children t) as [|[[ch|n|] c] [|x l]] eqn:E; try exact Hm; auto.
  - destruct (chase c). exact I.
  - left. reflexivity.
Qed.

Section Check.
Variable senv : struct_env.

Definition ret_params (fr : FlattenedRoute) (r : Resource) : list Param :=
  dynamics (f_path fr) ++ f_query fr ++ r_query r.
Definition ret_fine (fr : FlattenedRoute) (r : Resource) : Prop :=
  exists fs,
  lookup_struct senv (map module_names (r_modules r)) (to_caps_case (r_name r)) = Some fs /\
  (r_modules r = [] -> to_caps_case (r_name r) <> lit "P" /\ to_caps_case (r_name r) <> lit "M") /\
  NoDup (map p_name (ret_params fr r)) /\
  (forall fd, In fd fs -> In (fd_name fd) (map p_name (ret_params fr r))) /\
  (forall p, In p (dynamics (f_path fr)) ->
     exists fd, lookup_field fs (p_name p) = Some fd /\ fd_opt fd = false) /\
  (forall p, In p (f_query fr ++ r_query r) ->
     exists fd, lookup_field fs (p_name p) = Some fd /\ fd_opt fd = true /\
                unit_struct senv (lit "None") = false).

Fixpoint trow (fuel : nat) (t : ctrie) (ns : list str) (fr : FlattenedRoute) (r : Resource) : Prop :=
  match fuel with
  | O => False
  | S f =>
      (ns = [] /\ has_resources (t_data t) = Some fr /\ In r (f_resources fr)) \/
      match kids_of t with
      | KLeaf | KBad => False
      | KSep c | KStatic _ c => trow f c ns fr r
      | KDyn n c => exists ns', ns = n :: ns' /\ trow f c ns' fr r
      | KSplit _ next n d => trow f next ns fr r \/ exists ns', ns = n :: ns' /\ trow f d ns' fr r
      | KArms l => exists ch c, In (CStatic ch, c) l /\ trow f c ns fr r
      end
  end.
Definition tuse (f : nat) (t : ctrie) (x u : str) : Prop :=
  exists ns fr r, trow f t ns fr r /\ ~ In x ns /\ In u (ret_uses senv x (resource_ret fr r)).
Definition dyn_fine (f : nat) (n : str) (c : ctrie) : Prop :=
  (no_variable senv n = false /\ ~ In n [s_i; s_path; s_method]) /\
  exists T, (n = s_len -> T = s_usize) /\ (exists u, tuse f c n u) /\ forall u, tuse f c n u -> u = T.
Definition data_fine (o : option FlattenedRoute) : Prop :=
  forall fr r, has_resources o = Some fr -> In r (f_resources fr) -> ret_fine fr r.
Fixpoint fine (fuel : nat) (t : ctrie) : Prop :=
  match fuel with
  | O => False
  | S f =>
      data_fine (t_data t) /\
      match kids_of t with
      | KLeaf => True
      | KBad => False
      | KSep c => fine f c
      | KStatic u c => plain_lit u = true /\ fine f c
      | KDyn n c => dyn_fine f n c /\ fine f c
      | KSplit u next n d => plain_lit u = true /\ fine f next /\ dyn_fine f n d /\ fine f d
      | KArms l =>
          Forall (fun kc => match fst kc with
                            | CStatic ch => plain_byte_char ch = true /\ fine f (snd kc)
                            | _ => False
                            end) l
      end
  end.

(** ** The check of a struct literal *)
Lemma ret_fields_fst fr r :
  map fst (map (fun p => (p_name p, FVar)) (dynamics (f_path fr))
           ++ map (fun p => (p_name p, FNone)) (f_query fr)
           ++ map (fun p => (p_name p, FNone)) (r_query r)) = map p_name (ret_params fr r).
Proof. unfold ret_params. rewrite !map_app, !map_map. reflexivity. Qed.
Lemma hidden_type_false r :
  hidden_type (map module_names (r_modules r)) (to_caps_case (r_name r)) = false <->
  (r_modules r = [] -> to_caps_case (r_name r) <> lit "P" /\ to_caps_case (r_name r) <> lit "M").
Proof.
  unfold hidden_type. destruct (r_modules r) as [|m ms]; cbn [map].
  - rewrite orb_false_iff, !str_eqb_neq. tauto.
  - split; [intros _; discriminate|reflexivity].
Qed.
Lemma check_ret_split te fr r :
  check_ret senv te (resource_ret fr r) = true <->
  ret_fine fr r /\
  forall fs p fd, lookup_struct senv (map module_names (r_modules r)) (to_caps_case (r_name r)) = Some fs ->
    In p (dynamics (f_path fr)) -> lookup_field fs (p_name p) = Some fd ->
    (exists m, lookup (p_name p) te = Some (m, TVal (fd_typ fd))) \/
    (exists m, lookup (p_name p) te = Some (m, TUsize) /\ fd_typ fd = s_usize).
Proof.
  unfold check_ret, resource_ret, ret_fine. rewrite ret_fields_fst.
  destruct (lookup_struct senv _ _) as [fs|].
  2: { split; [discriminate|]. intros [(fs & H & _) _]. discriminate. }
  rewrite !andb_true_iff, negb_true_iff, hidden_type_false, nodup_strs_NoDup, !forallb_forall.
  assert (Hex : forall fd, existsb (fun f : str * field_init => str_eqb (fst f) (fd_name fd))
      (map (fun p => (p_name p, FVar)) (dynamics (f_path fr))
           ++ map (fun p => (p_name p, FNone)) (f_query fr)
           ++ map (fun p => (p_name p, FNone)) (r_query r)) = true <-> In (fd_name fd) (map p_name (ret_params fr r))).
  { intros fd. rewrite <- ret_fields_fst, in_map_iff, existsb_exists. split.
    - intros (f & H1 & H2). apply str_eqb_eq in H2. eauto.
    - intros (f & H1 & H2). exists f. split; auto. rewrite H1. apply str_eqb_refl. }
  split.
  - intros [[[H1 H2] H3] H4]. split.
    + exists fs. split; [reflexivity|]. split; [exact H1|]. split; [exact H2|].
      split; [intros fd Hfd; apply Hex; auto|]. split.
      * intros p Hp. specialize (H4 (p_name p, FVar)). cbn [fst snd] in H4.
        destruct (lookup_field fs (p_name p)) as [fd|].
        -- exists fd. split; auto. apply negb_true_iff.
           apply (proj1 (andb_prop _ _ (H4 ltac:(rewrite in_app_iff; left; apply in_map_iff; eauto)))).
        -- exfalso. assert (false = true); [|discriminate]. apply H4. rewrite in_app_iff. left. apply in_map_iff. eauto.
      * intros p Hp. specialize (H4 (p_name p, FNone)). cbn [fst snd] in H4.
        assert (Hin : In (p_name p, FNone)
          (map (fun p => (p_name p, FVar)) (dynamics (f_path fr))
           ++ map (fun p => (p_name p, FNone)) (f_query fr)
           ++ map (fun p => (p_name p, FNone)) (r_query r))).
        { rewrite in_app_iff. right. rewrite <- map_app. apply in_map_iff. eauto. }
        specialize (H4 Hin). destruct (lookup_field fs (p_name p)) as [fd|]; [|discriminate].
        apply andb_true_iff in H4. destruct H4 as [H4 H5]. apply negb_true_iff in H5. eauto.
    + intros fs' p fd [= <-] Hp Hfd. specialize (H4 (p_name p, FVar)). cbn [fst snd] in H4.
      rewrite Hfd in H4. assert (Hin : In (p_name p, FVar)
          (map (fun p => (p_name p, FVar)) (dynamics (f_path fr))
           ++ map (fun p => (p_name p, FNone)) (f_query fr)
           ++ map (fun p => (p_name p, FNone)) (r_query r))).
      { rewrite in_app_iff. left. apply in_map_iff. eauto. }
      specialize (H4 Hin). apply andb_true_iff in H4. destruct H4 as [_ H4].
      destruct (lookup (p_name p) te) as [[m [| | |t]]|]; try discriminate.
      * right. exists m. split; auto. symmetry. apply str_eqb_eq. exact H4.
      * left. exists m. do 3 f_equal. apply str_eqb_eq. exact H4.
  - intros [(fs' & [= <-] & H1 & H2 & H3 & H4 & H5) H6]. repeat split; try assumption; try (apply H1; assumption).
    + intros fd Hfd. apply Hex; auto.
    + intros [x f] Hin. cbn [fst snd]. rewrite <- map_app, in_app_iff, !in_map_iff in Hin.
      destruct Hin as [(p & [= <- <-] & Hp)|(p & [= <- <-] & Hp)].
      * destruct (H4 p Hp) as (fd & E & Ho). rewrite E, Ho.
        destruct (H6 fs p fd eq_refl Hp E) as [[m ->]|[m [-> ->]]]; apply str_eqb_refl.
      * destruct (H5 p Hp) as (fd & -> & -> & ->). reflexivity.
Qed.

(** Uses of a variable in a struct literal. *)
Lemma ret_uses_in fr r x u :
  In u (ret_uses senv x (resource_ret fr r)) <->
  (exists p, In p (dynamics (f_path fr)) /\ p_name p = x) /\
  exists fs fd, lookup_struct senv (map module_names (r_modules r)) (to_caps_case (r_name r)) = Some fs /\
    lookup_field fs x = Some fd /\ fd_typ fd = u.
Proof.
  unfold ret_uses, resource_ret.
  destruct (lookup_struct senv _ _) as [fs|].
  2: { split; [intros []|]. intros [_ (fs & fd & H & _)]. discriminate. }
  rewrite in_concat. split.
  - intros (l & Hl & Hu). apply in_map_iff in Hl. destruct Hl as ([y f] & <- & Hy).
    rewrite <- map_app, in_app_iff, !in_map_iff in Hy.
    destruct Hy as [(p & [= <- <-] & Hp)|(p & [= <- <-] & Hp)]; [|destruct Hu].
    destruct (str_eqb_spec (p_name p) x) as [<-|]; [|destruct Hu].
    destruct (lookup_field fs (p_name p)) as [fd|] eqn:E; [|destruct Hu]. destruct Hu as [<-|[]].
    split; [eauto|]. exists fs, fd. auto.
  - intros [(p & Hp & <-) (fs' & fd & [= <-] & Hf & <-)]. exists [fd_typ fd]. split; [|left; reflexivity].
    apply in_map_iff. exists (p_name p, FVar). rewrite str_eqb_refl, Hf. split; [reflexivity|].
    apply in_app_iff. left. apply in_map_iff. eauto.
Qed.

(** ** The generated children *)
Lemma gen_kids rec t b :
  gen_children rec t = ROk b ->
  match kids_of t with
  | KLeaf => b = [not_found]
  | KBad => False
  | KSep c => exists b', rec c = ROk b' /\
      b = (match has_resources (t_data c) with Some route => methods_stmt route | None => SIf i_eq_len [not_found] end)
          :: expect 1 (lit "/") :: b'
  | KStatic u c => exists b', rec c = ROk b' /\
      b = SIf (if (byte_len u =? 1)%nat then i_eq_len else BGt (EPlus s_i (byte_len u)) (EVar s_len)) [not_found]
          :: expect (byte_len u) u :: b'
  | KDyn n c => exists b', rec c = ROk b' /\ b = SLet s_start (EVar s_i) :: dynamic_block n b'
  | KSplit u next n d => exists k b1 b2, rec next = ROk b1 /\ rec d = ROk b2 /\
      b = SBlank :: SLet s_start (EVar s_i) :: SBlank
          :: SIf (if (k =? 1)%nat then BLe (EVar s_i) (EVar s_len) else BLe (EPlus s_i k) (EVar s_len))
               [SMatch (path_slice k) [(AHBlock u, SAdd s_i k :: b1); (AHWildUnit, [])]]
          :: dynamic_block n b2
  | KArms l => exists st arms, gen_arms rec l = ROk arms /\
      (st = [] \/ st = [SBlank; SLet s_start (EVar s_i); SBlank]) /\
      b = st ++ [SIf i_eq_len [not_found]; SMatch (path_slice 1) (arms ++ [(AHWild, [not_found])])]
  end.
Proof.
  unfold gen_children, kids_of.
  assert (Hm : gen_many rec t = ROk b ->
    match (let '(u, _, next) := unamb t in
      match u with
      | [] => KArms (t_children t)
      | _ :: _ =>
          match find_dynamic (t_children t) with
          | None => KBad
          | Some (n, d) => KSplit u next n d
          end
      end) with
    | KSplit u next n d => exists k b1 b2, rec next = ROk b1 /\ rec d = ROk b2 /\
      b = SBlank :: SLet s_start (EVar s_i) :: SBlank
          :: SIf (if (k =? 1)%nat then BLe (EVar s_i) (EVar s_len) else BLe (EPlus s_i k) (EVar s_len))
               [SMatch (path_slice k) [(AHBlock u, SAdd s_i k :: b1); (AHWildUnit, [])]]
          :: dynamic_block n b2
    | KArms l => exists st arms, gen_arms rec l = ROk arms /\
      (st = [] \/ st = [SBlank; SLet s_start (EVar s_i); SBlank]) /\
      b = st ++ [SIf i_eq_len [not_found]; SMatch (path_slice 1) (arms ++ [(AHWild, [not_found])])]
    | _ => False
    end).
  { unfold gen_many. destruct (unamb t) as [[u l] next]. cbv zeta. destruct u as [|uc u].
    - destruct (gen_arms rec (t_children t)) as [arms| | |]; try discriminate. intros [= <-].
      eexists. exists arms. split; [reflexivity|]. split; [|reflexivity].
      destruct (find_dynamic (t_children t)); auto.
    - destruct (find_dynamic (t_children t)) as [[n d]|]; [|discriminate].
      destruct (rec next) as [b1| | |] eqn:E1; try discriminate. cbn [rbind].
      destruct (gen_dynamic rec d n) as [b2| | |] eqn:E2; try discriminate. intros [= <-].
      apply gen_dynamic_inv in E2. destruct E2 as (b2' & E2 & ->).
      exists (if (l =? 0)%nat then 1 else l), b1, b2'. split; auto. }
  assert (Hm' : gen_many rec t = ROk b ->
    forall k : kids,
    (let '(u, _, next) := unamb t in
      match u with
      | [] => KArms (t_children t)
      | _ :: _ =>
          match find_dynamic (t_children t) with
          | None => KBad
          | Some (n, d) => KSplit u next n d
          end
      end) = k ->
    match k with
    | KLeaf => b = [not_found]
    | KBad => False
    | KSep c => exists b', rec c = ROk b' /\
        b = (match has_resources (t_data c) with Some route => methods_stmt route | None => SIf i_eq_len [not_found] end)
            :: expect 1 (lit "/") :: b'
    | KStatic u c => exists b', rec c = ROk b' /\
        b = SIf (if (byte_len u =? 1)%nat then i_eq_len else BGt (EPlus s_i (byte_len u)) (EVar s_len)) [not_found]
            :: expect (byte_len u) u :: b'
    | KDyn n c => exists b', rec c = ROk b' /\ b = SLet s_start (EVar s_i) :: dynamic_block n b'
    | KSplit u next n d => exists k b1 b2, rec next = ROk b1 /\ rec d = ROk b2 /\
        b = SBlank :: SLet s_start (EVar s_i) :: SBlank
            :: SIf (if (k =? 1)%nat then BLe (EVar s_i) (EVar s_len) else BLe (EPlus s_i k) (EVar s_len))
                 [SMatch (path_slice k) [(AHBlock u, SAdd s_i k :: b1); (AHWildUnit, [])]]
            :: dynamic_block n b2
    | KArms l => exists st arms, gen_arms rec l = ROk arms /\
        (st = [] \/ st = [SBlank; SLet s_start (EVar s_i); SBlank]) /\
        b = st ++ [SIf i_eq_len [not_found]; SMatch (path_slice 1) (arms ++ [(AHWild, [not_found])])]
    end).
  { intros H k Hk. specialize (Hm H). rewrite Hk in Hm. destruct k; try contradiction; exact Hm. }
  clear Hm.
  destruct (t_children t) as [|[[ch|n|] c] [|x l]] eqn:E;
    try (intros H; exact (Hm' H _ eq_refl)).
  - intros [= <-]. reflexivity.
  - destruct (chase c) as [m c']. destruct (rec c') as [b'| | |] eqn:Er; try discriminate.
    intros [= <-]. exists b'. split; [reflexivity|]. reflexivity.
  - destruct (gen_dynamic rec c n) as [b'| | |] eqn:Er; try discriminate.
    intros [= <-]. apply gen_dynamic_inv in Er. destruct Er as (b'' & Er & ->). eauto.
  - destruct (rec c) as [b'| | |] eqn:Er; try discriminate. intros [= <-]. eauto.
Qed.

(** ** The uses of a variable in the program *)
Lemma methods_uses x fr u :
  In u (stmt_uses senv x (methods_stmt fr)) <->
  exists r, In r (f_resources fr) /\ In u (ret_uses senv x (resource_ret fr r)).
Proof.
  unfold methods_stmt. rewrite stmt_uses_if. cbn [block_uses]. rewrite app_nil_r, stmt_uses_match.
  rewrite map_app, concat_app, in_app_iff, map_map. split.
  - intros [Hin|[]]. apply in_concat in Hin. destruct Hin as (l & Hl & Hu). apply in_map_iff in Hl.
    destruct Hl as (r & <- & Hr). cbn [snd] in Hu. rewrite block_uses_cons in Hu.
    cbn [binds block_uses stmt_uses] in Hu. rewrite app_nil_r in Hu. eauto.
  - intros (r & Hr & Hu). left. apply in_concat.
    eexists. split; [apply in_map_iff; exists r; split; [reflexivity|exact Hr]|].
    cbn [snd]. rewrite block_uses_cons. apply in_app_iff. left. exact Hu.
Qed.
Lemma dynamic_uses x n b u :
  x <> s_text ->
  In u (block_uses senv x (dynamic_block n b)) <-> n <> x /\ In u (block_uses senv x b).
Proof.
  intros Hx. unfold dynamic_block. cbn [app].
  do 3 (rewrite block_uses_cons; cbn [binds stmt_uses app]).
  cbn [block_uses app binds stmt_uses].
  rewrite (proj2 (str_eqb_neq s_text x)) by congruence.
  destruct (str_eqb_spec n x) as [->|Hn]; simpl; tauto.
Qed.
Lemma block_uses_skip x s l :
  stmt_uses senv x s = [] -> binds x s = false -> block_uses senv x (s :: l) = block_uses senv x l.
Proof. intros H1 H2. rewrite block_uses_cons, H1, H2. reflexivity. Qed.
Lemma expect_uses x n u l : block_uses senv x (expect n u :: l) = block_uses senv x l.
Proof. apply block_uses_skip; reflexivity. Qed.

Lemma arms_uses x rec l arms u :
  gen_arms rec l = ROk arms ->
  (forall b, In (AHStmts, b) arms -> False) ->
  In u (concat (map (fun a => block_uses senv x (snd a)) arms)) <->
  exists ch c b, In (CStatic ch, c) l /\ rec c = ROk b /\ In u (block_uses senv x b).
Proof.
  revert arms. induction l as [|[[ch|n|] c] l IH]; intros arms; cbn [gen_arms].
  - intros [= <-] _. split; [intros []|]. intros (? & ? & ? & [] & _).
  - destruct (rec c) as [b| | |] eqn:Eb; try discriminate.
    destruct (gen_arms rec l) as [arms'| | |]; try discriminate. intros [= <-] Hst.
    cbn [map concat snd]. rewrite in_app_iff, (IH arms' eq_refl) by (intros b' H; apply (Hst b'); right; exact H).
    rewrite block_uses_skip by reflexivity. split.
    + intros [H|(ch' & c' & b' & H1 & H2)]; [exists ch, c, b|exists ch', c', b']; simpl; auto.
    + intros (ch' & c' & b' & [[= <- <-]|H1] & H2 & H3); [left; congruence|right; eauto 6].
  - destruct (gen_dynamic rec c n) as [b| | |]; try discriminate. intros [= <-] Hst.
    destruct (Hst b (or_introl eq_refl)).
  - destruct (gen_arms rec l) as [arms'| | |]; try discriminate. intros [= <-] Hst.
    cbn [map concat snd]. rewrite in_app_iff, (IH arms' eq_refl) by (intros b' H; apply (Hst b'); right; exact H).
    cbn [block_uses]. split.
    + intros [[]|(ch' & c' & b' & H1 & H2)]. exists ch', c', b'. simpl. auto.
    + intros (ch' & c' & b' & [H1|H1] & H2); [discriminate|right; eauto 6].
Qed.

Lemma methods_block_uses x o b u :
  In u (block_uses senv x (methods_block o ++ b)) <->
  (exists fr r, has_resources o = Some fr /\ In r (f_resources fr) /\ In u (ret_uses senv x (resource_ret fr r)))
  \/ In u (block_uses senv x b).
Proof.
  unfold methods_block. destruct (has_resources o) as [fr|]; cbn [app].
  - rewrite block_uses_cons, in_app_iff, methods_uses. cbn [binds methods_stmt]. split.
    + intros [(r & H)|H]; [left; exists fr, r; tauto|auto].
    + intros [(fr' & r & [= <-] & H)|H]; [left; eauto|auto].
  - split; [auto|]. intros [(fr & r & H & _)|H]; [discriminate|exact H].
Qed.

Definition arms_ok (l : list (Charlike * ctrie)) : Prop :=
  Forall (fun kc => is_static (fst kc) = true) l.
Lemma arms_ok_stmts rec l arms : arms_ok l -> gen_arms rec l = ROk arms ->
  forall b, In (AHStmts, b) arms -> False.
Proof.
  intros H. revert arms. induction H as [|[[ch|n|] c] l Hk H IH]; try discriminate; intros arms; cbn [gen_arms].
  - intros [= <-] b [].
  - destruct (rec c) as [b0| | |]; try discriminate.
    destruct (gen_arms rec l) as [arms'| | |]; try discriminate. intros [= <-] b [E|Hin]; [discriminate|].
    eapply IH; eauto.
Qed.

Lemma arms_gen rec l arms k c : arms_ok l -> gen_arms rec l = ROk arms -> In (k, c) l ->
  exists b, rec c = ROk b.
Proof.
  intros H. revert arms. induction H as [|[[ch|n|] c'] l Hk H IH]; try discriminate; intros arms; cbn [gen_arms].
  - intros _ [].
  - destruct (rec c') as [b0| | |] eqn:Eb; try discriminate.
    destruct (gen_arms rec l) as [arms'| | |]; try discriminate. intros _ [[= <- <-]|Hin]; eauto.
Qed.

Lemma tuse_S f t x u :
  tuse (S f) t x u <->
  (exists fr r, has_resources (t_data t) = Some fr /\ In r (f_resources fr) /\ In u (ret_uses senv x (resource_ret fr r)))
  \/ match kids_of t with
     | KLeaf | KBad => False
     | KSep c | KStatic _ c => tuse f c x u
     | KDyn n c => n <> x /\ tuse f c x u
     | KSplit _ next n d => tuse f next x u \/ (n <> x /\ tuse f d x u)
     | KArms l => exists ch c, In (CStatic ch, c) l /\ tuse f c x u
     end.
Proof.
  unfold tuse at 1. cbn [trow]. split.
  - intros (ns & fr & r & [(-> & H1 & H2)|H] & Hn & Hu); [left; eauto|]. right.
    destruct (kids_of t); try contradiction.
    + exists ns, fr, r; auto.
    + exists ns, fr, r; auto.
    + destruct H as (ns' & -> & H). split; [intros ->; apply Hn; left; reflexivity|].
      exists ns', fr, r. split; auto. split; auto. intros Hi; apply Hn; right; exact Hi.
    + destruct H as [H|(ns' & -> & H)]; [left; exists ns, fr, r; auto|right].
      split; [intros ->; apply Hn; left; reflexivity|].
      exists ns', fr, r. split; auto. split; auto. intros Hi; apply Hn; right; exact Hi.
    + destruct H as (ch & c & Hin & H). exists ch, c. split; auto. exists ns, fr, r; auto.
  - intros [(fr & r & H1 & H2 & H3)|H].
    { exists [], fr, r. split; [left; auto|]. auto. }
    destruct (kids_of t); try contradiction.
    + destruct H as (ns & fr & r & H1 & H2 & H3). exists ns, fr, r. auto.
    + destruct H as (ns & fr & r & H1 & H2 & H3). exists ns, fr, r. auto.
    + destruct H as [Hne (ns & fr & r & H1 & H2 & H3)]. exists (n :: ns), fr, r.
      split; [right; eauto|]. split; auto. intros [?|?]; auto.
    + destruct H as [(ns & fr & r & H1 & H2 & H3)|[Hne (ns & fr & r & H1 & H2 & H3)]].
      * exists ns, fr, r. auto.
      * exists (n :: ns), fr, r. split; [right; right; eauto|]. split; auto. intros [?|?]; auto.
    + destruct H as (ch & c & Hin & ns & fr & r & H1 & H2 & H3). exists ns, fr, r.
      split; [right; eauto|]. auto.
Qed.

Definition free (x : str) : Prop := x <> s_text /\ x <> s_start.
Lemma let_start_uses x b : free x -> block_uses senv x (SLet s_start (EVar s_i) :: b) = block_uses senv x b.
Proof.
  intros [_ H]. apply block_uses_skip; [reflexivity|]. cbn [binds]. apply str_eqb_neq. congruence.
Qed.

Lemma fine_arms f l :
  Forall (fun kc => match fst kc with
                    | CStatic ch => plain_byte_char ch = true /\ fine f (snd kc)
                    | _ => False
                    end) l -> arms_ok l.
Proof. apply Forall_impl. intros [[ch|n|] c]; cbn [fst is_static]; tauto. Qed.

Lemma uses_iff x u : free x -> forall fuel t b,
  gen_trie fuel t = ROk b -> fine fuel t -> (In u (block_uses senv x b) <-> tuse fuel t x u).
Proof.
  intros Hx. induction fuel as [|f IH]; intros t b; [discriminate|].
  cbn [gen_trie]. destruct (gen_children (gen_trie f) t) as [b0| | |] eqn:Eg; try discriminate.
  intros [= <-] [_ Hf]. rewrite methods_block_uses, tuse_S.
  apply gen_kids in Eg.
  assert (Hk : In u (block_uses senv x b0) <->
     match kids_of t with
     | KLeaf | KBad => False
     | KSep c =>
         (exists fr r, has_resources (t_data c) = Some fr /\ In r (f_resources fr) /\ In u (ret_uses senv x (resource_ret fr r)))
         \/ tuse f c x u
     | KStatic _ c => tuse f c x u
     | KDyn n c => n <> x /\ tuse f c x u
     | KSplit _ next n d => tuse f next x u \/ (n <> x /\ tuse f d x u)
     | KArms l => exists ch c, In (CStatic ch, c) l /\ tuse f c x u
     end).
  { destruct (kids_of t).
    - subst b0. simpl. tauto.
    - destruct Eg as (b' & Eb & ->). rewrite block_uses_cons, in_app_iff.
      assert (binds x (match has_resources (t_data c) with Some route => methods_stmt route
                        | None => SIf i_eq_len [not_found] end) = false) as ->
        by (destruct (has_resources (t_data c)); reflexivity).
      rewrite expect_uses, (IH _ _ Eb Hf).
      destruct (has_resources (t_data c)) as [fr|].
      + rewrite methods_uses. split.
        * intros [(r & H)|H]; [left; exists fr, r; tauto|auto].
        * intros [(fr' & r & [= <-] & H)|H]; [left; eauto|auto].
      + split; [intros [[]|H]; auto|]. intros [(fr' & r & H & _)|H]; [discriminate|auto].
    - destruct Eg as (b' & Eb & ->). rewrite block_uses_skip by reflexivity. rewrite expect_uses.
      apply IH; tauto.
    - destruct Eg as (b' & Eb & ->). rewrite (let_start_uses _ _ Hx), dynamic_uses by apply Hx.
      rewrite (IH _ _ Eb) by tauto. tauto.
    - destruct Eg as (k & b1 & b2 & E1 & E2 & ->).
      rewrite block_uses_skip by reflexivity. rewrite (let_start_uses _ _ Hx).
      rewrite block_uses_skip by reflexivity. rewrite block_uses_cons, in_app_iff, stmt_uses_if.
      cbn [binds]. rewrite dynamic_uses by apply Hx. rewrite (IH _ _ E2) by tauto.
      cbn [block_uses]. rewrite app_nil_r, stmt_uses_match. cbn [map concat snd].
      rewrite block_uses_skip by reflexivity. cbn [block_uses]. rewrite !app_nil_r, (IH _ _ E1) by tauto. tauto.
    - destruct Eg as (st & arms & Ea & Hst & ->).
      assert (Hb : block_uses senv x (st ++ [SIf i_eq_len [not_found];
                      SMatch (path_slice 1) (arms ++ [(AHWild, [not_found])])]) =
                   concat (map (fun a => block_uses senv x (snd a)) arms)).
      { assert (H0 : block_uses senv x [SIf i_eq_len [not_found];
                      SMatch (path_slice 1) (arms ++ [(AHWild, [not_found])])] =
                     concat (map (fun a => block_uses senv x (snd a)) arms)).
        { rewrite block_uses_skip by reflexivity. rewrite block_uses_cons, stmt_uses_match.
          cbn [binds block_uses]. rewrite map_app, concat_app, app_nil_r.
          change (concat (map (fun a => block_uses senv x (snd a)) [(AHWild, [not_found])])) with (@nil str).
          apply app_nil_r. }
        destruct Hst as [->| ->]; [exact H0|]. cbn [app].
        rewrite block_uses_skip by reflexivity. rewrite (let_start_uses _ _ Hx).
        rewrite block_uses_skip by reflexivity. exact H0. }
      rewrite Hb, (arms_uses _ _ _ _ _ Ea (arms_ok_stmts _ _ _ (fine_arms _ _ Hf) Ea)).
      rewrite Forall_forall in Hf. split.
      + intros (ch & c & b' & H1 & H2 & H3). exists ch, c. split; auto. apply (IH _ _ H2); auto.
        apply (Hf _ H1).
      + intros (ch & c & H1 & H2).
        assert (Hr : exists b', gen_trie f c = ROk b').
        { eapply arms_gen; [apply fine_arms with (f := f); apply Forall_forall; exact Hf|exact Ea|exact H1]. }
        destruct Hr as [b' Hb']. exists ch, c, b'. split; auto. split; auto. apply (IH _ _ Hb'); auto.
        apply (Hf _ H1).
    - destruct Eg. }
  rewrite Hk. destruct (kids_of t); try tauto.
  destruct f as [|f]; [destruct Hf|]. rewrite (tuse_S f c). tauto.
Qed.

Lemma trow_sub f : forall t ns fr r, trow f t ns fr r ->
  exists t', subtrie t' t /\ t_data t' = Some fr /\ In r (f_resources fr).
Proof.
  induction f as [|f IH]; intros t ns fr r; [intros []|]. cbn [trow].
  intros [(_ & H1 & H2)|H].
  { exists t. split; [constructor|]. split; auto. apply has_resources_data; auto. }
  pose proof (kids_sub t) as Hs.
  assert (Hc : forall c k t' ns', In (k, t') (t_children t) -> subtrie c t' -> trow f c ns' fr r ->
    exists t', subtrie t' t /\ t_data t' = Some fr /\ In r (f_resources fr)).
  { intros c k t' ns' H1 H2 H3. apply IH in H3. destruct H3 as (t2 & Hs2 & H3).
    exists t2. split; auto. eapply subtrie_trans; [exact Hs2|]. eapply sub_step; eauto. }
  destruct (kids_of t); try contradiction.
  - destruct Hs as (k & t' & H1 & H2). eauto.
  - destruct Hs as (k & t' & H1 & H2). eauto.
  - destruct Hs as (k & t' & H1 & H2). destruct H as (ns' & _ & H). eauto.
  - destruct Hs as [Hs (k & Hd)]. destruct H as [H|(ns' & _ & H)].
    + apply IH in H. destruct H as (t2 & Hs2 & H3). exists t2. split; auto. eapply subtrie_trans; eauto.
    + eapply Hc; [exact Hd|constructor|exact H].
  - subst l. destruct H as (ch & c & Hin & H). eapply Hc; [exact Hin|constructor|exact H].
Qed.
Lemma tuse_data f t x u : tuse f t x u -> data_use senv x t u.
Proof.
  intros (ns & fr & r & H & _ & Hu). apply trow_sub in H. destruct H as (t' & H1 & H2 & H3).
  exists t', fr, r. auto.
Qed.
Lemma dynamic_uses_in x n b u :
  In u (block_uses senv x (dynamic_block n b)) -> n <> x /\ In u (block_uses senv x b).
Proof.
  unfold dynamic_block. cbn [app].
  do 3 (rewrite block_uses_cons; cbn [binds stmt_uses app]).
  cbn [block_uses app binds stmt_uses].
  destruct (str_eqb s_text x); [intros []|].
  destruct (str_eqb_spec n x) as [->|Hn]; simpl; tauto.
Qed.
(** Whatever the name: what is used in the program is used in the tree. *)
Lemma uses_tuse x u : forall fuel t b,
  gen_trie fuel t = ROk b -> fine fuel t -> In u (block_uses senv x b) -> tuse fuel t x u.
Proof.
  induction fuel as [|f IH]; intros t b; [discriminate|].
  cbn [gen_trie]. destruct (gen_children (gen_trie f) t) as [b0| | |] eqn:Eg; try discriminate.
  intros [= <-] [_ Hf]. rewrite methods_block_uses, tuse_S. intros [H|H]; [left; exact H|]. right.
  apply gen_kids in Eg.
  destruct (kids_of t).
  - subst b0. exact H.
  - destruct Eg as (b' & Eb & ->). apply block_uses_cons_in in H. destruct H as [H|H].
    + destruct (has_resources (t_data c)) as [fr|] eqn:Er; [|destruct H].
      apply methods_uses in H. destruct H as (r & H1 & H2).
      destruct f as [|f]; [destruct Hf|]. apply tuse_S. left. eauto.
    + rewrite expect_uses in H. eapply IH; eauto.
  - destruct Eg as (b' & Eb & ->). apply block_uses_cons_in in H. destruct H as [[]|H].
    rewrite expect_uses in H. eapply IH; eauto; tauto.
  - destruct Eg as (b' & Eb & ->). apply block_uses_cons_in in H. destruct H as [[]|H].
    apply dynamic_uses_in in H. destruct H as [Hn H]. split; [exact Hn|]. eapply IH; eauto; tauto.
  - destruct Eg as (k & b1 & b2 & E1 & E2 & ->).
    do 3 (apply block_uses_cons_in in H; destruct H as [[]|H]).
    rewrite block_uses_cons, in_app_iff, stmt_uses_if in H. cbn [binds] in H. destruct H as [H|H].
    + left. cbn [block_uses] in H. rewrite app_nil_r, stmt_uses_match in H. cbn [map concat snd] in H.
      rewrite block_uses_skip in H by reflexivity. cbn [block_uses] in H. rewrite !app_nil_r in H.
      eapply IH; eauto; tauto.
    + right. apply dynamic_uses_in in H. destruct H as [Hn H]. split; [exact Hn|]. eapply IH; eauto; tauto.
  - destruct Eg as (st & arms & Ea & Hst & ->).
    assert (H0 : In u (block_uses senv x [SIf i_eq_len [not_found];
                    SMatch (path_slice 1) (arms ++ [(AHWild, [not_found])])])).
    { destruct Hst as [->| ->]; [exact H|]. cbn [app] in H.
      do 3 (apply block_uses_cons_in in H; destruct H as [[]|H]). exact H. }
    rewrite block_uses_skip in H0 by reflexivity. rewrite block_uses_cons, stmt_uses_match in H0.
    cbn [binds block_uses] in H0. rewrite map_app, concat_app, app_nil_r in H0.
    apply in_app_iff in H0. destruct H0 as [H0|[]].
    apply (arms_uses _ _ _ _ _ Ea (arms_ok_stmts _ _ _ (fine_arms _ _ Hf) Ea)) in H0.
    destruct H0 as (ch & c & b' & H1 & H2 & H3). exists ch, c. split; auto. eapply IH; eauto.
    rewrite Forall_forall in Hf. apply (Hf _ H1).
  - destruct Eg.
Qed.

(** ** A program that passes the check *)
Definition hyg (t : ctrie) : Prop :=
  forall t' fr p, subtrie t' t -> t_data t' = Some fr -> In p (dynamics (f_path fr)) ->
                  ~ In (p_name p) reserved.
Lemma hyg_sub t s : subtrie s t -> hyg t -> hyg s.
Proof. intros Hs H t' fr p Ht'. apply H. eapply subtrie_trans; eauto. Qed.
Lemma reserved_free x : ~ In x reserved -> free x.
Proof. intros H. split; intros ->; apply H; simpl; tauto. Qed.
Lemma data_use_free x t u : hyg t -> data_use senv x t u -> free x.
Proof.
  intros Hh (t' & fr & r & Hs & Hd & _ & Hu). apply ret_uses_in in Hu.
  destruct Hu as [(p & Hp & <-) _]. apply reserved_free. eapply Hh; eauto.
Qed.
(** All uses of a parameter have one type, unless the generated code has no
    variable of this name. *)
Definition told (t : ctrie) : Prop :=
  forall t' n c, subtrie t' t -> In (CDynamic n, c) (t_children t') ->
  free n \/ exists T, forall u, data_use senv n c u -> u = T.
Lemma told_sub t s : subtrie s t -> told t -> told s.
Proof. intros Hs H t' n c Ht'. apply H. eapply subtrie_trans; eauto. Qed.
Lemma hyg_told t : hyg t -> told t.
Proof.
  intros H t' n c Hs Hin. destruct (str_eqb_spec n s_text) as [E1|E1].
  - right. exists []. intros u Hu. exfalso. apply data_use_free in Hu; [|].
    + apply (proj1 Hu E1).
    + eapply hyg_sub; [|exact H]. eapply subtrie_trans; [|exact Hs]. eapply sub_step; [exact Hin|constructor].
  - destruct (str_eqb_spec n s_start) as [E2|E2]; [|left; split; assumption].
    right. exists []. intros u Hu. exfalso. apply data_use_free in Hu; [|].
    + apply (proj2 Hu E2).
    + eapply hyg_sub; [|exact H]. eapply subtrie_trans; [|exact Hs]. eapply sub_step; [exact Hin|constructor].
Qed.
Lemma checks_methods o b fr r :
  checks senv (methods_block o ++ b) -> has_resources o = Some fr -> In r (f_resources fr) -> ret_fine fr r.
Proof.
  unfold methods_block. intros Hc Er Hr. rewrite Er in Hc. cbn [app] in Hc.
  destruct Hc as (te & d0 & d & Hc). rewrite check_block_cons in Hc.
  destruct (check_stmt senv te (methods_stmt fr) b) as [x|] eqn:Ec; [|discriminate].
  pose proof (check_methods _ _ _ _ _ _ Ec Hr) as Hret. apply check_ret_split in Hret. apply Hret.
Qed.
(** The next node after a parameter is a separator. *)
Lemma kids_sep rec t b : gen_children rec t = ROk b ->
  match kids_of t with KDyn _ c | KSplit _ _ _ c => exists s, kids_of c = KSep s | _ => True end.
Proof.
  assert (Hd : forall n c b, gen_dynamic rec c n = ROk b -> exists s, kids_of c = KSep s).
  { intros n c b'. unfold gen_dynamic, kids_of. destruct (t_children c) as [|[[| |] s] [|]]; try discriminate. eauto. }
  assert (Hm : gen_many rec t = ROk b ->
    match (let '(u, _, next) := unamb t in
      match u with
      | [] => KArms (t_children t)
      | _ :: _ =>
          match find_dynamic (t_children t) with
          | None => KBad
          | Some (n, d) => KSplit u next n d
          end
      end) with KDyn _ c | KSplit _ _ _ c => exists s, kids_of c = KSep s | _ => True end).
  { unfold gen_many. destruct (unamb t) as [[u l] next]. destruct u as [|u0 u]; [auto|].
    destruct (find_dynamic (t_children t)) as [[n d]|]; [|auto].
    destruct (rec next); try discriminate. cbn [rbind]. destruct (gen_dynamic rec d n) eqn:E; try discriminate.
    intros _. eapply Hd; exact E. }
  unfold gen_children. intros H. unfold kids_of at 1.
  destruct (t_children t) as [|[[ch|n|] c] [|x l]]; try (apply Hm; exact H); auto.
  - destruct (chase c); exact I.
  - destruct (gen_dynamic rec c n) eqn:E; try discriminate. eapply Hd; exact E.
Qed.
(** A parameter with the name of a variable that the code below needs. *)
Lemma method_blind te fr rest ty m x : lookup s_method te = Some (m, TVal ty) ->
  check_stmt senv te (methods_stmt fr) rest = Some x -> False.
Proof.
  intros Hl. unfold methods_stmt. rewrite check_stmt_if. destruct (check_bexpr te _); [|discriminate].
  rewrite check_block_cons, check_stmt_match. unfold check_scrut. rewrite Hl. discriminate.
Qed.
Lemma blind_block te o b d0 d ty m : lookup s_method te = Some (m, TVal ty) ->
  check_block senv te (methods_block o ++ b) d0 = Some d -> has_resources o = None /\ check_block senv te b d0 = Some d.
Proof.
  intros Hl. unfold methods_block. destruct (has_resources o) as [fr|]; [|auto]. cbn [app]. rewrite check_block_cons.
  destruct (check_stmt senv te (methods_stmt fr) b) eqn:E; [|discriminate].
  exfalso. eapply method_blind; eauto.
Qed.
Lemma blind_dynamic te n b d0 d ty m : lookup s_method te = Some (m, TVal ty) ->
  check_block senv te (dynamic_block n b) d0 = Some d -> n <> s_method ->
  exists te' d1, check_block senv te' b d1 = Some d /\ lookup s_method te' = Some (m, TVal ty).
Proof.
  intros Hl Hc Hn. unfold dynamic_block in Hc. cbn [app] in Hc.
  rewrite check_block_cons in Hc. cbn [check_stmt] in Hc.
  rewrite check_block_cons in Hc. rewrite check_stmt_while in Hc.
  destruct (check_bexpr te _); [|discriminate].
  destruct (check_block senv te [SAdd s_i 1] false); [|discriminate].
  rewrite check_block_cons in Hc. cbn [check_stmt] in Hc.
  rewrite check_block_cons in Hc. cbn [check_stmt] in Hc.
  destruct (check_slice te s_path (EVar s_start) (EVar s_i) && _); [|discriminate].
  rewrite check_block_cons in Hc. cbn [check_stmt] in Hc. rewrite lookup_cons_eq in Hc.
  destruct (infer senv n (SBlank :: b)) as [ty0|]; [|discriminate].
  destruct (no_variable senv n); [discriminate|].
  rewrite check_block_cons in Hc. cbn [check_stmt] in Hc. do 2 eexists. split; [exact Hc|].
  rewrite lookup_cons_ne by exact Hn. rewrite lookup_cons_ne by discriminate. exact Hl.
Qed.
Lemma blind_uses u ty m : forall fuel t b te d0 d,
  gen_trie fuel t = ROk b -> lookup s_method te = Some (m, TVal ty) -> check_block senv te b d0 = Some d ->
  In u (block_uses senv s_method b) -> False.
Proof.
  induction fuel as [|f IH]; intros t b te d0 d; [discriminate|].
  cbn [gen_trie]. destruct (gen_children (gen_trie f) t) as [b0| | |] eqn:Eg; try discriminate.
  intros [= <-] Hl Hc. apply (blind_block _ _ _ _ _ _ _ Hl) in Hc. destruct Hc as [Hr Hc].
  rewrite methods_block_uses, Hr. intros [(fr & r & H & _)|H]; [discriminate|].
  apply gen_kids in Eg.
  destruct (kids_of t).
  - subst b0. exact H.
  - destruct Eg as (b' & Eb & ->). rewrite check_block_cons in Hc.
    destruct (has_resources (t_data c)) as [fr|] eqn:Er.
    { destruct (check_stmt senv te (methods_stmt fr) _) eqn:E; [|discriminate]. eapply method_blind; eauto. }
    apply block_uses_cons_in in H. destruct H as [[]|H]. rewrite expect_uses in H.
    destruct (check_stmt senv te _ _) as [[te' d']|] eqn:E in Hc; [|discriminate].
    rewrite check_stmt_if in E. destruct (check_bexpr te _); [|discriminate].
    destruct (check_block senv te [not_found] false); [|discriminate]. injection E as <- <-.
    apply check_expect in Hc. destruct Hc as [_ (d1 & Hc)]. eapply IH; eauto.
  - destruct Eg as (b' & Eb & ->). apply block_uses_cons_in in H. destruct H as [[]|H].
    rewrite expect_uses in H. rewrite check_block_cons in Hc.
    destruct (check_stmt senv te _ _) as [[te' d']|] eqn:E in Hc; [|discriminate].
    rewrite check_stmt_if in E. destruct (check_bexpr te _); [|discriminate].
    destruct (check_block senv te [not_found] false); [|discriminate]. injection E as <- <-.
    apply check_expect in Hc. destruct Hc as [_ (d1 & Hc)]. eapply IH; eauto.
  - destruct Eg as (b' & Eb & ->). apply block_uses_cons_in in H. destruct H as [[]|H].
    apply dynamic_uses_in in H. destruct H as [Hn H]. rewrite check_block_cons in Hc. cbn [check_stmt] in Hc.
    destruct (check_expr te _ && _); [|discriminate].
    eapply (blind_dynamic _ _ _ _ _ ty m) in Hc; [|rewrite lookup_cons_ne by discriminate; exact Hl|exact Hn].
    destruct Hc as (te' & d1 & Hc & Hl'). eapply IH; eauto.
  - destruct Eg as (k & b1 & b2 & E1 & E2 & ->).
    do 3 (apply block_uses_cons_in in H; destruct H as [[]|H]).
    rewrite check_block_cons in Hc. cbn [check_stmt] in Hc.
    rewrite check_block_cons in Hc. cbn [check_stmt] in Hc. destruct (check_expr te _ && _); [|discriminate].
    rewrite check_block_cons in Hc. cbn [check_stmt] in Hc.
    rewrite check_block_cons, check_stmt_if in Hc. destruct (check_bexpr _ _); [|discriminate].
    rewrite block_uses_cons, in_app_iff, stmt_uses_if in H. cbn [binds] in H. destruct H as [H|H].
    + cbn [block_uses] in H. rewrite app_nil_r, stmt_uses_match in H. cbn [map concat snd] in H.
      rewrite block_uses_skip in H by reflexivity. cbn [block_uses] in H. rewrite !app_nil_r in H.
      rewrite check_block_cons, check_stmt_match in Hc. destruct (_ && _) in Hc; [|discriminate].
      cbn [check_arms check_arm] in Hc. destruct (plain_lit u0) in Hc; [|discriminate].
      rewrite check_block_cons in Hc. cbn [check_stmt] in Hc.
      destruct (lookup s_i _) as [[[] []]|] in Hc; try discriminate.
      match type of Hc with context [check_block senv ?e b1 ?x] => destruct (check_block senv e b1 x) as [dx|] eqn:Ec; [|discriminate] end.
      eapply (IH next b1); [exact E1| |exact Ec|exact H]. rewrite lookup_cons_ne by discriminate. exact Hl.
    + apply dynamic_uses_in in H. destruct H as [Hn H].
      match type of Hc with context [check_block senv ?e [SMatch ?a ?x] false] => destruct (check_block senv e [SMatch a x] false); [|discriminate] end.
      eapply (blind_dynamic _ _ _ _ _ ty m) in Hc; [|rewrite lookup_cons_ne by discriminate; exact Hl|exact Hn].
      destruct Hc as (te' & dy & Hc & Hl'). eapply IH; eauto.
  - destruct Eg as (st & arms & Ea & Hst & ->).
    assert (H0 : exists te1 d1, lookup s_method te1 = Some (m, TVal ty) /\
      check_block senv te1 [SIf i_eq_len [not_found]; SMatch (path_slice 1) (arms ++ [(AHWild, [not_found])])] d1 = Some d /\
      In u (block_uses senv s_method [SIf i_eq_len [not_found]; SMatch (path_slice 1) (arms ++ [(AHWild, [not_found])])])).
    { destruct Hst as [->| ->]; [eauto|]. cbn [app] in H, Hc.
      do 3 (apply block_uses_cons_in in H; destruct H as [[]|H]).
      rewrite check_block_cons in Hc. cbn [check_stmt] in Hc.
      rewrite check_block_cons in Hc. cbn [check_stmt] in Hc. destruct (check_expr te _ && _); [|discriminate].
      rewrite check_block_cons in Hc. cbn [check_stmt] in Hc. do 2 eexists. split; [|split; [exact Hc|exact H]].
      rewrite lookup_cons_ne by discriminate. exact Hl. }
    destruct H0 as (te1 & d1 & Hl1 & Hc1 & H0).
    rewrite block_uses_skip in H0 by reflexivity. rewrite block_uses_cons, stmt_uses_match in H0.
    cbn [binds block_uses] in H0. rewrite map_app, concat_app, app_nil_r in H0.
    apply in_app_iff in H0. destruct H0 as [H0|[]].
    rewrite check_block_cons, check_stmt_if in Hc1. destruct (check_bexpr te1 _); [|discriminate].
    destruct (check_block senv te1 [not_found] false); [|discriminate].
    rewrite check_block_cons, check_stmt_match in Hc1. destruct (_ && _) in Hc1; [|discriminate].
    destruct (check_arms senv te1 _) as [d2|] eqn:Ec; [|discriminate].
    assert (Hall : forall a, In a arms -> exists d', check_arm senv te1 a = Some d').
    { intros a Ha. eapply check_arms_in; eauto. apply in_app_iff; auto. }
    assert (Hnone : forall b, In (AHStmts, b) arms -> False).
    { intros bz Hb. destruct (Hall _ Hb) as [d' Hd']. discriminate. }
    apply (arms_uses _ _ _ _ _ Ea Hnone) in H0. destruct H0 as (ch & c & b' & H1 & H2 & H3).
    assert (Hin : In (AHBlock [ch], SAdd s_i 1 :: b') arms).
    { clear - Ea H1 H2 Hnone. revert arms Ea Hnone. induction l as [|[[ch'|n|] c'] l IHl]; intros arms Ea Hnone; [destruct H1| | |];
        cbn [gen_arms] in Ea.
      - destruct (gen_trie f c') as [b0| | |] eqn:Eb; try discriminate.
        destruct (gen_arms (gen_trie f) l) as [arms'| | |]; try discriminate. injection Ea as <-.
        destruct H1 as [[= -> ->]|H1]; [left; congruence|right]. apply IHl; auto. intros b Hb. apply (Hnone b). right; exact Hb.
      - destruct (gen_dynamic (gen_trie f) c' n); try discriminate. injection Ea as <-. destruct (Hnone _ (or_introl eq_refl)).
      - destruct (gen_arms (gen_trie f) l) as [arms'| | |]; try discriminate. injection Ea as <-.
        destruct H1 as [H1|H1]; [discriminate|]. right. apply IHl; auto. intros b Hb. apply (Hnone b). right; exact Hb. }
    destruct (Hall _ Hin) as [d' Hd']. cbn [check_arm] in Hd'. destruct (plain_lit [ch]); [|discriminate].
    rewrite check_block_cons in Hd'. cbn [check_stmt] in Hd'.
    destruct (lookup s_i te1) as [[[] []]|]; try discriminate. eapply IH; eauto.
  - destruct Eg.
Qed.
Lemma checks_reserved f c s b te d0 d n m ty u :
  gen_trie f c = ROk b -> kids_of c = KSep s -> check_block senv te b d0 = Some d ->
  lookup n te = Some (m, TVal ty) -> In u (block_uses senv n b) ->
  ~ In n [s_i; s_path; s_method] /\ (n = s_len -> ty = s_usize).
Proof.
  intros Hb Hk Hc Hl Hu.
  assert (Hboth : (n = s_i \/ n = s_path -> False) /\ (n = s_len -> ty = s_usize)).
  { clear Hu. destruct f as [|f]; [discriminate|]. cbn [gen_trie] in Hb.
    destruct (gen_children (gen_trie f) c) as [b0| | |] eqn:Eg; try discriminate. injection Hb as <-.
    apply gen_kids in Eg. rewrite Hk in Eg. destruct Eg as (b' & _ & ->).
    assert (Hm : forall fr rest x, check_stmt senv te (methods_stmt fr) rest = Some x -> fst x = te).
    { intros fr rest x. unfold methods_stmt. rewrite check_stmt_if. destruct (check_bexpr te _); [|discriminate].
      destruct (check_block senv te _ false); [|discriminate]. intros [= <-]. reflexivity. }
    assert (Hc' : exists d1, check_block senv te (match has_resources (t_data s) with
        Some route => methods_stmt route | None => SIf i_eq_len [not_found] end :: expect 1 (lit "/") :: b') d1 = Some d).
    { unfold methods_block in Hc. destruct (has_resources (t_data c)) as [fr|]; [|eauto]. cbn [app] in Hc.
      rewrite check_block_cons in Hc. destruct (check_stmt senv te (methods_stmt fr) _) as [[te' d']|] eqn:E; [|discriminate].
      apply Hm in E. cbn [fst] in E. subst te'. eauto. }
    destruct Hc' as [d1 Hc']. rewrite check_block_cons in Hc'.
    destruct (check_stmt senv te _ _) as [[te' d']|] eqn:E in Hc'; [|discriminate].
    assert (te' = te) as ->.
    { destruct (has_resources (t_data s)); [apply Hm in E; exact E|].
      rewrite check_stmt_if in E. destruct (check_bexpr te _); [|discriminate].
      destruct (check_block senv te _ false); [|discriminate]. injection E as <- _. reflexivity. }
    assert (Hlen : n = s_len -> ty = s_usize).
    { intros ->. assert (check_bexpr te i_eq_len = true) as Hi.
      { destruct (has_resources (t_data s)); unfold methods_stmt in E; rewrite check_stmt_if in E;
          destruct (check_bexpr te i_eq_len); [reflexivity|discriminate|reflexivity|discriminate]. }
      cbn [i_eq_len check_bexpr] in Hi. apply andb_true_iff in Hi. destruct Hi as [_ Hi].
      unfold check_expr in Hi. rewrite Hl in Hi. apply str_eqb_eq. exact Hi. }
    split; [|exact Hlen]. intros Hn.
    rewrite check_block_cons in Hc'. unfold expect in Hc'. rewrite check_stmt_match in Hc'.
    destruct (check_scrut te (path_slice 1)) eqn:Es in Hc'; [|discriminate]. cbn [andb] in Hc'.
    destruct (existsb _ _) in Hc'; [|discriminate]. cbn [check_arms check_arm] in Hc'.
    destruct (plain_lit (lit "/")) in Hc'; [|discriminate]. rewrite check_block_cons in Hc'. cbn [check_stmt] in Hc'.
    destruct Hn as [->| ->].
    - rewrite Hl in Hc'. destruct m; discriminate.
    - unfold check_scrut, path_slice, check_slice in Es. rewrite Hl in Es. discriminate. }
  destruct Hboth as [Hboth Hlen]. split; [|exact Hlen].
  intros [<-|[<-|[<-|[]]]]; [apply Hboth; auto|apply Hboth; auto|].
  eapply blind_uses; eauto.
Qed.
Lemma checks_dynamic_fine f n c b :
  gen_trie f c = ROk b -> (exists s, kids_of c = KSep s) -> fine f c ->
  (free n \/ exists T, forall u, data_use senv n c u -> u = T) ->
  checks senv (dynamic_block n b) -> dyn_fine f n c.
Proof.
  intros Hb Hsep Hf Hh (te & d0 & d & Hc).
  unfold dynamic_block in Hc. cbn [app] in Hc.
  rewrite check_block_cons in Hc. cbn [check_stmt] in Hc.
  rewrite check_block_cons in Hc. rewrite check_stmt_while in Hc.
  destruct (check_bexpr te _); [|discriminate].
  destruct (check_block senv te [SAdd s_i 1] false); [|discriminate].
  rewrite check_block_cons in Hc. cbn [check_stmt] in Hc.
  rewrite check_block_cons in Hc. cbn [check_stmt] in Hc.
  destruct (check_slice te s_path (EVar s_start) (EVar s_i) && _); [|discriminate].
  rewrite check_block_cons in Hc. cbn [check_stmt] in Hc.
  rewrite lookup_cons_eq in Hc.
  destruct (infer senv n (SBlank :: b)) as [ty0|] eqn:Einf; [|discriminate].
  destruct (no_variable senv n) eqn:Eu; [discriminate|].
  pose proof (infer_in _ _ _ _ Einf) as Hin.
  apply block_uses_cons_in in Hin. destruct Hin as [[]|Hin].
  assert (Hres : ~ In n [s_i; s_path; s_method] /\ (n = s_len -> ty0 = s_usize)).
  { rewrite check_block_cons in Hc. cbn [check_stmt] in Hc. destruct Hsep as [sep Hsep].
    eapply checks_reserved; [exact Hb|exact Hsep|exact Hc|apply lookup_cons_eq|exact Hin]. }
  destruct Hres as [Hres Hlen]. split; [split; assumption|].
  destruct Hh as [Hn|[T HT]].
  2: { assert (Hu0 : tuse f c n ty0) by (eapply uses_tuse; eauto). exists T. split; [|split].
    - intros E. rewrite <- (Hlen E). symmetry. apply HT. eapply tuse_data; eauto.
    - exists ty0. exact Hu0.
    - intros u Hu. apply HT. eapply tuse_data; eauto. }
  exists ty0. split; [exact Hlen|]. split; [exists ty0; apply (uses_iff _ _ Hn _ _ _ Hb Hf); exact Hin|].
  intros u Hu. apply (uses_iff _ _ Hn _ _ _ Hb Hf) in Hu.
  unfold infer in Einf. rewrite block_uses_skip in Einf by reflexivity.
  destruct (block_uses senv n b) as [|v vs]; [discriminate|].
  destruct (forallb (str_eqb v) vs) eqn:Ea; [|discriminate]. injection Einf as <-.
  destruct Hu as [<-|Hu]; auto. rewrite forallb_forall in Ea. symmetry. apply str_eqb_eq. auto.
Qed.

Lemma checks_expect n u l : checks senv (expect n u :: l) -> plain_lit u = true /\ checks senv l.
Proof.
  intros (te & d0 & d & Hc). apply check_expect in Hc. destruct Hc as [H (d1 & Hc)].
  split; auto. exists te, d1, d. exact Hc.
Qed.

Lemma checks_fine : forall fuel t b,
  gen_trie fuel t = ROk b -> told t -> checks senv b -> fine fuel t.
Proof.
  induction fuel as [|f IH]; intros t b; [discriminate|].
  cbn [gen_trie]. destruct (gen_children (gen_trie f) t) as [b0| | |] eqn:Eg; try discriminate.
  intros [= <-] Hh Hc. cbn [fine]. split.
  { intros fr r. eapply checks_methods; eauto. }
  apply checks_app in Hc. pose proof (kids_sep _ _ _ Eg) as Hsep. apply gen_kids in Eg. pose proof (kids_sub t) as Hs.
  pose proof (fun n c => Hh t n c (sub_refl t)) as Hdyn. pose proof (kids_dynamic t) as Hkd.
  assert (Hch : forall k t' c, In (k, t') (t_children t) -> subtrie c t' -> told c).
  { intros k t' c H1 H2. eapply told_sub; [|exact Hh]. eapply sub_step; eauto. }
  destruct (kids_of t); auto.
  - destruct Eg as (b' & Eb & ->). destruct Hs as (k & t' & H1 & H2).
    do 2 apply checks_cons in Hc. eapply IH; eauto.
  - destruct Eg as (b' & Eb & ->). destruct Hs as (k & t' & H1 & H2).
    apply checks_cons in Hc. apply checks_expect in Hc. destruct Hc as [Hp Hc]. split; auto. eapply IH; eauto.
  - destruct Eg as (b' & Eb & ->). destruct Hs as (k & t' & H1 & H2).
    apply checks_cons in Hc.
    assert (Hf : fine f c) by (eapply IH; [exact Eb|eauto|eapply checks_dynamic; exact Hc]).
    split; auto. eapply checks_dynamic_fine; eauto.
  - destruct Eg as (k & b1 & b2 & E1 & E2 & ->). destruct Hs as [Hs (kd & Hd)].
    assert (Hhd : told d) by (eapply Hch; [exact Hd|constructor]).
    assert (Hhn : told next) by (eapply told_sub; eauto).
    do 3 apply checks_cons in Hc.
    assert (Hp : plain_lit u = true /\ fine f next).
    { destruct Hc as (te & d0 & dd & Hc). rewrite check_block_cons, check_stmt_if in Hc.
      destruct (check_bexpr te _); [|discriminate].
      rewrite check_block_cons, check_stmt_match in Hc.
      destruct (check_scrut te (path_slice k) && _); [|discriminate].
      cbn [check_arms check_arm] in Hc. destruct (plain_lit u); [|discriminate]. split; auto.
      destruct (check_block senv te (SAdd s_i k :: b1) false) as [d1|] eqn:Ec1; [|discriminate].
      eapply IH; [exact E1|exact Hhn|]. apply (checks_cons _ (SAdd s_i k)). do 3 eexists; exact Ec1. }
    apply checks_cons in Hc.
    assert (Hf : fine f d) by (eapply IH; [exact E2|exact Hhd|eapply checks_dynamic; exact Hc]).
    split; [tauto|]. split; [tauto|]. split; auto. eapply checks_dynamic_fine; eauto.
  - subst l. destruct Eg as (st & arms & Ea & _ & ->).
    apply checks_app in Hc. apply checks_cons in Hc.
    destruct Hc as (te & d0 & d & Hc). rewrite check_block_cons, check_stmt_match in Hc.
    destruct (check_scrut te _ && _); [|discriminate].
    destruct (check_arms senv te _) as [d2|] eqn:Ec; [|discriminate]. clear Hc.
    assert (Hall : forall a, In a arms -> exists d', check_arm senv te a = Some d').
    { intros a Ha. eapply check_arms_in; eauto. apply in_app_iff; auto. }
    assert (Hhy : forall k c, In (k, c) (t_children t) -> told c).
    { intros k c Hin. eapply Hch; [exact Hin|constructor]. }
    clear Ec Hch Hdyn Hkd Hh. revert arms Ea Hall Hhy.
    induction (t_children t) as [|[[c|nm|] child] ch IHch]; intros arms Ea Hall Hhy;
      cbn [gen_arms] in Ea; constructor; cbn [fst snd].
    + destruct (gen_trie f child) as [b'| | |] eqn:Eb; try discriminate.
      destruct (gen_arms (gen_trie f) ch) as [arms'| | |]; try discriminate.
      injection Ea as <-. destruct (Hall _ (or_introl eq_refl)) as [d' Hd].
      cbn [check_arm] in Hd. destruct (plain_lit [c]) eqn:Ep; [|discriminate].
      cbn [plain_lit forallb] in Ep. rewrite andb_true_r in Ep. split; auto.
      eapply IH; [exact Eb|eapply Hhy; left; reflexivity|].
      apply (checks_cons _ (SAdd s_i 1)). do 3 eexists; exact Hd.
    + destruct (gen_trie f child) as [b'| | |] eqn:Eb; try discriminate.
      destruct (gen_arms (gen_trie f) ch) as [arms'| | |]; try discriminate.
      injection Ea as <-. eapply IHch; [reflexivity| |].
      * intros a Ha. apply Hall. right; auto.
      * intros k c' Hin. eapply Hhy; right; exact Hin.
    + destruct (gen_dynamic (gen_trie f) child nm) as [b'| | |]; try discriminate.
      injection Ea as <-. destruct (Hall _ (or_introl eq_refl)) as [d' Hd]. discriminate.
    + exfalso. destruct (gen_dynamic (gen_trie f) child nm) as [b'| | |]; try discriminate.
      injection Ea as <-. destruct (Hall _ (or_introl eq_refl)) as [d' Hd]. discriminate.
    + destruct (gen_arms (gen_trie f) ch) as [arms'| | |]; try discriminate.
      injection Ea as <-. destruct (Hall _ (or_introl eq_refl)) as [d' Hd]. discriminate.
    + exfalso. destruct (gen_arms (gen_trie f) ch) as [arms'| | |]; try discriminate.
      injection Ea as <-. destruct (Hall _ (or_introl eq_refl)) as [d' Hd]. discriminate.
Qed.

(** ** Passing the check *)
Hypothesis text_free : no_variable senv s_text = false.
Hypothesis start_free : no_variable senv s_start = false.

Record base_tenv (te : tenv) : Prop := {
  bt_i : lookup s_i te = Some (true, TUsize);
  bt_len : exists m, lookup s_len te = Some (m, TUsize);
  bt_path : exists m, lookup s_path te = Some (m, TBytes);
  bt_method : exists m, lookup s_method te = Some (m, TBytes)
}.
Definition rows_typed (f : nat) (t : ctrie) (te : tenv) : Prop :=
  forall ns fr r p, trow f t ns fr r -> In p (dynamics (f_path fr)) -> ~ In (p_name p) ns ->
  exists m ty, lookup (p_name p) te = Some (m, TVal ty) /\
    forall u, In u (ret_uses senv (p_name p) (resource_ret fr r)) -> u = ty.

Lemma base_cons te x a : base_tenv te -> ~ In x [s_i; s_len; s_path; s_method] -> base_tenv ((x, a) :: te).
Proof.
  intros [H1 H2 H3 H4] Hx.
  assert (Hn : forall y, In y [s_i; s_len; s_path; s_method] -> x <> y) by (intros y Hy ->; auto).
  split; rewrite lookup_cons_ne; auto; apply Hn; simpl; tauto.
Qed.
Lemma trow_free f t ns fr r p : hyg t -> trow f t ns fr r -> In p (dynamics (f_path fr)) -> ~ In (p_name p) reserved.
Proof.
  intros Hh H Hp. apply trow_sub in H. destruct H as (t' & Hs & Hd & _). eapply Hh; eauto.
Qed.
Lemma rows_cons f t te x a : hyg t -> In x reserved -> rows_typed f t te -> rows_typed f t ((x, a) :: te).
Proof.
  intros Hh Hx H ns fr r p Ht Hp Hn. rewrite lookup_cons_ne; [eapply H; eauto|].
  intros ->. eapply trow_free; eauto.
Qed.

Lemma check_i_eq_len te : base_tenv te -> check_bexpr te i_eq_len = true.
Proof.
  intros [H1 [m H2] _ _]. unfold i_eq_len, check_bexpr, check_expr. rewrite H1, H2. reflexivity.
Qed.
Lemma check_path_slice te n : base_tenv te -> check_scrut te (path_slice n) = true.
Proof.
  intros [H1 _ [m H2] _]. unfold path_slice, check_scrut, check_slice, check_expr. rewrite H1, H2. reflexivity.
Qed.
Lemma method_plain m : plain_lit (method_display m) = true.
Proof. destruct m; reflexivity. Qed.

Lemma pass_methods te fr l :
  base_tenv te ->
  (forall r, In r (f_resources fr) -> check_ret senv te (resource_ret fr r) = true) ->
  check_stmt senv te (methods_stmt fr) l = Some (te, false).
Proof.
  intros Hb Hr. unfold methods_stmt. rewrite check_stmt_if, (check_i_eq_len _ Hb).
  rewrite check_block_cons, check_stmt_match.
  destruct (bt_method _ Hb) as [m Hm]. cbn [check_scrut]. rewrite Hm.
  rewrite existsb_app. cbn [existsb fst is_wild]. rewrite orb_true_r. cbn [andb].
  assert (Ha : exists d, check_arms senv te
    (map (fun r => (AHInline (method_display (r_method r)), [SReturn (resource_ret fr r)])) (f_resources fr)
        ++ [(AHWild, [SReturn RetNotAllowed])]) = Some d).
  { induction (f_resources fr) as [|r rs IH]; cbn [map app check_arms check_arm].
    - rewrite check_block_cons. cbn [check_stmt check_ret]. eexists; reflexivity.
    - rewrite method_plain, check_block_cons. cbn [check_stmt].
      rewrite (Hr r (or_introl eq_refl)). cbn [check_block].
      destruct IH as [d ->]; [intros; apply Hr; right; auto|]. eexists; reflexivity. }
  destruct Ha as [d ->]. cbn [check_block]. reflexivity.
Qed.
Lemma pass_data te f t fr l :
  base_tenv te -> data_fine (t_data t) -> rows_typed (S f) t te -> has_resources (t_data t) = Some fr ->
  check_stmt senv te (methods_stmt fr) l = Some (te, false).
Proof.
  intros Hb Hd Ht Hr. apply pass_methods; auto. intros r Hin. apply check_ret_split.
  split; [eapply Hd; eauto|]. intros fs p fd Hl Hp Hf. left.
  destruct (Ht [] fr r p) as (m & ty & Hty & Hu); auto.
  { left. auto. }
  exists m. rewrite Hty. do 3 f_equal. symmetry. apply Hu. apply ret_uses_in. split; [eauto|].
  exists fs, fd. auto.
Qed.
Lemma pass_notfound te c l : check_bexpr te c = true -> check_stmt senv te (SIf c [not_found]) l = Some (te, false).
Proof. intros H. rewrite check_stmt_if, H. reflexivity. Qed.
Lemma pass_expect te n u l : base_tenv te -> plain_lit u = true -> check_stmt senv te (expect n u) l = Some (te, false).
Proof.
  intros Hb Hu. unfold expect. rewrite check_stmt_match, (check_path_slice _ _ Hb).
  cbn [existsb is_wild fst orb andb check_arms check_arm]. rewrite Hu.
  rewrite check_block_cons. cbn [check_stmt]. rewrite (bt_i _ Hb). reflexivity.
Qed.

Definition passes (f : nat) (t : ctrie) (b : list stmt) : Prop :=
  forall te, base_tenv te -> rows_typed f t te -> check_block senv te b false = Some true.

Lemma pass_dynamic f n c b te m :
  gen_trie f c = ROk b -> fine f c -> hyg c -> dyn_fine f n c -> passes f c b ->
  base_tenv te -> lookup s_start te = Some (m, TUsize) ->
  (forall ns fr r p, trow f c ns fr r -> In p (dynamics (f_path fr)) -> ~ In (p_name p) (n :: ns) ->
    exists m ty, lookup (p_name p) te = Some (m, TVal ty) /\
      forall u, In u (ret_uses senv (p_name p) (resource_ret fr r)) -> u = ty) ->
  check_block senv te (dynamic_block n b) false = Some true.
Proof.
  intros Hb Hf Hh [Hun (ty & _ & (u0 & Hu0) & Hty)] Hp Ht Hst Hr.
  assert (Hn : ~ In n reserved).
  { destruct Hu0 as (ns & fr & r & H1 & _ & H2). apply ret_uses_in in H2.
    destruct H2 as [(p & H2 & <-) _]. eapply trow_free; eauto. }
  pose proof (reserved_free _ Hn) as Hfree.
  unfold dynamic_block. cbn [app]. rewrite check_block_cons. cbn [check_stmt].
  rewrite check_block_cons, check_stmt_while.
  assert (check_bexpr te (BAnd (BLt (EVar s_i) (EVar s_len))
            (BSliceNe s_path (EVar s_i) (EPlus s_i 1) (lit "/"))) = true) as ->.
  { destruct Ht as [H1 [m2 H2] [m3 H3] _]. cbn [check_bexpr]. unfold check_slice, check_expr.
    rewrite H1, H2, H3. reflexivity. }
  assert (check_block senv te [SAdd s_i 1] false = Some false) as ->.
  { rewrite check_block_cons. cbn [check_stmt]. rewrite (bt_i _ Ht). reflexivity. }
  rewrite check_block_cons. cbn [check_stmt]. rewrite check_block_cons. cbn [check_stmt].
  assert (check_slice te s_path (EVar s_start) (EVar s_i) = true) as ->.
  { destruct Ht as [H1 _ [m3 H3] _]. unfold check_slice, check_expr. rewrite H1, H3, Hst. reflexivity. }
  rewrite text_free. cbn [negb andb]. rewrite check_block_cons. cbn [check_stmt].
  rewrite lookup_cons_eq.
  assert (Hinf : infer senv n (SBlank :: b) = Some ty).
  { unfold infer. rewrite block_uses_skip by reflexivity.
    pose proof (fun u => uses_iff n u Hfree f c b Hb Hf) as Hui.
    assert (Hall : forall u, In u (block_uses senv n b) -> u = ty).
    { intros u Hu. apply Hty. apply Hui. exact Hu. }
    apply Hui in Hu0. destruct (block_uses senv n b) as [|v vs]; [destruct Hu0|].
    assert (v = ty) by (apply Hall; left; reflexivity). subst v.
    assert (forallb (str_eqb ty) vs = true) as ->; [|reflexivity].
    apply forallb_forall. intros w Hw. rewrite (Hall w (or_intror Hw)). apply str_eqb_refl. }
  rewrite Hinf, (proj1 Hun). rewrite check_block_cons. cbn [check_stmt orb].
  apply Hp.
  - apply base_cons; [apply base_cons; auto|].
    + intros H. repeat (destruct H as [H|H]; [discriminate H|]). exact H.
    + intros H. apply Hn. simpl in H |- *. tauto.
  - intros ns fr r p Hrow Hpin Hns. destruct (str_eqb_spec n (p_name p)) as [->|Hne].
    + exists false, ty. rewrite lookup_cons_eq. split; auto. intros u Hu. apply Hty. exists ns, fr, r. auto.
    + rewrite lookup_cons_ne by auto. rewrite lookup_cons_ne.
      * eapply Hr; eauto. intros [H|H]; auto.
      * intros E. apply (trow_free _ _ _ _ _ _ Hh Hrow Hpin). rewrite <- E. simpl. tauto.
Qed.

Lemma fine_passes : forall f t b, gen_trie f t = ROk b -> hyg t -> fine f t -> passes f t b.
Proof.
  induction f as [|f IH]; intros t b; [discriminate|].
  cbn [gen_trie]. destruct (gen_children (gen_trie f) t) as [b0| | |] eqn:Eg; try discriminate.
  intros [= <-] Hh [Hd Hf] te Ht Hr.
  apply gen_kids in Eg. pose proof (kids_sub t) as Hs.
  assert (Hch : forall k t' c, In (k, t') (t_children t) -> subtrie c t' -> hyg c).
  { intros k t' c H1 H2. eapply hyg_sub; [|exact Hh]. eapply sub_step; eauto. }
  assert (Hb0 : check_block senv te b0 false = Some true).
  2: { unfold methods_block. destruct (has_resources (t_data t)) as [fr|] eqn:Er; [|exact Hb0].
       cbn [app]. rewrite check_block_cons. rewrite (pass_data _ _ _ _ _ Ht Hd Hr Er). exact Hb0. }
  unfold rows_typed in Hr. cbn [trow] in Hr.
  assert (Hstart : forall c, hyg c -> rows_typed f c te -> rows_typed f c ((s_start, (false, TUsize)) :: te)).
  { intros c Hc H. apply rows_cons; auto. simpl; tauto. }
  assert (Hbs : base_tenv ((s_start, (false, TUsize)) :: te)).
  { apply base_cons; auto. intros H. repeat (destruct H as [H|H]; [discriminate H|]). exact H. }
  assert (Hci : check_expr te (EVar s_i) = true) by (unfold check_expr; rewrite (bt_i _ Ht); reflexivity).
  assert (Hd1 : forall c n, hyg c -> 
    (forall ns fr r p, trow f c ns fr r -> In p (dynamics (f_path fr)) -> ~ In (p_name p) (n :: ns) ->
      exists m ty, lookup (p_name p) te = Some (m, TVal ty) /\
      forall u, In u (ret_uses senv (p_name p) (resource_ret fr r)) -> u = ty) ->
    forall ns fr r p, trow f c ns fr r -> In p (dynamics (f_path fr)) -> ~ In (p_name p) (n :: ns) ->
      exists m ty, lookup (p_name p) ((s_start, (false, TUsize)) :: te) = Some (m, TVal ty) /\
      forall u, In u (ret_uses senv (p_name p) (resource_ret fr r)) -> u = ty).
  { intros c n Hc H ns fr r p H1 H2 H3. rewrite lookup_cons_ne; [eapply H; eauto|].
    intros E. apply (trow_free _ _ _ _ _ _ Hc H1 H2). rewrite <- E. simpl. tauto. }
  destruct (kids_of t).
  - subst b0. reflexivity.
  - destruct Eg as (b' & Eb & ->). destruct Hs as (k & t' & H1 & H2).
    assert (Hrc : rows_typed f c te).
    { intros ns fr r p Hrow. eapply Hr. right. exact Hrow. }
    assert (Hb' : check_block senv te b' false = Some true) by (eapply IH; eauto).
    rewrite check_block_cons.
    assert (check_stmt senv te (match has_resources (t_data c) with Some route => methods_stmt route
              | None => SIf i_eq_len [not_found] end) (expect 1 (lit "/") :: b') = Some (te, false)) as ->.
    { destruct (has_resources (t_data c)) as [fr|] eqn:Er.
      - destruct f as [|f]; [destruct Hf|]. exact (pass_data te f c fr _ Ht (proj1 Hf) Hrc Er).
      - apply pass_notfound. apply check_i_eq_len; auto. }
    rewrite check_block_cons, pass_expect by (auto; reflexivity). exact Hb'.
  - destruct Eg as (b' & Eb & ->). destruct Hs as (k & t' & H1 & H2). destruct Hf as [Hp Hf].
    assert (Hrc : rows_typed f c te).
    { intros ns fr r p Hrow. eapply Hr. right. exact Hrow. }
    assert (Hb' : check_block senv te b' false = Some true) by (eapply IH; eauto).
    rewrite check_block_cons, pass_notfound.
    + rewrite check_block_cons, pass_expect by auto. exact Hb'.
    + destruct (byte_len u =? 1)%nat; [apply check_i_eq_len; auto|].
      destruct Ht as [Hi [m2 Hl] _ _]. cbn [check_bexpr]. unfold check_expr. rewrite Hi, Hl. reflexivity.
  - destruct Eg as (b' & Eb & ->). destruct Hs as (k & t' & H1 & H2). destruct Hf as [Hp Hf].
    assert (Hc : hyg c) by eauto.
    rewrite check_block_cons. cbn [check_stmt]. rewrite Hci, start_free. cbn [andb negb orb].
    eapply pass_dynamic; try eassumption.
    + apply IH; auto.
    + apply lookup_cons_eq.
    + apply Hd1; auto. intros ns fr r p Hrow Hpin Hns. eapply Hr; [right; exists ns; split; [reflexivity|exact Hrow]|exact Hpin|exact Hns].
  - destruct Eg as (k & b1 & b2 & E1 & E2 & ->). destruct Hs as [Hs (kd & Hdin)].
    destruct Hf as (Hp & Hfn & Hdf & Hfd).
    assert (Hhd : hyg d) by (eapply Hch; [exact Hdin|constructor]).
    assert (Hhn : hyg next) by (eapply hyg_sub; eauto).
    rewrite check_block_cons. cbn [check_stmt orb]. rewrite check_block_cons. cbn [check_stmt].
    rewrite Hci, start_free. cbn [andb negb orb]. rewrite check_block_cons. cbn [check_stmt orb].
    rewrite check_block_cons, check_stmt_if.
    set (te' := (s_start, (false, TUsize)) :: te) in *.
    assert (check_bexpr te' (if (k =? 1)%nat then BLe (EVar s_i) (EVar s_len) else BLe (EPlus s_i k) (EVar s_len)) = true) as ->.
    { destruct Hbs as [Hi [m2 Hl] _ _]. destruct (k =? 1)%nat; cbn [check_bexpr]; unfold check_expr; rewrite Hi, Hl; reflexivity. }
    rewrite check_block_cons, check_stmt_match, (check_path_slice _ _ Hbs).
    cbn [existsb is_wild fst orb andb check_arms check_arm]. rewrite Hp.
    rewrite check_block_cons. cbn [check_stmt]. rewrite (bt_i _ Hbs).
    assert (Hb1 : check_block senv te' b1 false = Some true).
    { eapply IH; eauto. apply Hstart; auto. intros ns fr r p Hrow. eapply Hr. right. left. exact Hrow. }
    cbn [orb]. rewrite Hb1. cbn [andb check_block orb].
    eapply pass_dynamic; try eassumption.
    + apply IH; auto.
    + apply lookup_cons_eq.
    + apply Hd1; auto. intros ns fr r p Hrow Hpin Hns.
      eapply Hr; [right; right; exists ns; split; [reflexivity|exact Hrow]|exact Hpin|exact Hns].
  - subst l. destruct Eg as (st & arms & Ea & Hst & ->).
    assert (Harm : forall te0, base_tenv te0 ->
      (forall ch c, In (CStatic ch, c) (t_children t) -> rows_typed f c te0) ->
      check_block senv te0 [SIf i_eq_len [not_found]; SMatch (path_slice 1) (arms ++ [(AHWild, [not_found])])] false
      = Some true).
    { intros te0 Hb0 Hr0. rewrite check_block_cons, pass_notfound by (apply check_i_eq_len; auto).
      rewrite check_block_cons, check_stmt_match, (check_path_slice _ _ Hb0).
      rewrite existsb_app. cbn [existsb is_wild fst]. rewrite orb_true_r. cbn [andb].
      assert (check_arms senv te0 (arms ++ [(AHWild, [not_found])]) = Some true) as ->; [|reflexivity].
      assert (Hhy : forall k c, In (k, c) (t_children t) -> hyg c).
      { intros k c Hin. eapply Hch; [exact Hin|constructor]. }
      clear Hr Hch Hh. revert arms Ea.
      induction (t_children t) as [|[[c|nm|] child] ch IHch]; intros arms Ea; cbn [gen_arms] in Ea.
      - injection Ea as <-. reflexivity.
      - destruct (gen_trie f child) as [b'| | |] eqn:Eb; try discriminate.
        destruct (gen_arms (gen_trie f) ch) as [arms'| | |]; try discriminate.
        injection Ea as <-. apply Forall_cons_iff in Hf. cbn [fst snd] in Hf. destruct Hf as [[Hpc Hfc] Hf'].
        cbn [app check_arms check_arm plain_lit forallb]. rewrite Hpc. cbn [andb].
        rewrite check_block_cons. cbn [check_stmt]. rewrite (bt_i _ Hb0). cbn [orb].
        assert (check_block senv te0 b' false = Some true) as ->.
        { eapply IH; eauto; [eapply Hhy; left; reflexivity|eapply Hr0; left; reflexivity]. }
        rewrite (IHch Hf'); auto.
        + intros ch' c' Hin. eapply Hr0. right. exact Hin.
        + intros k c' Hin. eapply Hhy. right. exact Hin.
      - apply Forall_cons_iff in Hf. destruct Hf as [[] _].
      - apply Forall_cons_iff in Hf. destruct Hf as [[] _]. }
    assert (Hrc : forall ch c, In (CStatic ch, c) (t_children t) -> rows_typed f c te).
    { intros ch c Hin ns fr r p Hrow. eapply Hr. right. eauto. }
    destruct Hst as [->| ->]; [apply Harm; auto|]. cbn [app].
    rewrite check_block_cons. cbn [check_stmt orb]. rewrite check_block_cons. cbn [check_stmt].
    rewrite Hci, start_free. cbn [andb negb orb]. rewrite check_block_cons. cbn [check_stmt orb].
    apply Harm; auto. intros ch c Hin. apply Hstart; eauto. eapply Hch; [exact Hin|constructor].
  - destruct Eg.
Qed.
End Check.
