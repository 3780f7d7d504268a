(** * MountsThms: which configurations can be mounted *)
From Verif Require Import Base Core Flat MiniRust Gen Spec SpecCore SpecGen SpecMounts BaseFacts NodeFacts CompileFacts GenThms OrderFacts RenameThms.

Definition own_names (rs : list Resource) : list (list str * str) :=
  map (fun r => (r_modules r, r_name r)) (filter (fun r => negb (r_is_redirect r)) rs).
Lemma names_block rs ch qs : struct_names (mkRoutes rs ch qs) =
  own_names rs ++ concat (map (fun nr : PathSegment * Routes => struct_names (snd nr)) ch).
Proof.
  unfold struct_names at 1. cbn [blocks map concat snd rt_resources]. f_equal.
  rewrite concat_map, map_map. induction ch as [|[s c] ch IH]; [reflexivity|].
  cbn [map concat]. rewrite concat_app, IH. f_equal. cbn [snd]. unfold struct_names. rewrite map_map. f_equal. apply map_ext.
  intros [[p q] x]. reflexivity.
Qed.
Lemma empty_names b : empty_block b -> struct_names b = [].
Proof. destruct b as [rs ch qs]. intros (_ & H1 & H2). cbn in H1, H2. subst. reflexivity. Qed.
Lemma empty_paths b : empty_block b -> NoDup (block_paths_untyped b).
Proof. destruct b as [rs ch qs]. intros (_ & H1 & H2). cbn in H1, H2. subst. apply paths_nodup. split; constructor. Qed.
Lemma empty_dec b : empty_block b \/ ~ empty_block b.
Proof.
  unfold empty_block. destruct (rt_query b); [|right; intros (H & _); discriminate H].
  destruct (rt_resources b); [|right; intros (_ & H & _); discriminate H].
  destruct (rt_routes b); [|right; intros (_ & _ & H); discriminate H]. left. auto.
Qed.
Lemma codegen_iff c : snd (codegen c) = ROk tt <-> generates c.
Proof. destruct (codegen_status c) as [[H1 H2]|[H1 [p H2]]]; split; intros H; try tauto. congruence. Qed.
Lemma fine_iff c : alone_fine c <-> NoDup (struct_names (c_routes c)) /\ NoDup (block_paths_untyped (c_routes c)).
Proof.
  unfold alone_fine. rewrite codegen_iff. unfold generates. split.
  - intros [(H1 & H2 & _)|H]; [auto|]. rewrite (empty_names _ H). split; [constructor|apply empty_paths, H].
  - intros [H1 H2]. destruct (empty_dec (c_routes c)); [right|left]; auto.
Qed.
Lemma apart_concat {A} (ls : list (list A)) :
  NoDup (concat ls) <-> Forall (@NoDup A) ls /\ ForallOrdPairs (fun x y => forall a, In a x -> ~ In a y) ls.
Proof.
  induction ls as [|l ls IH]; cbn [concat]; [repeat split; constructor|].
  rewrite NoDup_app_iff, IH. split.
  - intros (H1 & (H2 & H3) & H4). split; constructor; auto. apply Forall_forall. intros l' Hl a Ha Ha'.
    apply (H4 a Ha). apply in_concat. exists l'. auto.
  - intros [H1 H2]. inversion H1 as [|? ? N1 N2]; subst. inversion H2 as [|? ? O1 O2]; subst. repeat split; auto.
    intros a Ha Ha'. apply in_concat in Ha' as (l' & Hl & Ha'). rewrite Forall_forall in O1. exact (O1 l' Hl a Ha Ha').
Qed.
Lemma pairs_map {A B} (f : A -> B) R (l : list A) : ForallOrdPairs (fun x y => R (f x) (f y)) l <-> ForallOrdPairs R (map f l).
Proof.
  split; intros H.
  - induction H; cbn [map]; constructor; auto. rewrite Forall_map. assumption.
  - remember (map f l) as m eqn:E. revert l E. induction H as [|y m H1 H2 IH]; intros [|x l] E; try discriminate E; [constructor|].
    injection E as -> ->. constructor; [rewrite Forall_map in H1; exact H1|apply IH; reflexivity].
Qed.
Lemma mounts_names c guests : struct_names (c_routes (mounts c guests)) =
  concat (map (fun x => struct_names (c_routes x)) (c :: map snd guests)).
Proof.
  rewrite mounts_routes, names_block. cbn [map concat]. destruct (c_routes c) as [rs ch qs]. rewrite names_block. cbn [rt_resources rt_routes].
  rewrite map_app, concat_app, <- app_assoc, !map_map. reflexivity.
Qed.
Lemma mounts_paths c guests : NoDup (block_paths_untyped (c_routes (mounts c guests))) <->
  Forall (fun x => NoDup (block_paths_untyped (c_routes x))) (c :: map snd guests) /\
  NoDup (map fst guests) /\ forall at_, In at_ (map fst guests) -> ~ occupied c at_.
Proof.
  rewrite mounts_routes, paths_nodup, map_app, Forall_app, NoDup_app_iff, Forall_cons_iff, map_map.
  unfold occupied. destruct (c_routes c) as [rs ch qs]. rewrite paths_nodup. cbn [rt_routes].
  rewrite !Forall_map. cbn [fst snd untyped].
  assert (Hn : NoDup (map (fun x : str * RouteConfig => inl (fst x) : str + str) guests) <-> NoDup (map fst guests)).
  { rewrite <- (map_map fst (fun s => inl s : str + str)). split; intros H; [exact (NoDup_map_inv _ _ H)|].
    apply FinFun.Injective_map_NoDup; [|exact H]. intros x y E. injection E as E. exact E. }
  rewrite Hn.
  assert (Ho : (forall x, In x (map (fun nr : PathSegment * Routes => untyped (fst nr)) ch) ->
                 ~ In x (map (fun x : str * RouteConfig => inl (fst x) : str + str) guests)) <->
               (forall at_, In at_ (map fst guests) -> ~ exists b, In (Static at_, b) ch)).
  { split.
    - intros H at_ Hg (b & Hb). apply (H (inl at_)); [apply in_map_iff; exists (Static at_, b); auto|].
      apply in_map_iff in Hg as (g & <- & Hg). apply in_map_iff. exists g. auto.
    - intros H x Hx Hg. apply in_map_iff in Hg as (g & <- & Hg). apply in_map_iff in Hx as ([[t|p] b] & E & Hb); [|discriminate E].
      injection E as ->. apply (H (fst g)); [apply in_map; exact Hg|exists b; exact Hb]. }
  rewrite Ho. tauto.
Qed.
Lemma mounts_generate c guests : guests <> [] ->
  snd (codegen (mounts c guests)) = ROk tt <->
  (forall d, In d (c :: map snd guests) -> alone_fine d) /\ all_apart (c :: map snd guests) /\
  NoDup (map fst guests) /\ forall at_, In at_ (map fst guests) -> ~ occupied c at_.
Proof.
  intros Hg. rewrite codegen_iff. unfold generates. rewrite mounts_names, mounts_paths, apart_concat, Forall_map.
  unfold all_apart, apart. rewrite (pairs_map (fun x => struct_names (c_routes x)) (fun x y => forall a, In a x -> ~ In a y)).
  assert (Hf : (forall d, In d (c :: map snd guests) -> alone_fine d) <->
    Forall (fun x => NoDup (struct_names (c_routes x))) (c :: map snd guests) /\
    Forall (fun x => NoDup (block_paths_untyped (c_routes x))) (c :: map snd guests)).
  { rewrite !Forall_forall. split; [intros H; split; intros x Hx; apply fine_iff, H, Hx|].
    intros [H1 H2] x Hx. apply fine_iff. auto. }
  rewrite Hf.
  assert (Hne : ~ empty_block (c_routes (mounts c guests))).
  { rewrite mounts_routes. intros (_ & _ & H). cbn [rt_routes] in H. destruct guests; [tauto|]. destruct (rt_routes (c_routes c)); discriminate H. }
  tauto.
Qed.
Lemma mount_generates c at_ d :
  snd (codegen (mount c at_ d)) = ROk tt <-> alone_fine c /\ alone_fine d /\ apart c d /\ ~ occupied c at_.
Proof.
  change (mount c at_ d) with (mounts c [(at_, d)]). rewrite mounts_generate by discriminate. cbn [map fst snd]. split.
  - intros (H1 & H2 & _ & H4). repeat split; [apply H1; left; reflexivity|apply H1; right; left; reflexivity| |apply H4; left; reflexivity].
    inversion H2 as [|? ? HF _]; subst. inversion HF; assumption.
  - intros (H1 & H2 & H3 & H4). repeat split.
    + intros x [<-|[<-|[]]]; assumption.
    + repeat constructor. exact H3.
    + repeat constructor. intros [].
    + intros x [<-|[]]. exact H4.
Qed.
Lemma declares_name c : declares c -> exists x, In x (struct_names (c_routes c)).
Proof.
  intros (p & q & b & r & Hb & Hr & Hn). exists (r_modules r, r_name r). unfold struct_names. apply in_concat.
  exists (map (fun r => (r_modules r, r_name r)) (filter (fun r => negb (r_is_redirect r)) (rt_resources b))). split.
  - apply in_map_iff. exists (p, q, b). auto.
  - apply in_map_iff. exists r. split; [reflexivity|]. apply filter_In. rewrite Hn. auto.
Qed.
Lemma mounts_shared c guests d e before between after : c :: map snd guests = before ++ d :: between ++ e :: after ->
  ~ apart d e -> snd (codegen (mounts c guests)) = RPanic PanicUnwrapNone \/ snd (codegen (mounts c guests)) = RPanic PanicDuplicateAction.
Proof.
  intros E Hd. apply codegen_panics. rewrite mounts_names, E. intros H. apply apart_concat in H as [_ H].
  rewrite <- pairs_map in H. apply Hd. clear E Hd. induction before as [|x before IH]; cbn [app] in H; inversion H as [|? ? H1 H2]; subst; [|exact (IH H2)].
  rewrite Forall_app in H1. destruct H1 as [_ H1]. inversion H1 as [|? ? H3 _]; subst. exact H3.
Qed.
Lemma mounted_twice c a b d : declares d ->
  snd (codegen (mount (mount c a d) b d)) = RPanic PanicUnwrapNone \/ snd (codegen (mount (mount c a d) b d)) = RPanic PanicDuplicateAction.
Proof.
  intros H. apply (mounts_shared c [(a, d); (b, d)] d d [c] [] []); [reflexivity|]. destruct (declares_name d H) as [x Hx]. intros Ha. exact (Ha x Hx Hx).
Qed.
Lemma mounted_itself c a : declares c ->
  snd (codegen (mount c a c)) = RPanic PanicUnwrapNone \/ snd (codegen (mount c a c)) = RPanic PanicDuplicateAction.
Proof.
  intros H. apply (mounts_shared c [(a, c)] c c [] [] []); [reflexivity|]. destruct (declares_name c H) as [x Hx]. intros Ha. exact (Ha x Hx Hx).
Qed.
Lemma mounted_over c a d : occupied c a -> exists p, snd (codegen (mount c a d)) = RPanic p.
Proof.
  intros H. destruct (codegen_status (mount c a d)) as [[_ H2]|[_ H2]]; [|exact H2]. apply mount_generates in H2. tauto.
Qed.
