(** * Property C99: which configurations can be mounted *)
From Verif Require Import Base Core Flat MiniRust Gen Spec SpecCore SpecGen SpecCompile SpecMatch SpecMountPoint SpecMounts MatchFacts MountsThms TogetherThms Examples CompileExamples.

(** Code can be generated for a configuration with others mounted exactly if it can be for
    each of them, unless there is nothing in it, no two declare the same struct, the mount
    points differ, and none of them is a static segment of the host. *)
Theorem C99_mounts c guests : guests <> [] ->
  snd (codegen (mounts c guests)) = ROk tt <->
  (forall d, In d (c :: map snd guests) -> alone_fine d) /\ all_apart (c :: map snd guests) /\
  NoDup (map fst guests) /\ forall at_, In at_ (map fst guests) -> ~ occupied c at_.
Proof. exact (mounts_generate c guests). Qed.
Print Assumptions C99_mounts.
Theorem C99_mount c at_ d :
  snd (codegen (mount c at_ d)) = ROk tt <-> alone_fine c /\ alone_fine d /\ apart c d /\ ~ occupied c at_.
Proof. exact (mount_generates c at_ d). Qed.
Print Assumptions C99_mount.
(** So a configuration with a resource cannot be mounted at two places, *)
Theorem C99_twice c a b d : declares d ->
  snd (codegen (mount (mount c a d) b d)) = RPanic PanicUnwrapNone \/
  snd (codegen (mount (mount c a d) b d)) = RPanic PanicDuplicateAction.
Proof. exact (mounted_twice c a b d). Qed.
Print Assumptions C99_twice.
(** nor in itself, *)
Theorem C99_itself c a : declares c ->
  snd (codegen (mount c a c)) = RPanic PanicUnwrapNone \/ snd (codegen (mount c a c)) = RPanic PanicDuplicateAction.
Proof. exact (mounted_itself c a). Qed.
Print Assumptions C99_itself.
(** nor where there are routes already: these are not merged. *)
Theorem C99_over c a d : occupied c a -> exists p, snd (codegen (mount c a d)) = RPanic p.
Proof. exact (mounted_over c a d). Qed.
Print Assumptions C99_over.

Definition site : RouteConfig := read ["/"; "  GET home"; "  news"; "    GET news::index"]%string.
Definition blog : RouteConfig := read ["/"; "  GET blog::index"; "  {id: u32}"; "    GET blog::show"]%string.
Definition moved : RouteConfig := read ["/"; "  GET -> home"; "  old"; "    GET -> home"]%string.
Example C99_example :
  snd (codegen (mounts site [(lit "blog", blog); (lit "was", moved); (lit "before", moved)])) = ROk tt /\
  alone_fine blog /\ apart site blog /\ ~ occupied site (lit "blog") /\ occupied site (lit "news") /\
  declares blog /\ ~ declares moved /\ alone_fine (mkConfig [] (mkRoutes [] [] [])) /\
  snd (codegen (mkConfig [] (mkRoutes [] [] []))) = RPanic PanicSlice.
Proof.
  split; [vm_compute; reflexivity|]. split; [left; vm_compute; reflexivity|].
  split; [intros x Hx Hy; vm_compute in Hx, Hy; repeat (destruct Hx as [<-|Hx]; [repeat (destruct Hy as [Hy|Hy]; [discriminate Hy|]); exact Hy|]); exact Hx|].
  split; [intros (b & Hb); vm_compute in Hb; destruct Hb as [Hb|[]]; discriminate Hb|].
  split; [eexists; left; vm_compute; reflexivity|].
  split; [do 4 eexists; split; [left; reflexivity|]; split; [left; reflexivity|reflexivity]|].
  split.
  - intros (p & q & b & r & Hb & Hr & Hn). vm_compute in Hb.
    repeat (destruct Hb as [Hb|Hb]; [injection Hb as _ _ <-; cbn in Hr; destruct Hr as [<-|[]]; discriminate Hn|]). exact Hb.
  - split; [right; repeat split|vm_compute; reflexivity].
Qed.
(** If the host and the guest compile, and the structs of the guest are all in a module
    that the host does not have, the host with the guest mounted compiles. *)
Theorem C99_compiles c at_ d k :
  goes_with c at_ d k -> separate c -> separate d -> compiles c = true -> compiles d = true ->
  compiles (mount c at_ d) = true /\ separate (mount c at_ d).
Proof. exact (fun G => mount_compiles c at_ d k G). Qed.
Print Assumptions C99_compiles.
(** With at most one parameter among the segments of each block, it answers requests below
    the mount point as the guest does, and all others as the host does; and it
    meets the same three conditions, as a host or a guest of a further mount must. *)
Theorem C99_served {T E} (rt : runtime T E) c at_ d k : goes_with c at_ d k -> separate c -> separate d ->
  every_block one_dynamic (c_routes c) -> every_block one_dynamic (c_routes d) -> runnable c -> runnable d ->
  (runnable (mount c at_ d) /\ separate (mount c at_ d) /\ every_block one_dynamic (c_routes (mount c at_ d))) /\ forall path method,
    (forall p, path = c_slash :: at_ ++ c_slash :: p ->
       match_route rt (mount c at_ d) path method = match_route rt d (c_slash :: p) method) /\
    (~ under at_ path -> match_route rt (mount c at_ d) path method = match_route rt c path method).
Proof. exact (fun G => mount_serves c at_ d k G rt). Qed.
Print Assumptions C99_served.
Example C99_compiles_example :
  goes_with site (lit "blog") blog (lit "blog") /\ separate site /\ separate blog /\ compiles site = true /\ compiles blog = true /\
  runnable site /\ runnable blog /\ every_block one_dynamic (c_routes site) /\ every_block one_dynamic (c_routes blog) /\
  match_route ex_rt (mount site (lit "blog") blog) (lit "/blog/7") (lit "GET") =
  Some (RunResult (MRoute (mkRoute [lit "Blog"] (lit "Show") [(lit "id", FvVal (lit "u32") (lit "7"))]))).
Proof.
  split.
  2: { split; [apply separateb_ok; vm_compute; reflexivity|]. split; [apply separateb_ok; vm_compute; reflexivity|].
       split; [vm_compute; reflexivity|]. split; [vm_compute; reflexivity|].
       split; [apply runnableb_ok; vm_compute; reflexivity|]. split; [apply runnableb_ok; vm_compute; reflexivity|].
       split; [apply (every_blockb_ok one_dynamicb _ _ one_dynamicb_ok); vm_compute; reflexivity|].
       split; [apply (every_blockb_ok one_dynamicb _ _ one_dynamicb_ok); vm_compute; reflexivity|]. vm_compute. reflexivity. }
  assert (Hs : forall ms a, in_module site ms a -> ms = [] /\ a_name a = lit "home" \/ ms = [lit "news"]).
  { intros ms a H. vm_compute in H. destruct H as [[= <- <-]|[[= <- <-]|[]]]; auto. }
  assert (Hu : forall x, unit_in site [] x -> x = lit "Home").
  { intros x (a & H & _ & <-). destruct (Hs _ _ H) as [[_ ->]|E]; [vm_compute; reflexivity|discriminate E]. }
  constructor.
  - reflexivity.
  - intros p b H. vm_compute in H. destruct H as [H|[]]. discriminate H.
  - intros x H. vm_compute in H. repeat (destruct H as [<-|H]; [split; [reflexivity|vm_compute; intuition discriminate]|]). destruct H.
  - intros s b H. vm_compute in H. destruct H as [[= <- <-]|[]]. split; intros [t E]; discriminate E.
  - intros ms a H. vm_compute in H. destruct H as [[= <- _]|[[= <- _]|[]]]; exists []; reflexivity.
  - intros k' (rest & a & H). destruct (Hs _ _ H) as [[E _]|E]; [discriminate E|]. injection E as -> _. split; vm_compute; discriminate.
  - intros a H. destruct (Hs _ _ H) as [[_ ->]|E]; [split; vm_compute; discriminate|discriminate E].
  - intros H. apply Hu in H. discriminate H.
  - intros p q x y b H Hy Hn. apply Hu in Hn. apply blocks_at in H. vm_compute in H.
    destruct H as [[= <- <- <-]|[[= <- <- <-]|[]]]; cbn [rt_routes] in Hy; [destruct Hy as [[= <- <-]|[]]; discriminate Hn|destruct Hy].
Qed.
(** Two files with an action of the same name each are fine alone, and not together;
    only when code is generated this is noticed, with a panic that names neither. *)
Definition shop : RouteConfig := read ["/"; "  GET index"; "  cart"; "    GET cart"]%string.
Definition wiki : RouteConfig := read ["/"; "  GET index"; "  recent"; "    GET recent"]%string.
Theorem C99_refuted :
  snd (codegen shop) = ROk tt /\ snd (codegen wiki) = ROk tt /\ ~ occupied shop (lit "wiki") /\
  snd (codegen (mount shop (lit "wiki") wiki)) = RPanic PanicUnwrapNone.
Proof.
  split; [vm_compute; reflexivity|]. split; [vm_compute; reflexivity|].
  split; [intros (b & Hb); vm_compute in Hb; destruct Hb as [Hb|[]]; discriminate Hb|]. vm_compute. reflexivity.
Qed.
Print Assumptions C99_refuted.
(** That both compile is not enough: [new] beside [news], a parameter that the host and
    the guest both have, a module that differs only in case from one of the host, and one
    with the name of a struct of the host. *)
Definition paged : RouteConfig := read ["/"; "  [id: u32]"; "  GET home"]%string.
Definition press : RouteConfig := read ["/"; "  GET News::all"]%string.
Definition start : RouteConfig := read ["/"; "  GET blog"]%string.
Definition together : list (RouteConfig * str * RouteConfig) :=
  [(site, lit "new", blog); (paged, lit "blog", blog); (site, lit "press", press); (start, lit "posts", blog)].
Theorem C99_compiles_refuted : forall c at_ d, In (c, at_, d) together ->
  compiles c = true /\ compiles d = true /\ snd (codegen (mount c at_ d)) = ROk tt /\ compiles (mount c at_ d) = false.
Proof.
  intros c at_ d H. unfold together in H. cbn [In] in H.
  repeat (destruct H as [H|H]; [injection H as <- <- <-; repeat split; vm_compute; reflexivity|]). destruct H.
Qed.
Print Assumptions C99_compiles_refuted.
