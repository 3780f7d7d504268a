(** * QuestionFacts: characters that cannot be in a name *)
From Verif Require Import Base Core Nom Parse ParseFacts GrammarFacts Flat MiniRust Gen Spec SpecParse SpecGrammar SpecMatch SpecPath
  SpecQuestion MatchFacts FlatFacts RunFacts MatchThms SearchThms Examples.
From Coq Require Import Lia.

Lemma ident_special ualnum s x : ident ualnum s -> special x -> ~ In x s.
Proof.
  intros [_ H] (H1 & H2 & H3 & H4 & H5 & H6) Hin. rewrite Forall_forall in H. specialize (H x Hin). unfold ident_char in H. lia.
Qed.
Lemma ident_slash ualnum s : ident ualnum s -> ~ In c_slash s.
Proof.
  intros [_ H] Hin. rewrite Forall_forall in H. specialize (H _ Hin). unfold ident_char, c_slash in H. lia.
Qed.
Definition names_ok ualnum (b : Routes) : Prop := forall s child, In (Static s, child) (rt_routes b) -> ident ualnum s.
Lemma text_names ualnum c text : config_text ualnum c text -> every_block (names_ok ualnum) (c_routes c).
Proof.
  intros H. assert (Hw : wf_config ualnum c) by (apply config_writable; exists text; apply parse_exact; exact H).
  destruct Hw as [_ Hw]. intros p q b Hb s child Hin. destruct (Hw p q b Hb) as (_ & _ & Hr & _).
  rewrite Forall_forall in Hr. exact (Hr _ Hin).
Qed.
Lemma names_plain ualnum b : every_block (names_ok ualnum) b -> every_block plain_statics b.
Proof.
  intros H p q x Hx s child Hin. pose proof (H p q x Hx s child Hin) as Hi. split; [apply Hi|exact (ident_slash _ _ Hi)].
Qed.
Lemma path_names ualnum b : forall pat q x, block_at b pat q x -> every_block (names_ok ualnum) b ->
  forall s, In (Static s) pat -> ident ualnum s.
Proof.
  intros pat q x H. induction H as [b|b seg child p q x Hin H IH]; intros Hn s Hs; [destruct Hs|].
  destruct Hs as [->|Hs].
  - exact (Hn [] _ b (block_root b) s child Hin).
  - apply IH; [|exact Hs]. intros p' q' x' Hx. exact (Hn _ _ _ (block_step b seg child p' q' x' Hin Hx)).
Qed.
Lemma matches_nth {T E} (parse : str -> bytes -> T + E) pat segs a : matches parse pat segs a ->
  forall i seg, nth_error segs i = Some seg ->
  nth_error pat i = Some (Static seg) \/
  exists p v, nth_error pat i = Some (Dynamic p) /\ parse (p_typ p) seg = inl v.
Proof.
  intros H. induction H as [|s pat segs a H IH|p v seg0 pat segs a H1 H2 H3 H IH]; intros [|i] seg Hi; try discriminate; cbn in *.
  - injection Hi as <-. auto.
  - apply IH. exact Hi.
  - injection Hi as <-. right. exists p, v. auto.
  - apply IH. exact Hi.
Qed.
Lemma special_param {T E} (rt : runtime T E) ualnum c text path method redirect v x :
  config_text ualnum c text -> runnable c -> special x ->
  match_route rt c path method = Some (RunResult (hit redirect v)) ->
  exists pat q b r segs a,
    block_at (c_routes c) pat q b /\ first_resource_for method b r /\ r_is_redirect r = redirect /\
    SpecMatch.spells path segs /\ matches (rt_parse rt) pat segs a /\ v = route_for r q a /\
    forall i seg, nth_error segs i = Some seg -> In x seg ->
      exists p val, nth_error pat i = Some (Dynamic p) /\ rt_parse rt (p_typ p) seg = inl val.
Proof.
  intros Ht Hr Hx H. destruct (sound rt c path method redirect v Hr H) as (pat & q & b & r & segs & a & H1 & H2 & H3 & H4 & H5 & H6).
  exists pat, q, b, r, segs, a. do 6 (split; [assumption|]). intros i seg Hi Hin.
  destruct (matches_nth _ _ _ _ H5 i seg Hi) as [Hs|Hd]; [|exact Hd]. exfalso.
  apply (ident_special ualnum seg x); [|exact Hx|exact Hin].
  apply (path_names ualnum _ pat q b H1 (text_names _ _ _ Ht)). exact (nth_error_In _ _ Hs).
Qed.

Lemma in_join x segs : x <> c_slash -> In x (join segs) -> exists seg, In seg segs /\ In x seg.
Proof.
  intros Hx. induction segs as [|s segs IH]; [intros []|]. destruct segs as [|s' segs].
  - cbn. intros H. exists s. auto.
  - change (join (s :: s' :: segs)) with (s ++ c_slash :: join (s' :: segs)). intros H. apply in_app_iff in H.
    destruct H as [H|[H|H]]; [exists s; cbn; auto|congruence|]. destruct (IH H) as (seg & A & B). exists seg. split; [right; exact A|exact B].
Qed.
Lemma in_no_slash x path : x <> c_slash -> In x path -> In x (no_slash path).
Proof.
  intros Hx. unfold no_slash. destruct path as [|c path]; [intros []|]. destruct (N.eqb_spec c c_slash) as [->|Hc]; [|auto].
  intros [H|H]; [congruence|exact H].
Qed.
Lemma no_params_path b : forall pat q x, block_at b pat q x -> every_block no_params b -> forall p, ~ In (Dynamic p) pat.
Proof.
  intros pat q x H. induction H as [b|b seg child p q x Hin H IH]; intros Hn d Hd; [destruct Hd|].
  destruct Hd as [->|Hd].
  - exact (Hn [] _ b (block_root b) d child Hin).
  - refine (IH _ d Hd). intros p' q' x' Hx. exact (Hn _ _ _ (block_step b seg child p' q' x' Hin Hx)).
Qed.
Lemma no_dynamic b : no_params b -> dynamic_children (rt_routes b) = [].
Proof.
  unfold no_params. induction (rt_routes b) as [|[seg child] l IH]; intros H; [reflexivity|].
  destruct seg as [s|p].
  - cbn. apply IH. intros p c Hin. exact (H p c (or_intror Hin)).
  - exfalso. exact (H p child (or_introl eq_refl)).
Qed.
Lemma special_not_found {T E} (rt : runtime T E) ualnum c text path method x :
  config_text ualnum c text -> runnable c -> every_block no_params (c_routes c) -> special x -> In x path ->
  match_route rt c path method = Some (RunResult MNotFound).
Proof.
  intros Ht Hr Hn Hx Hin. pose proof (text_names _ _ _ Ht) as Hnames.
  assert (Hs : x <> c_slash) by (apply Hx).
  apply in_no_slash in Hin; [|exact Hs].
  apply match_not_found; [exact Hr|exact (names_plain _ _ Hnames)|]. split; [|split].
  - intros (pat & q & b & segs & a & H1 & _ & H3 & H4 & _).
    assert (Hj : In x (join segs)).
    { destruct H3 as [[H3 _]|[_ H3]]; rewrite H3 in Hin; [exact Hin|]. apply in_app_iff in Hin. destruct Hin as [Hin|[Hin|[]]]; [exact Hin|congruence]. }
    destruct (in_join _ _ Hs Hj) as (seg & Hseg & Hxs). apply In_nth_error in Hseg. destruct Hseg as [i Hi].
    destruct (matches_nth _ _ _ _ H4 i seg Hi) as [Hp|(p & v & Hp & _)]; apply nth_error_In in Hp.
    + exact (ident_special _ _ _ (path_names ualnum _ _ _ _ H1 Hnames _ Hp) Hx Hxs).
    + exact (no_params_path _ _ _ _ H1 Hn p Hp).
  - intros (pat & segs & p & seg & (Hu & _) & _).
    destruct (uncaptured_unsnoc _ _ _ _ _ Hu) as (q & y & child & H1 & _ & H3 & _).
    rewrite (no_dynamic y (Hn _ _ _ H1)) in H3. discriminate.
  - intros (pat & q & b & segs & a & H1 & H2 & _). apply H2. intros _ Hd. rewrite (no_dynamic b (Hn _ _ _ H1)) in Hd. congruence.
Qed.

Definition no_paramsb (b : Routes) : bool := isnil (dynamic_children (rt_routes b)).
Lemma no_paramsb_ok b : no_paramsb b = true -> no_params b.
Proof.
  unfold no_paramsb, no_params. induction (rt_routes b) as [|[seg child] l IH]; intros H p d []; cbn in *.
  - subst. injection H0 as -> ->. discriminate.
  - destruct seg; [eapply IH; eauto|discriminate].
Qed.
Lemma question_lost : exists ualnum c text path query v,
  config_text ualnum c text /\ runnable c /\
  match_route ex_rt c path (lit "GET") = Some (RunResult (MRoute v)) /\
  match_route ex_rt c (path ++ c_question :: query) (lit "GET") = Some (RunResult MNotFound).
Proof.
  exists (fun _ => false), (read ["/"; "  people"; "    [lang: String]"; "    GET people"]%string),
    (file ["/"; "  people"; "    [lang: String]"; "    GET people"]%string), (lit "/people"), (lit "lang=en"). eexists.
  split; [apply parse_exact; vm_compute; reflexivity|]. split; [apply runnableb_ok; vm_compute; reflexivity|].
  split; vm_compute; reflexivity.
Qed.
