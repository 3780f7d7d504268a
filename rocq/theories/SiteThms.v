(** * SiteThms: repeated slashes *)
From Coq Require Import Permutation.
From Verif Require Import Base Core Flat MiniRust Gen Items Spec SpecMatch SpecCompile SpecPath ToPath BaseFacts NodeFacts
  MatchProps MatchThms CompileFacts PathThms SpecBack MatchFacts FlatFacts BackThms TextFacts SpecSite.

(** ** Segments that are not empty *)
Definition solid (s : bytes) : Prop := s <> [] /\ ~ In c_slash s.
Lemma solid_snoc s u w : solid s -> forall rest, s ++ rest = u ++ c_slash :: c_slash :: w ->
  exists u', u = s ++ u' /\ rest = u' ++ c_slash :: c_slash :: w.
Proof.
  intros [_ Hs]. revert u. induction s as [|x s IH]; intros u rest H; [exists u; auto|].
  destruct u as [|y u]; cbn [app] in H.
  - injection H as -> _. destruct Hs. left. reflexivity.
  - injection H as -> H. destruct (IH (fun i => Hs (or_intror i)) u rest H) as (u' & -> & ->).
    exists u'. split; reflexivity.
Qed.
Lemma join_solid segs : Forall solid segs -> forall tail u w, (tail = [] \/ tail = [c_slash]) ->
  join segs ++ tail <> u ++ c_slash :: c_slash :: w.
Proof.
  induction 1 as [|s segs Hs Hsegs IH]; intros tail u w Ht H.
  - cbn [join app] in H. destruct Ht as [->| ->]; destruct u as [|y u]; try discriminate H.
    destruct u; discriminate H.
  - destruct segs as [|s' segs].
    + cbn [join] in H. destruct (solid_snoc _ _ _ Hs _ H) as (u' & _ & E).
      destruct Ht as [->| ->]; destruct u' as [|y u']; try discriminate E. destruct u'; discriminate E.
    + change (join (s :: s' :: segs)) with (s ++ c_slash :: join (s' :: segs)) in H.
      rewrite <- app_assoc in H. destruct (solid_snoc _ _ _ Hs _ H) as (u' & _ & E). cbn [app] in E.
      destruct u' as [|y u']; cbn [app] in E.
      * injection E as E.
        inversion Hsegs as [|s0 l0 [Hn Hi] Hl]; subst. destruct s' as [|x s']; [destruct Hn; reflexivity|].
        destruct segs as [|s2 segs]; cbn [join app] in E; injection E as -> _; destruct Hi; left; reflexivity.
      * apply (IH tail u' w Ht). exact (f_equal (@tl N) E).
Qed.
Lemma join_first segs : Forall solid segs -> forall tail w, (tail = [] \/ segs <> [] /\ tail = [c_slash]) ->
  join segs ++ tail <> c_slash :: w.
Proof.
  intros [|s segs' [Hn Hi] _] tail w Ht H.
  - destruct Ht as [->|[Ht _]]; [discriminate H|destruct Ht; reflexivity].
  - destruct s as [|x s]; [destruct Hn; reflexivity|].
    destruct segs' as [|s2 segs']; cbn [join app] in H; injection H as -> _; destruct Hi; left; reflexivity.
Qed.
Lemma repeated_no_slash path : repeated path ->
  repeated (no_slash path) \/ exists w, no_slash path = c_slash :: w.
Proof.
  intros (u & w & ->). destruct u as [|x u].
  - right. exists w. reflexivity.
  - cbn [app no_slash]. destruct (N.eqb x c_slash) eqn:E.
    + left. exists u, w. reflexivity.
    + left. exists (x :: u), w. reflexivity.
Qed.
Lemma spells_solid path segs : spells path segs -> Forall solid segs -> ~ repeated path.
Proof.
  intros Hs Hf Hr. unfold spells, spelled in Hs. apply repeated_no_slash in Hr.
  assert (exists tail, (tail = [] \/ segs <> [] /\ tail = [c_slash]) /\ no_slash path = join segs ++ tail) as (tail & Ht & E).
  { destruct Hs as [Hs|[Hn Hs]].
    - exists []. split; [left; reflexivity|]. rewrite app_nil_r. exact Hs.
    - exists [c_slash]. split; [right; auto|exact Hs]. }
  destruct Hr as [(u & w & Hr)|(w & Hr)]; rewrite E in Hr.
  - refine (join_solid segs Hf tail u w _ Hr). destruct Ht as [Ht|[_ Ht]]; auto.
  - exact (join_first segs Hf tail w Ht Hr).
Qed.

Section Rt.
Context {T E : Type}.
Variable rt : runtime T E.
Variable show : str -> T -> bytes.
Notation parse := (rt_parse rt).

Lemma matched_empty pat segs (a : @args T) : matches parse pat segs a ->
  (forall s, In (Static s) pat -> solid s) ->
  Forall solid segs \/ exists p x, In (p, x) a /\ parse (p_typ p) [] = inl x.
Proof.
  induction 1 as [|s pat segs a H IH|p v seg pat segs a Hn Hu Hp H IH]; intros Hst.
  - left. constructor.
  - destruct IH as [IH|IH]; [intros s' Hi; apply Hst; right; exact Hi| |right; exact IH].
    left. constructor; [apply Hst; left; reflexivity|exact IH].
  - destruct seg as [|x seg].
    + right. exists p, v. split; [left; reflexivity|exact Hp].
    + destruct IH as [IH|(p' & x' & Hi & Hx)]; [intros s' Hi; apply Hst; right; exact Hi| |].
      * left. constructor; [split; [discriminate|exact Hn]|exact IH].
      * right. exists p', x'. split; [right; exact Hi|exact Hx].
Qed.
Lemma block_solid b pat q x : block_at b pat q x -> every_block plain_statics b ->
  forall s, In (Static s) pat -> solid s.
Proof.
  induction 1 as [b|b seg child p q x Hin Hx IH]; intros He s Hs; [destruct Hs|].
  destruct Hs as [->|Hs].
  - exact (every_block_here _ _ He s child Hin).
  - apply IH; [|exact Hs]. exact (every_block_child _ _ _ _ He Hin).
Qed.
Lemma empty_segment c path method redirect v : runnable c -> every_block plain_statics (c_routes c) -> repeated path ->
  match_route rt c path method = Some (RunResult (hit redirect v)) ->
  exists pat q b r segs a p x,
    block_at (c_routes c) pat q b /\ first_resource_for method b r /\ r_is_redirect r = redirect /\
    spells path segs /\ matches parse pat segs a /\ v = route_for r q a /\
    In (p, x) a /\ parse (p_typ p) [] = inl x.
Proof.
  intros Hc Hp Hr H. destruct (sound rt c path method redirect v Hc H) as (pat & q & b & r & segs & a & H1 & H2 & H3 & H4 & H5 & H6).
  destruct (matched_empty _ _ _ H5 (block_solid _ _ _ _ H1 Hp)) as [Hs|(p & x & Hi & Hx)].
  - destruct (spells_solid _ _ H4 Hs Hr).
  - exists pat, q, b, r, segs, a, p, x. repeat split; auto.
Qed.
Lemma repeated_refused c path method redirect v : runnable c -> every_block plain_statics (c_routes c) ->
  empty_refused rt -> repeated path -> match_route rt c path method <> Some (RunResult (hit redirect v)).
Proof.
  intros Hc Hp He Hr H. destruct (empty_segment c path method redirect v Hc Hp Hr H) as (? & ? & ? & ? & ? & ? & p & x & H').
  apply (He (p_typ p) x). apply H'.
Qed.

(** ** Printed paths *)
Lemma texts_nil pat (vals : list T) : length vals = length (path_params pat) -> path_texts show pat vals = [] -> pat = [].
Proof.
  destruct pat as [|[s|p] pat]; cbn [path_texts path_params length]; intros Hl H; auto; [discriminate H|].
  destruct vals as [|v vals]; [discriminate Hl|discriminate H].
Qed.
Lemma network_texts (u : bytes) texts : u = c_slash :: join texts ->
  network_path u <-> exists t rest, texts = t :: rest /\ ((t = [] /\ rest <> []) \/ exists t', t = c_slash :: t').
Proof.
  intros ->. split.
  - intros (w & [= H]). destruct texts as [|t rest]; [discriminate H|]. exists t, rest. split; [reflexivity|].
    destruct rest as [|t2 rest].
    + cbn [join] in H. right. exists w. exact H.
    + change (join (t :: t2 :: rest)) with (t ++ c_slash :: join (t2 :: rest)) in H.
      destruct t as [|x t]; [left; split; [reflexivity|discriminate]|].
      injection H as -> _. right. exists t. reflexivity.
  - intros (t & rest & -> & [[-> Hr]|(t' & ->)]).
    + destruct rest as [|t2 rest]; [destruct Hr; reflexivity|]. exists (join (t2 :: rest)). reflexivity.
    + destruct rest as [|t2 rest]; cbn [join app]; eexists; reflexivity.
Qed.
Lemma plain_utf8 s : solid s -> utf8 s <> [] /\ forall t, utf8 s <> c_slash :: t.
Proof.
  intros [Hn Hi]. destruct s as [|x s]; [destruct Hn; reflexivity|]. rewrite utf8_cons.
  destruct (char_bytes x) as [[_ ->]|(_ & Hb & Hu)].
  - split; [discriminate|]. intros t [= -> _]. destruct Hi. left. reflexivity.
  - destruct (utf8_char x) as [|y l]; [destruct Hu; reflexivity|]. split; [discriminate|].
    intros t [= -> _]. inversion Hb as [|y' l' Hy]; subst. unfold c_slash in Hy. lia.
Qed.
Lemma network_exact c pat q b r (vals : list T) opts fs u :
  compiles c = true -> every_block plain_statics (c_routes c) ->
  block_at (c_routes c) pat q b -> In r (rt_resources b) -> r_is_redirect r = false ->
  struct_fields pat (q ++ r_query r) vals opts fs ->
  to_path show c (map to_caps_case (r_modules r)) (to_caps_case (r_name r)) fs = Some u ->
  network_path u <->
  exists p rest x vals', pat = Dynamic p :: rest /\ vals = x :: vals' /\
    ((show (p_typ p) x = [] /\ rest <> []) \/ exists t, show (p_typ p) x = c_slash :: t).
Proof.
  intros Hc Hp Hb Hr Hd Hf Hu. rewrite (to_path_text show c pat q b r vals opts fs Hc Hb Hr Hd Hf) in Hu.
  injection Hu as Hu. rewrite (network_texts u _ (eq_sym Hu)). clear Hu.
  assert (Hl : length vals = length (path_params pat)) by apply Hf.
  pose proof (block_solid _ _ _ _ Hb Hp) as Hs. clear - Hl Hs. split.
  - intros (t & rest & Et & Ht). destruct pat as [|[s|p] pat]; cbn [path_texts] in Et; [discriminate Et| |].
    + injection Et as <- <-. destruct (plain_utf8 s (Hs s (or_introl eq_refl))) as [H1 H2].
      destruct Ht as [[Ht _]|(t' & Ht)]; [destruct (H1 Ht)|destruct (H2 _ Ht)].
    + destruct vals as [|x vals]; [discriminate Et|]. injection Et as <- <-.
      exists p, pat, x, vals. split; [reflexivity|]. split; [reflexivity|].
      destruct Ht as [[Ht Hn]|Ht]; [left|right; exact Ht]. split; [exact Ht|].
      intros ->. apply Hn. destruct vals; reflexivity.
  - intros (p & rest & x & vals' & -> & -> & Ht). cbn [path_texts]. eexists _, _. split; [reflexivity|].
    destruct Ht as [[Ht Hn]|Ht]; [left|right; exact Ht]. split; [exact Ht|].
    intros H. apply Hn. apply (texts_nil rest vals'); [injection Hl as Hl; exact Hl|exact H].
Qed.
Lemma matched_segment pat segs (a : @args T) : matches parse pat segs a ->
  forall p x, In (p, x) a -> exists seg, ~ In c_slash seg /\ parse (p_typ p) seg = inl x.
Proof.
  induction 1 as [|s pat segs a H IH|p v seg pat segs a Hn Hu Hp H IH]; intros p' x Hi; [destruct Hi|eauto|].
  destruct Hi as [[= <- <-]|Hi]; eauto.
Qed.
Lemma redirect_network c path method v : runnable c -> every_block plain_statics (c_routes c) ->
  match_route rt c path method = Some (RunResult (MRedirect v)) ->
  exists fs u, struct_value v fs /\ to_path show c (rv_modules v) (rv_name v) fs = Some u /\
    (network_path u -> exists p child x, In (Dynamic p, child) (rt_routes (c_routes c)) /\
       In (p_name p, FvVal (p_typ p) x) (rv_fields v) /\
       (exists seg, ~ In c_slash seg /\ parse (p_typ p) seg = inl x) /\
       (show (p_typ p) x = [] \/ exists t, show (p_typ p) x = c_slash :: t)).
Proof.
  intros Hc Hp H. destruct (back_redirect rt show c path method v Hc H)
    as (pat & segs & a & fs & pat' & q' & b' & r' & vals & H1 & H2 & H3 & H4 & H5 & H6 & H7 & H8 & H9 & H10 & H11).
  exists fs, (c_slash :: join (path_texts show pat' vals)). split; [exact H3|]. split; [exact H11|].
  intros Hn. apply (network_texts _ _ eq_refl) in Hn. destruct Hn as (t & rest & Et & Ht).
  destruct pat' as [|[s|p] pat']; cbn [path_texts] in Et; [discriminate Et| |].
  - injection Et as <- <-. destruct (plain_utf8 s (block_solid _ _ _ _ H4 Hp s (or_introl eq_refl))) as [N1 N2].
    destruct Ht as [[Ht _]|(t' & Ht)]; [destruct (N1 Ht)|destruct (N2 _ Ht)].
  - destruct vals as [|x vals]; [discriminate Et|]. injection Et as <- <-.
    inversion H4 as [|b0 seg child p0 q0 x0 Hin Hx]; subst. exists p, child, x. split; [exact Hin|].
    split; [|split].
    + eapply Permutation_in; [symmetry; exact H10|]. left. reflexivity.
    + inversion H9 as [|p1 x1 l1 l2 (p2 & Hi & _ & Hty) Hr]; subst.
      destruct (matched_segment _ _ _ H2 _ _ Hi) as (seg & Hs & Hs'). rewrite Hty in Hs'. exists seg. auto.
    + destruct Ht as [[Ht _]|Ht]; auto.
Qed.
Lemma redirect_stays c path method v : runnable c -> every_block plain_statics (c_routes c) ->
  printed_back rt show -> empty_refused rt ->
  match_route rt c path method = Some (RunResult (MRedirect v)) ->
  exists fs u, struct_value v fs /\ to_path show c (rv_modules v) (rv_name v) fs = Some u /\ ~ network_path u.
Proof.
  intros Hc Hp Hb He H. destruct (redirect_network c path method v Hc Hp H) as (fs & u & H1 & H2 & H3).
  exists fs, u. split; [exact H1|]. split; [exact H2|]. intros Hn.
  destruct (H3 Hn) as (p & child & x & _ & _ & (seg & Hs & Hx) & Ht). rewrite (Hb _ _ _ Hx) in Ht.
  destruct Ht as [->|(t & ->)]; [exact (He _ _ Hx)|]. apply Hs. left. reflexivity.
Qed.
Lemma redirect_static c path method v : runnable c -> every_block plain_statics (c_routes c) ->
  dynamic_children (rt_routes (c_routes c)) = [] ->
  match_route rt c path method = Some (RunResult (MRedirect v)) ->
  exists fs u, struct_value v fs /\ to_path show c (rv_modules v) (rv_name v) fs = Some u /\ ~ network_path u.
Proof.
  intros Hc Hp Hd H. destruct (redirect_network c path method v Hc Hp H) as (fs & u & H1 & H2 & H3).
  exists fs, u. split; [exact H1|]. split; [exact H2|]. intros Hn.
  destruct (H3 Hn) as (p & child & x & Hin & _). clear - Hd Hin.
  induction (rt_routes (c_routes c)) as [|[[s|d] ch] l IH]; [destruct Hin| |discriminate Hd].
  destruct Hin as [Hin|Hin]; [discriminate Hin|]. auto.
Qed.
End Rt.
