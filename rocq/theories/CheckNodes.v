(** * CheckNodes: the check of the matcher, block by block *)
From Coq Require Import Sorted.
From Verif Require Import Base Core Trie Flat MiniRust Gen Spec SpecCompile.
From Verif Require Import BaseFacts TrieFacts ExecFacts NodeFacts CompFacts RunFacts CheckFacts.

Lemma sub_height {K V} (y t : Trie K V) : subtrie y t -> trie_height y <= trie_height t.
Proof.
  induction 1 as [|t k c Hin _ IH]; auto. pose proof (height_child _ _ _ Hin). lia.
Qed.

Section Nodes.
Variable senv : struct_env.
Notation ret_fine := (ret_fine senv).
Notation fine := (fine senv).
Notation trow := CheckFacts.trow.

(** ** The conditions on blocks *)
Definition crow (b : Routes) (path : list PathSegment) (q : list Param)
    (ns : list str) (fr : FlattenedRoute) (r : Resource) : Prop :=
  exists p q' x, emitted b p q' x /\ In r (rt_resources x) /\
    fr = mkFlat (path ++ p) (rt_resources x) (q ++ q') /\ ns = map p_name (dynamics p).
Definition cuse b path q (n u : str) : Prop :=
  exists ns fr r, crow b path q ns fr r /\ ~ In n ns /\ In u (ret_uses senv n (resource_ret fr r)).
Definition cdyn (n : str) (child : Routes) path q : Prop :=
  (no_variable senv n = false /\ ~ In n [s_i; s_path; s_method]) /\
  exists T, (n = s_len -> T = s_usize) /\ (exists u, cuse child path q n u) /\ forall u, cuse child path q n u -> u = T.
Definition node_fine (x : Routes) (path : list PathSegment) (q : list Param) : Prop :=
  (forall r, In r (rt_resources x) -> ret_fine (mkFlat path (rt_resources x) q) r) /\
  shape_ok x /\
  (forall d child, first_param x = Some (d, child) -> cdyn (p_name d) child (path ++ [Dynamic d]) q).
Definition cfine (b : Routes) (path : list PathSegment) (q : list Param) : Prop :=
  forall p q' x, emitted b p q' x -> node_fine x (path ++ p) (q ++ q').

Lemma cfine_eq b path q :
  cfine b path q <->
  node_fine b path (q ++ rt_query b) /\
  (forall s c, In (Static s, c) (rt_routes b) -> cfine c (path ++ [Static s]) (q ++ rt_query b)) /\
  (forall d c, first_param b = Some (d, c) -> cfine c (path ++ [Dynamic d]) (q ++ rt_query b)).
Proof.
  split.
  - intros H. split; [|split].
    + specialize (H _ _ _ (emitted_here b)). rewrite app_nil_r in H. exact H.
    + intros s c Hin p q' x Hx. specialize (H _ _ _ (emitted_static _ _ _ _ _ _ Hin Hx)).
      rewrite <- !app_assoc. exact H.
    + intros d c Hin p q' x Hx. specialize (H _ _ _ (emitted_dynamic _ _ _ _ _ _ Hin Hx)).
      rewrite <- !app_assoc. exact H.
  - intros (H1 & H2 & H3) p q' x Hx. inversion Hx; subst.
    + rewrite app_nil_r. exact H1.
    + specialize (H2 _ _ H _ _ _ H0). rewrite <- !app_assoc in H2. exact H2.
    + specialize (H3 _ _ H _ _ _ H0). rewrite <- !app_assoc in H3. exact H3.
Qed.
Lemma crow_eq b path q ns fr r :
  crow b path q ns fr r <->
  (ns = [] /\ fr = mkFlat path (rt_resources b) (q ++ rt_query b) /\ In r (rt_resources b)) \/
  (exists s c, In (Static s, c) (rt_routes b) /\ crow c (path ++ [Static s]) (q ++ rt_query b) ns fr r) \/
  (exists d c ns', first_param b = Some (d, c) /\ ns = p_name d :: ns' /\
                   crow c (path ++ [Dynamic d]) (q ++ rt_query b) ns' fr r).
Proof.
  split.
  - intros (p & q' & x & Hx & Hr & -> & ->). inversion Hx; subst.
    + left. rewrite app_nil_r. auto.
    + right; left. exists s, child. split; auto. exists p0, q0, x. rewrite <- !app_assoc. auto.
    + right; right. exists d, child. eexists. split; [exact H|]. split; [reflexivity|].
      exists p0, q0, x. rewrite <- !app_assoc. auto.
  - intros [(-> & -> & Hr)|[(s & c & Hin & (p & q' & x & Hx & Hr & -> & ->))|
                            (d & c & ns' & Hin & -> & (p & q' & x & Hx & Hr & -> & ->))]].
    + exists [], (rt_query b), b. rewrite app_nil_r. split; [constructor|auto].
    + exists (Static s :: p), (rt_query b ++ q'), x. rewrite <- !app_assoc.
      split; [econstructor; eauto|auto].
    + exists (Dynamic d :: p), (rt_query b ++ q'), x. rewrite <- !app_assoc.
      split; [econstructor; eauto|auto].
Qed.

(** Inside the segments of static children. *)
Record mfine (ss : list (list N * (PathSegment * Routes))) path q : Prop := {
  mf_plain : forall s x, In (s, x) ss -> plain_lit s = true;
  mf_prefix : forall s t x y, In (s, x) ss -> In (s ++ t, y) ss -> t = [];
  mf_below : forall s seg b, In (s, (seg, b)) ss -> cfine b (path ++ [seg]) q
}.
Definition mrow (ss : list (list N * (PathSegment * Routes))) path q ns fr r : Prop :=
  exists s seg b, In (s, (seg, b)) ss /\ crow b (path ++ [seg]) q ns fr r.

Lemma prepend_In u ss s x : In (s, x) (prepend u ss) <-> exists s', s = u ++ s' /\ In (s', x) ss.
Proof.
  unfold prepend. rewrite in_map_iff. split.
  - intros ([s' y] & [= <- <-] & H). eauto.
  - intros (s' & -> & H). exists (s', x). auto.
Qed.
Lemma plain_lit_app a b : plain_lit (a ++ b) = true <-> plain_lit a = true /\ plain_lit b = true.
Proof. unfold plain_lit. rewrite forallb_app, andb_true_iff. reflexivity. Qed.
Lemma mfine_prepend u ss path q : ss <> [] ->
  mfine (prepend u ss) path q <-> plain_lit u = true /\ mfine ss path q.
Proof.
  intros Hne. split.
  - intros [H1 H2 H3]. split.
    + destruct ss as [|[s x] ss]; [congruence|].
      assert (H := H1 (u ++ s) x (or_introl eq_refl)). apply plain_lit_app in H. apply H.
    + split.
      * intros s x Hin. assert (H : In (u ++ s, x) (prepend u ss)) by (apply prepend_In; eauto).
        apply H1 in H. apply plain_lit_app in H. apply H.
      * intros s t x y Hx Hy. apply (H2 (u ++ s) t x y).
        -- apply prepend_In; eauto.
        -- apply prepend_In. exists (s ++ t). rewrite app_assoc. auto.
      * intros s seg b Hin. apply (H3 (u ++ s)). apply prepend_In; eauto.
  - intros [Hu [H1 H2 H3]]. split.
    + intros s x Hin. apply prepend_In in Hin. destruct Hin as (s' & -> & Hin).
      apply plain_lit_app. eauto.
    + intros s t x y Hx Hy. apply prepend_In in Hx. destruct Hx as (s' & -> & Hx).
      apply prepend_In in Hy. destruct Hy as (s'' & E & Hy). rewrite <- app_assoc in E.
      apply app_inv_head in E. subst s''. eauto.
    + intros s seg b Hin. apply prepend_In in Hin. destruct Hin as (s' & -> & Hin). eauto.
Qed.
Lemma mrow_prepend u ss path q ns fr r : mrow (prepend u ss) path q ns fr r <-> mrow ss path q ns fr r.
Proof.
  split.
  - intros (s & seg & b & Hin & H). apply prepend_In in Hin. destruct Hin as (s' & -> & Hin).
    exists s', seg, b; auto.
  - intros (s & seg & b & Hin & H). exists (u ++ s), seg, b. split; auto. apply prepend_In; eauto.
Qed.
Lemma mfine_here x path q : mfine [([], x)] path q <-> cfine (snd x) (path ++ [fst x]) q.
Proof.
  split.
  - intros [_ _ H]. destruct x as [seg b]. apply (H [] seg b). left; reflexivity.
  - intros H. split.
    + intros s y [[= <- <-]|[]]. reflexivity.
    + intros s t y z [[= <- <-]|[]] [[= <- <-]|[]]. reflexivity.
    + intros s seg b [[= <- ->]|[]]. exact H.
Qed.
Lemma mrow_here x path q ns fr r : mrow [([], x)] path q ns fr r <-> crow (snd x) (path ++ [fst x]) q ns fr r.
Proof.
  split.
  - intros (s & seg & b & [Hx|[]] & H). injection Hx as <- ->. exact H.
  - intros H. destruct x as [seg b]. exists [], seg, b. split; [left; reflexivity|exact H].
Qed.

(** ** The induction *)
Definition kfine (f : nat) (k : kids) : Prop :=
  match k with
  | KLeaf => True
  | KBad => False
  | KSep c => fine f c
  | KStatic u c => plain_lit u = true /\ fine f c
  | KDyn n c => dyn_fine senv f n c /\ fine f c
  | KSplit u next n d => plain_lit u = true /\ fine f next /\ dyn_fine senv f n d /\ fine f d
  | KArms l =>
      Forall (fun kc => match fst kc with
                        | CStatic ch => plain_byte_char ch = true /\ fine f (snd kc)
                        | _ => False
                        end) l
  end.
Definition krow (f : nat) (k : kids) ns fr r : Prop :=
  match k with
  | KLeaf | KBad => False
  | KSep c | KStatic _ c => trow f c ns fr r
  | KDyn n c => exists ns', ns = n :: ns' /\ trow f c ns' fr r
  | KSplit _ next n d => trow f next ns fr r \/ exists ns', ns = n :: ns' /\ trow f d ns' fr r
  | KArms l => exists ch c, In (CStatic ch, c) l /\ trow f c ns fr r
  end.
Definition bnode (f : nat) : Prop := forall t b path q,
  Node t (Some (block_route b path q)) (block_keys b) path (q ++ rt_query b) -> trie_height t <= f ->
  (fine f t <-> cfine b path q) /\
  (cfine b path q -> forall ns fr r, trow f t ns fr r <-> crow b path q ns fr r).
Definition mnode (f : nat) : Prop := forall t ss path q,
  Node t None (skeys ss) path q -> ss <> [] -> trie_height t <= f ->
  (fine f t <-> mfine ss path q) /\
  (mfine ss path q -> forall ns fr r, trow f t ns fr r <-> mrow ss path q ns fr r).

Lemma sorted_nodup (l : list Charlike) : StronglySorted (klt charlike_cmp) l -> NoDup l.
Proof.
  induction 1 as [|k l _ IH HF]; constructor; auto. intros Hin. rewrite Forall_forall in HF.
  exact (klt_irrefl charlike_cmp charlike_cmp_eq _ (HF _ Hin)).
Qed.
Lemma sorted_distinct (t : ctrie) o ks path q k1 c1 k2 c2 l :
  Node t o ks path q -> t_children t = (k1, c1) :: (k2, c2) :: l -> k1 <> k2.
Proof.
  intros N E. pose proof (Node_sorted _ _ _ _ _ N) as HS. rewrite E in HS. simpl in HS.
  intros ->. apply StronglySorted_inv in HS. destruct HS as [_ HF].
  inversion HF as [|? ? Hk _]; subst. revert Hk. apply (klt_irrefl charlike_cmp charlike_cmp_eq).
Qed.

Lemma static_kids f t o ss path q :
  bnode f -> mnode f -> Node t o (skeys ss) path q -> trie_height t <= S f ->
  (kfine f (kids_of t) <-> mfine ss path q) /\
  (mfine ss path q -> forall ns fr r, krow f (kids_of t) ns fr r <-> mrow ss path q ns fr r).
Proof.
  intros Hb Hm N Hh.
  assert (Hheight : forall k c, In (k, c) (t_children t) -> trie_height c <= f).
  { intros k c Hin. pose proof (height_child _ _ _ Hin). lia. }
  unfold kids_of.
  assert (Hmany : forall k1 c1 k2 c2 l, t_children t = (k1, c1) :: (k2, c2) :: l ->
    (kfine f (KArms (t_children t)) <-> mfine ss path q) /\
    (mfine ss path q -> forall ns fr r, krow f (KArms (t_children t)) ns fr r <-> mrow ss path q ns fr r)).
  { intros k1 c1 k2 c2 l Ech.
    assert (Hchild : forall ch c, In (CStatic ch, c) (t_children t) ->
      ss_tail ch ss <> [] /\ (fine f c <-> mfine (ss_tail ch ss) path q) /\
      (mfine (ss_tail ch ss) path q -> forall ns fr r, trow f c ns fr r <-> mrow (ss_tail ch ss) path q ns fr r)).
    { intros ch c Hin.
      destruct (static_children _ _ _ _ _ N _ _ Hin) as [(ch' & [= <-] & N' & Hne)|(E & _)]; [|discriminate].
      split; auto. apply Hm; eauto. }
    assert (Htail : forall ch, mfine ss path q -> mfine (ss_tail ch ss) path q).
    { intros ch [H1 H2 H3]. split.
      - intros s x Hin. apply ss_tail_In in Hin. apply H1 in Hin.
        change (ch :: s) with ([ch] ++ s) in Hin. apply plain_lit_app in Hin. apply Hin.
      - intros s u x y Hx Hy. apply ss_tail_In in Hx, Hy. exact (H2 (ch :: s) u x y Hx Hy).
      - intros s seg b Hin. apply ss_tail_In in Hin. eauto. }
    assert (Hns : mfine ss path q -> forall c, ~ In (CSeparator, c) (t_children t)).
    { intros [_ H2 _] c Hin.
      destruct (static_children _ _ _ _ _ N _ _ Hin) as [(? & ? & _)|(_ & seg & b & _ & Hin0 & _)]; [discriminate|].
      assert (Ho : exists ch c', In (CStatic ch, c') (t_children t)).
      { pose proof (sorted_distinct _ _ _ _ _ _ _ _ _ _ N Ech) as Hd.
        assert (Hk : forall k c0, In (k, c0) (t_children t) -> k = CSeparator \/ exists ch, k = CStatic ch).
        { intros k c0 Hi. destruct (static_children _ _ _ _ _ N _ _ Hi) as [(ch & -> & _)|(-> & _)]; eauto. }
        assert (Hi1 : In (k1, c1) (t_children t)) by (rewrite Ech; left; reflexivity).
        assert (Hi2 : In (k2, c2) (t_children t)) by (rewrite Ech; right; left; reflexivity).
        destruct (Hk _ _ Hi1) as [->|[ch ->]]; [|eauto].
        destruct (Hk _ _ Hi2) as [->|[ch ->]]; [congruence|eauto]. }
      destruct Ho as (ch & c' & Hc'). destruct (Hchild _ _ Hc') as [Hne _].
      destruct (ss_tail ch ss) as [|[s x] l0] eqn:El; [congruence|].
      assert (Hx : In (ch :: s, x) ss) by (apply ss_tail_In; rewrite El; left; reflexivity).
      specialize (H2 [] (ch :: s) _ _ Hin0 Hx). discriminate. }
    split.
    - cbn [kfine]. rewrite Forall_forall. split.
      + intros HF.
        assert (Hno : forall x, ~ In ([], x) ss).
        { intros x Hx. destruct (has_sep _ _ _ _ _ _ N Hx) as [t' Ht']. exact (HF _ Ht'). }
        assert (Hcase : forall ch s x, In (ch :: s, x) ss ->
           plain_byte_char ch = true /\ mfine (ss_tail ch ss) path q).
        { intros ch s x Hx. destruct (has_static _ _ _ _ _ _ _ _ N Hx) as [c Hc].
          destruct (HF _ Hc) as [Hp Hf]. split; auto. apply (Hchild _ _ Hc). exact Hf. }
        split.
        * intros [|ch s] x Hx; [exfalso; eapply Hno; eauto|]. destruct (Hcase _ _ _ Hx) as [Hp [H1 _ _]].
          apply ss_tail_In in Hx. apply H1 in Hx. cbn [plain_lit forallb]. rewrite Hp. exact Hx.
        * intros [|ch s] u x y Hx Hy; [exfalso; eapply Hno; eauto|]. destruct (Hcase _ _ _ Hx) as [_ [_ H2 _]].
          apply (H2 s u x y); apply ss_tail_In; auto.
        * intros [|ch s] seg b Hx; [exfalso; eapply Hno; eauto|]. destruct (Hcase _ _ _ Hx) as [_ [_ _ H3]].
          apply (H3 s). apply ss_tail_In; auto.
      + intros Hmf [[ch|n|] c] Hin; cbn [fst snd].
        * destruct (Hchild _ _ Hin) as (Hne & H1 & _). split; [|apply H1; auto].
          destruct (ss_tail ch ss) as [|[s x] l0] eqn:El; [congruence|].
          assert (Hx : In (ch :: s, x) ss) by (apply ss_tail_In; rewrite El; left; reflexivity).
          apply (mf_plain _ _ _ Hmf) in Hx. apply andb_true_iff in Hx. apply Hx.
        * destruct (static_children _ _ _ _ _ N _ _ Hin) as [(? & ? & _)|(? & _)]; discriminate.
        * exact (Hns Hmf _ Hin).
    - intros Hmf ns fr r. cbn [krow]. split.
      + intros (ch & c & Hin & Hrow). destruct (Hchild _ _ Hin) as (_ & _ & H).
        apply H in Hrow; auto. destruct Hrow as (s & seg & b & Hs & Hrow).
        exists (ch :: s), seg, b. split; auto. apply ss_tail_In; auto.
      + intros ([|ch s] & seg & b & Hs & Hrow).
        * exfalso. destruct (has_sep _ _ _ _ _ _ N Hs) as [t' Ht']. exact (Hns Hmf _ Ht').
        * destruct (has_static _ _ _ _ _ _ _ _ N Hs) as [c Hc]. exists ch, c. split; auto.
          apply (Hchild _ _ Hc); auto. exists s, seg, b. split; auto. apply ss_tail_In; auto. }
  assert (Hunamb : forall k1 c1 k2 c2 l, t_children t = (k1, c1) :: (k2, c2) :: l ->
     exists l0 nx, unamb t = ([], l0, nx)).
  { intros k1 c1 k2 c2 l Ech. rewrite unamb_eq.
    destruct (existsb (fun c => is_separator (fst c)) (t_children t)) eqn:Es; [eauto|].
    rewrite filter_static_all.
    - rewrite Ech. cbn [length Nat.eqb]. eauto.
    - intros k c Hin. destruct (static_children _ _ _ _ _ N _ _ Hin) as [(ch & -> & _)|(-> & _)]; auto.
      exfalso. assert (existsb (fun c => is_separator (fst c)) (t_children t) = true); [|congruence].
      apply existsb_sep. eauto. }
  destruct (t_children t) as [|[k1 c1] [|[k2 c2] l]] eqn:Ech.
  - assert (ss = []) as ->.
    { destruct ss as [|[[|c s] x] ss]; auto; exfalso.
      + destruct (has_sep _ _ _ _ _ x N ltac:(left; reflexivity)) as [t' Ht'].
        rewrite Ech in Ht'. destruct Ht'.
      + destruct (has_static _ _ _ _ _ c s x N ltac:(left; reflexivity)) as [t' Ht'].
        rewrite Ech in Ht'. destruct Ht'. }
    cbn [kfine krow]. split.
    + split; [|auto]. intros _. split; intros; contradiction.
    + intros _ ns fr r. split; [intros []|]. intros (s & seg & b & [] & _).
  - destruct k1 as [ch|n|].
    + destruct (static_only _ _ _ _ _ _ _ N Ech) as [E1 N1].
      assert (Hin1 : In (CStatic ch, c1) (t_children t)) by (rewrite Ech; left; reflexivity).
      destruct (static_children _ _ _ _ _ N _ _ Hin1) as [(ch' & [= <-] & _ & Hne)|(E & _)]; [|discriminate].
      pose proof (chase_sub (trie_height c1) c1 ltac:(lia)) as Hsub.
      destruct (chase c1) as [more c'] eqn:Ec. cbn [snd] in Hsub.
      destruct (chase_node (trie_height c1) c1 _ _ _ _ _ ltac:(lia) N1 Ec) as (ss' & E2 & N2).
      rewrite E2, prepend_app in E1. change ([ch] ++ more) with (ch :: more) in E1.
      assert (Hne' : ss' <> []).
      { intros ->. rewrite E2 in Hne. apply Hne. reflexivity. }
      assert (Hh' : trie_height c' <= f).
      { apply sub_height in Hsub. specialize (Hheight (CStatic ch) c1 (or_introl eq_refl)). lia. }
      destruct (Hm c' ss' path q N2 Hne' Hh') as [H1 H2].
      rewrite E1. cbn [kfine krow]. rewrite (mfine_prepend _ _ _ _ Hne'), H1. split; [reflexivity|].
      intros [_ Hmf] ns fr r. rewrite mrow_prepend. apply H2; auto.
    + exfalso. assert (Hin1 : In (CDynamic n, c1) (t_children t)) by (rewrite Ech; left; reflexivity).
      destruct (static_children _ _ _ _ _ N _ _ Hin1) as [(? & ? & _)|(? & _)]; discriminate.
    + destruct (sep_only _ _ _ _ _ _ N Ech) as (seg & b & -> & N1).
      cbn [kfine krow]. rewrite mfine_here. cbn [fst snd].
      destruct (Hb c1 b (path ++ [seg]) q N1) as [H1 H2]; [eapply Hheight; left; reflexivity|].
      split; [exact H1|]. intros Hc ns fr r. rewrite mrow_here. cbn [fst snd]. auto.
  - destruct (Hunamb _ _ _ _ _ eq_refl) as (l0 & nx & ->).
    specialize (Hmany _ _ _ _ _ eq_refl). destruct k1; exact Hmany.
Qed.

(** ** Blocks *)
Lemma plain_lit_text s : plain_lit s = true <-> plain_text s.
Proof.
  unfold plain_lit, plain_text. rewrite forallb_forall.
  assert (H : forall c, plain_byte_char c = true <->
     (c < 128)%N /\ c <> c_quote /\ c <> c_backslash /\ c <> c_cr).
  { intros x. unfold plain_byte_char. rewrite !andb_true_iff, !negb_true_iff, N.ltb_lt, !N.eqb_neq. tauto. }
  split; intros Hx c Hc; apply H, Hx, Hc.
Qed.
Definition block_ss (b : Routes) : list (list N * (PathSegment * Routes)) :=
  map (fun sx : str * Routes => (fst sx, (Static (fst sx), snd sx))) (statics (rt_routes b)).
Lemma block_ss_In b s x :
  In (s, x) (block_ss b) <-> exists c, x = (Static s, c) /\ In (Static s, c) (rt_routes b).
Proof.
  unfold block_ss. rewrite in_map_iff. split.
  - intros ([s' c] & [= <- <-] & H). apply statics_In in H. eauto.
  - intros (c & -> & H). exists (s, c). split; auto. apply statics_In; auto.
Qed.
Lemma block_mfine b path q :
  mfine (block_ss b) path q <->
  (forall s c, In (Static s, c) (rt_routes b) -> plain_text s) /\
  (forall s t c c', In (Static s, c) (rt_routes b) -> In (Static (s ++ t), c') (rt_routes b) -> t = []) /\
  (forall s c, In (Static s, c) (rt_routes b) -> cfine c (path ++ [Static s]) q).
Proof.
  split.
  - intros [H1 H2 H3]. split; [|split].
    + intros s c Hin. apply plain_lit_text. apply (H1 s (Static s, c)). apply block_ss_In; eauto.
    + intros s t c c' Hs Ht. eapply (H2 s t); apply block_ss_In; eauto.
    + intros s c Hin. apply (H3 s). apply block_ss_In; eauto.
  - intros (H1 & H2 & H3). split.
    + intros s x Hin. apply block_ss_In in Hin. destruct Hin as (c & _ & Hin). apply plain_lit_text. eauto.
    + intros s t x y Hx Hy. apply block_ss_In in Hx. destruct Hx as (c & _ & Hx).
      apply block_ss_In in Hy. destruct Hy as (c' & _ & Hy). eauto.
    + intros s seg c Hin. apply block_ss_In in Hin. destruct Hin as (c' & [= -> <-] & Hin). eauto.
Qed.
Lemma block_mrow b path q ns fr r :
  mrow (block_ss b) path q ns fr r <->
  exists s c, In (Static s, c) (rt_routes b) /\ crow c (path ++ [Static s]) q ns fr r.
Proof.
  split.
  - intros (s & seg & c & Hin & H). apply block_ss_In in Hin. destruct Hin as (c' & [= -> <-] & Hin). eauto.
  - intros (s & c & Hin & H). exists s, (Static s), c. split; auto. apply block_ss_In; eauto.
Qed.
Lemma block_data b path q :
  data_fine senv (Some (block_route b path q)) <->
  forall r, In r (rt_resources b) -> ret_fine (mkFlat path (rt_resources b) (q ++ rt_query b)) r.
Proof.
  unfold data_fine, has_resources, block_route. cbn [f_resources]. split.
  - intros H r Hr. destruct (rt_resources b) as [|r0 l] eqn:E; [destruct Hr|].
    apply (H _ r eq_refl). exact Hr.
  - intros H fr r Hfr Hr. destruct (rt_resources b) as [|r0 l] eqn:E; [discriminate|].
    injection Hfr as <-. apply H. exact Hr.
Qed.
Lemma block_data_row b path q (ns : list str) fr r :
  ns = [] /\ has_resources (Some (block_route b path q)) = Some fr /\ In r (f_resources fr) <->
  ns = [] /\ fr = mkFlat path (rt_resources b) (q ++ rt_query b) /\ In r (rt_resources b).
Proof.
  unfold has_resources, block_route. cbn [f_resources]. split.
  - intros (-> & H & Hr). destruct (rt_resources b) as [|r0 l] eqn:E; [discriminate|].
    injection H as <-. auto.
  - intros (-> & -> & Hr). destruct (rt_resources b) as [|r0 l] eqn:E; [destruct Hr|]. auto.
Qed.

(** The child taken for a parameter. *)
Lemma node_param t o b path q d child :
  Node t o (block_keys b) path q -> first_param b = Some (d, child) ->
  exists c, find_dynamic (t_children t) = Some (p_name d, c) /\ In (CDynamic (p_name d), c) (t_children t) /\
    Node c None (skeys [([], (Dynamic d, child))]) path q /\
    (forall p c', In (Dynamic p, c') (rt_routes b) -> exists t', In (CDynamic (p_name p), t') (t_children t)) /\
    (forall p1 c1 p2 c2, In (Dynamic p1, c1) (rt_routes b) -> In (Dynamic p2, c2) (rt_routes b) ->
       p_name p1 = p_name p2 -> p1 = p2 /\ c1 = c2).
Proof.
  intros N El. unfold first_param in El.
  pose proof (Node_sorted _ _ _ _ _ N) as HS.
  pose proof (Node_keys_nodup _ _ _ _ _ N) as Hnk.
  pose proof (find_dynamic_least _ HS) as Hfd.
  pose proof (least_dynamic_spec (dynamic_children (rt_routes b))) as Hld.
  rewrite El in Hld. destruct Hld as [Hin0 Hmin0]. rewrite dynamic_children_In in Hin0.
  assert (Hhas : forall p c', In (Dynamic p, c') (rt_routes b) ->
            exists t', In (CDynamic (p_name p), t') (t_children t)).
  { intros p c' Hin. apply (Node_has _ _ _ _ _ N); [discriminate|].
    assert (Hk : In ([], (Dynamic p, c')) (ks_tail (CDynamic (p_name p)) (block_keys b))).
    { apply ks_tail_In. unfold block_keys. apply in_map_iff. exists (Dynamic p, c'). auto. }
    destruct (ks_tail _ _); [destruct Hk|discriminate]. }
  assert (Hsame : forall p1 c1 p2 c2, In (Dynamic p1, c1) (rt_routes b) ->
            In (Dynamic p2, c2) (rt_routes b) -> p_name p1 = p_name p2 -> p1 = p2 /\ c1 = c2).
  { intros p1 c1 p2 c2 H1 H2 Hname. unfold block_keys in Hnk. rewrite map_map in Hnk. simpl in Hnk.
    assert (Hp : forall (l : list (PathSegment * Routes)) x y,
              NoDup (map (fun nr => seg_key (fst nr)) l) -> In x l -> In y l ->
              seg_key (fst x) = seg_key (fst y) -> x = y).
    { clear. induction l as [|z l IH]; intros x y Hn Hx Hy Hxy; [destruct Hx|].
      simpl in Hn. inversion Hn as [|? ? Hz Hn']; subst.
      destruct Hx as [->|Hx], Hy as [->|Hy]; auto.
      - exfalso. apply Hz. rewrite Hxy. apply (in_map (fun nr => seg_key (fst nr))) in Hy. exact Hy.
      - exfalso. apply Hz. rewrite <- Hxy. apply (in_map (fun nr => seg_key (fst nr))) in Hx. exact Hx. }
    assert (Heq : (Dynamic p1, c1) = (Dynamic p2, c2)).
    { eapply Hp; eauto. simpl. congruence. }
    injection Heq as -> ->. auto. }
  destruct (find_dynamic (t_children t)) as [[n0 d0]|] eqn:Ef.
  2: { exfalso. destruct (Hhas _ _ Hin0) as [c Hc]. eapply Hfd; eauto. }
  destruct Hfd as [Hind Hmin].
  destruct (dynamic_child _ _ _ _ _ _ _ N Hind) as (p & c0 & Hpn & Hpin & Nd & _).
  assert (Hp0 : p = d /\ c0 = child).
  { apply Hsame; auto. subst n0.
    destruct (str_compare (p_name p) (p_name d)) eqn:Ecmp.
    - apply str_compare_eq; auto.
    - exfalso. apply (Hmin0 p c0); auto. apply dynamic_children_In; auto.
    - exfalso. destruct (Hhas _ _ Hin0) as [c Hc]. apply (Hmin _ _ Hc).
      rewrite str_compare_sym, Ecmp. reflexivity. }
  destruct Hp0 as [-> ->]. subst n0. exists d0. auto.
Qed.
Lemma node_static t o b path q s x :
  Node t o (block_keys b) path q -> In (Static s, x) (rt_routes b) ->
  match s with
  | [] => exists c, In (CSeparator, c) (t_children t)
  | ch :: _ => exists c, In (CStatic ch, c) (t_children t)
  end.
Proof.
  intros N Hin.
  assert (Hk : In (map CStatic s, (Static s, x)) (block_keys b)).
  { unfold block_keys. apply in_map_iff. exists (Static s, x). auto. }
  destruct s as [|ch s].
  - apply (Node_has_sep _ _ _ _ _ N). apply ks_here_In in Hk. destruct (ks_here _); [destruct Hk|discriminate].
  - apply (Node_has _ _ _ _ _ N); [discriminate|]. simpl in Hk.
    apply ks_tail_In in Hk. destruct (ks_tail _ _); [destruct Hk|discriminate].
Qed.
Lemma block_tail b ch : ks_tail (CStatic ch) (block_keys b) = skeys (ss_tail ch (block_ss b)).
Proof.
  unfold block_keys, block_ss. induction (rt_routes b) as [|[[[|c s]|p] child] l IH]; simpl; auto.
  - rewrite IH. destruct (charlike_eq_dec (CStatic c) (CStatic ch)) as [[= ->]|Hn].
    + rewrite N.eqb_refl. reflexivity.
    + destruct (N.eqb_spec c ch) as [->|]; [congruence|reflexivity].
  - destruct (charlike_eq_dec (CDynamic (p_name p)) (CStatic ch)); [discriminate|]. exact IH.
Qed.
Lemma node_child_static t o b path q ch c :
  Node t o (block_keys b) path q -> In (CStatic ch, c) (t_children t) ->
  Node c None (skeys (ss_tail ch (block_ss b))) path q /\ ss_tail ch (block_ss b) <> [].
Proof.
  intros N Hin. destruct (Node_child _ _ _ _ _ N _ _ Hin) as [N1 Hne]; [discriminate|].
  rewrite block_tail in N1, Hne. split; auto. intros E. rewrite E in Hne. apply Hne. reflexivity.
Qed.
Lemma node_child_sep t o b path q c :
  Node t o (block_keys b) path q -> In (CSeparator, c) (t_children t) ->
  exists x, In (Static [], x) (rt_routes b).
Proof.
  intros N Hin. destruct (Node_sep _ _ _ _ _ N _ Hin) as (seg & x & _ & Hx & _).
  unfold block_keys in Hx. apply in_map_iff in Hx.
  destruct Hx as ([[[|ch s]|p] c'] & E & Hin'); try discriminate E. eauto.
Qed.

Definition param_part (d : Param) (child : Routes) path q : Prop :=
  cdyn (p_name d) child (path ++ [Dynamic d]) q /\ cfine child (path ++ [Dynamic d]) q.
Lemma dyn_part f c d child path q :
  mnode f -> Node c None (skeys [([], (Dynamic d, child))]) path q -> trie_height c <= f ->
  (dyn_fine senv f (p_name d) c /\ fine f c <-> param_part d child path q) /\
  (cfine child (path ++ [Dynamic d]) q ->
   forall ns fr r, trow f c ns fr r <-> crow child (path ++ [Dynamic d]) q ns fr r).
Proof.
  intros Hm N Hh. destruct (Hm c _ path q N ltac:(discriminate) Hh) as [H1 H2].
  rewrite mfine_here in H1, H2. cbn [fst snd] in H1, H2.
  assert (H3 : cfine child (path ++ [Dynamic d]) q ->
     forall ns fr r, trow f c ns fr r <-> crow child (path ++ [Dynamic d]) q ns fr r).
  { intros Hc ns fr r. rewrite H2 by auto. apply mrow_here. }
  split; auto. unfold param_part. rewrite H1.
  assert (H4 : cfine child (path ++ [Dynamic d]) q ->
     forall u, tuse senv f c (p_name d) u <-> cuse child (path ++ [Dynamic d]) q (p_name d) u).
  { intros Hc u. specialize (H3 Hc). split; intros (ns & fr & r & Hr & Hx); exists ns, fr, r;
      (split; [apply H3; exact Hr|exact Hx]). }
  unfold dyn_fine, cdyn. split.
  - intros [[Hu (T & Hl & (u & Hx) & Ht)] Hc]. split; auto. split; auto. exists T. split; [exact Hl|]. split.
    + exists u. apply H4; auto.
    + intros u' Hu'. apply Ht, H4; auto.
  - intros [[Hu (T & Hl & (u & Hx) & Ht)] Hc]. split; auto. split; auto. exists T. split; [exact Hl|]. split.
    + exists u. apply H4; auto.
    + intros u' Hu'. apply Ht, H4; auto.
Qed.
Lemma dyn_kids f t o b path q d child :
  mnode f -> Node t o (block_keys b) path q -> trie_height t <= S f -> first_param b = Some (d, child) ->
  let ok := mfine (block_ss b) path q /\ shape_ok b /\ param_part d child path q in
  (kfine f (kids_of t) <-> ok) /\
  (ok -> forall ns fr r, krow f (kids_of t) ns fr r <->
     mrow (block_ss b) path q ns fr r \/
     exists ns', ns = p_name d :: ns' /\ crow child (path ++ [Dynamic d]) q ns' fr r).
Proof.
  intros Hm N Hh Hfp ok.
  destruct (node_param _ _ _ _ _ _ _ N Hfp) as (d0 & Ef & Hind & Nd & Hhas & Hsame).
  assert (Hheight : forall k c, In (k, c) (t_children t) -> trie_height c <= f).
  { intros k c Hin. pose proof (height_child _ _ _ Hin). lia. }
  destruct (dyn_part f d0 d child path q Hm Nd (Hheight _ _ Hind)) as [Hd1 Hd2].
  assert (Hne : dynamic_children (rt_routes b) <> []).
  { unfold first_param in Hfp. intros E. rewrite E in Hfp. discriminate. }
  unfold kids_of.
  assert (Hmany : forall k1 c1 k2 c2 l, t_children t = (k1, c1) :: (k2, c2) :: l ->
    let K := (let '(u, _, next) := unamb t in
      match u with
      | [] => KArms (t_children t)
      | _ :: _ =>
          match find_dynamic (t_children t) with
          | None => KBad
          | Some (n, d) => KSplit u next n d
          end
      end) in
    (kfine f K <-> ok) /\
    (ok -> forall ns fr r, krow f K ns fr r <->
       mrow (block_ss b) path q ns fr r \/
       exists ns', ns = p_name d :: ns' /\ crow child (path ++ [Dynamic d]) q ns' fr r)).
  { intros k1 c1 k2 c2 l Ech. rewrite Ef.
    assert (Hlone : (statics (rt_routes b) = [] /\ length (dynamic_children (rt_routes b)) = 1) -> False).
    { intros [Hs Hl]. pose proof (sorted_distinct _ _ _ _ _ _ _ _ _ _ N Ech) as Hd.
      assert (Hall : forall k c, In (k, c) (t_children t) -> k = CDynamic (p_name d)).
      { intros [ch|n|] c Hin.
        - exfalso. destruct (node_child_static _ _ _ _ _ _ _ N Hin) as [_ Hx]. apply Hx.
          unfold block_ss. rewrite Hs. reflexivity.
        - destruct (dynamic_child _ _ _ _ _ _ _ N Hin) as (p & c' & <- & Hp & _).
          apply dynamic_children_In in Hp. unfold first_param in Hfp.
          destruct (dynamic_children (rt_routes b)) as [|x [|? ?]] eqn:E; try discriminate Hl.
          destruct Hp as [->|[]]. simpl in Hfp. injection Hfp as -> ->. reflexivity.
        - exfalso. destruct (node_child_sep _ _ _ _ _ _ N Hin) as [x Hx]. apply statics_In in Hx.
          rewrite Hs in Hx. destruct Hx. }
      assert (H1 := Hall k1 c1). assert (H2 := Hall k2 c2). rewrite Ech in H1, H2.
      rewrite H1, H2 in Hd; simpl; auto. }
    destruct (unamb t) as [[u l0] next] eqn:Eu. destruct u as [|uc u].
    - (* arms: the parameter cannot be one of them *)
      assert (Hno : ~ ok).
      { intros (_ & Hs & _). destruct (so_mixed _ Hs Hne) as [Hx|(Hss & ch & Hch)]; [exact (Hlone Hx)|].
        rewrite unamb_eq in Eu.
        assert (Esep : existsb (fun c => is_separator (fst c)) (t_children t) = false).
        { destruct (existsb _ _) eqn:E; auto. exfalso. apply existsb_sep in E. destruct E as [c Hc].
          destruct (node_child_sep _ _ _ _ _ _ N Hc) as [x Hx]. apply Hch in Hx. destruct Hx. discriminate. }
        rewrite Esep in Eu.
        assert (Hone : forall k c, In (k, c) (t_children t) -> is_static k = true -> k = CStatic ch).
        { intros [c'|n|] c Hin Hk; try discriminate.
          destruct (node_child_static _ _ _ _ _ _ _ N Hin) as [_ Hx].
          destruct (ss_tail c' (block_ss b)) as [|[s y] l1] eqn:E1; [congruence|].
          assert (Hy : In (c' :: s, y) (block_ss b)) by (apply ss_tail_In; rewrite E1; left; reflexivity).
          apply block_ss_In in Hy. destruct Hy as (x & _ & Hy). apply Hch in Hy. destruct Hy as [? [= -> _]].
          reflexivity. }
        destruct (statics (rt_routes b)) as [|[s x] ls] eqn:Est; [congruence|].
        assert (Hsx : In (Static s, x) (rt_routes b)) by (apply statics_In; rewrite Est; left; reflexivity).
        destruct (Hch _ _ Hsx) as [s' ->].
        destruct (node_static _ _ _ _ _ _ _ N Hsx) as [c Hc].
        assert (E1 : length (filter (fun c => is_static (fst c)) (t_children t)) = 1).
        { pose proof (Node_sorted _ _ _ _ _ N) as HS. clear - Hone HS Hc.
          apply in_split in Hc. destruct Hc as (l1 & l2 & E). rewrite E in *.
          rewrite filter_app. cbn [filter fst is_static].
          assert (Hf : forall k c, In (k, c) (l1 ++ l2) -> is_static k = false).
          { intros k c0 Hin. destruct (is_static k) eqn:Ek; auto. exfalso.
            assert (k = CStatic ch).
            { apply (Hone k c0); auto. apply in_app_iff in Hin. apply in_app_iff.
              destruct Hin; [left|right; right]; auto. }
            subst k.
            assert (Hnd : NoDup (map fst (l1 ++ (CStatic ch, c) :: l2))).
            { exact (sorted_nodup _ HS). }
            rewrite map_app in Hnd. cbn [map fst] in Hnd. apply NoDup_remove_2 in Hnd. apply Hnd.
            rewrite <- map_app. apply (in_map fst) in Hin. exact Hin. }
          assert (Hz : forall l : list (Charlike * ctrie), (forall k c, In (k, c) l -> is_static k = false) ->
                     filter (fun c => is_static (fst c)) l = []).
          { induction l as [|[k c0] l IH]; intros H; auto. simpl. rewrite (H k c0) by (left; reflexivity).
            apply IH. intros; eapply H; right; eauto. }
          rewrite (Hz l1), (Hz l2); auto.
          - intros; eapply Hf; apply in_app_iff; right; eauto.
          - intros; eapply Hf; apply in_app_iff; left; eauto. }
        rewrite E1 in Eu. cbn [Nat.eqb] in Eu.
        destruct (the_static (t_children t)) as [[ch' t1]|] eqn:Ets.
        + destruct (unamb t1) as [[s1 l1] t1']. discriminate.
        + revert E1 Ets. clear. unfold the_static.
          induction (t_children t) as [|[[c|n|] c'] lx IH]; simpl; try discriminate; auto. }
      split.
      + split; [|tauto]. intros HF. exfalso. cbn [kfine] in HF. rewrite Forall_forall in HF.
        exact (HF _ Hind).
      + intros Hok. tauto.
    - pose proof Eu as Eu'. rewrite unamb_eq in Eu.
      destruct (existsb (fun c => is_separator (fst c)) (t_children t)) eqn:Esep; [discriminate|].
      destruct (length (filter (fun c => is_static (fst c)) (t_children t)) =? 1)%nat eqn:E1; [|discriminate].
      destruct (the_static (t_children t)) as [[ch t1]|] eqn:Ets; [|discriminate].
      pose proof (unamb_sub (trie_height t1) t1 ltac:(lia)) as Hsub.
      destruct (unamb t1) as [[s1 l1] t1'] eqn:Eu1. injection Eu as <- <- <- <-. cbn [snd] in Hsub.
      apply the_static_in in Ets. apply Nat.eqb_eq in E1.
      assert (Hone : forall c t', In (CStatic c, t') (t_children t) -> c = ch).
      { intros c t' Hc. assert (H1 : In (CStatic c, t') (filter (fun c => is_static (fst c)) (t_children t)))
          by (apply filter_In; auto).
        assert (H2 : In (CStatic ch, t1) (filter (fun c => is_static (fst c)) (t_children t)))
          by (apply filter_In; auto).
        destruct (filter _ _) as [|y [|? ?]]; try discriminate.
        destruct H1 as [->|[]], H2 as [H2|[]]. congruence. }
      assert (Hst : forall s x, In (Static s, x) (rt_routes b) -> exists s', s = ch :: s').
      { intros s x Hin. pose proof (node_static _ _ _ _ _ _ _ N Hin) as Hs. destruct s as [|c s].
        - destruct Hs as [c Hc]. exfalso.
          assert (existsb (fun c => is_separator (fst c)) (t_children t) = true);
            [apply existsb_sep; eauto|congruence].
        - destruct Hs as [c1' Hc]. rewrite (Hone _ _ Hc). eauto. }
      assert (Hss : forall s x, In (s, x) (block_ss b) -> exists s', s = ch :: s').
      { intros s x Hx. apply block_ss_In in Hx. destruct Hx as (c & _ & Hx). eauto. }
      pose proof (prepend_all ch _ Hss) as Epre.
      destruct (node_child_static _ _ _ _ _ _ _ N Ets) as [N1 Hne2].
      destruct (unamb_node (trie_height t1) t1 _ _ _ _ _ _ ltac:(lia) N1 Hne2 Eu1)
        as (ss' & Ess & N2 & _).
      rewrite Ess, prepend_app in Epre. change ([ch] ++ s1) with (ch :: s1) in Epre.
      assert (Hne' : ss' <> []).
      { intros ->. rewrite Ess in Hne2. apply Hne2. reflexivity. }
      assert (Hh' : trie_height t1' <= f).
      { apply sub_height in Hsub. specialize (Hheight _ _ Ets). lia. }
      destruct (Hm t1' ss' path q N2 Hne' Hh') as [H1 H2].
      assert (Hsh : mfine (block_ss b) path q -> shape_ok b).
      { intros Hmf. apply block_mfine in Hmf. destruct Hmf as (Ha & Hb & _). split; auto.
        intros _. right. split; [|eauto].
        intros E. assert (E0 : block_ss b = []) by (unfold block_ss; rewrite E; reflexivity).
        rewrite E0 in Hne2. apply Hne2. reflexivity. }
      assert (Hmf : mfine (block_ss b) path q <-> plain_lit (ch :: s1) = true /\ mfine ss' path q).
      { rewrite Epre. apply mfine_prepend; auto. }
      cbn [kfine krow]. split.
      + rewrite H1, Hd1. unfold ok. rewrite Hmf in *. tauto.
      + intros (Ho1 & Ho2 & Ho3) ns fr r. rewrite (H2 (proj2 (proj1 Hmf Ho1))).
        rewrite Epre, mrow_prepend. apply or_iff_compat_l.
        split; intros (ns' & E & Hr); exists ns'; (split; [exact E|]); apply Hd2; auto; apply Ho3. }
  destruct (t_children t) as [|[[ch|nm|] c] [|[k2 c2] l2]] eqn:Ech;
    try (refine (Hmany _ _ _ _ _ eq_refl)).
  - destruct Hind.
  - destruct Hind as [Hind|[]]. discriminate.
  - (* the dynamic child only *)
    destruct Hind as [[= -> ->]|[]].
    assert (Hns : forall s x, ~ In (Static s, x) (rt_routes b)).
    { intros s x Hin. pose proof (node_static _ _ _ _ _ _ _ N Hin) as Hs. rewrite Ech in Hs.
      destruct s as [|ch s]; destruct Hs as [c1 [Hc|[]]]; discriminate. }
    assert (Hs : statics (rt_routes b) = []).
    { destruct (statics (rt_routes b)) as [|[s x] l] eqn:E; auto. exfalso. apply (Hns s x).
      apply statics_In. rewrite E. left; reflexivity. }
    assert (Hmf : mfine (block_ss b) path q).
    { apply block_mfine. split; [|split]; intros; exfalso; eapply Hns; eauto. }
    assert (Hsh : shape_ok b).
    { split; try (intros; exfalso; eapply Hns; eauto; fail). intros _. left. split; auto.
      assert (Hnd : NoDup (dynamic_children (rt_routes b))).
      { eapply NoDup_map_inv with (f := fun px : Param * Routes => seg_key (Dynamic (fst px))).
        pose proof (Node_keys_nodup _ _ _ _ _ N) as Hnk. unfold block_keys in Hnk. rewrite map_map in Hnk.
        revert Hnk. clear. simpl. induction (rt_routes b) as [|[[s|p] x] l IH]; simpl; intros H.
        - constructor.
        - inversion H; subst. auto.
        - inversion H as [|? ? Hx Hn]; subst. constructor; auto. intros Hin. apply Hx.
          apply in_map_iff in Hin. destruct Hin as ([p' x'] & E & Hin). simpl in E.
          apply dynamic_children_In in Hin. apply in_map_iff. exists (Dynamic p', x'). auto. }
      assert (Hall : forall p x, In (p, x) (dynamic_children (rt_routes b)) -> (p, x) = (d, child)).
      { intros p x Hin. apply dynamic_children_In in Hin.
        destruct (Hhas _ _ Hin) as [t' [[= E _]|[]]].
        assert (Hd0 : In (Dynamic d, child) (rt_routes b)).
        { pose proof (least_dynamic_spec (dynamic_children (rt_routes b))) as Hld.
          unfold first_param in Hfp. rewrite Hfp in Hld. apply dynamic_children_In. apply Hld. }
        destruct (Hsame _ _ _ _ Hin Hd0 (eq_sym E)) as [-> ->]. reflexivity. }
      destruct (dynamic_children (rt_routes b)) as [|[p1 x1] [|[p2 x2] l]]; auto; [congruence|].
      exfalso. assert (A1 := Hall p1 x1 (or_introl eq_refl)).
      assert (A2 := Hall p2 x2 (or_intror (or_introl eq_refl))).
      inversion Hnd as [|? ? Hx _]; subst. apply Hx. rewrite A1, A2. left; reflexivity. }
    cbn [kfine krow]. split.
    + rewrite Hd1. unfold ok. tauto.
    + intros (_ & _ & Ho3) ns fr r. split.
      * intros (ns' & E & Hr). right. exists ns'. split; auto. apply Hd2; auto. apply Ho3.
      * intros [Hr|(ns' & E & Hr)].
        -- exfalso. apply block_mrow in Hr. destruct Hr as (s & x & Hin & _). eapply Hns; eauto.
        -- exists ns'. split; auto. apply Hd2; auto. apply Ho3.
  - destruct Hind as [Hind|[]]. discriminate.
Qed.

Lemma trow_S f t ns fr r :
  trow (S f) t ns fr r <->
  (ns = [] /\ has_resources (t_data t) = Some fr /\ In r (f_resources fr)) \/ krow f (kids_of t) ns fr r.
Proof. reflexivity. Qed.
Lemma fine_S f t : fine (S f) t <-> data_fine senv (t_data t) /\ kfine f (kids_of t).
Proof. reflexivity. Qed.

Lemma no_params b : dynamic_children (rt_routes b) = [] -> first_param b = None.
Proof. unfold first_param. intros ->. reflexivity. Qed.
Theorem nodes f : bnode f /\ mnode f.
Proof.
  induction f as [|f [IHb IHm]].
  { split; intros t; intros; destruct t; simpl in *; lia. }
  split.
  - intros t b path q N Hh. rewrite cfine_eq, fine_S, (Node_data _ _ _ _ _ N), block_data.
    destruct (first_param b) as [[d child]|] eqn:Ef.
    + destruct (dyn_kids f t _ b _ _ d child IHm N Hh Ef) as [H1 H2].
      assert (Hp : node_fine b path (q ++ rt_query b) /\
        (forall s c, In (Static s, c) (rt_routes b) -> cfine c (path ++ [Static s]) (q ++ rt_query b)) /\
        (forall d' c, Some (d, child) = Some (d', c) -> cfine c (path ++ [Dynamic d']) (q ++ rt_query b)) <->
        (forall r, In r (rt_resources b) -> ret_fine (mkFlat path (rt_resources b) (q ++ rt_query b)) r) /\
        mfine (block_ss b) path (q ++ rt_query b) /\ shape_ok b /\ param_part d child path (q ++ rt_query b)).
      { unfold node_fine, param_part. rewrite Ef, block_mfine. split.
        - intros ((A & B & C) & D & F). pose proof B as [B1 B2 _].
          exact (conj A (conj (conj B1 (conj B2 D)) (conj B (conj (C _ _ eq_refl) (F _ _ eq_refl))))).
        - intros (A & (_ & _ & B) & C & D & F).
          refine (conj (conj A (conj C _)) (conj B _)); intros d' c' [= <- <-]; auto. }
      rewrite Hp, H1. split; [reflexivity|]. intros (A & B) ns fr r.
      rewrite trow_S, (Node_data _ _ _ _ _ N), block_data_row, crow_eq, (H2 B), block_mrow, Ef.
      apply or_iff_compat_l. apply or_iff_compat_l. split.
      * intros (ns' & E & H). exists d, child, ns'. auto.
      * intros (d' & c' & ns' & [= <- <-] & E & H). exists ns'. auto.
    + assert (Hd : dynamic_children (rt_routes b) = []).
      { pose proof (least_dynamic_spec (dynamic_children (rt_routes b))) as Hld.
        unfold first_param in Ef. rewrite Ef in Hld. exact Hld. }
      pose proof N as N0. rewrite (block_keys_static b Hd) in N0. fold (block_ss b) in N0.
      destruct (static_kids f t _ _ _ _ IHb IHm N0 Hh) as [H1 H2].
      assert (Hp : node_fine b path (q ++ rt_query b) /\
        (forall s c, In (Static s, c) (rt_routes b) -> cfine c (path ++ [Static s]) (q ++ rt_query b)) /\
        (forall d' c, None = Some (d', c) -> cfine c (path ++ [Dynamic d']) (q ++ rt_query b)) <->
        (forall r, In r (rt_resources b) -> ret_fine (mkFlat path (rt_resources b) (q ++ rt_query b)) r) /\
        mfine (block_ss b) path (q ++ rt_query b)).
      { unfold node_fine. rewrite Ef, block_mfine. split.
        - intros ((A & B & _) & D & _). pose proof B as [B1 B2 _].
          exact (conj A (conj B1 (conj B2 D))).
        - intros (A & B & C & D). refine (conj (conj A (conj _ _)) (conj D _)); try discriminate.
          split; auto. congruence. }
      rewrite Hp, H1. split; [reflexivity|]. intros (A & B) ns fr r.
      rewrite trow_S, (Node_data _ _ _ _ _ N), block_data_row, crow_eq, (H2 B), block_mrow, Ef.
      apply or_iff_compat_l. split; [auto|]. intros [H|(d & c & ns' & [=] & _)]. exact H.
  - intros t ss path q N Hne Hh. rewrite fine_S, (Node_data _ _ _ _ _ N).
    destruct (static_kids f t _ _ _ _ IHb IHm N Hh) as [H1 H2]. split.
    + rewrite <- H1. split; [tauto|]. intros H. split; auto. intros fr r Hfr. discriminate.
    + intros Hm ns fr r. rewrite trow_S, (Node_data _ _ _ _ _ N), (H2 Hm). split; [|auto].
      intros [(_ & [=] & _)|H]; exact H.
Qed.
End Nodes.
