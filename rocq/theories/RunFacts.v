(** * RunFacts: walking the trie is searching the configuration *)
From Coq Require Import Sorted.
From Verif Require Import Base Core Trie Flat MiniRust Gen Spec.
From Verif Require Import BaseFacts TrieFacts ExecFacts NodeFacts CompFacts.

(** ** Strings *)
Lemma segment_span l : segment l = span_segment l.
Proof. reflexivity. Qed.
Lemma strip_Some s l t : strip s l = Some t <-> l = s ++ t.
Proof.
  revert l. induction s as [|x s IH]; intros l; simpl.
  - split; congruence.
  - destruct l as [|y l]; [split; discriminate|].
    destruct (N.eqb_spec x y) as [->|Hn].
    + rewrite IH. split; [intros ->; reflexivity | intros [= ->]; reflexivity].
    + split; [discriminate | congruence].
Qed.
Lemma strip_prefix s l :
  strip s l = if is_prefix s l then Some (skipn (length s) l) else None.
Proof.
  revert l. induction s as [|x s IH]; intros l; simpl; auto.
  destruct l as [|y l]; auto. destruct (N.eqb x y); simpl; auto.
Qed.
Lemma strip_app s1 s2 l :
  strip (s1 ++ s2) l = match strip s1 l with Some t => strip s2 t | None => None end.
Proof.
  revert l. induction s1 as [|x s IH]; intros l; simpl; auto.
  destruct l as [|y l]; auto. destruct (N.eqb x y); auto.
Qed.

(** ** Static keys *)
Notation stexts := (list (list N * (PathSegment * Routes))) (only parsing).
Definition skeys (ss : stexts) : list (list Charlike * (PathSegment * Routes)) :=
  map (fun sx : list N * (PathSegment * Routes) => (map CStatic (fst sx), snd sx)) ss.
Fixpoint ss_tail (c : char) (ss : stexts) : stexts :=
  match ss with
  | [] => []
  | (c' :: s, x) :: ss' => if N.eqb c' c then (s, x) :: ss_tail c ss' else ss_tail c ss'
  | ([], _) :: ss' => ss_tail c ss'
  end.
Definition prepend (u : str) (ss : stexts) : stexts :=
  map (fun sx : list N * (PathSegment * Routes) => (u ++ fst sx, snd sx)) ss.

Lemma ks_tail_skeys c ss : ks_tail (CStatic c) (skeys ss) = skeys (ss_tail c ss).
Proof.
  induction ss as [|[[|c' s] x] ss IH]; simpl; auto.
  destruct (charlike_eq_dec (CStatic c') (CStatic c)) as [[= ->]|Hn].
  - rewrite N.eqb_refl. simpl. rewrite IH. reflexivity.
  - destruct (N.eqb_spec c' c) as [->|]; [congruence|]. apply IH.
Qed.
Lemma ss_tail_In c ss s x : In (s, x) (ss_tail c ss) <-> In (c :: s, x) ss.
Proof.
  induction ss as [|[[|c' s'] y] ss IH]; simpl; [tauto| |].
  - rewrite IH. split; [auto|intros [E|?]; [discriminate|auto]].
  - destruct (N.eqb_spec c' c) as [->|Hn]; simpl; rewrite IH.
    + split; intros [E|E]; auto; injection E as -> ->; auto.
    + split; [auto|]. intros [E|E]; auto. congruence.
Qed.
Lemma skeys_In ss k x : In (k, x) (skeys ss) <-> exists s, k = map CStatic s /\ In (s, x) ss.
Proof.
  unfold skeys. rewrite in_map_iff. split.
  - intros ([s y] & [= <- <-] & Hin). exists s. auto.
  - intros (s & -> & Hin). exists (s, x). auto.
Qed.
Lemma ks_here_skeys_In ss x : In x (ks_here (skeys ss)) <-> In ([], x) ss.
Proof.
  rewrite ks_here_In, skeys_In. split.
  - intros (s & E & Hin). destruct s; [exact Hin|discriminate].
  - intros Hin. exists []. auto.
Qed.
Lemma prepend_all c ss :
  (forall s x, In (s, x) ss -> exists s', s = c :: s') -> ss = prepend [c] (ss_tail c ss).
Proof.
  induction ss as [|[s x] ss IH]; intros H; auto.
  destruct (H s x (or_introl eq_refl)) as [s' ->]. simpl. rewrite N.eqb_refl. simpl. f_equal.
  apply IH. intros; eapply H; right; eauto.
Qed.
Lemma prepend_app u v ss : prepend u (prepend v ss) = prepend (u ++ v) ss.
Proof. unfold prepend. rewrite map_map. apply map_ext. intros []. simpl. rewrite app_assoc. reflexivity. Qed.
Lemma prepend_nil ss : prepend [] ss = ss.
Proof. unfold prepend. rewrite <- map_id. apply map_ext. intros []; reflexivity. Qed.

(** Children of a node with static keys only. *)
Lemma static_children t o ss path q :
  Node t o (skeys ss) path q ->
  forall k c, In (k, c) (t_children t) ->
  (exists ch, k = CStatic ch /\ Node c None (skeys (ss_tail ch ss)) path q /\ ss_tail ch ss <> []) \/
  (k = CSeparator /\ exists seg b, ks_here (skeys ss) = [(seg, b)] /\ In ([], (seg, b)) ss /\
     Node c (Some (block_route b (path ++ [seg]) q)) (block_keys b) (path ++ [seg]) (q ++ rt_query b)).
Proof.
  intros N k c Hin. destruct k as [ch|n|].
  - left. exists ch. split; auto.
    destruct (Node_child _ _ _ _ _ N _ _ Hin) as [N' Hne]; [discriminate|].
    rewrite ks_tail_skeys in *. split; auto. intros E. apply Hne. rewrite E. reflexivity.
  - exfalso. destruct (Node_child _ _ _ _ _ N _ _ Hin) as [N' Hne]; [discriminate|].
    destruct (ks_tail (CDynamic n) (skeys ss)) as [|[k x] l] eqn:E; [congruence|].
    assert (Hk : In (CDynamic n :: k, x) (skeys ss)).
    { apply ks_tail_In. rewrite E. left; reflexivity. }
    apply skeys_In in Hk. destruct Hk as ([|? ?] & E' & _); discriminate.
  - right. split; auto.
    destruct (Node_sep _ _ _ _ _ N _ Hin) as (seg & b & H1 & H2 & H3).
    exists seg, b. split; auto. split; auto.
    apply skeys_In in H2. destruct H2 as ([|? ?] & E & H2); [exact H2|discriminate].
Qed.
Lemma has_static t o ss path q c s x :
  Node t o (skeys ss) path q -> In (c :: s, x) ss -> exists t', In (CStatic c, t') (t_children t).
Proof.
  intros N Hin. apply (Node_has _ _ _ _ _ N); [discriminate|].
  rewrite ks_tail_skeys. apply ss_tail_In in Hin. destruct (ss_tail c ss); [destruct Hin|discriminate].
Qed.
Lemma has_sep t o ss path q x :
  Node t o (skeys ss) path q -> In ([], x) ss -> exists t', In (CSeparator, t') (t_children t).
Proof.
  intros N Hin. apply (Node_has_sep _ _ _ _ _ N).
  apply ks_here_skeys_In in Hin. destruct (ks_here (skeys ss)); [destruct Hin|discriminate].
Qed.
Lemma skeys_nodup t o ss path q : Node t o (skeys ss) path q -> NoDup (map fst ss).
Proof.
  intros N. pose proof (Node_keys_nodup _ _ _ _ _ N) as H. unfold skeys in H. rewrite map_map in H.
  simpl in H. rewrite <- map_map in H. apply NoDup_map_inv in H. exact H.
Qed.

(** All keys equal: at most one. *)
Lemma nodup_single {A B} (l : list (A * B)) k x :
  NoDup (map fst l) -> In (k, x) l -> (forall k' x', In (k', x') l -> k' = k) -> l = [(k, x)].
Proof.
  intros Hn Hin Hall. destruct l as [|[k1 x1] [|[k2 x2] l]].
  - destruct Hin.
  - destruct Hin as [->|[]]. reflexivity.
  - exfalso. assert (k1 = k) by (eapply Hall; left; reflexivity).
    assert (k2 = k) by (eapply Hall; right; left; reflexivity). subst.
    simpl in Hn. inversion Hn as [|? ? H1 _]; subst. apply H1. left; reflexivity.
Qed.

(** A separator child next to nothing else. *)
Lemma sep_only t o ss path q c :
  Node t o (skeys ss) path q -> t_children t = [(CSeparator, c)] ->
  exists seg b, ss = [([], (seg, b))] /\
     Node c (Some (block_route b (path ++ [seg]) q)) (block_keys b) (path ++ [seg]) (q ++ rt_query b).
Proof.
  intros N Ech.
  assert (Hin : In (CSeparator, c) (t_children t)) by (rewrite Ech; left; reflexivity).
  destruct (static_children _ _ _ _ _ N _ _ Hin) as [(ch & E & _)|(_ & seg & b & H1 & H2 & H3)];
    [discriminate|].
  exists seg, b. split; auto.
  apply nodup_single; [eapply skeys_nodup; eauto|exact H2|].
  intros [|ch s] x Hx; auto. exfalso.
  destruct (has_static _ _ _ _ _ _ _ _ N Hx) as [t' Ht']. rewrite Ech in Ht'.
  destruct Ht' as [Ht'|[]]. discriminate.
Qed.
Lemma static_only t o ss path q ch c :
  Node t o (skeys ss) path q -> t_children t = [(CStatic ch, c)] ->
  ss = prepend [ch] (ss_tail ch ss) /\ Node c None (skeys (ss_tail ch ss)) path q.
Proof.
  intros N Ech.
  assert (Hin : In (CStatic ch, c) (t_children t)) by (rewrite Ech; left; reflexivity).
  destruct (static_children _ _ _ _ _ N _ _ Hin) as [(ch' & E & N' & Hne)|(E & _)]; [|discriminate].
  injection E as <-. split; auto. apply prepend_all.
  intros [|c' s] x Hx.
  - exfalso. destruct (has_sep _ _ _ _ _ _ N Hx) as [t' Ht']. rewrite Ech in Ht'.
    destruct Ht' as [Ht'|[]]. discriminate.
  - destruct (has_static _ _ _ _ _ _ _ _ N Hx) as [t' Ht']. rewrite Ech in Ht'.
    destruct Ht' as [Ht'|[]]. injection Ht' as <- _. eauto.
Qed.

Lemma chase_node n : forall t ss path q more t',
  trie_height t <= n ->
  Node t None (skeys ss) path q -> chase t = (more, t') ->
  exists ss', ss = prepend more ss' /\ Node t' None (skeys ss') path q.
Proof.
  induction n as [|n IH]; intros t ss path q more t' Hh N Hc; [destruct t; simpl in Hh; lia|].
  destruct (t_children t) as [|[[c|nm|] t1] [|? ?]] eqn:Ech;
    destruct t as [d ch]; simpl in Ech; subst ch; simpl in Hc;
    try (injection Hc as <- <-; exists ss; rewrite prepend_nil; auto).
  destruct (chase t1) as [s t2] eqn:E1. injection Hc as <- <-.
  destruct (static_only _ _ _ _ _ _ _ N eq_refl) as [E2 N1].
  destruct (IH t1 _ _ _ _ _ ltac:(simpl in Hh; lia) N1 E1) as (ss' & E3 & N2).
  exists ss'. split; auto. rewrite E2, E3, prepend_app. reflexivity.
Qed.

Lemma filter_static_all (ch : list (Charlike * ctrie)) :
  (forall k c, In (k, c) ch -> is_static k = true) ->
  filter (fun c => is_static (fst c)) ch = ch.
Proof.
  induction ch as [|[k c] ch IH]; simpl; auto. intros H.
  rewrite (H k c (or_introl eq_refl)). f_equal. apply IH. intros; eapply H; right; eauto.
Qed.
Lemma existsb_sep (ch : list (Charlike * ctrie)) :
  existsb (fun c => is_separator (fst c)) ch = true <-> exists t', In (CSeparator, t') ch.
Proof.
  rewrite existsb_exists. split.
  - intros ([[c|n|] t'] & Hin & H); try discriminate. eauto.
  - intros [t' Hin]. exists (CSeparator, t'). auto.
Qed.

Lemma unamb_node n : forall t ss path q s l next,
  trie_height t <= n ->
  Node t None (skeys ss) path q -> ss <> [] -> unamb t = (s, l, next) ->
  exists ss', ss = prepend s ss' /\ Node next None (skeys ss') path q /\
    ((l = length s /\ exists x, In ([], x) ss') \/ (l = S (length s) /\ 2 <= length ss')).
Proof.
  induction n as [|n IH]; intros t ss path q s l next Hh N Hne Hu; [destruct t; simpl in Hh; lia|].
  rewrite unamb_eq in Hu.
  destruct (existsb (fun c => is_separator (fst c)) (t_children t)) eqn:Es.
  { injection Hu as <- <- <-. exists ss. rewrite prepend_nil. split; auto. split; auto. left.
    split; auto. apply existsb_sep in Es. destruct Es as [t' Hin].
    destruct (static_children _ _ _ _ _ N _ _ Hin) as [(? & ? & _)|(_ & seg & b & _ & H2 & _)];
      [discriminate|]. eauto. }
  assert (Hall : forall k c, In (k, c) (t_children t) -> is_static k = true).
  { intros k c Hin.
    destruct (static_children _ _ _ _ _ N _ _ Hin) as [(ch & -> & _)|(-> & _)]; auto.
    exfalso. assert (existsb (fun c => is_separator (fst c)) (t_children t) = true); [|congruence].
    apply existsb_sep. eauto. }
  rewrite (filter_static_all _ Hall) in Hu.
  destruct (t_children t) as [|[k1 t1] [|[k2 t2] ch]] eqn:Ech.
  - (* no child: impossible *)
    exfalso. destruct ss as [|[[|c s0] x] ss]; [congruence| |].
    + destruct (has_sep _ _ _ _ _ x N ltac:(left; reflexivity)) as [t' Ht'].
      rewrite Ech in Ht'. destruct Ht'.
    + destruct (has_static _ _ _ _ _ c s0 x N ltac:(left; reflexivity)) as [t' Ht'].
      rewrite Ech in Ht'. destruct Ht'.
  - pose proof (Hall _ _ (or_introl eq_refl)) as Hk. destruct k1 as [c| |]; try discriminate.
    cbn [length Nat.eqb the_static] in Hu.
    destruct (unamb t1) as [[s1 l1] t1'] eqn:E1. injection Hu as <- <- <-.
    destruct (static_only _ _ _ _ _ _ _ N Ech) as [E2 N1].
    assert (Hh1 : trie_height t1 <= n).
    { pose proof (height_child t t1 (CStatic c)) as H. rewrite Ech in H.
      specialize (H (or_introl eq_refl)). lia. }
    assert (Hne1 : ss_tail c ss <> []) by (intros E; rewrite E in E2; simpl in E2; congruence).
    destruct (IH t1 _ _ _ _ _ _ Hh1 N1 Hne1 E1) as (ss' & E3 & N2 & Hor).
    exists ss'. split; [rewrite E2, E3, prepend_app; reflexivity|]. split; auto.
    destruct Hor as [[-> H]|[-> H]]; [left|right]; auto.
  - cbn [length Nat.eqb] in Hu. injection Hu as <- <- <-.
    exists ss. rewrite prepend_nil. split; auto. split; auto. right. split; auto.
    pose proof (Node_sorted _ _ _ _ _ N) as HS. rewrite Ech in HS. simpl in HS.
    assert (Hin1 : In (k1, t1) (t_children t)) by (rewrite Ech; left; reflexivity).
    assert (Hin2 : In (k2, t2) (t_children t)) by (rewrite Ech; right; left; reflexivity).
    assert (Hk1 : is_static k1 = true) by (eapply Hall; left; reflexivity).
    assert (Hk2 : is_static k2 = true) by (eapply Hall; right; left; reflexivity).
    destruct k1 as [c1| |]; try discriminate. destruct k2 as [c2| |]; try discriminate.
    assert (Hneq : c1 <> c2).
    { intros ->. apply StronglySorted_inv in HS. destruct HS as [_ HF].
      inversion HF as [|? ? Hk _]; subst. revert Hk. apply (klt_irrefl charlike_cmp charlike_cmp_eq). }
    assert (Hw : forall c t', In (CStatic c, t') (t_children t) -> exists s x, In (c :: s, x) ss).
    { intros c t' Hin.
      destruct (static_children _ _ _ _ _ N _ _ Hin) as [(ch' & E & _ & H)|(E & _)]; [|discriminate].
      injection E as <-. destruct (ss_tail c ss) as [|[s x] l] eqn:El; [congruence|].
      exists s, x. apply ss_tail_In. rewrite El. left; reflexivity. }
    destruct (Hw _ _ Hin1) as (s1 & x1 & Hs1). destruct (Hw _ _ Hin2) as (s2 & x2 & Hs2).
    destruct ss as [|y1 [|y2 ss]]; simpl; try lia.
    + destruct Hs1.
    + destruct Hs1 as [E1|[]]. destruct Hs2 as [E2|[]]. congruence.
Qed.

(** ** The type of a parameter *)
Definition last_type (t : ctrie) : str :=
  match t_children t with
  | (CSeparator, b) :: _ =>
      match t_data b with
      | Some fr => p_typ (last (dynamics (f_path fr)) (mkParam [] []))
      | None => []
      end
  | _ => []
  end.

Lemma dynamics_app a b : dynamics (a ++ b) = dynamics a ++ dynamics b.
Proof. induction a as [|[s|p] a IH]; simpl; auto. rewrite IH. reflexivity. Qed.

(** The node below a dynamic key. *)
Lemma dynamic_child t o b path q n c :
  Node t o (block_keys b) path q -> In (CDynamic n, c) (t_children t) ->
  exists p child, p_name p = n /\ In (Dynamic p, child) (rt_routes b) /\
    Node c None (skeys [([], (Dynamic p, child))]) path q /\
    exists c', t_children c = [(CSeparator, c')].
Proof.
  intros N Hin. destruct (Node_child _ _ _ _ _ N _ _ Hin) as [N' Hne]; [discriminate|].
  assert (Hall : forall k x, In (k, x) (ks_tail (CDynamic n) (block_keys b)) ->
     k = [] /\ exists p, p_name p = n /\ fst x = Dynamic p /\ In x (rt_routes b)).
  { intros k x Hk. apply ks_tail_In in Hk. unfold block_keys in Hk. apply in_map_iff in Hk.
    destruct Hk as ([seg child] & E & Hk). simpl in E. injection E as E <-.
    destruct seg as [s|p]; simpl in E.
    - destruct s; discriminate.
    - injection E as E <-. split; auto. exists p. auto. }
  pose proof (Node_keys_nodup _ _ _ _ _ N') as Hn.
  destruct (ks_tail (CDynamic n) (block_keys b)) as [|[k x] l] eqn:El; [congruence|].
  assert (El' : (k, x) :: l = [(k, x)]).
  { apply nodup_single; [exact Hn|left; reflexivity|].
    intros k' x' H'. destruct (Hall _ _ H') as [-> _]. destruct (Hall k x (or_introl eq_refl)) as [-> _].
    reflexivity. }
  rewrite El' in *. destruct (Hall k x (or_introl eq_refl)) as [-> (p & Hp & Hf & Hr)].
  destruct x as [seg child]. simpl in Hf. subst seg.
  exists p, child. split; auto. split; auto. split; [exact N'|].
  change [([], (Dynamic p, child))] with (skeys [([], (Dynamic p, child))]) in N'.
  destruct (has_sep _ _ _ _ _ (Dynamic p, child) N' ltac:(left; reflexivity)) as [c' Hc'].
  exists c'. pose proof (Node_sorted _ _ _ _ _ N') as HS.
  assert (Hsep : forall k t', In (k, t') (t_children c) -> k = CSeparator).
  { intros k t' H. destruct (static_children _ _ _ _ _ N' _ _ H) as [(ch & -> & _ & H')|(-> & _)]; auto.
    exfalso. apply H'. reflexivity. }
  destruct (t_children c) as [|[k1 t1] [|[k2 t2] ch]].
  - destruct Hc'.
  - destruct Hc' as [->|[]]. reflexivity.
  - exfalso. assert (k1 = CSeparator) by (eapply Hsep; left; reflexivity).
    assert (k2 = CSeparator) by (eapply Hsep; right; left; reflexivity). subst.
    simpl in HS. apply StronglySorted_inv in HS. destruct HS as [_ HF].
    inversion HF as [|? ? Hk _]; subst. revert Hk. apply (klt_irrefl charlike_cmp charlike_cmp_eq).
Qed.
Lemma last_type_dynamic c p child path q c' :
  Node c None (skeys [([], (Dynamic p, child))]) path q ->
  t_children c = [(CSeparator, c')] -> last_type c = p_typ p.
Proof.
  intros N Ech. destruct (sep_only _ _ _ _ _ _ N Ech) as (seg & b & E & N').
  injection E as <- <-. unfold last_type. rewrite Ech, (Node_data _ _ _ _ _ N').
  simpl. rewrite dynamics_app. simpl. rewrite last_last. reflexivity.
Qed.

(** ** Dynamic children in the order of their names *)
Lemma least_dynamic_spec {X} (l : list (Param * X)) :
  match least_dynamic l with
  | None => l = []
  | Some (p, x) => In (p, x) l /\ forall p' x', In (p', x') l -> str_compare (p_name p') (p_name p) <> Lt
  end.
Proof.
  induction l as [|[p x] l IH]; simpl; auto.
  destruct (least_dynamic l) as [[p1 x1]|].
  - destruct IH as [Hin Hl]. destruct (str_compare (p_name p1) (p_name p)) eqn:E.
    + split; auto. intros p' x' [[= <- <-]|H].
      * rewrite (proj2 (str_compare_eq _ _) eq_refl). discriminate.
      * apply str_compare_eq in E. rewrite <- E. eapply Hl; eauto.
    + split; auto. intros p' x' [[= <- <-]|H]; [|eapply Hl; eauto].
      rewrite str_compare_sym, E. discriminate.
    + split; auto. intros p' x' [[= <- <-]|H].
      * rewrite (proj2 (str_compare_eq _ _) eq_refl). discriminate.
      * intros Hlt. assert (Hgt : str_compare (p_name p) (p_name p1) = Lt).
        { rewrite str_compare_sym, E. reflexivity. }
        apply (Hl p' x' H). eapply str_compare_trans; eauto.
  - subst l. split; auto. intros p' x' [[= <- <-]|[]].
    rewrite (proj2 (str_compare_eq _ _) eq_refl). discriminate.
Qed.
Lemma dynamic_children_In {X} (l : list (PathSegment * X)) p x :
  In (p, x) (dynamic_children l) <-> In (Dynamic p, x) l.
Proof.
  induction l as [|[[s|p'] y] l IH]; simpl; [tauto| |].
  - rewrite IH. split; [auto|intros [E|?]; [discriminate|auto]].
  - rewrite IH. split; intros [E|E]; auto; injection E as -> ->; auto.
Qed.
Lemma statics_In {X} (l : list (PathSegment * X)) s x :
  In (s, x) (statics l) <-> In (Static s, x) l.
Proof.
  induction l as [|[[s'|p'] y] l IH]; simpl; [tauto| |].
  - rewrite IH. split; intros [E|E]; auto; injection E as -> ->; auto.
  - rewrite IH. split; [auto|intros [E|?]; [discriminate|auto]].
Qed.

Lemma find_dynamic_least (ch : list (Charlike * ctrie)) :
  StronglySorted (klt charlike_cmp) (map fst ch) ->
  match find_dynamic ch with
  | None => forall n c, ~ In (CDynamic n, c) ch
  | Some (n, c) => In (CDynamic n, c) ch /\
      forall n' c', In (CDynamic n', c') ch -> str_compare n' n <> Lt
  end.
Proof.
  induction ch as [|[[s|n|] c] ch IH]; simpl; intros HS; auto.
  - apply StronglySorted_inv in HS. destruct HS as [HS _]. specialize (IH HS).
    destruct (find_dynamic ch) as [[n c']|].
    + destruct IH as [H1 H2]. split; auto. intros n' c'' [E|H]; [discriminate|eauto].
    + intros n c' [E|H]; [discriminate|]. eapply IH; eauto.
  - apply StronglySorted_inv in HS. destruct HS as [HS HF]. split; auto.
    intros n' c' [[= <- <-]|H].
    + rewrite (proj2 (str_compare_eq _ _) eq_refl). discriminate.
    + rewrite Forall_forall in HF. specialize (HF (CDynamic n') (in_map fst _ _ H)).
      unfold klt in HF. simpl in HF. rewrite str_compare_sym, HF. discriminate.
  - apply StronglySorted_inv in HS. destruct HS as [HS HF].
    specialize (IH HS). destruct (find_dynamic ch) as [[n c']|].
    + destruct IH as [H1 H2]. split; auto. intros n' c'' [E|H]; [discriminate|eauto].
    + intros n c' [E|H]; [discriminate|]. eapply IH; eauto.
Qed.

(** ** The search *)
Section Search.
Context {T E : Type}.
Variable rt : runtime T E.
Variable method : bytes.
Let run_ := trie_run rt method last_type.
Let srch := @tree_run T E (rt_parse rt) method.

(** Parameters so far, as an environment: innermost first. *)
Definition vals_of (a : @args T) : @values T :=
  rev (map (fun pv : Param * T => (p_name (fst pv), (p_typ (fst pv), snd pv))) a).
Lemma vals_of_snoc a p v : vals_of (a ++ [(p, v)]) = (p_name p, (p_typ p, v)) :: vals_of a.
Proof. unfold vals_of. rewrite map_app, rev_app_distr. reflexivity. Qed.

Lemma lookup_app {A} x (l1 l2 : list (str * A)) :
  lookup x (l1 ++ l2) = match lookup x l1 with Some v => Some v | None => lookup x l2 end.
Proof.
  induction l1 as [|[y a] l1 IH]; simpl; auto. destruct (str_eqb y x); auto.
Qed.
Lemma lookup_vals_of a : NoDup (map p_name (map fst a)) ->
  forall p v, In (p, v) a -> lookup (p_name p) (vals_of a) = Some (p_typ p, v).
Proof.
  induction a as [|[p0 v0] a IH]; intros Hn p v Hin; [destruct Hin|].
  simpl in Hn. inversion Hn as [|? ? H1 H2]; subst.
  change (vals_of ((p0, v0) :: a)) with (vals_of a ++ [(p_name p0, (p_typ p0, v0))]).
  rewrite lookup_app. destruct Hin as [[= <- <-]|Hin].
  - assert (lookup (p_name p0) (vals_of a) = None) as ->.
    { clear -H1. induction a as [|[p v] a IH]; auto.
      change (vals_of ((p, v) :: a)) with (vals_of a ++ [(p_name p, (p_typ p, v))]).
      rewrite lookup_app, IH by (intros H; apply H1; right; exact H). simpl.
      destruct (str_eqb_spec (p_name p) (p_name p0)) as [Heq|]; auto.
      exfalso. apply H1. left. exact Heq. }
    simpl. rewrite str_eqb_refl. reflexivity.
  - rewrite (IH H2 _ _ Hin). reflexivity.
Qed.

Lemma dispatch_answer b path q a :
  map fst a = dynamics path -> NoDup (map p_name (dynamics path)) ->
  dispatch (T := T) (E := E) method (block_route b path q) (vals_of a) =
  answer method (rt_resources b) (q ++ rt_query b) a.
Proof.
  intros Ha Hn. unfold dispatch, answer, block_route. simpl.
  destruct (find _ (rt_resources b)) as [r|]; auto.
  assert (Hr : route_of (mkFlat path (rt_resources b) (q ++ rt_query b)) r (vals_of a) =
               route_for r (q ++ rt_query b) a); [|rewrite Hr; reflexivity].
  unfold route_of, route_for. simpl. f_equal. rewrite <- Ha, map_map, <- map_app. f_equal.
  apply map_ext_in. intros [p v] Hin. simpl. unfold param_field.
  rewrite <- Ha in Hn. rewrite (lookup_vals_of a Hn p v Hin). reflexivity.
Qed.

(** What a node with static keys does. *)
Definition kid (x : PathSegment * Routes) : Routes * @search T E := (snd x, srch (snd x)).
Definition static_run (ss : list (list N * (PathSegment * Routes))) (q : list Param) (a : args)
    (rest : bytes) : run_result T E :=
  take_static method (map (fun sx => (fst sx, kid (snd sx))) ss) q a rest.

Lemma static_run_cons s x ss q a rest :
  static_run ((s, x) :: ss) q a rest =
  match after_segment s rest with
  | Some tail => enter method (snd x) (srch (snd x)) q a tail
  | None => static_run ss q a rest
  end.
Proof. reflexivity. Qed.
Lemma static_run_nil_rest ss q a :
  (forall x, ~ In ([], x) ss) -> static_run ss q a [] = RunResult MNotFound.
Proof.
  induction ss as [|[[|c s] x] ss IH]; intros H; auto.
  - exfalso. eapply H; left; reflexivity.
  - rewrite static_run_cons. apply IH. intros y Hy. eapply H; right; eauto.
Qed.
Lemma static_run_tail ss q a b rest :
  (forall x, ~ In ([], x) ss) ->
  static_run ss q a (b :: rest) = static_run (ss_tail b ss) q a rest.
Proof.
  induction ss as [|[[|c s] x] ss IH]; intros H; auto.
  - exfalso. eapply H; left; reflexivity.
  - assert (H' : forall y, ~ In ([], y) ss) by (intros y Hy; eapply H; right; eauto).
    rewrite static_run_cons. simpl ss_tail. unfold after_segment. cbn [strip].
    destruct (N.eqb c b); [|apply IH; auto].
    rewrite static_run_cons. unfold after_segment. rewrite (IH H'). reflexivity.
Qed.
Lemma static_run_prepend u ss q a rest :
  static_run (prepend u ss) q a rest =
  match strip u rest with Some tail => static_run ss q a tail | None => RunResult MNotFound end.
Proof.
  induction ss as [|[s x] ss IH].
  - simpl. destruct (strip u rest); reflexivity.
  - change (prepend u ((s, x) :: ss)) with ((u ++ s, x) :: prepend u ss).
    rewrite static_run_cons. unfold after_segment. rewrite strip_app, IH.
    destruct (strip u rest) as [t|]; auto.
Qed.
Lemma static_run_here x q a rest :
  static_run [([], x)] q a rest = enter method (snd x) (srch (snd x)) q a rest.
Proof.
  rewrite static_run_cons. unfold after_segment. cbn [strip].
  destruct rest as [|c t]; auto. destruct (N.eqb_spec c c_slash); auto.
  unfold enter. rewrite (proj2 (N.eqb_neq _ _) n). reflexivity.
Qed.

Definition block_ok (fuel : nat) : Prop := forall t b path q,
  Node t (Some (block_route b path q)) (block_keys b) path (q ++ rt_query b) ->
  trie_ok fuel t -> forall a rest, map fst a = dynamics path ->
  run_ fuel t (vals_of a) rest = srch b q a rest.
Definition mid_ok (fuel : nat) : Prop := forall t ss path q,
  Node t None (skeys ss) path q -> trie_ok fuel t ->
  forall a rest, (forall s seg b, In (s, (seg, b)) ss -> map fst a = dynamics (path ++ [seg])) ->
  run_ fuel t (vals_of a) rest = static_run ss q a rest.

Lemma in_tail_arg c ss path (a : @args T) :
  (forall s seg b, In (s, (seg, b)) ss -> map fst a = dynamics (path ++ [seg])) ->
  forall s seg b, In (s, (seg, b)) (ss_tail c ss) -> map fst a = dynamics (path ++ [seg]).
Proof. intros H s seg b Hin. apply ss_tail_In in Hin. eauto. Qed.
Lemma in_prepend_arg u ss path (a : @args T) :
  (forall s seg b, In (s, (seg, b)) (prepend u ss) -> map fst a = dynamics (path ++ [seg])) ->
  forall s seg b, In (s, (seg, b)) ss -> map fst a = dynamics (path ++ [seg]).
Proof.
  intros H s seg b Hin. eapply H. unfold prepend. apply in_map_iff.
  exists (s, (seg, b)). split; [reflexivity|exact Hin].
Qed.

(** What follows the method check, at a node without dynamic keys. *)
Lemma run_static fuel t o ss path q a rest :
  block_ok fuel -> mid_ok fuel ->
  Node t o (skeys ss) path q -> trie_ok (S fuel) t ->
  (forall s seg b, In (s, (seg, b)) ss -> map fst a = dynamics (path ++ [seg])) ->
  run_children rt method last_type (run_ fuel) t (vals_of a) rest = static_run ss q a rest.
Proof.
  intros Hblock Hmid N [_ Hok] Ha. cbv zeta in Hok. unfold run_children.
  assert (Hmany : (let '(u, _, next) := unamb t in
        match u with
        | [] => Forall (fun kc => is_static (fst kc) = true /\ trie_ok fuel (snd kc)) (t_children t)
        | _ :: _ =>
            match find_dynamic (t_children t) with
            | None => False
            | Some (_, dchild) => trie_ok fuel next /\ trie_ok fuel dchild
            end
        end) ->
      run_many rt last_type (run_ fuel) t (vals_of a) rest = static_run ss q a rest).
  { unfold run_many. destruct (unamb t) as [[u l] next]. destruct u as [|uc u].
    - intros HF. rewrite Forall_forall in HF.
      assert (Hno : forall x, ~ In ([], x) ss).
      { intros x Hx. destruct (has_sep _ _ _ _ _ _ N Hx) as [t' Ht'].
        destruct (HF _ Ht') as [H _]. discriminate. }
      destruct rest as [|b rest']; [symmetry; apply static_run_nil_rest; auto|].
      rewrite static_run_tail by auto.
      assert (Hfs : forall ch, (forall kc, In kc ch -> In kc (t_children t)) ->
                match find_static b ch with
                | Some c => In (CStatic b, c) ch
                | None => forall c, ~ In (CStatic b, c) ch
                end).
      { induction ch as [|[[c|n|] t'] ch IH]; intros Hi; simpl; auto.
        - destruct (N.eqb_spec b c) as [->|Hn]; auto.
          specialize (IH (fun kc H => Hi kc (or_intror H))). destruct (find_static b ch); auto.
          intros c' [E'|H]; [congruence|]. eapply IH; eauto.
        - specialize (IH (fun kc H => Hi kc (or_intror H))). destruct (find_static b ch); auto.
          intros c' [E'|H]; [discriminate|]. eapply IH; eauto.
        - specialize (IH (fun kc H => Hi kc (or_intror H))). destruct (find_static b ch); auto.
          intros c' [E'|H]; [discriminate|]. eapply IH; eauto. }
      specialize (Hfs _ (fun kc H => H)). destruct (find_static b (t_children t)) as [c|].
      + destruct (HF _ Hfs) as [_ Hc].
        destruct (static_children _ _ _ _ _ N _ _ Hfs) as [(ch & [= <-] & N' & _)|(E' & _)];
          [|discriminate].
        apply (Hmid c (ss_tail b ss) path q N' Hc). apply in_tail_arg; auto.
      + assert (ss_tail b ss = []) as ->; [|reflexivity].
        destruct (ss_tail b ss) as [|[s x] l'] eqn:El; auto. exfalso.
        assert (Hin : In (b :: s, x) ss) by (apply ss_tail_In; rewrite El; left; reflexivity).
        destruct (has_static _ _ _ _ _ _ _ _ N Hin) as [t' Ht']. eapply Hfs; eauto.
    - intros Hf. exfalso. destruct (find_dynamic (t_children t)) as [[n c]|] eqn:Ef; [|exact Hf].
      apply find_dynamic_in in Ef.
      destruct (static_children _ _ _ _ _ N _ _ Ef) as [(? & ? & _)|(? & _)]; discriminate. }
  destruct (t_children t) as [|[[ch|nm|] c] [|x2 l2]] eqn:Ech; try (apply Hmany; exact Hok).
  - assert (ss = []) as ->; [|reflexivity].
    destruct ss as [|[[|c s] x] ss]; auto; exfalso.
    + destruct (has_sep _ _ _ _ _ x N ltac:(left; reflexivity)) as [t' Ht'].
      rewrite Ech in Ht'. destruct Ht'.
    + destruct (has_static _ _ _ _ _ c s x N ltac:(left; reflexivity)) as [t' Ht'].
      rewrite Ech in Ht'. destruct Ht'.
  - destruct (static_only _ _ _ _ _ _ _ N Ech) as [E1 N1].
    destruct (chase c) as [more c'] eqn:Ec.
    destruct (chase_node (trie_height c) c _ _ _ _ _ ltac:(lia) N1 Ec) as (ss' & E2 & N2).
    rewrite E2, prepend_app in E1. change ([ch] ++ more) with (ch :: more) in E1.
    subst ss. rewrite static_run_prepend, strip_prefix.
    destruct (is_prefix (ch :: more) rest); [|reflexivity].
    apply (Hmid c' ss' path q N2 Hok). eapply in_prepend_arg; eauto.
  - exfalso. assert (Hin : In (CDynamic nm, c) (t_children t)) by (rewrite Ech; left; reflexivity).
    destruct (static_children _ _ _ _ _ N _ _ Hin) as [(? & ? & _)|(? & _)]; discriminate.
  - destruct (sep_only _ _ _ _ _ _ N Ech) as (seg & b & -> & N1).
    rewrite static_run_here. simpl snd.
    assert (Ha' : map fst a = dynamics (path ++ [seg])) by (eapply Ha; left; reflexivity).
    destruct rest as [|bt rest']; simpl enter.
    + rewrite (Node_data _ _ _ _ _ N1). unfold has_resources. simpl f_resources.
      destruct (rt_resources b) as [|r rs] eqn:Er; auto.
      rewrite <- Er. apply dispatch_answer; auto.
      destruct fuel as [|fuel']; [destruct Hok|]. destruct Hok as [Hn _].
      apply (Hn (block_route b (path ++ [seg]) q)). rewrite (Node_data _ _ _ _ _ N1).
      unfold has_resources. simpl f_resources. rewrite Er. reflexivity.
    + destruct (N.eqb bt c_slash); auto. apply (Hblock c b (path ++ [seg]) q N1 Hok). exact Ha'.
Qed.

Lemma run_dynamic_take fuel c p child path q a rest c' run :
  mid_ok fuel -> Node c None (skeys [([], (Dynamic p, child))]) path q ->
  t_children c = [(CSeparator, c')] -> trie_ok fuel c -> map fst a = dynamics path ->
  run = srch child ->
  run_dynamic rt last_type (run_ fuel) c (p_name p) (vals_of a) rest =
  take_dynamic (rt_parse rt) method (p, (child, run)) q a rest.
Proof.
  intros Hmid N Ech Hok Ha ->. unfold run_dynamic, take_dynamic. rewrite <- segment_span.
  destruct (segment rest) as [seg tail]. rewrite (last_type_dynamic _ _ _ _ _ _ N Ech).
  destruct (utf8_valid seg); auto. destruct (rt_parse rt (p_typ p) seg) as [v|e]; auto.
  rewrite <- vals_of_snoc.
  rewrite (Hmid c _ path q N Hok).
  - rewrite static_run_here. reflexivity.
  - intros s seg' b [[= <- <- <-]|[]]. rewrite map_app, dynamics_app, Ha. reflexivity.
Qed.

(** Children of a block without dynamic children. *)
Lemma block_keys_static b :
  dynamic_children (rt_routes b) = [] ->
  block_keys b = skeys (map (fun sx : str * Routes => (fst sx, (Static (fst sx), snd sx)))
                            (statics (rt_routes b))).
Proof.
  unfold block_keys, skeys. generalize (rt_routes b) as l. intros l.
  induction l as [|[[s|p] child] l IH]; simpl; intros H; auto.
  - f_equal. auto.
  - discriminate.
Qed.
Lemma statics_map {X Y} (f : X -> Y) (l : list (PathSegment * X)) :
  statics (map (fun nr => (fst nr, f (snd nr))) l) =
  map (fun sx : str * X => (fst sx, f (snd sx))) (statics l).
Proof. induction l as [|[[s|p] x] l IH]; simpl; auto. rewrite IH. reflexivity. Qed.
Lemma dynamics_map {X Y} (f : X -> Y) (l : list (PathSegment * X)) :
  dynamic_children (map (fun nr => (fst nr, f (snd nr))) l) =
  map (fun px : Param * X => (fst px, f (snd px))) (dynamic_children l).
Proof. induction l as [|[[s|p] x] l IH]; simpl; auto. rewrite IH. reflexivity. Qed.
Lemma least_map {X Y} (f : X -> Y) (l : list (Param * X)) :
  least_dynamic (map (fun px => (fst px, f (snd px))) l) =
  option_map (fun px : Param * X => (fst px, f (snd px))) (least_dynamic l).
Proof.
  induction l as [|[p x] l IH]; simpl; auto. rewrite IH.
  destruct (least_dynamic l) as [[p' x']|]; simpl; auto.
  destruct (str_compare (p_name p') (p_name p)); reflexivity.
Qed.

(** Unfolding the specification. *)
Definition kid' (c : Routes) : Routes * @search T E := (c, srch c).
Lemma srch_eq b q a rest :
  srch b q a rest =
  match rt_resources b, rest with
  | _ :: _, [] => answer method (rt_resources b) (q ++ rt_query b) a
  | _, _ =>
      match option_map (fun px : Param * Routes => (fst px, kid' (snd px)))
              (least_dynamic (dynamic_children (rt_routes b))),
            map (fun sx : str * Routes => (fst sx, kid' (snd sx))) (statics (rt_routes b)) with
      | None, ss => take_static method ss (q ++ rt_query b) a rest
      | Some d, [(s, (child, run))] =>
          if (length s =? 1)%nat && (length rest =? 0)%nat then RunPanic
          else
            match strip s rest with
            | Some tail => enter method child run (q ++ rt_query b) a tail
            | None => take_dynamic (rt_parse rt) method d (q ++ rt_query b) a rest
            end
      | Some d, _ => take_dynamic (rt_parse rt) method d (q ++ rt_query b) a rest
      end
  end.
Proof.
  destruct b as [rs ch qs]. unfold srch. cbn [tree_run rt_resources rt_routes rt_query].
  assert (Hk : map (fun nr : PathSegment * Routes => let (seg, child) := nr in
                 (seg, (child, tree_run (rt_parse rt) method child))) ch
               = map (fun nr => (fst nr, kid' (snd nr))) ch).
  { apply map_ext. intros [seg c]. reflexivity. }
  rewrite Hk, statics_map, dynamics_map, least_map. reflexivity.
Qed.

Lemma run_block fuel t b path q a rest :
  block_ok fuel -> mid_ok fuel ->
  Node t (Some (block_route b path q)) (block_keys b) path (q ++ rt_query b) ->
  trie_ok (S fuel) t -> map fst a = dynamics path ->
  dynamic_children (rt_routes b) <> [] ->
  run_children rt method last_type (run_ fuel) t (vals_of a) rest =
  match option_map (fun px : Param * Routes => (fst px, kid' (snd px)))
          (least_dynamic (dynamic_children (rt_routes b))),
        map (fun sx : str * Routes => (fst sx, kid' (snd sx))) (statics (rt_routes b)) with
  | None, ss => take_static method ss (q ++ rt_query b) a rest
  | Some d, [(s, (child, run))] =>
      if (length s =? 1)%nat && (length rest =? 0)%nat then RunPanic
      else
        match strip s rest with
        | Some tail => enter method child run (q ++ rt_query b) a tail
        | None => take_dynamic (rt_parse rt) method d (q ++ rt_query b) a rest
        end
  | Some d, _ => take_dynamic (rt_parse rt) method d (q ++ rt_query b) a rest
  end.
Proof.
  intros Hblock Hmid N [_ Hok] Ha Hdyn. cbv zeta in Hok.
  pose proof (Node_sorted _ _ _ _ _ N) as HS.
  pose proof (Node_keys_nodup _ _ _ _ _ N) as Hnk.
  (* the least dynamic child *)
  pose proof (find_dynamic_least _ HS) as Hfd.
  pose proof (least_dynamic_spec (dynamic_children (rt_routes b))) as Hld.
  destruct (least_dynamic (dynamic_children (rt_routes b))) as [[p0 child0]|] eqn:El;
    [|congruence].
  destruct Hld as [Hin0 Hmin0]. rewrite dynamic_children_In in Hin0.
  assert (Hhas : forall p child, In (Dynamic p, child) (rt_routes b) ->
            exists c, In (CDynamic (p_name p), c) (t_children t)).
  { intros p child Hin. apply (Node_has _ _ _ _ _ N); [discriminate|].
    assert (Hk : In ([], (Dynamic p, child)) (ks_tail (CDynamic (p_name p)) (block_keys b))).
    { apply ks_tail_In. unfold block_keys. apply in_map_iff. exists (Dynamic p, child). auto. }
    destruct (ks_tail _ _); [destruct Hk|discriminate]. }
  assert (Hsame : forall p1 c1 p2 c2, In (Dynamic p1, c1) (rt_routes b) ->
            In (Dynamic p2, c2) (rt_routes b) -> p_name p1 = p_name p2 -> p1 = p2 /\ c1 = c2).
  { intros p1 c1 p2 c2 H1 H2 Hname. unfold block_keys in Hnk. rewrite map_map in Hnk. simpl in Hnk.
    assert (Hp : forall (l : list (PathSegment * Routes)) x y,
              NoDup (map (fun nr => seg_key (fst nr)) l) -> In x l -> In y l ->
              seg_key (fst x) = seg_key (fst y) -> x = y).
    { clear. induction l as [|z l IH]; intros x y Hn Hx Hy Hxy; [destruct Hx|].
      simpl in Hn. inversion Hn as [|? ? Hz Hn']; subst.
      destruct Hx as [->|Hx], Hy as [->|Hy]; auto.
      - exfalso. apply Hz. rewrite Hxy. apply (in_map (fun nr => seg_key (fst nr))) in Hy. exact Hy.
      - exfalso. apply Hz. rewrite <- Hxy. apply (in_map (fun nr => seg_key (fst nr))) in Hx. exact Hx. }
    assert (Heq : (Dynamic p1, c1) = (Dynamic p2, c2)).
    { eapply Hp; eauto. simpl. congruence. }
    injection Heq as -> ->. auto. }
  destruct (find_dynamic (t_children t)) as [[n0 d0]|] eqn:Ef.
  2: { exfalso. destruct (Hhas _ _ Hin0) as [c Hc]. eapply Hfd; eauto. }
  destruct Hfd as [Hind Hmin].
  destruct (dynamic_child _ _ _ _ _ _ _ N Hind) as (p & child & Hpn & Hpin & Nd & c' & Ec').
  assert (Hp0 : p = p0 /\ child = child0).
  { apply Hsame; auto. subst n0.
    destruct (str_compare (p_name p) (p_name p0)) eqn:Ecmp.
    - apply str_compare_eq; auto.
    - exfalso. apply (Hmin0 p child); auto. apply dynamic_children_In; auto.
    - exfalso. destruct (Hhas _ _ Hin0) as [c Hc]. apply (Hmin _ _ Hc).
      rewrite str_compare_sym, Ecmp. reflexivity. }
  destruct Hp0 as [-> ->]. subst n0. cbn [option_map fst snd]. unfold kid' at 1.
  assert (Htake : trie_ok fuel d0 ->
    run_dynamic rt last_type (run_ fuel) d0 (p_name p0) (vals_of a) rest =
    take_dynamic (rt_parse rt) method (p0, (child0, srch child0)) (q ++ rt_query b) a rest).
  { intros H0. eapply run_dynamic_take; eauto. }
  (* static children *)
  assert (Hst : forall s x, In (s, x) (statics (rt_routes b)) ->
            match s with
            | [] => exists c, In (CSeparator, c) (t_children t)
            | ch :: _ => exists c, In (CStatic ch, c) (t_children t)
            end).
  { intros s x Hin. apply statics_In in Hin.
    assert (Hk : In (map CStatic s, (Static s, x)) (block_keys b)).
    { unfold block_keys. apply in_map_iff. exists (Static s, x). auto. }
    destruct s as [|ch s].
    - apply (Node_has_sep _ _ _ _ _ N). apply ks_here_In in Hk. destruct (ks_here _); [destruct Hk|discriminate].
    - apply (Node_has _ _ _ _ _ N); [discriminate|]. simpl in Hk.
      apply ks_tail_In in Hk. destruct (ks_tail _ _); [destruct Hk|discriminate]. }
  assert (Hmany : (let '(u, _, next) := unamb t in
        match u with
        | [] => Forall (fun kc => is_static (fst kc) = true /\ trie_ok fuel (snd kc)) (t_children t)
        | _ :: _ => trie_ok fuel next /\ trie_ok fuel d0
        end) ->
      run_many rt last_type (run_ fuel) t (vals_of a) rest =
      match map (fun sx : str * Routes => (fst sx, kid' (snd sx))) (statics (rt_routes b)) with
      | [(s, (child, run))] =>
          if (length s =? 1)%nat && (length rest =? 0)%nat then RunPanic
          else
            match strip s rest with
            | Some tail => enter method child run (q ++ rt_query b) a tail
            | None => take_dynamic (rt_parse rt) method (p0, (child0, srch child0)) (q ++ rt_query b) a rest
            end
      | _ => take_dynamic (rt_parse rt) method (p0, (child0, srch child0)) (q ++ rt_query b) a rest
      end).
  { unfold run_many. rewrite Ef. destruct (unamb t) as [[u l] next] eqn:Eu. destruct u as [|uc u].
    { intros HF. exfalso. rewrite Forall_forall in HF. destruct (HF _ Hind) as [H _]. discriminate. }
    intros [Hnext Hd0]. rewrite (Htake Hd0). clear Htake.
    rewrite unamb_eq in Eu.
    destruct (existsb (fun c => is_separator (fst c)) (t_children t)) eqn:Esep; [discriminate|].
    destruct (length (filter (fun c => is_static (fst c)) (t_children t)) =? 1)%nat eqn:E1; [|discriminate].
    destruct (the_static (t_children t)) as [[ch t1]|] eqn:Ets; [|discriminate].
    destruct (unamb t1) as [[s1 l1] t1'] eqn:Eu1. injection Eu as <- <- <- <-.
    apply the_static_in in Ets. apply Nat.eqb_eq in E1.
    assert (Hone : forall c t', In (CStatic c, t') (t_children t) -> c = ch).
    { intros c t' Hc. assert (H1 : In (CStatic c, t') (filter (fun c => is_static (fst c)) (t_children t)))
        by (apply filter_In; auto).
      assert (H2 : In (CStatic ch, t1) (filter (fun c => is_static (fst c)) (t_children t)))
        by (apply filter_In; auto).
      destruct (filter _ _) as [|y [|? ?]]; try discriminate.
      destruct H1 as [->|[]], H2 as [H2|[]]. congruence. }
    set (ss := map (fun sx : str * Routes => (fst sx, (Static (fst sx), snd sx))) (statics (rt_routes b))).
    assert (Hss : forall s x, In (s, x) ss -> exists s', s = ch :: s').
    { intros s x Hx. unfold ss in Hx. apply in_map_iff in Hx. destruct Hx as ([s0 c0] & Hx & Hin).
      simpl in Hx. injection Hx as -> <-. pose proof (Hst _ _ Hin) as Hs.
      destruct s as [|c s].
      - destruct Hs as [c Hc]. exfalso. assert (existsb (fun c => is_separator (fst c)) (t_children t) = true);
          [apply existsb_sep; eauto|congruence].
      - destruct Hs as [c1 Hc]. rewrite (Hone _ _ Hc). eauto. }
    pose proof (prepend_all ch ss Hss) as Epre.
    destruct (Node_child _ _ _ _ _ N _ _ Ets) as [N1 Hne1]; [discriminate|].
    assert (Ekt : ks_tail (CStatic ch) (block_keys b) = skeys (ss_tail ch ss)).
    { unfold block_keys, ss. clear. induction (rt_routes b) as [|[[[|c s]|p] child] l IH]; simpl; auto.
      - rewrite IH. destruct (charlike_eq_dec (CStatic c) (CStatic ch)) as [[= ->]|Hn].
        + rewrite N.eqb_refl. reflexivity.
        + destruct (N.eqb_spec c ch) as [->|]; [congruence|reflexivity].
      - destruct (charlike_eq_dec (CDynamic (p_name p)) (CStatic ch)); [discriminate|]. exact IH. }
    rewrite Ekt in N1, Hne1.
    assert (Hne2 : ss_tail ch ss <> []) by (intros E'; rewrite E' in Hne1; apply Hne1; reflexivity).
    destruct (unamb_node (trie_height t1) t1 _ _ _ _ _ _ ltac:(lia) N1 Hne2 Eu1)
      as (ss' & Ess & N2 & Hcase).
    rewrite Ess, prepend_app in Epre. change ([ch] ++ s1) with (ch :: s1) in Epre.
    cbn [Nat.eqb]. destruct Hcase as [[-> (x0 & Hx0)]|[-> Hlen]].
    - (* one static child *)
      assert (Ess' : ss' = [([], x0)]).
      { destruct fuel as [|fuel']; [destruct Hnext|]. destruct Hnext as [_ Hnext]. cbv zeta in Hnext.
        destruct (has_sep _ _ _ _ _ _ N2 Hx0) as [c2 Hc2].
        assert (Honly : t_children t1' = [(CSeparator, c2)]).
        { destruct (t_children t1') as [|[k1 c1] [|[k3 c3] l3]] eqn:Ech.
          - destruct Hc2.
          - destruct Hc2 as [->|[]]. reflexivity.
          - exfalso.
            assert (Hun : unamb t1' = ([], 0, t1')).
            { rewrite unamb_eq, Ech.
              assert (existsb (fun c : Charlike * ctrie => is_separator (fst c))
                        ((k1, c1) :: (k3, c3) :: l3) = true) as ->; [|reflexivity].
              apply existsb_sep. eauto. }
            rewrite Hun in Hnext.
            assert (HF : Forall (fun kc => is_static (fst kc) = true /\ trie_ok fuel' (snd kc))
                           ((k1, c1) :: (k3, c3) :: l3)) by (destruct k1; exact Hnext).
            rewrite Forall_forall in HF. destruct (HF _ Hc2) as [H _]. discriminate. }
        destruct (sep_only _ _ _ _ _ _ N2 Honly) as (seg & b2 & -> & _).
        destruct Hx0 as [[= <-]|[]]. reflexivity. }
      subst ss'. unfold ss in Epre. simpl in Epre. rewrite app_nil_r in Epre.
      destruct (statics (rt_routes b)) as [|[s2 c2] [|? ?]] eqn:Est; try discriminate.
      simpl in Epre. injection Epre as -> <-. cbn [map fst snd]. unfold kid'.
      cbn [length Nat.eqb].
      destruct ((length s1 =? 0)%nat && (length rest =? 0)%nat); auto.
      change (S (length s1)) with (length (ch :: s1)).
      rewrite firstn_eqb_prefix, strip_prefix.
      destruct (is_prefix (ch :: s1) rest); auto.
      rewrite (Hmid t1' _ _ _ N2 Hnext).
      + rewrite static_run_here. reflexivity.
      + intros s seg b2 [[= <- <- <-]|[]]. rewrite dynamics_app. simpl. rewrite app_nil_r. exact Ha.
    - (* several static children: never matched *)
      cbn [Nat.eqb andb].
      assert (Hno : (S (S (length s1)) <=? length rest)%nat &&
                    str_eqb (firstn (S (S (length s1))) rest) (ch :: s1) = false).
      { destruct (Nat.leb_spec (S (S (length s1))) (length rest)) as [Hle|]; auto. cbn [andb].
        apply str_eqb_neq. intros Heq. apply (f_equal (@length BinNums.N)) in Heq.
        rewrite firstn_length in Heq. simpl length in Heq. lia. }
      rewrite Hno.
      assert (Hl2 : 2 <= length (statics (rt_routes b))).
      { apply (f_equal (@length _)) in Epre. unfold ss, prepend in Epre. rewrite !map_length in Epre. lia. }
      destruct (statics (rt_routes b)) as [|x1 [|x2 l2]]; simpl in Hl2; try lia. reflexivity. }
  unfold run_children.
  destruct (t_children t) as [|[[ch|nm|] c] [|x2 l2]] eqn:Ech;
    try (apply Hmany; exact Hok).
  - destruct Hind.
  - destruct Hind as [Hind|[]]. discriminate.
  - (* the dynamic child only *)
    destruct Hind as [[= -> ->]|[]].
    rewrite (Htake Hok).
    destruct (statics (rt_routes b)) as [|[s x] l] eqn:Est; auto. exfalso.
    pose proof (Hst s x (or_introl eq_refl)) as Hs. destruct s as [|ch s].
    + destruct Hs as [c1 [Hc|[]]]. discriminate.
    + destruct Hs as [c1 [Hc|[]]]. discriminate.
  - destruct Hind as [Hind|[]]. discriminate.
Qed.

Lemma run_tree fuel : block_ok fuel /\ mid_ok fuel.
Proof.
  induction fuel as [|fuel [IHb IHm]].
  { split; intros t; intros; contradiction. }
  split.
  - intros t b path q N Hok a rest Ha. unfold run_. cbn [trie_run].
    rewrite (Node_data _ _ _ _ _ N). rewrite srch_eq.
    assert (Hch : run_children rt method last_type (run_ fuel) t (vals_of a) rest =
      match option_map (fun px : Param * Routes => (fst px, kid' (snd px)))
              (least_dynamic (dynamic_children (rt_routes b))),
            map (fun sx : str * Routes => (fst sx, kid' (snd sx))) (statics (rt_routes b)) with
      | None, ss => take_static method ss (q ++ rt_query b) a rest
      | Some d, [(s, (child, run))] =>
          if (length s =? 1)%nat && (length rest =? 0)%nat then RunPanic
          else
            match strip s rest with
            | Some tail => enter method child run (q ++ rt_query b) a tail
            | None => take_dynamic (rt_parse rt) method d (q ++ rt_query b) a rest
            end
      | Some d, _ => take_dynamic (rt_parse rt) method d (q ++ rt_query b) a rest
      end).
    { destruct (dynamic_children (rt_routes b)) as [|d ds] eqn:Ed.
      - cbn [least_dynamic option_map].
        rewrite (block_keys_static _ Ed) in N.
        rewrite (run_static fuel t _ _ _ _ a rest IHb IHm N Hok).
        + unfold static_run. rewrite map_map. reflexivity.
        + intros s seg b' Hin. apply in_map_iff in Hin. destruct Hin as ([s0 c0] & [= <- <- <-] & _).
          rewrite dynamics_app. simpl. rewrite app_nil_r. exact Ha.
      - rewrite <- Ed. apply (run_block fuel t b path q a rest IHb IHm N Hok Ha). congruence. }
    rewrite <- Hch. unfold has_resources. simpl f_resources.
    destruct (rt_resources b) as [|r rs] eqn:Er.
    + destruct rest; reflexivity.
    + destruct rest as [|bt rest']; [|reflexivity].
      rewrite <- Er. apply dispatch_answer; auto.
      destruct Hok as [Hn _]. apply (Hn (block_route b path q)). rewrite (Node_data _ _ _ _ _ N).
      unfold has_resources. simpl f_resources. rewrite Er. reflexivity.
  - intros t ss path q N Hok a rest Ha. unfold run_. cbn [trie_run].
    rewrite (Node_data _ _ _ _ _ N). cbn [has_resources].
    apply (run_static fuel t None ss path q a rest IHb IHm N Hok Ha).
Qed.
End Search.
