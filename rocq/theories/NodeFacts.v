(** * NodeFacts: the trie of a configuration, node by node

    Every node of the trie built from a configuration stands for a block, or
    for a point inside the segments of the children of a block.  [Node] states
    this; the lemmas describe the children of such a node. *)
From Coq Require Import Sorted Permutation.
From Verif Require Import Base Core Trie Flat Gen BaseFacts TrieFacts ExecFacts.

Notation entries := (list (list Charlike * FlattenedRoute)) (only parsing).
Definition CRep (t : ctrie) (l : entries) : Prop := Rep charlike_cmp charlike_cmp_eq t l.
Definition csub (c : Charlike) (l : entries) : entries :=
  sub_entries charlike_cmp charlike_cmp_eq c l.
Lemma charlike_eq_dec (a b : Charlike) : {a = b} + {a <> b}.
Proof. apply (K_eq_dec charlike_cmp charlike_cmp_eq). Qed.

(** ** Induction on configurations *)
Definition Routes_ind' (P : Routes -> Prop)
    (H : forall rs ch qs, Forall (fun nr => P (snd nr)) ch -> P (mkRoutes rs ch qs)) :
    forall r, P r :=
  fix rec r :=
    match r with
    | mkRoutes rs ch qs =>
        H rs ch qs ((fix all l : Forall (fun nr => P (snd nr)) l :=
                       match l with
                       | [] => Forall_nil _
                       | nr :: l' => Forall_cons _ (rec (snd nr)) (all l')
                       end) ch)
    end.

(** ** Entries of a block *)
Definition prefix_entries (k : list Charlike) (l : entries) : entries :=
  map (fun e => (k ++ fst e, snd e)) l.
Fixpoint block_entries (b : Routes) (path : list PathSegment) (q : list Param) : entries :=
  match b with
  | mkRoutes rs children qs =>
      ([], mkFlat path rs (q ++ qs))
        :: concat (map (fun nr => match nr with
                                  | (seg, child) =>
                                      prefix_entries (segment_iter seg)
                                        (block_entries child (path ++ [seg]) (q ++ qs))
                                  end) children)
  end.
Definition block_route (b : Routes) (path : list PathSegment) (q : list Param) : FlattenedRoute :=
  mkFlat path (rt_resources b) (q ++ rt_query b).

Definition seg_key (s : PathSegment) : list Charlike :=
  match s with
  | Static t => map CStatic t
  | Dynamic p => [CDynamic (p_name p)]
  end.
Lemma segment_iter_key s : segment_iter s = seg_key s ++ [CSeparator].
Proof. destruct s; reflexivity. Qed.

Notation keyed := (list (list Charlike * (PathSegment * Routes))) (only parsing).
Definition ks_entries (ks : keyed) (path : list PathSegment) (q : list Param) : entries :=
  concat (map (fun kx : list Charlike * (PathSegment * Routes) =>
                 prefix_entries (fst kx ++ [CSeparator])
                   (block_entries (snd (snd kx)) (path ++ [fst (snd kx)]) q)) ks).
Definition block_keys (b : Routes) : keyed :=
  map (fun nr : PathSegment * Routes => (seg_key (fst nr), nr)) (rt_routes b).

Lemma block_entries_eq b path q :
  block_entries b path q =
  ([], block_route b path q) :: ks_entries (block_keys b) path (q ++ rt_query b).
Proof.
  destruct b as [rs ch qs]. simpl. f_equal. unfold ks_entries, block_keys. simpl.
  rewrite map_map. f_equal. apply map_ext. intros [seg child]. simpl.
  rewrite segment_iter_key. reflexivity.
Qed.

Lemma prefix_entries_app k1 k2 l :
  prefix_entries k1 (prefix_entries k2 l) = prefix_entries (k1 ++ k2) l.
Proof.
  unfold prefix_entries. rewrite map_map. apply map_ext. intros e. simpl. rewrite app_assoc. reflexivity.
Qed.
Lemma prefix_entries_concat k (ls : list entries) :
  prefix_entries k (concat ls) = concat (map (prefix_entries k) ls).
Proof. unfold prefix_entries. rewrite concat_map. reflexivity. Qed.

Lemma path_iter_app a b : path_iter (a ++ b) = path_iter a ++ path_iter b.
Proof. unfold path_iter. rewrite map_app, concat_app. reflexivity. Qed.

(** The entries that [to_trie] adds. *)
Definition flat_entry (fr : FlattenedRoute) : list Charlike * FlattenedRoute :=
  (path_iter (f_path fr), fr).
Lemma flatten_entries : forall b path q,
  map flat_entry (flatten b path q) = prefix_entries (path_iter path) (block_entries b path q).
Proof.
  refine (Routes_ind' _ _). intros rs ch qs IH path q. simpl. f_equal.
  { unfold flat_entry. simpl. rewrite app_nil_r. reflexivity. }
  rewrite concat_map, map_map.
  change (map (fun e => (path_iter path ++ fst e, snd e)) ?l) with (prefix_entries (path_iter path) l).
  rewrite prefix_entries_concat, map_map. f_equal.
  rewrite Forall_forall in IH. apply map_ext_in. intros [seg child] Hin.
  rewrite (IH _ Hin). simpl. rewrite prefix_entries_app, path_iter_app.
  replace (path_iter [seg]) with (segment_iter seg) by (unfold path_iter; simpl; rewrite app_nil_r; reflexivity).
  reflexivity.
Qed.
Lemma to_trie_add_all l : forall t,
  match to_trie_from t l, add_all charlike_cmp t (map flat_entry l) with
  | ROk t1, inl t2 => t1 = t2
  | RPanic _, inr _ => True
  | _, _ => False
  end.
Proof.
  induction l as [|fr l IH]; intros t; simpl; auto.
  destruct (trie_add charlike_cmp t (path_iter (f_path fr)) fr) as [t'|]; auto. apply IH.
Qed.

(** ** Entries below a key *)
Fixpoint ks_tail (c : Charlike) (ks : keyed) : keyed :=
  match ks with
  | [] => []
  | (k :: k', x) :: ks' => if charlike_eq_dec k c then (k', x) :: ks_tail c ks' else ks_tail c ks'
  | ([], _) :: ks' => ks_tail c ks'
  end.
Fixpoint ks_here (ks : keyed) : list (PathSegment * Routes) :=
  match ks with
  | [] => []
  | ([], x) :: ks' => x :: ks_here ks'
  | _ :: ks' => ks_here ks'
  end.
Lemma ks_tail_In c ks k x : In (k, x) (ks_tail c ks) <-> In (c :: k, x) ks.
Proof.
  induction ks as [|[[|k0 k'] y] ks IH]; simpl; [tauto| |].
  - rewrite IH. split; [auto|intros [E|?]; [discriminate|auto]].
  - destruct (charlike_eq_dec k0 c) as [->|Hn]; simpl; rewrite IH.
    + split; intros [E|E]; auto; injection E as -> ->; auto.
    + split; [auto|]. intros [E|E]; auto. congruence.
Qed.
Lemma ks_here_In ks x : In x (ks_here ks) <-> In ([], x) ks.
Proof.
  induction ks as [|[[|k0 k'] y] ks IH]; simpl; [tauto| |].
  - rewrite IH. split; intros [E|E]; auto; [subst; auto|injection E as ->; auto].
  - rewrite IH. split; [auto|]. intros [E|?]; [discriminate|auto].
Qed.

Lemma csub_app c l1 l2 : csub c (l1 ++ l2) = csub c l1 ++ csub c l2.
Proof.
  unfold csub. induction l1 as [|[[|k p] v] l1 IH]; simpl; auto.
  destruct (K_eq_dec charlike_cmp charlike_cmp_eq k c); simpl; rewrite IH; reflexivity.
Qed.
Lemma csub_prefix c k l :
  csub c (prefix_entries k l) =
  match k with
  | [] => csub c (prefix_entries [] l)
  | c' :: k' => if charlike_eq_dec c' c then prefix_entries k' l else []
  end.
Proof.
  destruct k as [|c' k']; auto. unfold csub. induction l as [|e l IH]; simpl.
  - destruct (charlike_eq_dec c' c); auto.
  - rewrite IH.
    destruct (K_eq_dec charlike_cmp charlike_cmp_eq c' c), (charlike_eq_dec c' c); congruence.
Qed.
Lemma prefix_entries_nil l : prefix_entries [] l = l.
Proof. unfold prefix_entries. rewrite <- map_id. apply map_ext. intros []; reflexivity. Qed.

Definition no_sep (ks : keyed) : Prop := forall k x, In (k, x) ks -> ~ In CSeparator k.
Lemma no_sep_tail c ks : no_sep ks -> no_sep (ks_tail c ks).
Proof. intros H k x Hin Hs. apply ks_tail_In in Hin. apply (H _ _ Hin). right; exact Hs. Qed.
Lemma no_sep_block b : no_sep (block_keys b).
Proof.
  intros k x Hin. unfold block_keys in Hin. apply in_map_iff in Hin.
  destruct Hin as ([seg child] & E & _). injection E as <- <-. simpl.
  destruct seg; simpl; intros H.
  - apply in_map_iff in H. destruct H as (? & ? & _). discriminate.
  - destruct H as [H|[]]. discriminate.
Qed.

Lemma csub_ks c ks path q :
  c <> CSeparator -> csub c (ks_entries ks path q) = ks_entries (ks_tail c ks) path q.
Proof.
  intros Hc. induction ks as [|[k x] ks IH]; auto.
  change (ks_entries ((k, x) :: ks) path q) with
    (prefix_entries (k ++ [CSeparator]) (block_entries (snd x) (path ++ [fst x]) q)
     ++ ks_entries ks path q).
  rewrite csub_app, IH, csub_prefix.
  destruct k as [|c' k']; simpl.
  - destruct (charlike_eq_dec CSeparator c); [congruence|reflexivity].
  - destruct (charlike_eq_dec c' c); reflexivity.
Qed.
Lemma csub_ks_sep ks path q :
  no_sep ks ->
  csub CSeparator (ks_entries ks path q) =
  concat (map (fun x : PathSegment * Routes => block_entries (snd x) (path ++ [fst x]) q) (ks_here ks)).
Proof.
  induction ks as [|[k x] ks IH]; intros Hs; auto.
  change (ks_entries ((k, x) :: ks) path q) with
    (prefix_entries (k ++ [CSeparator]) (block_entries (snd x) (path ++ [fst x]) q)
     ++ ks_entries ks path q).
  rewrite csub_app, IH by (intros ? ? ?; eapply Hs; right; eauto). rewrite csub_prefix.
  destruct k as [|c' k']; simpl.
  - destruct (charlike_eq_dec CSeparator CSeparator); [|congruence].
    rewrite prefix_entries_nil. reflexivity.
  - destruct (charlike_eq_dec c' CSeparator) as [->|]; [|reflexivity].
    exfalso. apply (Hs (CSeparator :: k') x); left; reflexivity.
Qed.

Lemma csub_nodup c l : NoDup (map fst l) -> NoDup (map fst (csub c l)).
Proof.
  unfold csub. induction l as [|[[|k p] v] l IH]; simpl; intros H; inversion H as [|? ? H1 H2]; subst; auto.
  destruct (K_eq_dec charlike_cmp charlike_cmp_eq k c) as [->|]; auto. simpl. constructor; auto.
  intros Hin. apply H1. apply in_map_iff in Hin. destruct Hin as ([p' v'] & Hp & Hin). simpl in Hp. subst.
  apply sub_entries_In in Hin. apply in_map_iff. exists (c :: p, v'); auto.
Qed.

(** ** Nodes *)
Definition odata (o : option FlattenedRoute) : entries :=
  match o with Some fr => [([], fr)] | None => [] end.
Record Node (t : ctrie) (o : option FlattenedRoute) (ks : keyed) (path : list PathSegment)
    (q : list Param) : Prop := {
  nd_rep : CRep t (odata o ++ ks_entries ks path q);
  nd_nodup : NoDup (map fst (odata o ++ ks_entries ks path q));
  nd_nosep : no_sep ks
}.

Lemma in_ks_entries ks path q p fr :
  In (p, fr) (ks_entries ks path q) <->
  exists k seg child p', In (k, (seg, child)) ks /\ p = k ++ CSeparator :: p' /\
    In (p', fr) (block_entries child (path ++ [seg]) q).
Proof.
  unfold ks_entries. rewrite in_concat. split.
  - intros (l & Hl & Hin). apply in_map_iff in Hl. destruct Hl as ([k [seg child]] & <- & Hk).
    unfold prefix_entries in Hin. apply in_map_iff in Hin. destruct Hin as ([p' fr'] & E & Hin).
    simpl in *. injection E as <- <-. exists k, seg, child, p'. rewrite <- app_assoc. auto.
  - intros (k & seg & child & p' & Hk & -> & Hin).
    eexists. split; [apply in_map_iff; eexists; split; [reflexivity|exact Hk]|].
    unfold prefix_entries. apply in_map_iff. exists (p', fr). simpl. rewrite <- app_assoc. auto.
Qed.
Lemma block_entries_root b path q : In ([], block_route b path q) (block_entries b path q).
Proof. rewrite block_entries_eq. left; reflexivity. Qed.

Lemma ks_entry ks path q k seg child : In (k, (seg, child)) ks ->
  In (k ++ [CSeparator], block_route child (path ++ [seg]) q) (ks_entries ks path q).
Proof.
  intros H. apply in_ks_entries. exists k, seg, child, []. split; auto. split; auto.
  apply block_entries_root.
Qed.

Lemma NoDup_app_l {A} (a b : list A) : NoDup (a ++ b) -> NoDup a.
Proof.
  induction a as [|x a IH]; simpl; intros H; [constructor|].
  inversion H; subst. constructor; auto. rewrite in_app_iff in *. tauto.
Qed.
Lemma NoDup_app_r {A} (a b : list A) : NoDup (a ++ b) -> NoDup b.
Proof. induction a; simpl; auto. inversion 1; auto. Qed.

Lemma ks_nodup ks path q : NoDup (map fst (ks_entries ks path q)) -> NoDup (map fst ks).
Proof.
  induction ks as [|[k [seg child]] ks IH]; simpl; intros H; [constructor|].
  change (ks_entries ((k, (seg, child)) :: ks) path q) with
    (prefix_entries (k ++ [CSeparator]) (block_entries child (path ++ [seg]) q)
     ++ ks_entries ks path q) in H.
  rewrite map_app in H. constructor; [|apply IH; eapply NoDup_app_r; eauto].
  intros Hin. apply in_map_iff in Hin. destruct Hin as ([k' [seg' child']] & E & Hin).
  simpl in E. subst k'.
  assert (H1 : In (k ++ [CSeparator])
            (map fst (prefix_entries (k ++ [CSeparator]) (block_entries child (path ++ [seg]) q)))).
  { rewrite block_entries_eq. simpl. left. apply app_nil_r. }
  assert (H2 : In (k ++ [CSeparator]) (map fst (ks_entries ks path q))).
  { apply in_map_iff. eexists. split; [|apply (ks_entry ks path q k seg' child' Hin)]. reflexivity. }
  clear -H H1 H2. induction (map fst (prefix_entries _ _)) as [|x l IH]; [destruct H1|].
  simpl in H. inversion H as [|? ? Hn Hd]; subst. destruct H1 as [->|H1]; auto.
  apply Hn. apply in_app_iff. auto.
Qed.

Section NodeFacts.
Variables (t : ctrie) (o : option FlattenedRoute) (ks : keyed) (path : list PathSegment) (q : list Param).
Hypothesis N : Node t o ks path q.

Lemma Node_keys_nodup : NoDup (map fst ks).
Proof. destruct N as [_ H _]. rewrite map_app in H. apply NoDup_app_r in H. eapply ks_nodup; eauto. Qed.

Lemma Node_data : t_data t = o.
Proof.
  destruct N as [R H _].
  rewrite (Rep_data charlike_cmp charlike_cmp_eq _ _ R).
  destruct o as [fr|]; simpl.
  - destruct (path_eq_dec charlike_cmp charlike_cmp_eq [] []); congruence.
  - apply assoc_path_none. intros Hin. apply in_map_iff in Hin.
    destruct Hin as ([p fr] & E & Hin). simpl in E. subst.
    apply in_ks_entries in Hin. destruct Hin as (k & ? & ? & p' & _ & Hp & _).
    destruct k; discriminate.
Qed.

Lemma csub_odata c : csub c (odata o) = [].
Proof. destruct o; reflexivity. Qed.

Lemma Node_sorted : StronglySorted (klt charlike_cmp) (map fst (t_children t)).
Proof. destruct N as [R _ _]. eapply Rep_sorted; eauto. Qed.

Lemma Node_child c t' :
  In (c, t') (t_children t) -> c <> CSeparator ->
  Node t' None (ks_tail c ks) path q /\ ks_tail c ks <> [].
Proof.
  intros Hin Hc. destruct N as [R H Hs].
  pose proof (Rep_child charlike_cmp charlike_cmp_eq _ _ _ _ R Hin) as R'.
  fold (csub c (odata o ++ ks_entries ks path q)) in R'.
  pose proof (csub_nodup c _ H) as H'.
  rewrite csub_app, csub_odata, csub_ks in R', H' by auto. simpl in *.
  split.
  - split; auto. apply no_sep_tail; auto.
  - destruct (proj1 (Rep_child_iff charlike_cmp charlike_cmp_eq _ _ c R) (ex_intro (fun x => In (_, x) (t_children t)) _ Hin))
      as (p & fr & Hp).
    apply in_app_iff in Hp. destruct Hp as [Hp|Hp].
    { destruct o; simpl in Hp; [|tauto]. destruct Hp as [Hp|[]]. discriminate. }
    apply in_ks_entries in Hp. destruct Hp as (k & seg & child & p' & Hk & E & _).
    destruct k as [|c' k]; simpl in E; [congruence|]. injection E as -> _.
    intros E. assert (Hx : In (k, (seg, child)) (ks_tail c' ks)) by (apply ks_tail_In; exact Hk).
    rewrite E in Hx. destruct Hx.
Qed.

Lemma Node_has c : c <> CSeparator -> ks_tail c ks <> [] -> exists t', In (c, t') (t_children t).
Proof.
  intros Hc Hne. destruct N as [R _ _].
  apply (Rep_child_iff charlike_cmp charlike_cmp_eq _ _ c R).
  destruct (ks_tail c ks) as [|[k [seg child]] l] eqn:E; [congruence|].
  assert (Hin : In (c :: k, (seg, child)) ks).
  { apply ks_tail_In. rewrite E. left; reflexivity. }
  pose proof (ks_entry ks path q _ _ _ Hin) as He.
  exists (k ++ [CSeparator]). eexists. apply in_app_iff. right. exact He.
Qed.

Lemma ks_here_one : ks_here ks <> [] -> exists x, ks_here ks = [x] /\ In ([], x) ks.
Proof.
  intros Hne. pose proof Node_keys_nodup as Hn.
  destruct (ks_here ks) as [|x l] eqn:E; [congruence|].
  assert (Hx : In ([], x) ks) by (apply ks_here_In; rewrite E; left; reflexivity).
  exists x. split; auto. destruct l as [|y l]; auto. exfalso.
  clear -Hn E. induction ks as [|[[|k0 k'] z] ks' IH]; simpl in *; [discriminate| |].
  - injection E as -> E. inversion Hn as [|? ? H1 _]; subst. apply H1.
    apply in_map_iff. exists ([], y). split; auto. apply ks_here_In. rewrite E. left; reflexivity.
  - inversion Hn; subst. apply IH; auto.
Qed.

Lemma Node_sep t' :
  In (CSeparator, t') (t_children t) ->
  exists seg child, ks_here ks = [(seg, child)] /\ In ([], (seg, child)) ks /\
    Node t' (Some (block_route child (path ++ [seg]) q)) (block_keys child) (path ++ [seg])
         (q ++ rt_query child).
Proof.
  intros Hin. destruct N as [R H Hs].
  pose proof (Rep_child charlike_cmp charlike_cmp_eq _ _ _ _ R Hin) as R'.
  fold (csub CSeparator (odata o ++ ks_entries ks path q)) in R'.
  pose proof (csub_nodup CSeparator _ H) as H'.
  rewrite csub_app, csub_odata, csub_ks_sep in R', H' by auto. simpl in R', H'.
  destruct (proj1 (Rep_child_iff charlike_cmp charlike_cmp_eq _ _ CSeparator R) (ex_intro (fun x => In (_, x) (t_children t)) _ Hin))
      as (p & fr & Hp).
  apply in_app_iff in Hp. destruct Hp as [Hp|Hp].
  { destruct o; simpl in Hp; [|tauto]. destruct Hp as [Hp|[]]. discriminate. }
  apply in_ks_entries in Hp. destruct Hp as (k & seg & child & p' & Hk & E & _).
  destruct k as [|c' k].
  2: { simpl in E. injection E as <- _. exfalso. apply (Hs _ _ Hk). left; reflexivity. }
  assert (Hne : ks_here ks <> []).
  { intros E'. apply ks_here_In in Hk. rewrite E' in Hk. destruct Hk. }
  destruct (ks_here_one Hne) as ([seg' child'] & E1 & E2).
  exists seg', child'. split; auto. split; auto.
  rewrite E1 in R', H'. simpl in R', H'. rewrite app_nil_r, block_entries_eq in R', H'.
  split; auto. apply no_sep_block.
Qed.

Lemma Node_has_sep : ks_here ks <> [] -> exists t', In (CSeparator, t') (t_children t).
Proof.
  intros Hne. destruct (ks_here_one Hne) as ([seg child] & _ & Hin).
  destruct N as [R _ _]. apply (Rep_child_iff charlike_cmp charlike_cmp_eq _ _ CSeparator R).
  pose proof (ks_entry ks path q _ _ _ Hin) as He.
  exists []. eexists. apply in_app_iff. right. exact He.
Qed.
End NodeFacts.

(** The root. *)
Lemma to_trie_node r t :
  to_trie (flattened_routes r) = ROk t ->
  Node t (Some (block_route r [] [])) (block_keys r) [] (rt_query r).
Proof.
  unfold to_trie, flattened_routes. intros H.
  pose proof (to_trie_add_all (flatten r [] []) trie_new) as Ha. rewrite H in Ha.
  pose proof (add_all_new charlike_cmp charlike_cmp_eq charlike_cmp_sym charlike_cmp_trans
                (map flat_entry (flatten r [] []))) as Hn.
  destruct (add_all charlike_cmp trie_new _) as [t2|]; [|destruct Ha]. subst t2.
  destruct Hn as [Hn R]. rewrite flatten_entries, prefix_entries_nil, block_entries_eq in Hn, R.
  split; auto. apply no_sep_block.
Qed.
Lemma to_trie_dup r :
  (exists t, to_trie (flattened_routes r) = ROk t) \/
  to_trie (flattened_routes r) = RPanic PanicDuplicatePath.
Proof.
  unfold to_trie. generalize (@trie_new Charlike FlattenedRoute).
  induction (flattened_routes r) as [|fr l IH]; intros t; simpl; [left; eauto|].
  destruct (trie_add _ _ _ _); auto.
Qed.
Lemma to_trie_nodup r :
  (exists t, to_trie (flattened_routes r) = ROk t) <->
  NoDup (map (fun fr => path_iter (f_path fr)) (flattened_routes r)).
Proof.
  pose proof (to_trie_add_all (flattened_routes r) trie_new) as Ha.
  pose proof (add_all_new charlike_cmp charlike_cmp_eq charlike_cmp_sym charlike_cmp_trans
                (map flat_entry (flattened_routes r))) as Hn.
  rewrite map_map in Hn. simpl in Hn. unfold to_trie.
  destruct (add_all charlike_cmp trie_new _) as [t2|], (to_trie_from trie_new _) as [t| | |];
    try tauto.
  - split; [tauto|eauto].
  - split; [intros [? ?]; discriminate | tauto].
Qed.
