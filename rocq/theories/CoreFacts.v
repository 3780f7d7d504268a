(** * CoreFacts: mounting, headers, [Resource::make] *)
From Coq Require Import Sorted.
From Verif Require Import Base Core Flat Spec SpecCore BaseFacts FlatFacts.

(** ** Blocks of a mounted configuration *)
Lemma table_eq b :
  table b = ([], rt_query b, rt_resources b) ::
    concat (map (fun nr : PathSegment * Routes =>
                   map (below (fst nr) (rt_query b)) (table (snd nr))) (rt_routes b)).
Proof.
  destruct b as [rs ch qs]. unfold table. cbn [blocks map rt_query rt_resources rt_routes]. f_equal.
  rewrite concat_map, map_map. f_equal. apply map_ext. intros [seg child]. cbn [fst snd].
  rewrite !map_map. apply map_ext. intros [[p q] x]. reflexivity.
Qed.
Lemma mount_table c at_ d :
  table (c_routes (mount c at_ d)) =
  table (c_routes c) ++ map (below (Static at_) (rt_query (c_routes c))) (table (c_routes d)).
Proof.
  rewrite (table_eq (c_routes (mount c at_ d))), (table_eq (c_routes c)). unfold mount.
  cbn [c_routes rt_query rt_resources rt_routes]. rewrite map_app, concat_app.
  cbn [map concat fst snd]. rewrite app_nil_r. reflexivity.
Qed.

(** ** Headers *)
Lemma header_eqb h h' : str_eqb (h_text h') (h_text h) = true <-> h' = h.
Proof.
  destruct h as [t], h' as [t']. simpl. rewrite str_eqb_eq. split; congruence.
Qed.
Lemma seen_in seen h : existsb (fun h' => str_eqb (h_text h') (h_text h)) seen = true <-> In h seen.
Proof.
  rewrite existsb_exists. split.
  - intros (h' & Hin & E). apply header_eqb in E. subst. exact Hin.
  - intros Hin. exists h. split; auto. apply header_eqb. reflexivity.
Qed.
Lemma unique_in l : forall seen h, In h (unique_headers seen l) <-> In h l /\ ~ In h seen.
Proof.
  induction l as [|x l IH]; intros seen h; simpl; [tauto|].
  destruct (existsb _ seen) eqn:E.
  - apply seen_in in E. rewrite IH. split; [tauto|]. intros [[->|H] Hn]; tauto.
  - assert (Hx : ~ In x seen) by (rewrite <- seen_in; congruence).
    simpl. rewrite IH. simpl. split.
    + intros [->|[H1 H2]]; tauto.
    + intros [[->|H] Hn]; auto. destruct (header_dec x h); [tauto|]. right. split; auto. tauto.
Qed.
Lemma unique_nodup l : forall seen, NoDup (unique_headers seen l).
Proof.
  induction l as [|x l IH]; intros seen; simpl; [constructor|].
  destruct (existsb _ seen); auto. constructor; auto. rewrite unique_in. simpl. tauto.
Qed.
Lemma first_index_le h l : first_index h l <= length l.
Proof. induction l as [|x l IH]; simpl; auto. destruct (header_dec x h); lia. Qed.
Lemma first_index_app h l l' :
  first_index h (l ++ l') = if in_dec header_dec h l then first_index h l else length l + first_index h l'.
Proof.
  induction l as [|x l IH]; simpl; auto. destruct (header_dec x h) as [->|Hn]; auto.
  rewrite IH. destruct (in_dec header_dec h l); auto.
Qed.
Lemma first_index_in h l : In h l -> first_index h l < length l.
Proof.
  induction l as [|x l IH]; simpl; [tauto|]. destruct (header_dec x h); [lia|].
  intros [->|H]; [congruence|]. apply IH in H. lia.
Qed.
Lemma unique_sorted l : forall pre seen, (forall h, In h pre <-> In h seen) ->
  StronglySorted (fun a b => first_index a (pre ++ l) < first_index b (pre ++ l)) (unique_headers seen l).
Proof.
  induction l as [|x l IH]; intros pre seen Hs; simpl; [constructor|].
  replace (pre ++ x :: l) with ((pre ++ [x]) ++ l) by (rewrite <- app_assoc; reflexivity).
  destruct (existsb _ seen) eqn:E.
  - apply seen_in in E. apply IH. intros h. rewrite in_app_iff, Hs. simpl. split; [|tauto].
    intros [H|[->|[]]]; auto.
  - assert (Hx : ~ In x seen) by (rewrite <- seen_in; congruence). constructor.
    + apply IH. intros h. rewrite in_app_iff, Hs. simpl. tauto.
    + apply Forall_forall. intros h Hh. apply unique_in in Hh. destruct Hh as [Hh Hn].
      rewrite <- app_assoc. cbn [app]. rewrite (first_index_app x), (first_index_app h).
      destruct (in_dec header_dec x pre) as [H|_]; [apply Hs in H; tauto|].
      destruct (in_dec header_dec h pre) as [H|_]; [apply Hs in H; exfalso; apply Hn; right; exact H|].
      cbn [first_index]. destruct (header_dec x x) as [_|]; [|congruence].
      destruct (header_dec x h) as [->|]; [exfalso; apply Hn; left; reflexivity|]. lia.
Qed.
Lemma mount_headers c at_ d :
  NoDup (c_headers (mount c at_ d)) /\
  (forall h, In h (c_headers (mount c at_ d)) <-> In h (c_headers c) \/ In h (c_headers d)) /\
  StronglySorted (fun a b => first_index a (c_headers c ++ c_headers d) < first_index b (c_headers c ++ c_headers d))
    (c_headers (mount c at_ d)).
Proof.
  unfold mount. cbn [c_headers]. split; [apply unique_nodup|]. split.
  - intros h. rewrite unique_in, in_app_iff. simpl. tauto.
  - apply (unique_sorted (c_headers c ++ c_headers d) [] []). simpl. tauto.
Qed.
Lemma unique_seen l l' : forall seen, (forall h, In h l' -> In h l \/ In h seen) ->
  unique_headers seen (l ++ l') = unique_headers seen l.
Proof.
  induction l as [|x l IH]; intros seen H; simpl.
  - induction l' as [|y l' IH']; simpl; auto.
    assert (E : existsb (fun h' => str_eqb (h_text h') (h_text y)) seen = true).
    { apply seen_in. destruct (H y) as [[]|]; simpl; auto. }
    rewrite E. apply IH'. intros h Hh. apply H. right. exact Hh.
  - destruct (existsb _ seen) eqn:E.
    + apply IH. intros h Hh. destruct (H h Hh) as [[->|]|]; auto. right. apply seen_in. exact E.
    + f_equal. apply IH. intros h Hh. destruct (H h Hh) as [[->|]|]; simpl; auto.
Qed.
Lemma unique_id l : forall seen, NoDup l -> (forall h, In h l -> ~ In h seen) -> unique_headers seen l = l.
Proof.
  induction l as [|x l IH]; intros seen Hn Hs; simpl; auto. inversion Hn as [|? ? Hx Hn']; subst.
  destruct (existsb _ seen) eqn:E.
  - apply seen_in in E. exfalso. apply (Hs x); simpl; auto.
  - f_equal. apply IH; auto. intros h Hh [->|H]; auto. apply (Hs h); simpl; auto.
Qed.
Lemma mount_twice c at1 at2 d :
  c_headers (mount (mount c at1 d) at2 d) = c_headers (mount c at1 d).
Proof.
  unfold mount. cbn [c_headers]. rewrite unique_seen.
  - apply unique_id; [apply unique_nodup|simpl; tauto].
  - intros h Hh. left. apply unique_in. split; [apply in_or_app; auto|simpl; tauto].
Qed.
Lemma mount_disjoint c at_ d :
  NoDup (c_headers c ++ c_headers d) -> c_headers (mount c at_ d) = c_headers c ++ c_headers d.
Proof. intros H. apply unique_id; simpl; auto. Qed.

(** ** [Resource::make] *)
Lemma make_spec m handler redirect q :
  (handler = [] /\ exists p, resource_make m handler redirect q = RPanic p) \/
  (exists r, resource_make m handler redirect q = ROk r /\ r_modules r ++ [r_name r] = handler /\
     r_method r = m /\ r_is_redirect r = redirect /\ r_query r = q).
Proof.
  unfold resource_make. destruct (rev handler) as [|n ms] eqn:E.
  - left. apply (f_equal (@rev _)) in E. rewrite rev_involutive in E. eauto.
  - right. eexists. split; [reflexivity|]. cbn [r_modules r_name r_method r_is_redirect r_query].
    split; auto. apply (f_equal (@rev _)) in E. rewrite rev_involutive in E. exact (eq_sym E).
Qed.
