(** * TrieProps: TrieFacts in the terms of SpecTrie *)
From Coq Require Import Sorted Permutation.
From Verif Require Import Base Trie SpecTrie TrieFacts.

Section Props.
Context {K V : Type} (cmp : K -> K -> comparison) (ord : total_order cmp).
Let ceq := ord_eq cmp ord.
Let csym := ord_sym cmp ord.
Let ctr := ord_trans cmp ord.
Notation trie := (Trie K V).

Lemma get_holds p : forall (t : trie) v, sorted_trie cmp t -> trie_get cmp t p = Some v <-> holds t p v.
Proof.
  induction p as [|c p IH]; intros t v HS; simpl.
  - split; [constructor; auto|]. inversion 1; auto.
  - destruct t as [d ch]. simpl. apply sorted_inv in HS. destruct HS as [HS Hsub]. split.
    + destruct (find_child cmp c ch) as [t'|] eqn:E; [|discriminate].
      apply (find_child_In cmp ceq) in E. intros H. eapply holds_step; [exact E|]. apply IH; eauto.
    + inversion 1 as [|? ? t' ? ? Hin Hh]; subst. simpl in Hin.
      rewrite (find_child_sorted cmp ceq _ _ _ HS Hin). apply IH; eauto.
Qed.
Lemma sub_at p : forall (t s : trie), sorted_trie cmp t -> trie_sub cmp t p = Some s <-> at_path t p s.
Proof.
  induction p as [|c p IH]; intros t s HS; simpl.
  - split; [intros [= ->]; constructor|]. inversion 1; auto.
  - destruct t as [d ch]. simpl. apply sorted_inv in HS. destruct HS as [HS Hsub]. split.
    + destruct (find_child cmp c ch) as [t'|] eqn:E; [|discriminate].
      apply (find_child_In cmp ceq) in E. intros H. eapply at_step; [exact E|]. apply IH; eauto.
    + inversion 1 as [|? ? t' ? ? Hin Hh]; subst. simpl in Hin.
      rewrite (find_child_sorted cmp ceq _ _ _ HS Hin). apply IH; eauto.
Qed.

Lemma built_inv (t : trie) : built cmp t -> sorted_trie cmp t /\ full_trie cmp t.
Proof.
  induction 1 as [|t p v t' Hb [HS HF] Ha]; [split; [apply sorted_new|apply full_new]|].
  pose proof (trie_add_spec cmp ceq csym ctr p t v HS) as H. rewrite Ha in H. destruct H as [_ H].
  split; [eapply adds_sorted; eauto | eapply adds_full; eauto].
Qed.

Lemma add_ok_iff (t : trie) p v : built cmp t ->
  (exists t', trie_add cmp t p v = inl t') <-> (forall w, ~ holds t p w).
Proof.
  intros Hb. destruct (built_inv t Hb) as [HS _].
  pose proof (trie_add_spec cmp ceq csym ctr p t v HS) as H.
  destruct (trie_add cmp t p v) as [t'|[s v']]; split.
  - intros _ w Hw. apply get_holds in Hw; auto. destruct H as [H _]. congruence.
  - eauto.
  - intros [? ?]; discriminate.
  - intros Hn. exfalso. destruct H as (_ & Hs & v0 & Hd).
    apply (Hn v0). apply get_holds; auto. rewrite (trie_sub_get cmp _ _ _ Hs). exact Hd.
Qed.
Lemma add_ok (t : trie) p v t' : built cmp t -> trie_add cmp t p v = inl t' ->
  forall q w, holds t' q w <-> (q = p /\ w = v) \/ (q <> p /\ holds t q w).
Proof.
  intros Hb Ha q w. destruct (built_inv t Hb) as [HS _].
  destruct (built_inv t' (built_add cmp t p v t' Hb Ha)) as [HS' _].
  pose proof (trie_add_spec cmp ceq csym ctr p t v HS) as H. rewrite Ha in H. destruct H as [_ H].
  rewrite <- (get_holds q t' w HS'), (adds_get cmp ceq _ _ _ _ H HS).
  destruct (path_eq_dec cmp ceq q p) as [->|Hn].
  - split; [intros [= ->]; auto|]. intros [[_ ->]|[? _]]; [reflexivity|congruence].
  - rewrite (get_holds q t w HS). split; [auto|]. intros [[? _]|[_ ?]]; [congruence|auto].
Qed.
Lemma holds_fun (t : trie) p v w : built cmp t -> holds t p v -> holds t p w -> v = w.
Proof.
  intros Hb H1 H2. destruct (built_inv t Hb) as [HS _].
  apply get_holds in H1; auto. apply get_holds in H2; auto. congruence.
Qed.
Lemma add_fail (t : trie) p v s v' : built cmp t -> trie_add cmp t p v = inr (s, v') ->
  v' = v /\ at_path t p s /\ exists w, holds t p w.
Proof.
  intros Hb Ha. destruct (built_inv t Hb) as [HS _].
  pose proof (trie_add_spec cmp ceq csym ctr p t v HS) as H. rewrite Ha in H.
  destruct H as (-> & Hs & v0 & Hd). split; auto. split; [apply sub_at; auto|].
  exists v0. apply get_holds; auto. rewrite (trie_sub_get cmp _ _ _ Hs). exact Hd.
Qed.

Lemma build_add_all l : forall t : trie,
  build cmp t l = match add_all cmp t l with inl t' => Some t' | inr _ => None end.
Proof.
  induction l as [|[p v] l IH]; intros t; simpl; auto.
  destruct (trie_add cmp t p v); auto.
Qed.
Lemma build_built l : forall t t' : trie, built cmp t -> build cmp t l = Some t' -> built cmp t'.
Proof.
  induction l as [|[p v] l IH]; intros t t' Hb; simpl; [intros [= <-]; auto|].
  destruct (trie_add cmp t p v) as [t1|] eqn:E; [|discriminate]. apply IH. eapply built_add; eauto.
Qed.
Lemma build_iff (l : list (list K * V)) :
  (exists t, build cmp trie_new l = Some t) <-> NoDup (map fst l).
Proof.
  rewrite build_add_all. pose proof (add_all_new cmp ceq csym ctr l) as H.
  destruct (add_all cmp trie_new l) as [t|]; split; try tauto; eauto. intros [? ?]; discriminate.
Qed.
Lemma build_holds (l : list (list K * V)) t : build cmp trie_new l = Some t ->
  forall p v, holds t p v <-> In (p, v) l.
Proof.
  rewrite build_add_all. pose proof (add_all_new cmp ceq csym ctr l) as H.
  destruct (add_all cmp trie_new l) as [t'|]; [|discriminate]. intros [= <-] p v.
  destruct H as [Hn (HS & _ & HG)]. rewrite <- (get_holds p t' v HS), HG. split.
  - apply assoc_path_In.
  - apply assoc_path_nodup; auto.
Qed.
Lemma build_perm (l1 l2 : list (list K * V)) t : Permutation l1 l2 ->
  build cmp trie_new l1 = Some t -> build cmp trie_new l2 = Some t.
Proof.
  intros HP. rewrite !build_add_all.
  destruct (add_all cmp trie_new l1) as [t1|] eqn:E1; [|discriminate]. intros [= <-].
  rewrite (add_all_perm cmp ceq csym ctr _ _ _ HP E1). reflexivity.
Qed.
Lemma built_nodes (t : trie) p s : built cmp t -> at_path t p s ->
  StronglySorted (fun a b => cmp a b = Lt) (map fst (t_children s)) /\
  (t_children s = [] -> p <> [] -> exists v, t_data s = Some v).
Proof.
  intros Hb Hs. destruct (built_inv t Hb) as [HS HF]. apply sub_at in Hs; auto. split.
  - pose proof (sorted_sub cmp ceq t p s HS Hs) as H. destruct s. apply sorted_inv in H. apply H.
  - intros. eapply (full_leaf cmp ceq); eauto.
Qed.
(** Tries that hold the same are the same. *)
Lemma built_ext (t1 t2 : trie) : built cmp t1 -> built cmp t2 ->
  (forall p v, holds t1 p v <-> holds t2 p v) -> t1 = t2.
Proof.
  intros B1 B2 H. destruct (built_inv t1 B1) as [S1 F1]. destruct (built_inv t2 B2) as [S2 F2].
  apply (trie_ext cmp ceq ctr); auto. intros p.
  destruct (trie_get cmp t1 p) as [v|] eqn:E1.
  - symmetry. apply get_holds; auto. apply H. apply get_holds; auto.
  - destruct (trie_get cmp t2 p) as [v|] eqn:E2; auto.
    apply get_holds in E2; auto. apply H in E2. apply get_holds in E2; auto. congruence.
Qed.
End Props.
