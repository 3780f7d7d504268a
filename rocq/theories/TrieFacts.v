(** * TrieFacts: proofs about Trie.v *)
From Coq Require Import Sorted Permutation.
From Verif Require Import Base Trie.

(** Induction on tries through the list of children. *)
Definition Trie_rect' {K V} (P : Trie K V -> Prop)
    (H : forall d ch, Forall (fun kc => P (snd kc)) ch -> P (mkTrie d ch)) :
    forall t, P t :=
  fix rec t :=
    match t with
    | mkTrie d ch =>
        H d ch ((fix all l : Forall (fun kc => P (snd kc)) l :=
                   match l with
                   | [] => Forall_nil _
                   | kc :: l' => Forall_cons _ (rec (snd kc)) (all l')
                   end) ch)
    end.

Section TrieFacts.
Context {K V : Type}.
Variable cmp : K -> K -> comparison.
Hypothesis cmp_eq : forall a b, cmp a b = Eq <-> a = b.
Hypothesis cmp_sym : forall a b, cmp b a = CompOpp (cmp a b).
Hypothesis cmp_lt_trans : forall a b c, cmp a b = Lt -> cmp b c = Lt -> cmp a c = Lt.

Notation trie := (Trie K V).
Definition klt (a b : K) : Prop := cmp a b = Lt.

Lemma cmp_refl a : cmp a a = Eq.
Proof. apply cmp_eq; reflexivity. Qed.
Lemma cmp_gt_lt a b : cmp a b = Gt <-> cmp b a = Lt.
Proof. rewrite (cmp_sym a b). destruct (cmp a b); simpl; split; congruence. Qed.
Lemma klt_irrefl a : ~ klt a a.
Proof. unfold klt; rewrite cmp_refl; congruence. Qed.
Lemma K_eq_dec (a b : K) : {a = b} + {a <> b}.
Proof.
  destruct (cmp a b) eqn:E.
  - left; apply cmp_eq; exact E.
  - right; intros ->; rewrite cmp_refl in E; congruence.
  - right; intros ->; rewrite cmp_refl in E; congruence.
Qed.
Lemma path_eq_dec (a b : list K) : {a = b} + {a <> b}.
Proof. apply list_eq_dec, K_eq_dec. Qed.

(** ** Specification: look-up by walking the children. *)
Fixpoint find_child (c : K) (l : list (K * trie)) : option trie :=
  match l with
  | [] => None
  | (k, t) :: l' => match cmp k c with Eq => Some t | _ => find_child c l' end
  end.
Fixpoint trie_get (t : trie) (p : list K) : option V :=
  match p with
  | [] => t_data t
  | c :: p' =>
      match find_child c (t_children t) with
      | Some t' => trie_get t' p'
      | None => None
      end
  end.
(** The sub-trie at a path. *)
Fixpoint trie_sub (t : trie) (p : list K) : option trie :=
  match p with
  | [] => Some t
  | c :: p' =>
      match find_child c (t_children t) with
      | Some t' => trie_sub t' p'
      | None => None
      end
  end.

(** Sorted at every node. *)
Inductive sorted_trie : trie -> Prop :=
| sorted_intro d ch :
    StronglySorted klt (map fst ch) ->
    (forall k t, In (k, t) ch -> sorted_trie t) ->
    sorted_trie (mkTrie d ch).
(** Every node below the root leads to data. *)
Inductive full_trie : trie -> Prop :=
| full_intro d ch :
    (forall k t, In (k, t) ch -> full_trie t /\ exists p v, trie_get t p = Some v) ->
    full_trie (mkTrie d ch).

Lemma sorted_new : sorted_trie trie_new.
Proof. constructor; simpl; [constructor | tauto]. Qed.
Lemma full_new : full_trie trie_new.
Proof. constructor; simpl; tauto. Qed.

(** ** Sorted association lists *)
Lemma find_child_In c l t : find_child c l = Some t -> In (c, t) l.
Proof.
  induction l as [|[k t0] l IH]; simpl; [discriminate|].
  destruct (cmp k c) eqn:E; intros H; auto.
  apply cmp_eq in E; subst. injection H as ->. auto.
Qed.
Lemma find_child_none c l : (forall t, ~ In (c, t) l) -> find_child c l = None.
Proof.
  intros H. destruct (find_child c l) eqn:E; auto.
  apply find_child_In in E. exfalso; eapply H; eauto.
Qed.
Lemma find_child_sorted c l t :
  StronglySorted klt (map fst l) -> In (c, t) l -> find_child c l = Some t.
Proof.
  induction l as [|[k t0] l IH]; simpl; [tauto|].
  intros HS [H|H].
  - injection H as -> ->. rewrite cmp_refl. reflexivity.
  - inversion HS as [|? ? HS' HF]; subst.
    rewrite Forall_forall in HF.
    assert (klt k c) as Hlt by (apply HF; apply in_map_iff; exists (c, t); auto).
    unfold klt in Hlt; rewrite Hlt. auto.
Qed.
Lemma find_child_app c l1 l2 :
  find_child c (l1 ++ l2) =
  match find_child c l1 with Some t => Some t | None => find_child c l2 end.
Proof.
  induction l1 as [|[k t] l1 IH]; simpl; auto.
  destruct (cmp k c); auto.
Qed.

(** ** Binary search *)
Lemma sorted_nth (l : list (K * trie)) i j k1 t1 k2 t2 :
  StronglySorted klt (map fst l) -> i < j ->
  nth_error l i = Some (k1, t1) -> nth_error l j = Some (k2, t2) -> klt k1 k2.
Proof.
  revert i j. induction l as [|[k t] l IH]; intros i j HS Hij Hi Hj.
  - destruct i; discriminate.
  - simpl in HS. inversion HS as [|? ? HS' HF]; subst.
    destruct j as [|j]; [lia|]. simpl in Hj.
    destruct i as [|i]; simpl in Hi.
    + injection Hi as -> ->. rewrite Forall_forall in HF. apply HF.
      apply in_map_iff. exists (k2, t2); split; auto. eapply nth_error_In; eauto.
    + apply (IH i j HS'); auto; lia.
Qed.

Lemma bsearch_loop_spec fuel : forall (l : list (K * trie)) c base size,
  StronglySorted klt (map fst l) ->
  1 <= size -> size <= fuel -> base + size <= length l ->
  (forall k t, nth_error l base = Some (k, t) -> base = 0 \/ cmp k c <> Gt) ->
  (forall j k t, base + size <= j -> nth_error l j = Some (k, t) -> cmp k c = Gt) ->
  let b := bsearch_loop cmp fuel l c base size in
  b < length l /\
  (forall k t, nth_error l b = Some (k, t) -> b = 0 \/ cmp k c <> Gt) /\
  (forall j k t, b < j -> nth_error l j = Some (k, t) -> cmp k c = Gt).
Proof.
  induction fuel as [|fuel IH]; intros l c base size HS H1 Hf Hb Hlo Hhi; [lia|].
  cbn [bsearch_loop]. cbv zeta. destruct (Nat.ltb_spec 1 size) as [Hs|Hs].
  - assert (Hhalf : 1 <= Nat.div size 2 /\ 2 * Nat.div size 2 <= size).
    { split.
      - apply Nat.div_le_lower_bound; lia.
      - apply Nat.mul_div_le; lia. }
    remember (Nat.div size 2) as half eqn:Eh; clear Eh.
    destruct (nth_error l (base + half)) as [[k t]|] eqn:En.
    2: { apply nth_error_None in En. lia. }
    assert (Hup : cmp k c <> Gt ->
      forall k' t', nth_error l (base + half) = Some (k', t') -> base + half = 0 \/ cmp k' c <> Gt).
    { intros Hc k' t' E'. right. rewrite En in E'. injection E' as <- <-. exact Hc. }
    assert (Hhi' : forall j k' t', base + half + (size - half) <= j ->
      nth_error l j = Some (k', t') -> cmp k' c = Gt).
    { intros j k' t' Hj. apply Hhi; lia. }
    destruct (cmp k c) eqn:Ec.
    + refine (IH l c (base + half) (size - half) HS _ _ _ (Hup _) Hhi'); [lia|lia|lia|congruence].
    + refine (IH l c (base + half) (size - half) HS _ _ _ (Hup _) Hhi'); [lia|lia|lia|congruence].
    + refine (IH l c base (size - half) HS _ _ _ Hlo _); [lia|lia|lia|].
      intros j k' t' Hj Ej.
      destruct (Nat.lt_ge_cases j (base + size)) as [Hlt|Hge].
      2: { eapply Hhi; eauto. }
      destruct (Nat.eq_dec j (base + half)) as [->|Hne].
      { rewrite En in Ej. injection Ej as <- <-. exact Ec. }
      destruct (Nat.lt_ge_cases (base + half) j) as [Hl|Hl].
      { assert (klt k k').
        { apply (sorted_nth l (base + half) j k t k' t'); auto. }
        apply cmp_gt_lt. apply cmp_gt_lt in Ec. eapply cmp_lt_trans; eauto. }
      exfalso. lia.
  - assert (size = 1) by lia. subst size.
    split; [lia|]. split; auto. intros j k t Hj Ej; apply (Hhi j k t); [lia|exact Ej].
Qed.

Lemma binary_search_spec (l : list (K * trie)) c :
  StronglySorted klt (map fst l) ->
  match binary_search cmp l c with
  | inl i => exists l1 t l2, l = l1 ++ (c, t) :: l2 /\ length l1 = i
  | inr i => exists l1 l2, l = l1 ++ l2 /\ length l1 = i /\
               (forall k t, In (k, t) l1 -> klt k c) /\ (forall k t, In (k, t) l2 -> klt c k)
  end.
Proof.
  intros HS. unfold binary_search. destruct l as [|x l0].
  { exists [], []. simpl. firstorder. }
  set (l := x :: l0) in *.
  destruct (bsearch_loop_spec (length l) l c 0 (length l) HS) as (Hb & Hlo & Hhi).
  - simpl; lia.
  - lia.
  - lia.
  - auto.
  - intros j k t Hj E. assert (nth_error l j = None) by (apply nth_error_None; lia). congruence.
  - set (b := bsearch_loop cmp (length l) l c 0 (length l)) in *.
    destruct (nth_error l b) as [[k t]|] eqn:En.
    2: { apply nth_error_None in En. lia. }
    destruct (nth_error_split _ _ En) as (l1 & l2 & El & Hl1).
    assert (Hbefore : forall k' t', In (k', t') l1 -> klt k' k).
    { intros k' t' Hin. destruct (In_nth_error _ _ Hin) as [j Hj].
      assert (Hj' : j < length l1) by (apply nth_error_Some; congruence).
      apply (sorted_nth l j b k' t' k t); auto; try lia.
      rewrite El. rewrite nth_error_app1; auto. }
    assert (Hafter : forall k' t', In (k', t') l2 -> cmp k' c = Gt).
    { intros k' t' Hin. destruct (In_nth_error _ _ Hin) as [j Hj].
      apply (Hhi (S (b + j)) k' t'); [lia|].
      rewrite El. rewrite nth_error_app2 by lia.
      replace (S (b + j) - length l1) with (S j) by lia. exact Hj. }
    destruct (cmp k c) eqn:Ec.
    + apply cmp_eq in Ec; subst. exists l1, t, l2; auto.
    + exists (l1 ++ [(k, t)]), l2. split; [|split; [|split]].
      * rewrite El, <- app_assoc. reflexivity.
      * rewrite app_length; simpl; lia.
      * intros k' t' Hin. apply in_app_or in Hin. destruct Hin as [Hin|[Hin|[]]].
        -- eapply cmp_lt_trans; eauto. eapply Hbefore; eauto.
        -- injection Hin as <- <-. exact Ec.
      * intros k' t' Hin. apply cmp_gt_lt. eauto.
    + destruct (Hlo k t eq_refl) as [H0|H0]; [|congruence].
      assert (l1 = []) as -> by (destruct l1; simpl in *; auto; lia).
      exists [], ((k, t) :: l2). rewrite H0. split; [exact El|]. split; [reflexivity|].
      split; [simpl; tauto|].
      intros k' t' [Hin|Hin].
      * injection Hin as <- <-. apply cmp_gt_lt; auto.
      * apply cmp_gt_lt; eauto.
Qed.

Lemma vec_insert_app {A} (x : A) l1 l2 : vec_insert (length l1) x (l1 ++ l2) = l1 ++ x :: l2.
Proof.
  unfold vec_insert. rewrite firstn_app, skipn_app, Nat.sub_diag, firstn_all, skipn_all.
  simpl. rewrite app_nil_r. reflexivity.
Qed.
Lemma vec_remove_app {A} (x : A) l1 l2 : vec_remove (length l1) (l1 ++ x :: l2) = l1 ++ l2.
Proof.
  unfold vec_remove. rewrite firstn_app, Nat.sub_diag, firstn_all. simpl firstn.
  rewrite app_nil_r. f_equal.
  rewrite skipn_app. rewrite skipn_all2 by lia.
  replace (S (length l1) - length l1) with 1 by lia. reflexivity.
Qed.

(** ** Specification of [add]

    [adds t p v t']: [t'] is [t] with [v] put at [p], as an inductive relation
    on sorted children (independent of the search). *)
Inductive adds : trie -> list K -> V -> trie -> Prop :=
| adds_here ch v : adds (mkTrie None ch) [] v (mkTrie (Some v) ch)
| adds_new d l1 l2 c p v t' :
    (forall k t, In (k, t) l1 -> klt k c) -> (forall k t, In (k, t) l2 -> klt c k) ->
    adds trie_new p v t' ->
    adds (mkTrie d (l1 ++ l2)) (c :: p) v (mkTrie d (l1 ++ (c, t') :: l2))
| adds_old d l1 l2 c t p v t' :
    adds t p v t' ->
    adds (mkTrie d (l1 ++ (c, t) :: l2)) (c :: p) v (mkTrie d (l1 ++ (c, t') :: l2)).

Lemma sorted_inv d ch : sorted_trie (mkTrie d ch) ->
  StronglySorted klt (map fst ch) /\ (forall k t, In (k, t) ch -> sorted_trie t).
Proof. inversion 1; auto. Qed.

Lemma sorted_app_inv (l1 l2 : list (K * trie)) :
  StronglySorted klt (map fst (l1 ++ l2)) ->
  StronglySorted klt (map fst l1) /\ StronglySorted klt (map fst l2) /\
  (forall k1 t1 k2 t2, In (k1, t1) l1 -> In (k2, t2) l2 -> klt k1 k2).
Proof.
  induction l1 as [|[k t] l1 IH]; simpl; intros HS.
  - split; [constructor|]. split; auto. tauto.
  - inversion HS as [|? ? HS' HF]; subst. destruct (IH HS') as (H1 & H2 & H3).
    rewrite Forall_forall in HF.
    split; [|split]; auto.
    + constructor; auto. apply Forall_forall. intros x Hx. apply HF.
      rewrite map_app. apply in_or_app; auto.
    + intros k1 t1 k2 t2 [E|E] Hin; [|eauto].
      injection E as <- <-. apply HF. rewrite map_app. apply in_or_app. right.
      apply in_map_iff. exists (k2, t2); auto.
Qed.
Lemma sorted_app_intro (l1 l2 : list (K * trie)) :
  StronglySorted klt (map fst l1) -> StronglySorted klt (map fst l2) ->
  (forall k1 t1 k2 t2, In (k1, t1) l1 -> In (k2, t2) l2 -> klt k1 k2) ->
  StronglySorted klt (map fst (l1 ++ l2)).
Proof.
  induction l1 as [|[k t] l1 IH]; simpl; intros H1 H2 H3; auto.
  inversion H1 as [|? ? HS' HF]; subst. constructor.
  - apply IH; auto. intros; eapply H3; eauto.
  - apply Forall_forall. intros x Hx. rewrite map_app in Hx. apply in_app_or in Hx.
    destruct Hx as [Hx|Hx].
    + rewrite Forall_forall in HF. auto.
    + apply in_map_iff in Hx. destruct Hx as ([k2 t2] & <- & Hin). simpl. eapply H3; eauto.
Qed.

Lemma trie_add_cons (d : option V) (ch : list (K * trie)) c p v :
  trie_add cmp (mkTrie d ch) (c :: p) v =
  match binary_search cmp ch c with
  | inr i =>
      match trie_add cmp trie_new p v with
      | inl tr => inl (mkTrie d (vec_insert i (c, tr) ch))
      | inr e => inr e
      end
  | inl i =>
      match nth_error ch i with
      | Some (_, tr) =>
          match trie_add cmp tr p v with
          | inl tr' => inl (mkTrie d (vec_insert i (c, tr') (vec_remove i ch)))
          | inr e => inr e
          end
      | None => inr (mkTrie d ch, v)
      end
  end.
Proof. reflexivity. Qed.

Lemma trie_add_spec p : forall t v, sorted_trie t ->
  match trie_add cmp t p v with
  | inl t' => trie_get t p = None /\ adds t p v t'
  | inr (s, v') => v' = v /\ trie_sub t p = Some s /\ exists v0, t_data s = Some v0
  end.
Proof.
  induction p as [|c p IH]; intros [d ch] v HS.
  - simpl. destruct d as [v0|]; simpl.
    + split; [reflexivity|split; [reflexivity|exists v0; reflexivity]].
    + split; [reflexivity|constructor].
  - apply sorted_inv in HS. destruct HS as [HS Hsub].
    pose proof (binary_search_spec ch c HS) as HB.
    rewrite trie_add_cons. cbn [t_children t_data].
    destruct (binary_search cmp ch c) as [i|i].
    + destruct HB as (l1 & t & l2 & -> & <-).
      rewrite nth_error_app2, Nat.sub_diag by lia. simpl nth_error.
      assert (sorted_trie t) as Ht by (eapply Hsub; apply in_or_app; right; left; reflexivity).
      assert (find_child c (l1 ++ (c, t) :: l2) = Some t) as Hfc.
      { apply find_child_sorted; auto. apply in_or_app; right; left; reflexivity. }
      specialize (IH t v Ht).
      destruct (trie_add cmp t p v) as [t'|[s v']] eqn:Eadd; rewrite ?Eadd.
      * destruct IH as [Hg Ha].  rewrite vec_remove_app, vec_insert_app. split.
        -- simpl. rewrite Hfc. exact Hg.
        -- constructor; auto.
      * simpl. rewrite Hfc. exact IH.
    + destruct HB as (l1 & l2 & -> & <- & Hlt & Hgt).
      assert (find_child c (l1 ++ l2) = None) as Hfc.
      { apply find_child_none. intros t Hin. apply in_app_or in Hin.
        destruct Hin as [Hin|Hin]; eapply klt_irrefl; eauto. }
      specialize (IH trie_new v sorted_new).
      destruct (trie_add cmp trie_new p v) as [t'|[s v']].
      * destruct IH as [Hg Ha]. rewrite vec_insert_app. split.
        -- simpl. rewrite Hfc. reflexivity.
        -- constructor; auto.
      * exfalso. destruct IH as (_ & Hs & v0 & Hd). clear - Hs Hd.
        destruct p; simpl in Hs; [|discriminate]. injection Hs as <-. discriminate.
Qed.

Lemma adds_sorted t p v t' : adds t p v t' -> sorted_trie t -> sorted_trie t'.
Proof.
  induction 1 as [ch v | d l1 l2 c p v t' H1 H2 H IH | d l1 l2 c t p v t' H IH]; intros HS;
    apply sorted_inv in HS; destruct HS as [HS Hsub].
  - constructor; auto.
  - constructor.
    + apply sorted_app_inv in HS. destruct HS as (S1 & S2 & S3).
      apply sorted_app_intro; simpl; auto.
      * constructor; auto. apply Forall_forall. intros x Hx. apply in_map_iff in Hx.
        destruct Hx as ([k t] & <- & Hin). simpl. eauto.
      * intros k1 t1 k2 t2 Hin [E|Hin2]; [injection E as <- <-; eauto | eauto].
    + intros k t Hin. apply in_app_or in Hin. destruct Hin as [Hin|[E|Hin]].
      * eapply Hsub. apply in_or_app; eauto.
      * injection E as <- <-. apply IH, sorted_new.
      * eapply Hsub. apply in_or_app; eauto.
  - constructor.
    + rewrite map_app in *. exact HS.
    + intros k t0 Hin. apply in_app_or in Hin. destruct Hin as [Hin|[E|Hin]].
      * eapply Hsub. apply in_or_app; eauto.
      * injection E as <- <-. apply IH. eapply Hsub. apply in_or_app. right; left; reflexivity.
      * eapply Hsub. apply in_or_app. right; right; eauto.
Qed.

Lemma trie_get_new p : trie_get (@trie_new K V) p = None.
Proof. destruct p; reflexivity. Qed.

Lemma adds_get t p v t' : adds t p v t' -> sorted_trie t ->
  forall q, trie_get t' q = if path_eq_dec q p then Some v else trie_get t q.
Proof.
  induction 1 as [ch v | d l1 l2 c p v t' H1 H2 H IH | d l1 l2 c t p v t' H IH]; intros HS q;
    apply sorted_inv in HS; destruct HS as [HS Hsub].
  - destruct q; destruct (path_eq_dec _ _); try congruence; reflexivity.
  - destruct q as [|c' q]; [destruct (path_eq_dec _ _); [discriminate|reflexivity]|].
    simpl. rewrite !find_child_app. simpl.
    destruct (cmp c c') eqn:Ec.
    + apply cmp_eq in Ec. subst c'.
      replace (find_child c l1) with (@None trie).
      2: { symmetry. apply find_child_none. intros t Hin. eapply klt_irrefl; eauto. }
      replace (find_child c l2) with (@None trie).
      2: { symmetry. apply find_child_none. intros t Hin. eapply klt_irrefl; eauto. }
      rewrite (IH sorted_new q), trie_get_new.
      destruct (path_eq_dec q p); destruct (path_eq_dec (c :: q) (c :: p)); congruence.
    + destruct (path_eq_dec (c' :: q) (c :: p)) as [E|]; [|reflexivity].
      injection E as -> ->. rewrite cmp_refl in Ec. congruence.
    + destruct (path_eq_dec (c' :: q) (c :: p)) as [E|]; [|reflexivity].
      injection E as -> ->. rewrite cmp_refl in Ec. congruence.
  - destruct q as [|c' q]; [destruct (path_eq_dec _ _); [discriminate|reflexivity]|].
    simpl. rewrite !find_child_app. simpl.
    destruct (cmp c c') eqn:Ec.
    + apply cmp_eq in Ec. subst c'.
      replace (find_child c l1) with (@None trie).
      2: { symmetry. apply find_child_none. intros t0 Hin.
           apply sorted_app_inv in HS. destruct HS as (_ & _ & S3).
           eapply klt_irrefl. eapply S3; eauto. left; reflexivity. }
      rewrite IH.
      2: { eapply Hsub. apply in_or_app; right; left; reflexivity. }
      destruct (path_eq_dec q p); destruct (path_eq_dec (c :: q) (c :: p)); congruence.
    + destruct (path_eq_dec (c' :: q) (c :: p)) as [E|]; [|reflexivity].
      injection E as -> ->. rewrite cmp_refl in Ec. congruence.
    + destruct (path_eq_dec (c' :: q) (c :: p)) as [E|]; [|reflexivity].
      injection E as -> ->. rewrite cmp_refl in Ec. congruence.
Qed.

Lemma adds_full t p v t' : adds t p v t' -> sorted_trie t -> full_trie t -> full_trie t'.
Proof.
  induction 1 as [ch v | d l1 l2 c p v t' H1 H2 H IH | d l1 l2 c t p v t' H IH]; intros HS HF;
    apply sorted_inv in HS; destruct HS as [HS Hsub]; inversion HF as [? ? HF']; subst.
  - constructor; auto.
  - constructor. intros k t Hin. apply in_app_or in Hin. destruct Hin as [Hin|[E|Hin]].
    + eapply HF'. apply in_or_app; eauto.
    + injection E as <- <-. split; [apply IH; [apply sorted_new|apply full_new]|].
      exists p, v. rewrite (adds_get _ _ _ _ H sorted_new).
      destruct (path_eq_dec p p); congruence.
    + eapply HF'. apply in_or_app; eauto.
  - constructor. intros k t0 Hin. apply in_app_or in Hin. destruct Hin as [Hin|[E|Hin]].
    + eapply HF'. apply in_or_app; eauto.
    + injection E as <- <-.
      assert (sorted_trie t) as Ht by (eapply Hsub; apply in_or_app; right; left; reflexivity).
      split; [apply IH; auto; eapply HF'; apply in_or_app; right; left; reflexivity|].
      exists p, v. rewrite (adds_get _ _ _ _ H Ht).
      destruct (path_eq_dec p p); congruence.
    + eapply HF'. apply in_or_app; right; right; eauto.
Qed.

(** The sub-trie at a path that is present; [trie_get] through it. *)
Lemma trie_sub_get p : forall t s, trie_sub t p = Some s -> trie_get t p = t_data s.
Proof.
  induction p as [|c p IH]; intros t s; simpl.
  - intros [= ->]; reflexivity.
  - destruct (find_child c (t_children t)); [apply IH | discriminate].
Qed.
Lemma trie_get_app t p q :
  trie_get t (p ++ q) = match trie_sub t p with Some s => trie_get s q | None => None end.
Proof.
  revert t. induction p as [|c p IH]; intros t; simpl; auto.
  destruct (find_child c (t_children t)); auto.
Qed.

(** ** A sorted full trie is determined by its look-ups *)
Lemma full_child d ch k t :
  full_trie (mkTrie d ch) -> In (k, t) ch -> full_trie t /\ exists p v, trie_get t p = Some v.
Proof. inversion 1; subst; eauto. Qed.

Lemma sorted_keys_eq (l1 l2 : list (K * trie)) :
  StronglySorted klt (map fst l1) -> StronglySorted klt (map fst l2) ->
  (forall k t, In (k, t) l1 <-> In (k, t) l2) -> l1 = l2.
Proof.
  revert l2. induction l1 as [|[k t] l1 IH]; intros l2 S1 S2 H.
  - destruct l2 as [|[k t] l2]; auto. exfalso. apply (H k t). left; reflexivity.
  - destruct l2 as [|[k' t'] l2].
    { exfalso. apply (H k t). left; reflexivity. }
    simpl in S1, S2. inversion S1 as [|? ? S1' F1]; subst. inversion S2 as [|? ? S2' F2]; subst.
    rewrite Forall_forall in F1, F2.
    assert ((k, t) = (k', t')) as E.
    { destruct (proj1 (H k t) (or_introl eq_refl)) as [E|E]; [congruence|].
      destruct (proj2 (H k' t') (or_introl eq_refl)) as [E'|E']; [congruence|].
      exfalso. eapply klt_irrefl. eapply cmp_lt_trans.
      - apply (F1 k'). apply in_map_iff. exists (k', t'); auto.
      - apply (F2 k). apply in_map_iff. exists (k, t); auto. }
    injection E as <- <-. f_equal. apply IH; auto.
    intros k0 t0. split; intros Hin.
    + destruct (proj1 (H k0 t0) (or_intror Hin)) as [E|E]; auto.
      injection E as <- <-. exfalso. eapply klt_irrefl. apply (F1 k).
      apply in_map_iff. exists (k, t); auto.
    + destruct (proj2 (H k0 t0) (or_intror Hin)) as [E|E]; auto.
      injection E as <- <-. exfalso. eapply klt_irrefl. apply (F2 k).
      apply in_map_iff. exists (k, t); auto.
Qed.

Lemma trie_ext : forall t1 t2, sorted_trie t1 -> sorted_trie t2 -> full_trie t1 -> full_trie t2 ->
  (forall p, trie_get t1 p = trie_get t2 p) -> t1 = t2.
Proof.
  refine (Trie_rect' _ _). intros d ch IH [d2 ch2] S1 S2 F1 F2 H.
  rewrite Forall_forall in IH.
  pose proof (H []) as H0. simpl in H0. subst d2.
  apply sorted_inv in S1. apply sorted_inv in S2.
  destruct S1 as [S1 Sub1], S2 as [S2 Sub2].
  f_equal. apply sorted_keys_eq; auto.
  assert (Hfwd : forall k t, In (k, t) ch -> exists t2, In (k, t2) ch2 /\ t = t2).
  { intros k t Hin. destruct (full_child _ _ _ _ F1 Hin) as (Ft & p & v & Hv).
    pose proof (H (k :: p)) as Hk. simpl in Hk.
    rewrite (find_child_sorted _ _ _ S1 Hin), Hv in Hk.
    destruct (find_child k ch2) as [t2|] eqn:E2; [|discriminate].
    apply find_child_In in E2. exists t2; split; auto.
    apply (IH (k, t) Hin t2); simpl; eauto.
    - destruct (full_child _ _ _ _ F2 E2); auto.
    - intros q. pose proof (H (k :: q)) as Hq. simpl in Hq.
      rewrite (find_child_sorted _ _ _ S1 Hin), (find_child_sorted _ _ _ S2 E2) in Hq. exact Hq. }
  intros k t. split; intros Hin.
  - destruct (Hfwd _ _ Hin) as (t2 & H2 & ->). exact H2.
  - destruct (full_child _ _ _ _ F2 Hin) as (Ft & p & v & Hv).
    pose proof (H (k :: p)) as Hk. simpl in Hk.
    rewrite (find_child_sorted _ _ _ S2 Hin), Hv in Hk.
    destruct (find_child k ch) as [t1|] eqn:E1; [|discriminate].
    apply find_child_In in E1. destruct (Hfwd _ _ E1) as (t2 & H2 & ->).
    assert (t2 = t) as ->; [|exact E1].
    pose proof (find_child_sorted _ _ _ S2 H2). pose proof (find_child_sorted _ _ _ S2 Hin).
    congruence.
Qed.

(** ** Building from a list of entries *)
Fixpoint add_all (t : trie) (l : list (list K * V)) : trie + (list K * V) :=
  match l with
  | [] => inl t
  | (p, v) :: l' =>
      match trie_add cmp t p v with
      | inl t' => add_all t' l'
      | inr _ => inr (p, v)
      end
  end.

Fixpoint assoc_path (p : list K) (l : list (list K * V)) : option V :=
  match l with
  | [] => None
  | (q, v) :: l' => if path_eq_dec p q then Some v else assoc_path p l'
  end.

Lemma assoc_path_In p l v : assoc_path p l = Some v -> In (p, v) l.
Proof.
  induction l as [|[q w] l IH]; simpl; [discriminate|].
  destruct (path_eq_dec p q); [intros [= ->]; subst; auto | auto].
Qed.
Lemma assoc_path_none p l : assoc_path p l = None <-> ~ In p (map fst l).
Proof.
  induction l as [|[q w] l IH]; simpl; [tauto|].
  destruct (path_eq_dec p q); [subst; split; [discriminate | tauto]|].
  rewrite IH. split; intuition congruence.
Qed.
Lemma assoc_path_nodup p l v : NoDup (map fst l) -> In (p, v) l -> assoc_path p l = Some v.
Proof.
  induction l as [|[q w] l IH]; simpl; [tauto|].
  intros HN. inversion HN as [|? ? Hn HN']; subst. intros [E|Hin].
  - injection E as -> ->. destruct (path_eq_dec p p); congruence.
  - destruct (path_eq_dec p q) as [->|]; auto.
    exfalso. apply Hn. apply in_map_iff. exists (q, v); auto.
Qed.

Lemma add_all_spec l : forall t, sorted_trie t -> full_trie t ->
  match add_all t l with
  | inl t' =>
      NoDup (map fst l) /\ (forall p, In p (map fst l) -> trie_get t p = None) /\
      sorted_trie t' /\ full_trie t' /\
      (forall p, trie_get t' p = match assoc_path p l with Some v => Some v | None => trie_get t p end)
  | inr _ => ~ (NoDup (map fst l) /\ (forall p, In p (map fst l) -> trie_get t p = None))
  end.
Proof.
  induction l as [|[p v] l IH]; intros t HS HF; simpl.
  - split; [constructor|]. repeat split; auto. simpl; tauto.
  - pose proof (trie_add_spec p t v HS) as Hadd.
    destruct (trie_add cmp t p v) as [t'|[s v']].
    + destruct Hadd as [Hg Ha].
      pose proof (adds_sorted _ _ _ _ Ha HS) as HS'.
      pose proof (adds_full _ _ _ _ Ha HS HF) as HF'.
      pose proof (adds_get _ _ _ _ Ha HS) as HG.
      specialize (IH t' HS' HF').
      assert (Hiff : (NoDup (map fst l) /\ (forall q, In q (map fst l) -> trie_get t' q = None)) <->
                     (NoDup (p :: map fst l) /\
                      (forall q, p = q \/ In q (map fst l) -> trie_get t q = None))).
      { split.
        - intros [Hn Hq]. split.
          + constructor; auto. intros Hin. specialize (Hq _ Hin). rewrite HG in Hq.
            destruct (path_eq_dec p p); congruence.
          + intros q [<-|Hin]; auto. specialize (Hq _ Hin). rewrite HG in Hq.
            destruct (path_eq_dec q p); congruence.
        - intros [Hn Hq]. inversion Hn as [|? ? Hnp Hn']; subst. split; auto.
          intros q Hin. rewrite HG. destruct (path_eq_dec q p) as [->|]; [contradiction|auto]. }
      destruct (add_all t' l) as [t''|].
      * destruct IH as (Hn & Hq & HS'' & HF'' & HG'').
        destruct (proj1 Hiff (conj Hn Hq)) as [Hn2 Hq2].
        repeat split; auto.
        intros q. rewrite HG'', HG.
        destruct (path_eq_dec q p) as [->|]; auto.
        destruct (assoc_path p l) eqn:Ea; auto.
        apply assoc_path_In in Ea. exfalso. inversion Hn2 as [|? ? Hnp _]; subst. apply Hnp.
        apply in_map_iff. exists (p, v0); auto.
      * intros H. apply IH. apply Hiff. exact H.
    + destruct Hadd as (-> & Hsub & v0 & Hd).
      intros [_ Hq]. specialize (Hq p (or_introl eq_refl)).
      rewrite (trie_sub_get _ _ _ Hsub), Hd in Hq. discriminate.
Qed.

(** [Rep t l]: the trie [t] holds exactly the entries [l]. *)
Definition Rep (t : trie) (l : list (list K * V)) : Prop :=
  sorted_trie t /\ full_trie t /\ (forall p, trie_get t p = assoc_path p l).

Lemma add_all_new l :
  match add_all trie_new l with
  | inl t => NoDup (map fst l) /\ Rep t l
  | inr _ => ~ NoDup (map fst l)
  end.
Proof.
  pose proof (add_all_spec l trie_new sorted_new full_new) as H.
  destruct (add_all trie_new l) as [t|].
  - destruct H as (Hn & _ & HS & HF & HG). split; auto. repeat split; auto.
    intros p. rewrite HG. destruct (assoc_path p l); auto. apply trie_get_new.
  - intros Hn. apply H. split; auto. intros; apply trie_get_new.
Qed.

(** The entries below the child [c]. *)
Fixpoint sub_entries (c : K) (l : list (list K * V)) : list (list K * V) :=
  match l with
  | [] => []
  | (k :: p, v) :: l' => if K_eq_dec k c then (p, v) :: sub_entries c l' else sub_entries c l'
  | ([], _) :: l' => sub_entries c l'
  end.
Lemma sub_entries_In c l p v : In (p, v) (sub_entries c l) <-> In (c :: p, v) l.
Proof.
  induction l as [|[[|k q] w] l IH]; simpl; [tauto| |].
  - rewrite IH. split; [auto | intros [E|?]; [discriminate | auto]].
  - destruct (K_eq_dec k c) as [->|Hn]; simpl; rewrite IH.
    + split; intros [E|E]; auto; injection E as -> ->; auto.
    + split; [auto|]. intros [E|E]; auto. congruence.
Qed.
Lemma assoc_path_sub c l p : assoc_path p (sub_entries c l) = assoc_path (c :: p) l.
Proof.
  induction l as [|[[|k q] w] l IH]; simpl; auto.
  { destruct (path_eq_dec (c :: p) []); [discriminate|auto]. }
  destruct (K_eq_dec k c) as [->|Hn]; simpl.
  - rewrite IH. destruct (path_eq_dec p q); destruct (path_eq_dec (c :: p) (c :: q)); congruence.
  - rewrite IH. destruct (path_eq_dec (c :: p) (k :: q)); congruence.
Qed.

Lemma Rep_data t l : Rep t l -> t_data t = assoc_path [] l.
Proof. intros (_ & _ & H). apply (H []). Qed.
Lemma Rep_child t l c t' : Rep t l -> In (c, t') (t_children t) -> Rep t' (sub_entries c l).
Proof.
  destruct t as [d ch]. intros (HS & HF & HG) Hin. simpl in Hin.
  apply sorted_inv in HS. destruct HS as [HS Hsub].
  split; [eauto|]. split; [eapply full_child; eauto|].
  intros p. rewrite assoc_path_sub, <- HG. simpl.
  rewrite (find_child_sorted _ _ _ HS Hin). reflexivity.
Qed.
Lemma Rep_child_iff t l c : Rep t l ->
  ((exists t', In (c, t') (t_children t)) <-> (exists p v, In (c :: p, v) l)).
Proof.
  destruct t as [d ch]. intros (HS & HF & HG). simpl.
  apply sorted_inv in HS. destruct HS as [HS Hsub]. split.
  - intros [t' Hin]. destruct (full_child _ _ _ _ HF Hin) as (_ & p & v & Hv).
    exists p, v. apply assoc_path_In. rewrite <- HG. simpl.
    rewrite (find_child_sorted _ _ _ HS Hin). exact Hv.
  - intros (p & v & Hin).
    destruct (assoc_path (c :: p) l) eqn:E.
    + rewrite <- HG in E. simpl in E. destruct (find_child c ch) eqn:Ef; [|discriminate].
      eexists. eapply find_child_In; eauto.
    + apply assoc_path_none in E. exfalso. apply E. apply in_map_iff. exists (c :: p, v); auto.
Qed.
Lemma Rep_sorted t l : Rep t l -> StronglySorted klt (map fst (t_children t)).
Proof. destruct t. intros (HS & _). apply sorted_inv in HS. tauto. Qed.
Lemma Rep_unique t1 t2 l1 l2 : Rep t1 l1 -> Rep t2 l2 ->
  (forall p, assoc_path p l1 = assoc_path p l2) -> t1 = t2.
Proof.
  intros (S1 & F1 & G1) (S2 & F2 & G2) H. apply trie_ext; auto.
  intros p. rewrite G1, G2. apply H.
Qed.

Lemma assoc_path_perm l1 l2 p :
  NoDup (map fst l1) -> Permutation l1 l2 -> assoc_path p l1 = assoc_path p l2.
Proof.
  intros HN HP.
  assert (HN2 : NoDup (map fst l2)).
  { eapply Permutation_NoDup; [apply Permutation_map, HP | exact HN]. }
  destruct (assoc_path p l1) eqn:E.
  - apply assoc_path_In in E. symmetry. apply assoc_path_nodup; auto.
    eapply Permutation_in; eauto.
  - symmetry. apply assoc_path_none. apply assoc_path_none in E. intros Hin. apply E.
    eapply Permutation_in; [apply Permutation_map, Permutation_sym, HP | exact Hin].
Qed.

Lemma add_all_perm l1 l2 t1 :
  Permutation l1 l2 -> add_all trie_new l1 = inl t1 -> add_all trie_new l2 = inl t1.
Proof.
  intros HP H1. pose proof (add_all_new l1) as A1. rewrite H1 in A1. destruct A1 as [N1 R1].
  pose proof (add_all_new l2) as A2.
  assert (N2 : NoDup (map fst l2)).
  { eapply Permutation_NoDup; [apply Permutation_map, HP | exact N1]. }
  destruct (add_all trie_new l2) as [t2|]; [|contradiction].
  destruct A2 as [_ R2]. f_equal. eapply Rep_unique; eauto.
  intros p. symmetry. apply assoc_path_perm; auto.
Qed.

(** Leaves hold data. *)
Lemma full_leaf t p s : full_trie t -> trie_sub t p = Some s -> t_children s = [] -> p <> [] ->
  exists v, t_data s = Some v.
Proof.
  revert t. induction p as [|c p IH]; intros [d ch] HF Hs Hc Hp; [congruence|].
  simpl in Hs. destruct (find_child c ch) as [t'|] eqn:E; [|discriminate].
  apply find_child_In in E. destruct (full_child _ _ _ _ HF E) as (HF' & q & v & Hv).
  destruct p as [|c' p].
  - simpl in Hs. injection Hs as ->. destruct q as [|c' q]; [exists v; exact Hv|].
    simpl in Hv. rewrite Hc in Hv. discriminate.
  - eapply IH; eauto. discriminate.
Qed.
Lemma sorted_sub t p s : sorted_trie t -> trie_sub t p = Some s -> sorted_trie s.
Proof.
  revert t. induction p as [|c p IH]; intros [d ch] HS Hs; simpl in Hs.
  - injection Hs as <-; auto.
  - destruct (find_child c ch) as [t'|] eqn:E; [|discriminate].
    apply find_child_In in E. apply sorted_inv in HS. destruct HS. eauto.
Qed.

End TrieFacts.
