(** * CompFacts: what a compiling matcher says about the trie *)
From Verif Require Import Base Core Trie Flat MiniRust Gen BaseFacts ExecFacts.

(** [trie_ok fuel t]: the shape of a trie whose program passes the static
    check. *)
Fixpoint trie_ok (fuel : nat) (t : ctrie) : Prop :=
  match fuel with
  | O => False
  | S fuel' =>
      (forall fr, has_resources (t_data t) = Some fr -> NoDup (map p_name (dynamics (f_path fr)))) /\
      let many :=
        let '(u, _, next) := unamb t in
        match u with
        | [] => Forall (fun kc => is_static (fst kc) = true /\ trie_ok fuel' (snd kc)) (t_children t)
        | _ :: _ =>
            match find_dynamic (t_children t) with
            | None => False
            | Some (_, dchild) => trie_ok fuel' next /\ trie_ok fuel' dchild
            end
        end in
      match t_children t with
      | [] => True
      | [(CSeparator, child)] => trie_ok fuel' child
      | [(CStatic _, child)] => trie_ok fuel' (snd (chase child))
      | [(CDynamic _, child)] => trie_ok fuel' child
      | _ => many
      end
  end.

Section Comp.
Variable senv : struct_env.

Lemma nodup_strs_NoDup l : nodup_strs l = true <-> NoDup l.
Proof.
  induction l as [|x l IH]; simpl; [split; [constructor|auto]|].
  rewrite andb_true_iff, IH, negb_true_iff. split.
  - intros [H1 H2]. constructor; auto. intros Hin.
    assert (existsb (str_eqb x) l = true); [|congruence].
    apply existsb_exists. exists x. split; auto. apply str_eqb_refl.
  - inversion 1 as [|? ? H1 H2]; subst. split; auto.
    destruct (existsb (str_eqb x) l) eqn:E; auto. apply existsb_exists in E.
    destruct E as (y & Hy & E). apply str_eqb_eq in E. subst. contradiction.
Qed.

Lemma check_ret_nodup te fr r :
  check_ret senv te (resource_ret fr r) = true ->
  NoDup (map p_name (dynamics (f_path fr) ++ f_query fr ++ r_query r)).
Proof.
  unfold check_ret, resource_ret. destruct (lookup_struct senv _ _); [|discriminate].
  rewrite !andb_true_iff. intros [[[_ H] _] _]. apply nodup_strs_NoDup in H.
  rewrite !map_app, !map_map in H. simpl in H. rewrite !map_app. exact H.
Qed.
Lemma check_methods te fr r rest x :
  check_stmt senv te (methods_stmt fr) rest = Some x -> In r (f_resources fr) ->
  check_ret senv te (resource_ret fr r) = true.
Proof.
  unfold methods_stmt. rewrite check_stmt_if.
  destruct (check_bexpr te i_eq_len); [|discriminate].
  rewrite check_block_cons, check_stmt_match.
  destruct (check_scrut te (ScVar s_method) && _); [|discriminate].
  intros H Hin. destruct (check_arms senv te _) as [d|] eqn:Ea; [|discriminate].
  clear H. revert d Ea. induction (f_resources fr) as [|r' rs IH]; [destruct Hin|].
  intros d. cbn [map app check_arms check_arm].
  destruct (plain_lit (method_display (r_method r'))); [|discriminate].
  rewrite check_block_cons. cbn [check_stmt].
  destruct (check_ret senv te (resource_ret fr r')) eqn:Ec; [|discriminate].
  destruct Hin as [->|Hin]; [auto|].
  destruct (check_arms senv te (map _ rs ++ _)) as [d2|] eqn:E2.
  - intros _. eapply IH; eauto.
  - cbn. discriminate.
Qed.

Definition checks (b : list stmt) : Prop := exists te d0 d, check_block senv te b d0 = Some d.
Lemma checks_cons s l : checks (s :: l) -> checks l.
Proof.
  intros (te & d0 & d & H). rewrite check_block_cons in H.
  destruct (check_stmt senv te s l) as [[te' d']|]; [|discriminate]. exists te', (d0 || d'), d; auto.
Qed.
Lemma checks_app a b : checks (a ++ b) -> checks b.
Proof. induction a; simpl; auto. intros H. apply IHa. eapply checks_cons; eauto. Qed.
Lemma checks_dynamic name b : checks (dynamic_block name b) -> checks b.
Proof. apply checks_app. Qed.
Lemma check_arms_in te arms a d :
  check_arms senv te arms = Some d -> In a arms -> exists d', check_arm senv te a = Some d'.
Proof.
  revert d. induction arms as [|a' arms IH]; simpl; [tauto|].
  intros d. destruct (check_arm senv te a') as [d1|] eqn:E1; [|discriminate].
  destruct (check_arms senv te arms) as [d2|] eqn:E2; [|discriminate].
  intros _ [->|Hin]; eauto.
Qed.

Lemma gen_trie_ok fuel : forall t b, gen_trie fuel t = ROk b -> checks b -> trie_ok fuel t.
Proof.
  induction fuel as [|fuel IH]; intros t b; [discriminate|].
  cbn [gen_trie]. destruct (gen_children (gen_trie fuel) t) as [b0| | |] eqn:Eg; try discriminate.
  intros [= <-] Hc. cbn [trie_ok].
  split.
  { intros fr Er. unfold methods_block in Hc. rewrite Er in Hc. cbn [app] in Hc.
    destruct Hc as (te & d0 & d & Hc). rewrite check_block_cons in Hc.
    destruct (check_stmt senv te (methods_stmt fr) b0) as [x|] eqn:Ec; [|discriminate].
    assert (Hr : exists r, In r (f_resources fr)).
    { clear -Er. unfold has_resources in Er. destruct (t_data t) as [fr'|]; [|discriminate].
      destruct (f_resources fr') as [|r rs] eqn:E; [discriminate|]. injection Er as <-.
      exists r. rewrite E. left; reflexivity. }
    destruct Hr as [r Hr]. pose proof (check_methods _ _ _ _ _ Ec Hr) as Hret.
    apply check_ret_nodup in Hret. rewrite map_app in Hret.
    clear -Hret. induction (map p_name (dynamics (f_path fr))) as [|x l IH]; [constructor|].
    simpl in Hret. inversion Hret as [|? ? H1 H2]; subst. constructor; auto.
    intros Hin. apply H1. apply in_app_iff. auto. }
  apply checks_app in Hc.
  assert (Hmany : gen_many (gen_trie fuel) t = ROk b0 ->
    let '(u, _, next) := unamb t in
    match u with
    | [] => Forall (fun kc => is_static (fst kc) = true /\ trie_ok fuel (snd kc)) (t_children t)
    | _ :: _ =>
        match find_dynamic (t_children t) with
        | None => False
        | Some (_, dchild) => trie_ok fuel next /\ trie_ok fuel dchild
        end
    end).
  { unfold gen_many. destruct (unamb t) as [[u l] next]. cbv zeta.
    remember (if (l =? 0)%nat then 1 else l) as n eqn:En. clear En.
    destruct u as [|uc u].
    - destruct (gen_arms (gen_trie fuel) (t_children t)) as [arms| | |] eqn:Ea; try discriminate.
      intros [= <-]. apply checks_app in Hc. apply checks_cons in Hc.
      destruct Hc as (te & d0 & d & Hc). rewrite check_block_cons, check_stmt_match in Hc.
      destruct (check_scrut te _ && _); [|discriminate].
      destruct (check_arms senv te _) as [d2|] eqn:Ec; [|discriminate]. clear Hc.
      assert (Hall : forall a, In a arms -> exists d', check_arm senv te a = Some d').
      { intros a Ha. eapply check_arms_in; eauto. apply in_app_iff; auto. }
      clear Ec Eg. revert arms Ea Hall.
      induction (t_children t) as [|[[c|nm|] child] ch IHch]; intros arms Ea Hall;
        cbn [gen_arms] in Ea; constructor.
      + cbn [fst snd is_static]. split; auto.
        destruct (gen_trie fuel child) as [b'| | |] eqn:Eb; try discriminate.
        destruct (gen_arms (gen_trie fuel) ch) as [arms'| | |]; try discriminate.
        injection Ea as <-. destruct (Hall _ (or_introl eq_refl)) as [d' Hd].
        cbn [check_arm] in Hd. destruct (plain_lit [c]); [|discriminate].
        eapply IH; [exact Eb|]. apply (checks_cons (SAdd s_i 1)). do 3 eexists; exact Hd.
      + destruct (gen_trie fuel child) as [b'| | |] eqn:Eb; try discriminate.
        destruct (gen_arms (gen_trie fuel) ch) as [arms'| | |]; try discriminate.
        injection Ea as <-. eapply IHch; [reflexivity|]. intros a Ha. apply Hall. right; auto.
      + exfalso. destruct (gen_dynamic (gen_trie fuel) child nm) as [b'| | |]; try discriminate.
        injection Ea as <-. destruct (Hall _ (or_introl eq_refl)) as [d' Hd]. discriminate.
      + exfalso. destruct (gen_dynamic (gen_trie fuel) child nm) as [b'| | |]; try discriminate.
        injection Ea as <-. destruct (Hall _ (or_introl eq_refl)) as [d' Hd]. discriminate.
      + exfalso. destruct (gen_arms (gen_trie fuel) ch) as [arms'| | |]; try discriminate.
        injection Ea as <-. destruct (Hall _ (or_introl eq_refl)) as [d' Hd]. discriminate.
      + exfalso. destruct (gen_arms (gen_trie fuel) ch) as [arms'| | |]; try discriminate.
        injection Ea as <-. destruct (Hall _ (or_introl eq_refl)) as [d' Hd]. discriminate.
    - destruct (find_dynamic (t_children t)) as [[name dchild]|] eqn:Ed; [|discriminate].
      destruct (gen_trie fuel next) as [b1| | |] eqn:E1; try discriminate.
      destruct (gen_dynamic (gen_trie fuel) dchild name) as [b2| | |] eqn:E2; try discriminate.
      intros [= <-]. apply gen_dynamic_inv in E2. destruct E2 as (b' & Eb' & ->).
      do 3 apply checks_cons in Hc. split.
      + eapply IH; [exact E1|]. destruct Hc as (te & d0 & d & Hc).
        rewrite check_block_cons, check_stmt_if in Hc.
        destruct (check_bexpr te _); [|discriminate].
        rewrite check_block_cons, check_stmt_match in Hc.
        destruct (check_scrut te (path_slice n) && _); [|discriminate].
        cbn [check_arms check_arm] in Hc.
        destruct (plain_lit (uc :: u)); [|discriminate].
        destruct (check_block senv te (SAdd s_i n :: b1) false) as [d1|] eqn:Ec1; [|discriminate].
        apply (checks_cons (SAdd s_i n)). do 3 eexists; exact Ec1.
      + eapply IH; [exact Eb'|]. apply checks_cons in Hc. eapply checks_dynamic; exact Hc. }
  cbv zeta. unfold gen_children in Eg.
  destruct (t_children t) as [|[[ch|nm|] child] [|x2 l2]] eqn:Ech; try (apply Hmany; exact Eg); auto.
  - destruct (chase child) as [more child'].
    destruct (gen_trie fuel child') as [b'| | |] eqn:Eb; try discriminate.
    injection Eg as <-. do 2 apply checks_cons in Hc. eapply IH; eauto.
  - destruct (gen_dynamic (gen_trie fuel) child nm) as [b'| | |] eqn:Eb; try discriminate.
    injection Eg as <-. apply gen_dynamic_inv in Eb. destruct Eb as (b'' & Eb & ->).
    apply checks_cons in Hc. apply checks_dynamic in Hc. eapply IH; eauto.
  - destruct (gen_trie fuel child) as [b'| | |] eqn:Eb; try discriminate.
    injection Eg as <-. do 2 apply checks_cons in Hc. eapply IH; eauto.
Qed.
End Comp.
