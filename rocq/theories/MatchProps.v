(** * MatchProps: consequences of the tree search *)
From Coq Require Import Permutation.
From Verif Require Import Base Core Flat MiniRust Gen Spec SpecMatch BaseFacts NodeFacts RunFacts.

Lemma Routes_children_ind (P : Routes -> Prop) :
  (forall b, (forall seg child, In (seg, child) (rt_routes b) -> P child) -> P b) -> forall b, P b.
Proof.
  intros H. induction b as [rs ch qs IH] using Routes_ind'. apply H. simpl.
  intros seg child Hin. rewrite Forall_forall in IH. exact (IH _ Hin).
Qed.
Lemma every_block_here P b : every_block P b -> P b.
Proof. intros H. exact (H _ _ _ (block_root b)). Qed.
Lemma every_block_child P b seg child :
  every_block P b -> In (seg, child) (rt_routes b) -> every_block P child.
Proof. intros H Hin p q x Hx. exact (H _ _ _ (block_step _ _ _ _ _ _ Hin Hx)). Qed.
Lemma least_in {X} (l : list (Param * X)) d : least_dynamic l = Some d -> In d l.
Proof.
  revert d. induction l as [|[p x] l IH]; simpl; [discriminate|].
  destruct (least_dynamic l) as [[p' x']|].
  - destruct (str_compare (p_name p') (p_name p)); intros d [= <-]; auto.
  - intros d [= <-]. auto.
Qed.
Lemma least_none {X} (l : list (Param * X)) : least_dynamic l = None -> l = [].
Proof.
  destruct l as [|[p x] l]; simpl; auto. destruct (least_dynamic l) as [[p' x']|]; [|discriminate].
  destruct (str_compare (p_name p') (p_name p)); discriminate.
Qed.
Lemma least_some {X} (l : list (Param * X)) d : least_dynamic l = Some d -> l <> [].
Proof. destruct l; [discriminate|]. intros _ ?. discriminate. Qed.

(** ** Segments *)
Lemma segment_app l : fst (segment l) ++ snd (segment l) = l.
Proof.
  induction l as [|b l IH]; auto. simpl. destruct (N.eqb b c_slash); auto.
  destruct (segment l) as [s r]. simpl in *. rewrite IH. reflexivity.
Qed.
Lemma segment_no_slash l : ~ In c_slash (fst (segment l)).
Proof.
  induction l as [|b l IH]; simpl; auto. destruct (N.eqb_spec b c_slash) as [->|Hne]; auto.
  destruct (segment l) as [s r]. simpl in *. intros [H|H]; auto.
Qed.
Definition tail_ok (t : bytes) : Prop := t = [] \/ exists t', t = c_slash :: t'.
Lemma segment_tail l : tail_ok (snd (segment l)).
Proof.
  induction l as [|b l IH]; simpl; [left; reflexivity|].
  destruct (N.eqb_spec b c_slash) as [->|Hne]; [right; eexists; reflexivity|].
  destruct (segment l) as [s r]. exact IH.
Qed.
Lemma segment_unique s t : ~ In c_slash s -> tail_ok t -> segment (s ++ t) = (s, t).
Proof.
  induction s as [|b s IH]; simpl; intros H Ht.
  - destruct Ht as [->|[t' ->]]; reflexivity.
  - destruct (N.eqb_spec b c_slash) as [->|Hne]; [exfalso; auto|].
    rewrite IH; auto.
Qed.
Lemma after_segment_iff s rest tail :
  ~ In c_slash s -> (after_segment s rest = Some tail <-> segment rest = (s, tail)).
Proof.
  intros Hs. unfold after_segment. split.
  - destruct (strip s rest) as [[|c t]|] eqn:E; try discriminate.
    + intros [= <-]. apply strip_Some in E. subst. apply segment_unique; auto. left. reflexivity.
    + destruct (N.eqb_spec c c_slash) as [->|]; [|discriminate]. intros [= <-].
      apply strip_Some in E. subst. apply segment_unique; auto. right. eexists. reflexivity.
  - intros H. pose proof (segment_app rest) as Ha. pose proof (segment_tail rest) as Ht.
    rewrite H in Ha, Ht. simpl in Ha, Ht.
    rewrite (proj2 (strip_Some s rest tail)) by auto.
    destruct Ht as [->|[t' ->]]; reflexivity.
Qed.
Lemma strip_segment s rest :
  ~ In c_slash s ->
  strip s rest = match strip s (fst (segment rest)) with
                 | Some u => Some (u ++ snd (segment rest))
                 | None => None
                 end.
Proof.
  intros Hs. revert rest. induction s as [|c s IH]; intros rest.
  - simpl. rewrite segment_app. reflexivity.
  - destruct rest as [|b rest]; [reflexivity|]. cbn [strip segment].
    assert (c <> c_slash) by (intros ->; apply Hs; left; reflexivity).
    destruct (N.eqb_spec b c_slash) as [->|Hb].
    + rewrite (proj2 (N.eqb_neq _ _)) by auto. reflexivity.
    + destruct (segment rest) as [u v] eqn:Eq. cbn [fst snd strip].
      destruct (N.eqb c b); auto. rewrite IH by (intros Hi; apply Hs; right; exact Hi).
      rewrite Eq. reflexivity.
Qed.

(** ** The search, unfolded *)
Section Find.
Context {T E : Type}.
Variable parse : str -> bytes -> T + E.
Let tfind := @tree_find T E parse.
Definition fkid (c : Routes) : Routes * @finder T E := (c, tree_find parse c).

Lemma find_eq b q a rest :
  tfind b q a rest =
  match rt_resources b, rest with
  | _ :: _, [] => Found b (q ++ rt_query b) a
  | _, _ =>
      match least_dynamic (dynamic_children (rt_routes b)), statics (rt_routes b) with
      | None, ss => find_stat (map (fun sx => (fst sx, fkid (snd sx))) ss) (q ++ rt_query b) a rest
      | Some (p, child), [(s, child')] =>
          if (length s =? 1)%nat && (length rest =? 0)%nat then Stop
          else
            match strip s rest with
            | Some tail => go_in child' (tfind child') (q ++ rt_query b) a tail
            | None => find_dyn parse p child (tfind child) (q ++ rt_query b) a rest
            end
      | Some (p, child), _ => find_dyn parse p child (tfind child) (q ++ rt_query b) a rest
      end
  end.
Proof.
  destruct b as [rs ch qs]. unfold tfind. cbn [tree_find rt_resources rt_routes rt_query].
  assert (Hk : map (fun nr : PathSegment * Routes => let (seg, child) := nr in
                 (seg, (child, tree_find parse child))) ch
               = map (fun nr => (fst nr, fkid (snd nr))) ch).
  { apply map_ext. intros [seg c]. reflexivity. }
  rewrite Hk, statics_map, dynamics_map, least_map. unfold fkid.
  destruct rs as [|r rs]; destruct rest as [|c rest];
    destruct (least_dynamic (dynamic_children ch)) as [[p child]|]; simpl; auto;
    destruct (statics ch) as [|[s child'] [|? ?]]; reflexivity.
Qed.

Lemma find_eq_ne b q a rest : rest <> [] ->
  tfind b q a rest =
  match least_dynamic (dynamic_children (rt_routes b)), statics (rt_routes b) with
  | None, ss => find_stat (map (fun sx => (fst sx, fkid (snd sx))) ss) (q ++ rt_query b) a rest
  | Some (p, child), [(s, child')] =>
      match strip s rest with
      | Some tail => go_in child' (tfind child') (q ++ rt_query b) a tail
      | None => find_dyn parse p child (tfind child) (q ++ rt_query b) a rest
      end
  | Some (p, child), _ => find_dyn parse p child (tfind child) (q ++ rt_query b) a rest
  end.
Proof.
  intros Hr. rewrite find_eq. destruct rest as [|c rest]; [congruence|].
  destruct (rt_resources b); destruct (least_dynamic (dynamic_children (rt_routes b))) as [[p child]|]; auto;
    destruct (statics (rt_routes b)) as [|[s ch] [|sx ss]]; auto; cbn [length Nat.eqb];
    rewrite andb_false_r; reflexivity.
Qed.

Lemma find_stat_chosen ss q a rest :
  find_stat (map (fun sx => (fst sx, fkid (snd sx))) ss) q a rest = Nothing \/
  exists s child tail, In (s, child) ss /\ rest = s ++ tail /\ tail_ok tail /\
    find_stat (map (fun sx => (fst sx, fkid (snd sx))) ss) q a rest =
    go_in child (tfind child) q a tail.
Proof.
  induction ss as [|[s child] ss IH]; [left; reflexivity|]. cbn [map fst snd find_stat].
  unfold fkid at 1 3. destruct (after_segment s rest) as [tail|] eqn:Ea.
  - right. exists s, child, tail. repeat split; [left; reflexivity| | ].
    + unfold after_segment in Ea. destruct (strip s rest) as [[|c t]|] eqn:Es; try discriminate;
        apply strip_Some in Es; [|destruct (N.eqb c c_slash); [|discriminate]];
        injection Ea as <-; exact Es.
    + unfold after_segment in Ea. destruct (strip s rest) as [[|c t]|] eqn:Es; try discriminate.
      * injection Ea as <-. left. reflexivity.
      * destruct (N.eqb_spec c c_slash) as [->|]; [|discriminate]. injection Ea as <-.
        right. eexists. reflexivity.
  - destruct IH as [IH|(s' & child' & tail & H1 & H2 & H3 & H4)]; [left; exact IH|].
    right. exists s', child', tail. repeat split; auto. right. exact H1.
Qed.

(** The five ways a search of a block goes. *)
Inductive move (b : Routes) (q : list Param) (a : @args T) (rest : bytes) : found T E -> Prop :=
| move_here : rest = [] -> rt_resources b <> [] -> move b q a rest (Found b (q ++ rt_query b) a)
| move_nothing : move b q a rest Nothing
| move_stop s child : rest = [] -> rt_resources b = [] -> dynamic_children (rt_routes b) <> [] ->
    statics (rt_routes b) = [(s, child)] -> length s = 1 -> move b q a rest Stop
| move_static s child tail : In (Static s, child) (rt_routes b) -> rest = s ++ tail ->
    move b q a rest (go_in child (tfind child) (q ++ rt_query b) a tail)
| move_dynamic p child : In (Dynamic p, child) (rt_routes b) ->
    least_dynamic (dynamic_children (rt_routes b)) = Some (p, child) ->
    move b q a rest (find_dyn parse p child (tfind child) (q ++ rt_query b) a rest).
Lemma find_move b q a rest : move b q a rest (tfind b q a rest).
Proof.
  rewrite find_eq.
  destruct (rt_resources b) as [|r rs] eqn:Er.
  2: destruct rest as [|c rest]; [constructor; auto; rewrite Er; discriminate|].
  all: destruct (least_dynamic (dynamic_children (rt_routes b))) as [[p child]|] eqn:El.
  1,3: assert (Hd : In (Dynamic p, child) (rt_routes b))
         by (apply dynamic_children_In; apply least_in; exact El);
       destruct (statics (rt_routes b)) as [|[s child'] [|? ?]] eqn:Es;
         [apply move_dynamic; assumption| |apply move_dynamic; assumption].
  - destruct ((length s =? 1) && (length rest =? 0)) eqn:Eb.
    + apply andb_true_iff in Eb. destruct Eb as [E1 E2]. apply Nat.eqb_eq in E1, E2.
      destruct rest; [|discriminate]. eapply move_stop; eauto. eapply least_some; eauto.
    + destruct (strip s rest) as [tail|] eqn:Et.
      * apply strip_Some in Et. eapply move_static; eauto. apply statics_In. rewrite Es. left. reflexivity.
      * apply move_dynamic; assumption.
  - rewrite andb_false_r.
    destruct (strip s (c :: rest)) as [tail|] eqn:Et.
    + apply strip_Some in Et. eapply move_static; eauto. apply statics_In. rewrite Es. left. reflexivity.
    + apply move_dynamic; assumption.
  - destruct (find_stat_chosen (statics (rt_routes b)) (q ++ rt_query b) a rest)
      as [->|(s & child & tail & H1 & H2 & _ & ->)]; [constructor|].
    eapply move_static; eauto. apply statics_In. exact H1.
  - destruct (find_stat_chosen (statics (rt_routes b)) (q ++ rt_query b) a (c :: rest))
      as [->|(s & child & tail & H1 & H2 & _ & ->)]; [constructor|].
    eapply move_static; eauto. apply statics_In. exact H1.
Qed.

(** ** The search does not look at the method *)
Lemma finish_here method b q a :
  finish (E := E) method (here (T := T) b q a) =
  match rt_resources b with
  | [] => RunResult MNotFound
  | rs => answer method rs q a
  end.
Proof. unfold here. destruct (rt_resources b) eqn:Er; simpl; [|rewrite Er]; reflexivity. Qed.

Variable method : bytes.
Let trun := @tree_run T E parse method.
Lemma finish_go b q a tail :
  (forall q a rest, trun b q a rest = finish method (tfind b q a rest)) ->
  enter method b (trun b) q a tail = finish method (go_in b (tfind b) q a tail).
Proof.
  intros H. destruct tail as [|c t]; cbn [enter go_in].
  - rewrite finish_here. reflexivity.
  - destruct (N.eqb c c_slash); auto.
Qed.
Lemma finish_dyn p child q a rest :
  (forall q a rest, trun child q a rest = finish method (tfind child q a rest)) ->
  take_dynamic parse method (p, (child, trun child)) q a rest =
  finish method (find_dyn parse p child (tfind child) q a rest).
Proof.
  intros H. unfold take_dynamic, find_dyn. destruct (segment rest) as [seg tail].
  destruct (utf8_valid seg); auto. destruct (parse (p_typ p) seg); auto. apply finish_go; auto.
Qed.
Lemma run_find : forall b q a rest, trun b q a rest = finish method (tfind b q a rest).
Proof.
  induction b as [b IH] using Routes_children_ind. intros q a rest.
  pose proof (srch_eq ({| rt_parse := parse; rt_usize := fun _ => 0 |}) method b q a rest) as Hs.
  cbn [rt_parse] in Hs. unfold trun. rewrite Hs. rewrite find_eq. unfold kid'. cbn [rt_parse].
  assert (Hd : forall p child, least_dynamic (dynamic_children (rt_routes b)) = Some (p, child) ->
            forall q a rest, trun child q a rest = finish method (tfind child q a rest)).
  { intros p child Hl. apply (IH (Dynamic p)). apply dynamic_children_In. apply least_in. exact Hl. }
  assert (Hss : forall s child, In (s, child) (statics (rt_routes b)) ->
            forall q a rest, trun child q a rest = finish method (tfind child q a rest)).
  { intros s child Hl. apply (IH (Static s)). apply statics_In. exact Hl. }
  assert (Hst : forall ss q' rest', (forall s child, In (s, child) ss ->
            forall q a rest, trun child q a rest = finish method (tfind child q a rest)) ->
            take_static method (map (fun sx : str * Routes => (fst sx, (snd sx, tree_run parse method (snd sx)))) ss) q' a rest'
            = finish method (find_stat (map (fun sx => (fst sx, fkid (snd sx))) ss) q' a rest')).
  { induction ss as [|[s child] ss IHs]; intros q' rest' Hi; auto.
    cbn [map take_static find_stat fst snd]. unfold fkid at 1.
    destruct (after_segment s rest') as [tail|].
    - apply finish_go. apply (Hi s). left. reflexivity.
    - apply IHs. intros s' child' Hin. apply (Hi s'). right. exact Hin. }
  destruct (rt_resources b) as [|r rs] eqn:Er; [|destruct rest as [|c rest]];
    try (cbn [finish]; rewrite Er; reflexivity);
    destruct (least_dynamic (dynamic_children (rt_routes b))) as [[p child]|] eqn:El;
    cbn [option_map fst snd]; try (apply Hst; exact Hss);
    destruct (statics (rt_routes b)) as [|[s child'] [|? ?]] eqn:Es; cbn [map fst snd];
    try (apply finish_dyn; eapply Hd; eauto; fail);
    (destruct ((length s =? 1) && _); [reflexivity|]);
    (destruct (strip s _) as [tail|];
       [apply finish_go; apply (Hss s); left; reflexivity | apply finish_dyn; eapply Hd; eauto]).
Qed.
End Find.

(** ** Soundness *)
Lemma spelled_one s : spelled s [s].
Proof. left. reflexivity. Qed.
Lemma join_cons s segs : segs <> [] -> join (s :: segs) = s ++ c_slash :: join segs.
Proof. destruct segs; [congruence|reflexivity]. Qed.
Lemma spelled_cons s segs t : spelled t segs -> spelled (s ++ c_slash :: t) (s :: segs).
Proof.
  intros [->|[Hn ->]].
  - destruct segs as [|s' segs]; [right; split; [discriminate|reflexivity]|left; reflexivity].
  - right. split; [discriminate|]. rewrite join_cons by exact Hn.
    rewrite <- app_assoc. reflexivity.
Qed.
Lemma join_snoc_cons s segs seg : join (s :: segs ++ [seg]) = s ++ c_slash :: join (segs ++ [seg]).
Proof. apply join_cons. destruct segs; discriminate. Qed.

Section Sound.
Context {T E : Type}.
Variable parse : str -> bytes -> T + E.
Let tfind := @tree_find T E parse.

Lemma find_sound : forall b q a rest b' q' a',
  tfind b q a rest = Found b' q' a' ->
  rt_resources b' <> [] /\
  exists pat segs vals q0,
    block_at b pat q0 b' /\ q' = q ++ q0 /\ a' = a ++ vals /\
    matches parse pat segs vals /\ spelled rest segs.
Proof.
  induction b as [b IH] using Routes_children_ind. intros q a rest b' q' a' H.
  pose proof (find_move parse b q a rest) as M. fold tfind in M. rewrite H in M. clear H.
  inversion M as [Hr Hn Heq| | |s child tail Hin Hr Heq|p child Hin Hleast Heq]; subst.
  - split; auto. exists [], [], [], (rt_query b'). rewrite app_nil_r. repeat split; auto.
    + constructor.
    + constructor.
    + left. reflexivity.
  - assert (Hs : rt_resources b' <> [] /\ exists pat segs vals q0,
      block_at child pat q0 b' /\ q' = (q ++ rt_query b) ++ q0 /\ a' = a ++ vals /\
      matches parse pat segs vals /\ spelled (s ++ tail) (s :: segs)).
    { destruct tail as [|c t]; cbn [go_in] in Heq.
      - unfold here in Heq. destruct (rt_resources child) as [|r rs] eqn:Er; [discriminate|].
        injection Heq as <- <- <-. split; [congruence|]. exists [], [], [], (rt_query child).
        rewrite !app_nil_r. repeat split; auto; [constructor|constructor|apply spelled_one].
      - destruct (N.eqb_spec c c_slash) as [->|]; [|discriminate].
        destruct (IH _ _ Hin _ _ _ _ _ _ Heq) as (Hn & pat & segs & vals & q0 & H1 & H2 & H3 & H4 & H5).
        split; auto. exists pat, segs, vals, q0. repeat split; auto. apply spelled_cons. exact H5. }
    destruct Hs as (Hn & pat & segs & vals & q0 & H1 & H2 & H3 & H4 & H5). split; auto.
    exists (Static s :: pat), (s :: segs), vals, (rt_query b ++ q0). repeat split; auto.
    + econstructor; eauto.
    + rewrite H2, app_assoc. reflexivity.
    + constructor. exact H4.
  - unfold find_dyn in Heq.
    pose proof (segment_app rest) as Ha. pose proof (segment_no_slash rest) as Hns.
    destruct (segment rest) as [seg tail]. simpl in Ha, Hns. subst rest.
    destruct (utf8_valid seg) eqn:Eu; [|discriminate].
    destruct (parse (p_typ p) seg) as [v|e] eqn:Ep; [|discriminate].
    assert (Hs : rt_resources b' <> [] /\ exists pat segs vals q0,
      block_at child pat q0 b' /\ q' = (q ++ rt_query b) ++ q0 /\ a' = (a ++ [(p, v)]) ++ vals /\
      matches parse pat segs vals /\ spelled (seg ++ tail) (seg :: segs)).
    { destruct tail as [|c t]; cbn [go_in] in Heq.
      - unfold here in Heq. destruct (rt_resources child) as [|r rs] eqn:Er; [discriminate|].
        injection Heq as <- <- <-. split; [congruence|]. exists [], [], [], (rt_query child).
        rewrite !app_nil_r. repeat split; auto; [constructor|constructor|apply spelled_one].
      - destruct (N.eqb_spec c c_slash) as [->|]; [|discriminate].
        destruct (IH _ _ Hin _ _ _ _ _ _ Heq) as (Hn & pat & segs & vals & q0 & H1 & H2 & H3 & H4 & H5).
        split; auto. exists pat, segs, vals, q0. repeat split; auto. apply spelled_cons. exact H5. }
    destruct Hs as (Hn & pat & segs & vals & q0 & H1 & H2 & H3 & H4 & H5). split; auto.
    exists (Dynamic p :: pat), (seg :: segs), ((p, v) :: vals), (rt_query b ++ q0). repeat split; auto.
    + econstructor; eauto.
    + rewrite H2, app_assoc. reflexivity.
    + rewrite H3, <- app_assoc. reflexivity.
    + constructor; auto.
Qed.

Lemma find_bad : forall b q a rest p e,
  tfind b q a rest = Bad p e ->
  exists pat segs vals q0 b' child seg tail,
    block_at b pat q0 b' /\ In (Dynamic p, child) (rt_routes b') /\ matches parse pat segs vals /\
    ~ In c_slash seg /\ utf8_valid seg = true /\ parse (p_typ p) seg = inr e /\
    rest = join (segs ++ [seg]) ++ tail /\ tail_ok tail.
Proof.
  induction b as [b IH] using Routes_children_ind. intros q a rest p e H.
  pose proof (find_move parse b q a rest) as M. fold tfind in M. rewrite H in M. clear H.
  inversion M as [| | |s child tail Hin Hr Heq|p' child Hin Hleast Heq]; subst.
  - destruct tail as [|c t]; cbn [go_in] in Heq.
    + unfold here in Heq. destruct (rt_resources child); discriminate.
    + destruct (N.eqb_spec c c_slash) as [->|]; [|discriminate].
      destruct (IH _ _ Hin _ _ _ _ _ Heq)
        as (pat & segs & vals & q0 & b' & ch & seg & tail & H1 & H2 & H3 & H4 & H5 & H6 & H7 & H8).
      exists (Static s :: pat), (s :: segs), vals, (rt_query b ++ q0), b', ch, seg, tail.
      repeat split; auto.
      * econstructor; eauto.
      * constructor. exact H3.
      * rewrite H7, <- app_comm_cons, join_snoc_cons, <- app_assoc. reflexivity.
  - unfold find_dyn in Heq.
    pose proof (segment_app rest) as Ha. pose proof (segment_no_slash rest) as Hns.
    pose proof (segment_tail rest) as Htl.
    destruct (segment rest) as [seg tail]. simpl in Ha, Hns, Htl. subst rest.
    destruct (utf8_valid seg) eqn:Eu; [|discriminate].
    destruct (parse (p_typ p') seg) as [v|e'] eqn:Ep.
    + destruct tail as [|c t]; cbn [go_in] in Heq.
      * unfold here in Heq. destruct (rt_resources child); discriminate.
      * destruct (N.eqb_spec c c_slash) as [->|]; [|discriminate].
        destruct (IH _ _ Hin _ _ _ _ _ Heq)
          as (pat & segs & vals & q0 & b' & ch & seg' & tail & H1 & H2 & H3 & H4 & H5 & H6 & H7 & H8).
        exists (Dynamic p' :: pat), (seg :: segs), ((p', v) :: vals), (rt_query b ++ q0), b', ch, seg', tail.
        repeat split; auto.
        -- econstructor; eauto.
        -- constructor; auto.
        -- rewrite H7, <- app_comm_cons, join_snoc_cons, <- app_assoc. reflexivity.
    + injection Heq as <- <-.
      exists [], [], [], (rt_query b), b, child, seg, tail. repeat split; auto; constructor.
Qed.

Lemma find_stop : forall b q a rest,
  tfind b q a rest = Stop ->
  (exists u seg tail, rest = u ++ seg ++ tail /\ (u = [] \/ exists u', u = u' ++ [c_slash]) /\
     tail_ok tail /\ ~ In c_slash seg /\ utf8_valid seg = false) \/
  (exists pat q0 x, block_at b pat q0 x /\ ~ no_short_static x).
Proof.
  induction b as [b IH] using Routes_children_ind. intros q a rest H.
  pose proof (find_move parse b q a rest) as M. fold tfind in M. rewrite H in M. clear H.
  inversion M as [| |s child Hr Hn Hd Hs Hl|s child tail Hin Hr Heq|p' child Hin Hleast Heq]; subst.
  - right. exists [], (rt_query b), b. split; [constructor|].
    intros Hno. eapply Hno; eauto.
  - destruct tail as [|c t]; cbn [go_in] in Heq.
    + unfold here in Heq. destruct (rt_resources child); discriminate.
    + destruct (N.eqb_spec c c_slash) as [->|]; [|discriminate].
      destruct (IH _ _ Hin _ _ _ Heq) as [(u & seg & tail & H1 & H2 & H3)|(pat & q0 & x & H1 & H2)].
      * left. exists (s ++ c_slash :: u), seg, tail. repeat split; try apply H3.
        -- rewrite H1. rewrite <- app_assoc. reflexivity.
        -- right. destruct H2 as [->|[u' ->]].
           ++ exists s. reflexivity.
           ++ exists (s ++ c_slash :: u'). rewrite <- app_assoc. reflexivity.
      * right. exists (Static s :: pat), (rt_query b ++ q0), x. split; auto. econstructor; eauto.
  - unfold find_dyn in Heq.
    pose proof (segment_app rest) as Ha. pose proof (segment_no_slash rest) as Hns.
    pose proof (segment_tail rest) as Htl.
    destruct (segment rest) as [seg tail]. simpl in Ha, Hns, Htl. subst rest.
    destruct (utf8_valid seg) eqn:Eu.
    + destruct (parse (p_typ p') seg) as [v|e'] eqn:Ep; [|discriminate].
      destruct tail as [|c t]; cbn [go_in] in Heq.
      * unfold here in Heq. destruct (rt_resources child); discriminate.
      * destruct (N.eqb_spec c c_slash) as [->|]; [|discriminate].
        destruct (IH _ _ Hin _ _ _ Heq) as [(u & seg' & tail & H1 & H2 & H3)|(pat & q0 & x & H1 & H2)].
        -- left. exists (seg ++ c_slash :: u), seg', tail. repeat split; try apply H3.
           ++ rewrite H1. rewrite <- app_assoc. reflexivity.
           ++ right. destruct H2 as [->|[u' ->]].
              ** exists seg. reflexivity.
              ** exists (seg ++ c_slash :: u'). rewrite <- app_assoc. reflexivity.
        -- right. exists (Dynamic p' :: pat), (rt_query b ++ q0), x. split; auto. econstructor; eauto.
    + left. exists [], seg, tail. repeat split; auto.
Qed.
End Sound.

(** ** UTF-8 and slashes *)
Lemma utf8_valid_slash u v :
  utf8_valid (u ++ c_slash :: v) = utf8_valid u && utf8_valid v.
Proof.
  assert (Hn : forall n u, length u <= n -> utf8_valid (u ++ c_slash :: v) = utf8_valid u && utf8_valid v).
  { clear u. intros n. induction n as [|n IH]; intros u Hl.
    { destruct u; [reflexivity|simpl in Hl; lia]. }
    destruct u as [|b0 u]; [reflexivity|]. simpl in Hl. cbn [app utf8_valid].
    destruct (b0 <? 128)%N; [apply IH; lia|].
    destruct (in_range 194 223 b0).
    { destruct u as [|b1 u]; [reflexivity|]. cbn [app]. simpl in Hl. rewrite IH by lia.
      rewrite andb_assoc. reflexivity. }
    destruct (in_range 224 239 b0).
    { destruct u as [|b1 [|b2 u]]; cbn [app].
      - destruct v as [|v1 v]; [reflexivity|].
        change (in_range 160 191 c_slash) with false. change (is_cont c_slash) with false.
        change (in_range 128 159 c_slash) with false. rewrite !andb_false_r. reflexivity.
      - change (is_cont c_slash) with false. rewrite !andb_false_r. reflexivity.
      - simpl in Hl. rewrite IH by lia. rewrite !andb_assoc. reflexivity. }
    destruct (in_range 240 244 b0); [|reflexivity].
    destruct u as [|b1 [|b2 [|b3 u]]]; cbn [app].
    - destruct v as [|v1 [|v2 v]]; try reflexivity.
      change (in_range 144 191 c_slash) with false. change (is_cont c_slash) with false.
      change (in_range 128 143 c_slash) with false. rewrite !andb_false_r. reflexivity.
    - destruct v as [|v1 v]; [reflexivity|]. change (is_cont c_slash) with false.
      rewrite !andb_false_r. reflexivity.
    - change (is_cont c_slash) with false. rewrite !andb_false_r. reflexivity.
    - simpl in Hl. rewrite IH by lia. rewrite !andb_assoc. reflexivity. }
  apply (Hn (length u)). lia.
Qed.
Lemma utf8_valid_segment u seg tail :
  utf8_valid (u ++ seg ++ tail) = true -> (u = [] \/ exists u', u = u' ++ [c_slash]) -> tail_ok tail ->
  utf8_valid seg = true.
Proof.
  intros H Hu Ht.
  assert (H1 : utf8_valid (seg ++ tail) = true).
  { destruct Hu as [->|[u' ->]]; auto. rewrite <- app_assoc in H. simpl in H.
    rewrite utf8_valid_slash in H. apply andb_true_iff in H. apply H. }
  destruct Ht as [->|[t' ->]]; [rewrite app_nil_r in H1; exact H1|].
  rewrite utf8_valid_slash in H1. apply andb_true_iff in H1. apply H1.
Qed.
Lemma utf8_valid_no_slash path : utf8_valid path = true -> utf8_valid (no_slash path) = true.
Proof.
  destruct path as [|b p]; auto. unfold no_slash. destruct (N.eqb_spec b c_slash) as [->|]; auto.
Qed.
Lemma find_no_panic {T E} (parse : str -> bytes -> T + E) b q a rest :
  utf8_valid rest = true -> every_block no_short_static b -> tree_find parse b q a rest <> Stop.
Proof.
  intros Hu Hb Hs. destruct (find_stop parse b q a rest Hs)
    as [(u & seg & tail & H1 & H2 & H3 & _ & H5)|(pat & q0 & x & H1 & H2)].
  - subst. rewrite (utf8_valid_segment u seg tail) in H5; auto. discriminate.
  - apply H2. eapply Hb; eauto.
Qed.

(** ** Pieces *)
Lemma split_segment l :
  split_slash l = fst (segment l) :: match snd (segment l) with [] => [] | _ :: t => split_slash t end.
Proof.
  induction l as [|b l IH]; auto. cbn [split_slash segment].
  destruct (N.eqb_spec b c_slash) as [->|Hb]; auto.
  rewrite IH. destruct (segment l) as [s r]. reflexivity.
Qed.
Lemma split_nonempty l : split_slash l <> [].
Proof. rewrite split_segment. discriminate. Qed.
Lemma pieces_step l : l <> [] ->
  pieces l = fst (segment l) :: match snd (segment l) with [] => [] | _ :: t => pieces t end.
Proof.
  intros Hl. unfold pieces at 1. rewrite split_segment. pose proof (segment_app l) as Ha.
  destruct (segment l) as [s [|c t]]; simpl in Ha; cbn [fst snd].
  - rewrite app_nil_r in Ha. subst s. destruct l as [|x l]; [congruence|]. reflexivity.
  - unfold pieces. pose proof (split_nonempty t) as Hn. destruct (split_slash t) as [|s' r] eqn:Es; [congruence|].
    change (last (s :: s' :: r) []) with (last (s' :: r) []).
    destruct (last (s' :: r) []); reflexivity.
Qed.

Section Segments.
Context {T E : Type}.
Variable parse : str -> bytes -> T + E.
Let tfind := @tree_find T E parse.

Lemma find_stat_plain ss q a rest :
  (forall s (child : Routes), In (s, child) ss -> ~ In c_slash s) ->
  find_stat (map (fun sx => (fst sx, fkid parse (snd sx))) ss) q a rest =
  match static_child (fst (segment rest)) ss with
  | Some child => go_in child (tfind child) q a (snd (segment rest))
  | None => Nothing
  end.
Proof.
  induction ss as [|[s child] ss IH]; intros H; auto.
  cbn [map fst snd find_stat static_child]. unfold fkid at 1.
  pose proof (H s child (or_introl eq_refl)) as Hs.
  destruct (after_segment s rest) as [tail|] eqn:Ea.
  - apply after_segment_iff in Ea; auto. rewrite Ea. simpl. rewrite str_eqb_refl. reflexivity.
  - destruct (str_eqb_spec s (fst (segment rest))) as [Heq|Hne].
    + assert (Hr : segment rest = (s, snd (segment rest))) by (rewrite Heq; apply surjective_pairing).
      apply (after_segment_iff s rest _ Hs) in Hr. congruence.
    + apply IH. intros s' c' Hin. eapply H. right. exact Hin.
Qed.
Lemma static_child_in seg ss (child : Routes) : static_child seg ss = Some child -> In (seg, child) ss.
Proof.
  induction ss as [|[s b] ss IH]; simpl; [discriminate|].
  destruct (str_eqb_spec s seg) as [->|]; [intros [= ->]; auto|auto].
Qed.
Lemma plain_statics_in b s child :
  plain_statics b -> In (s, child) (statics (rt_routes b)) -> s <> [] /\ ~ In c_slash s.
Proof. intros H Hin. apply (H s child). apply statics_In. exact Hin. Qed.
Lemma static_child_empty b : plain_statics b -> static_child [] (statics (rt_routes b)) = None.
Proof.
  intros H. destruct (static_child [] (statics (rt_routes b))) as [c|] eqn:Es; auto.
  apply static_child_in in Es. destruct (plain_statics_in _ _ _ H Es). congruence.
Qed.

(** *** Agreement with the ideal matcher *)
Lemma find_ideal : forall b q a rest,
  every_block plain_statics b -> utf8_valid rest = true -> unaffected (pieces rest) b ->
  tfind b q a rest = ideal_find parse (pieces rest) b q a.
Proof.
  induction b as [b IH] using Routes_children_ind. intros q a rest Hp Hu Hc.
  assert (Hpb : plain_statics b) by (apply every_block_here; exact Hp).
  destruct rest as [|c0 rest0].
  { unfold tfind. rewrite find_eq. fold tfind. simpl in Hc. cbn [ideal_find pieces split_slash last removelast]. unfold here.
    destruct (rt_resources b) as [|r rs]; auto.
    destruct (dynamic_children (rt_routes b)) as [|d ds]; [|exfalso; apply Hc; [discriminate|reflexivity]].
    cbn [least_dynamic]. rewrite find_stat_plain by (intros s ch Hin; eapply plain_statics_in; eauto).
    simpl. rewrite static_child_empty; auto. }
  remember (c0 :: rest0) as rest eqn:Erest.
  assert (Hrne : rest <> []) by (subst; discriminate). clear Erest.
  unfold tfind. rewrite find_eq_ne by exact Hrne. fold tfind.
  rewrite pieces_step in Hc |- * by exact Hrne.
  pose proof (segment_app rest) as Ha. pose proof (segment_tail rest) as Ht.
  pose proof (segment_no_slash rest) as Hns.
  assert (Hgo : forall seg child a', In (seg, child) (rt_routes b) ->
    unaffected (match snd (segment rest) with [] => [] | _ :: t => pieces t end) child ->
    go_in child (tfind child) (q ++ rt_query b) a' (snd (segment rest)) =
    ideal_find parse (match snd (segment rest) with [] => [] | _ :: t => pieces t end) child (q ++ rt_query b) a').
  { intros seg child a' Hin Huc. destruct Ht as [Ht|[t Ht]]; rewrite Ht in *; cbn [go_in]; auto.
    rewrite N.eqb_refl. apply (IH seg); auto.
    - eapply every_block_child; eauto.
    - rewrite <- Ha, utf8_valid_slash in Hu. apply andb_true_iff in Hu. apply Hu. }
  assert (Hdyn : forall p child, In (Dynamic p, child) (rt_routes b) ->
    unaffected (match snd (segment rest) with [] => [] | _ :: t => pieces t end) child ->
    find_dyn parse p child (tfind child) (q ++ rt_query b) a rest =
    match parse (p_typ p) (fst (segment rest)) with
    | inl v => ideal_find parse (match snd (segment rest) with [] => [] | _ :: t => pieces t end)
                 child (q ++ rt_query b) (a ++ [(p, v)])
    | inr e => Bad p e
    end).
  { intros p child Hin Huc. unfold find_dyn. rewrite <- (segment_app rest) in Hu.
    pose proof (utf8_valid_segment [] _ _ Hu (or_introl eq_refl) Ht) as Hv.
    pose proof (Hgo (Dynamic p) child) as G.
    destruct (segment rest) as [seg tail]. cbn [fst snd] in *. rewrite Hv.
    destruct (parse (p_typ p) seg) as [v|e]; auto. }
  cbn [ideal_find]. cbn [unaffected] in Hc.
  destruct (least_dynamic (dynamic_children (rt_routes b))) as [[p child]|] eqn:El.
  2: { rewrite find_stat_plain by (intros s ch Hin; eapply plain_statics_in; eauto).
       destruct (static_child (fst (segment rest)) (statics (rt_routes b))) as [ch|] eqn:Es; auto.
       apply (Hgo (Static (fst (segment rest)))).
       - apply statics_In. apply static_child_in. exact Es.
       - apply Hc. }
  assert (Hin : In (Dynamic p, child) (rt_routes b)) by (apply dynamic_children_In, least_in; exact El).
  assert (Hne : dynamic_children (rt_routes b) <> []) by (eapply least_some; eauto).
  pose proof (fun s ch => plain_statics_in b s ch Hpb) as Hps.
  pose proof (fun s ch => proj2 (statics_In (rt_routes b) s ch)) as Hsi.
  destruct (statics (rt_routes b)) as [|[s ch] [|sx ss]] eqn:Es.
  - cbn [static_child] in *. destruct Hc as [_ Hc]. rewrite Hdyn; auto.
  - destruct (Hps s ch (or_introl eq_refl)) as [Hs0 Hs1].
    rewrite strip_segment by exact Hs1. cbn [static_child] in *.
    destruct (str_eqb_spec s (fst (segment rest))) as [Heq|Hneq].
    + rewrite <- Heq. rewrite (proj2 (strip_Some s s [])) by (rewrite app_nil_r; reflexivity).
      cbn [app]. apply (Hgo (Static s)).
      * apply statics_In. rewrite Es. left. reflexivity.
      * apply Hc.
    + destruct Hc as [Hst Hc]. rewrite (Hst s ch eq_refl). rewrite Hdyn; auto.
  - destruct (static_child (fst (segment rest)) ((s, ch) :: sx :: ss)) as [ch'|].
    + destruct Hc as [Hl _]. specialize (Hl Hne). simpl in Hl. lia.
    + destruct Hc as [_ Hc]. rewrite Hdyn; auto.
Qed.

(** *** The trailing slash *)
Lemma strip_app_slash s rest :
  ~ In c_slash s -> strip s (rest ++ [c_slash]) =
  match strip s rest with Some t => Some (t ++ [c_slash]) | None => None end.
Proof.
  intros Hs. revert rest. induction s as [|c s IH]; intros rest; auto.
  destruct rest as [|b rest]; cbn [strip app].
  - destruct (N.eqb_spec c c_slash) as [->|]; auto. exfalso. apply Hs. left. reflexivity.
  - destruct (N.eqb c b); auto. apply IH. intros H. apply Hs. right. exact H.
Qed.
Lemma segment_app_slash rest :
  segment (rest ++ [c_slash]) = (fst (segment rest), snd (segment rest) ++ [c_slash]).
Proof.
  induction rest as [|b rest IH]; auto. cbn [app segment].
  destruct (N.eqb_spec b c_slash) as [->|]; auto. rewrite IH.
  destruct (segment rest). reflexivity.
Qed.
Definition no_end_slash (l : bytes) : Prop := forall u, l <> u ++ [c_slash].
Lemma find_trailing : forall b q a rest,
  every_block plain_statics b -> every_block dynamic_has_resources b ->
  rest <> [] -> no_end_slash rest ->
  tfind b q a (rest ++ [c_slash]) = tfind b q a rest.
Proof.
  induction b as [b IH] using Routes_children_ind. intros q a rest Hp Hd Hr He.
  assert (Hpb : plain_statics b) by (apply every_block_here; exact Hp).
  assert (Hgo : forall seg child a' q' tail, In (seg, child) (rt_routes b) ->
    (exists u, rest = u ++ tail) ->
    go_in child (tfind child) q' a' (tail ++ [c_slash]) = go_in child (tfind child) q' a' tail).
  { intros seg child a' q' tail Hin [u Hu].
    pose proof (every_block_child _ _ _ _ Hp Hin) as Hpc.
    pose proof (every_block_child _ _ _ _ Hd Hin) as Hdc.
    destruct tail as [|c t]; cbn [app go_in].
    - rewrite N.eqb_refl. unfold tfind. rewrite find_eq. unfold here.
      apply every_block_here in Hdc. apply every_block_here in Hpc.
      unfold dynamic_has_resources in Hdc.
      destruct (rt_resources child) as [|r rs]; auto.
      destruct (dynamic_children (rt_routes child)) as [|d ds]; [|exfalso; apply Hdc; [discriminate|reflexivity]].
      cbn [least_dynamic]. rewrite find_stat_plain by (intros s ch Hi; eapply plain_statics_in; eauto).
      simpl. rewrite static_child_empty; auto.
    - destruct (N.eqb_spec c c_slash) as [->|]; auto.
      apply (IH seg); auto.
      + intros ->. apply (He u). exact Hu.
      + intros w ->. apply (He (u ++ c_slash :: w)). rewrite Hu, <- app_assoc. reflexivity. }
  assert (Hr' : rest ++ [c_slash] <> []) by (destruct rest; discriminate).
  unfold tfind. rewrite (find_eq_ne parse b q a rest Hr), (find_eq_ne parse b q a _ Hr'). fold tfind.
  assert (Hrest : exists u, rest = u ++ snd (segment rest)).
  { exists (fst (segment rest)). symmetry. apply segment_app. }
  assert (Hdyn : forall p child, In (Dynamic p, child) (rt_routes b) ->
    find_dyn parse p child (tfind child) (q ++ rt_query b) a (rest ++ [c_slash]) =
    find_dyn parse p child (tfind child) (q ++ rt_query b) a rest).
  { intros p child Hin. unfold find_dyn. rewrite segment_app_slash.
    destruct (segment rest) as [seg tail]. cbn [fst snd] in *.
    destruct (utf8_valid seg); auto. destruct (parse (p_typ p) seg); auto. eapply Hgo; eauto. }
  destruct (least_dynamic (dynamic_children (rt_routes b))) as [[p child]|] eqn:El.
  2: { rewrite !find_stat_plain by (intros s ch Hin; eapply plain_statics_in; eauto).
       rewrite segment_app_slash. cbn [fst snd].
       destruct (static_child (fst (segment rest)) (statics (rt_routes b))) as [ch|] eqn:Es; auto.
       eapply Hgo; eauto. apply statics_In. apply static_child_in. exact Es. }
  assert (Hin : In (Dynamic p, child) (rt_routes b)) by (apply dynamic_children_In, least_in; exact El).
  pose proof (fun s ch => plain_statics_in b s ch Hpb) as Hps.
  pose proof (fun s ch => proj2 (statics_In (rt_routes b) s ch)) as Hsi.
  destruct (statics (rt_routes b)) as [|[s ch] [|sx ss]] eqn:Es; auto.
  rewrite strip_app_slash by (apply (Hps s ch); left; reflexivity).
  destruct (strip s rest) as [t|] eqn:Et; auto.
  apply strip_Some in Et. apply (Hgo (Static s)); eauto. apply statics_In. rewrite Es. left. reflexivity.
Qed.

(** *** What is left of a bad segment decides *)
(** Which child a segment goes to: [None], a static child, or a dynamic one. *)
Definition choose (b : Routes) (seg : bytes) : option (option Param * Routes) :=
  match least_dynamic (dynamic_children (rt_routes b)), statics (rt_routes b) with
  | None, ss => option_map (fun c => (None, c)) (static_child seg ss)
  | Some (p, child), [(s, child')] =>
      match strip s seg with
      | Some [] => Some (None, child')
      | Some _ => None
      | None => Some (Some p, child)
      end
  | Some (p, child), _ => Some (Some p, child)
  end.
Lemma choose_in b seg o child : choose b seg = Some (o, child) ->
  In (match o with None => Static seg | Some p => Dynamic p end, child) (rt_routes b).
Proof.
  unfold choose. destruct (least_dynamic (dynamic_children (rt_routes b))) as [[p c]|] eqn:El.
  - apply least_in in El. apply dynamic_children_In in El.
    destruct (statics (rt_routes b)) as [|[s c'] [|? ?]] eqn:Es; try (intros [= <- <-]; exact El).
    destruct (strip s seg) as [[|x t]|] eqn:Et; try discriminate; intros [= <- <-]; auto.
    apply strip_Some in Et. rewrite app_nil_r in Et. subst seg. apply statics_In. rewrite Es. left. reflexivity.
  - destruct (static_child seg (statics (rt_routes b))) as [c|] eqn:Es; [|discriminate].
    intros [= <- <-]. apply statics_In, static_child_in. exact Es.
Qed.
Lemma find_choose b q a rest : plain_statics b -> rest <> [] ->
  tfind b q a rest =
  match choose b (fst (segment rest)) with
  | None => Nothing
  | Some (None, c) => go_in c (tfind c) (q ++ rt_query b) a (snd (segment rest))
  | Some (Some p, c) => find_dyn parse p c (tfind c) (q ++ rt_query b) a rest
  end.
Proof.
  intros Hp Hr. unfold tfind. rewrite find_eq_ne by exact Hr. fold tfind. unfold choose.
  pose proof (fun s ch => plain_statics_in b s ch Hp) as Hps.
  destruct (least_dynamic (dynamic_children (rt_routes b))) as [[p child]|] eqn:El.
  - destruct (statics (rt_routes b)) as [|[s ch] [|sx ss]] eqn:Es; auto.
    rewrite strip_segment by (apply (Hps s ch); left; reflexivity).
    pose proof (segment_no_slash rest) as Hns.
    destruct (strip s (fst (segment rest))) as [[|x t]|] eqn:Et; auto.
    apply strip_Some in Et. cbn [app go_in].
    destruct (N.eqb_spec x c_slash) as [->|]; auto.
    exfalso. apply Hns. rewrite Et. apply in_or_app. right. left. reflexivity.
  - rewrite find_stat_plain by (intros s ch Hin; apply (Hps _ _ Hin)).
    destruct (static_child (fst (segment rest)) (statics (rt_routes b))); reflexivity.
Qed.
Lemma find_nil b q a : plain_statics b ->
  tfind b q a [] =
  match rt_resources b, least_dynamic (dynamic_children (rt_routes b)) with
  | _ :: _, _ => Found b (q ++ rt_query b) a
  | [], None => Nothing
  | [], Some (p, c) =>
      match statics (rt_routes b) with
      | [([_], _)] => Stop
      | _ => find_dyn parse p c (tfind c) (q ++ rt_query b) a []
      end
  end.
Proof.
  intros Hp. unfold tfind. rewrite find_eq. fold tfind. destruct (rt_resources b); auto.
  pose proof (fun s ch => plain_statics_in b s ch Hp) as Hps.
  destruct (least_dynamic (dynamic_children (rt_routes b))) as [[p child]|] eqn:El.
  - destruct (statics (rt_routes b)) as [|[[|x [|y s]] ch] [|sx ss]] eqn:Es; auto.
    destruct (Hps [] ch (or_introl eq_refl)). congruence.
  - rewrite find_stat_plain by (intros s ch Hin; apply (Hps _ _ Hin)).
    simpl. rewrite static_child_empty; auto.
Qed.

Lemma find_bad_tail : forall b q a rest p e,
  every_block plain_statics b -> tfind b q a rest = Bad p e ->
  exists u seg tail, rest = u ++ seg ++ tail /\ (u = [] \/ exists u', u = u' ++ [c_slash]) /\
    tail_ok tail /\ ~ In c_slash seg /\ parse (p_typ p) seg = inr e /\
    forall tail' q' a', tail_ok tail' -> seg <> [] \/ tail' <> [] ->
      tfind b q' a' (u ++ seg ++ tail') = Bad p e.
Proof.
  induction b as [b IH] using Routes_children_ind. intros q a rest p e Hp H.
  assert (Hpb : plain_statics b) by (apply every_block_here; exact Hp).
  destruct rest as [|c0 rest0].
  { rewrite find_nil in H by exact Hpb. destruct (rt_resources b); [|discriminate].
    destruct (least_dynamic (dynamic_children (rt_routes b))) as [[p' c]|] eqn:El; [|discriminate].
    assert (Hd : find_dyn parse p' c (tfind c) (q ++ rt_query b) a [] = Bad p e).
    { destruct (statics (rt_routes b)) as [|[[|x [|y s]] ch] [|sx ss]]; auto; discriminate. }
    clear H. unfold find_dyn in Hd. cbn [segment utf8_valid] in Hd.
    destruct (parse (p_typ p') []) as [v|e'] eqn:Epar.
    { cbn [go_in] in Hd. unfold here in Hd. destruct (rt_resources c); discriminate. }
    injection Hd as <- <-. exists [], [], []. repeat split; auto. { left. reflexivity. }
    intros tail' q' a' Ht [Hc|Hne]; [congruence|]. cbn [app].
    destruct Ht as [->|[t ->]]; [congruence|].
    rewrite find_choose by (auto; discriminate). cbn [segment]. rewrite N.eqb_refl. cbn [fst snd].
    unfold choose. rewrite El.
    assert (Hdy : find_dyn parse p' c (tfind c) (q' ++ rt_query b) a' (c_slash :: t) = Bad p' e').
    { unfold find_dyn. cbn [segment]. rewrite N.eqb_refl. cbn [utf8_valid]. rewrite Epar. reflexivity. }
    pose proof (fun s ch => plain_statics_in b s ch Hpb) as Hps.
    destruct (statics (rt_routes b)) as [|[[|x s] ch] [|sx ss]]; auto.
    destruct (Hps [] ch (or_introl eq_refl)). congruence. }
  remember (c0 :: rest0) as rest eqn:Erest.
  assert (Hr : rest <> []) by (subst; discriminate). clear Erest.
  rewrite find_choose in H by auto.
  pose proof (segment_app rest) as Ha. pose proof (segment_tail rest) as Ht.
  pose proof (segment_no_slash rest) as Hns.
  destruct (choose b (fst (segment rest))) as [[o child]|] eqn:Ech; [|discriminate].
  pose proof (choose_in _ _ _ _ Ech) as Hin.
  assert (Hdeep : forall q0 a0, go_in child (tfind child) q0 a0 (snd (segment rest)) = Bad p e ->
    exists u seg tail, snd (segment rest) = c_slash :: u ++ seg ++ tail /\
      (u = [] \/ exists u', u = u' ++ [c_slash]) /\
      tail_ok tail /\ ~ In c_slash seg /\ parse (p_typ p) seg = inr e /\
      forall tail' q' a', tail_ok tail' -> seg <> [] \/ tail' <> [] ->
        tfind child q' a' (u ++ seg ++ tail') = Bad p e).
  { intros q0 a0 Hg. destruct Ht as [Ht|[t Ht]]; rewrite Ht in *; cbn [go_in] in Hg.
    - unfold here in Hg. destruct (rt_resources child); discriminate.
    - rewrite N.eqb_refl in Hg. apply (IH _ _ Hin) in Hg; [|eapply every_block_child; eauto].
      destruct Hg as (u & seg & tail & -> & Hg). exists u, seg, tail. split; auto. }
  assert (Hpre : forall seg0 u seg tail', ~ In c_slash seg0 ->
    segment (seg0 ++ c_slash :: u ++ seg ++ tail') = (seg0, c_slash :: u ++ seg ++ tail')).
  { intros. apply segment_unique; auto. right. eexists. reflexivity. }
  assert (Hends : forall seg0 u : bytes, (u = [] \/ (exists u', u = u' ++ [c_slash])) ->
     seg0 ++ c_slash :: u = [] \/ exists u', seg0 ++ c_slash :: u = u' ++ [c_slash]).
  { intros seg0 u [->|[u' ->]]; right; [exists seg0; reflexivity|].
    exists (seg0 ++ c_slash :: u'). rewrite <- app_assoc. reflexivity. }
  destruct o as [p'|].
  - unfold find_dyn in H.
    destruct (segment rest) as [sg tl] eqn:Eseg. cbn [fst snd] in *.
    destruct (utf8_valid sg) eqn:Eu; [|discriminate].
    destruct (parse (p_typ p') sg) as [v|e'] eqn:Ep.
    + destruct (Hdeep _ _ H) as (u & seg & tail & H1 & H2 & H3 & H4 & H5 & H6).
      exists (sg ++ c_slash :: u), seg, tail. repeat split; auto.
      * rewrite <- Ha, H1, <- app_assoc. reflexivity.
      * intros tail' q' a' Ht' Hor. rewrite <- app_assoc. cbn [app].
        rewrite find_choose by (auto; destruct sg; discriminate).
        rewrite Hpre by auto. cbn [fst snd]. rewrite Ech.
        unfold find_dyn. rewrite Hpre by auto. rewrite Eu, Ep. cbn [go_in].
        rewrite N.eqb_refl. apply H6; auto.
    + injection H as <- <-. exists [], sg, tl. repeat split; auto.
      intros tail' q' a' Ht' Hor. cbn [app].
      assert (Hne : sg ++ tail' <> []).
      { destruct Hor as [Hor|Hor]; destruct sg; simpl; congruence. }
      rewrite find_choose by auto. rewrite segment_unique by auto. cbn [fst snd]. rewrite Ech.
      unfold find_dyn. rewrite segment_unique by auto. rewrite Eu, Ep. reflexivity.
  - destruct (Hdeep _ _ H) as (u & seg & tail & H1 & H2 & H3 & H4 & H5 & H6).
    exists (fst (segment rest) ++ c_slash :: u), seg, tail. repeat split; auto.
    + rewrite <- Ha at 1. rewrite H1, <- app_assoc. reflexivity.
    + intros tail' q' a' Ht' Hor. rewrite <- app_assoc. cbn [app].
      rewrite find_choose by (auto; destruct (fst (segment rest)); discriminate).
      rewrite Hpre by auto. cbn [fst snd]. rewrite Ech. cbn [go_in]. rewrite N.eqb_refl. apply H6; auto.
Qed.
End Segments.
