(** * SizeFacts: the size of the generated matcher *)
From Verif Require Import Base BaseFacts Core Trie Flat MiniRust Gen Spec TrieFacts FlatFacts NodeFacts ExecFacts CostFacts SpecParse SpecGrammar SpecSize
  Parse Nom GrammarFacts.

(** ** Statements *)
Lemma statements_app a b : statements (a ++ b) = statements a + statements b.
Proof. induction a as [|s a IH]; [reflexivity|]. cbn [app statements]. rewrite IH. lia. Qed.
Lemma size_if c body : stmt_size (SIf c body) = S (statements body).
Proof. reflexivity. Qed.
Fixpoint arms_size (arms : list (arm_head * list stmt)) : nat :=
  match arms with [] => 0 | (_, body) :: l' => S (statements body) + arms_size l' end.
Lemma size_match sc arms : stmt_size (SMatch sc arms) = S (arms_size arms).
Proof. reflexivity. Qed.
Lemma arms_app a b : arms_size (a ++ b) = arms_size a + arms_size b.
Proof. induction a as [|[h body] a IH]; [reflexivity|]. cbn [app arms_size]. rewrite IH. lia. Qed.
Lemma size_methods fr : stmt_size (methods_stmt fr) = 4 + 2 * length (f_resources fr).
Proof.
  unfold methods_stmt. rewrite size_if. cbn [statements]. rewrite size_match, arms_app. cbn [arms_size statements stmt_size].
  enough (H : arms_size (map (fun r => (AHInline (method_display (r_method r)), [SReturn (resource_ret fr r)]))
                (f_resources fr)) = 2 * length (f_resources fr)) by (rewrite H; lia).
  induction (f_resources fr) as [|r l IH]; [reflexivity|].
  cbn [map arms_size statements stmt_size length]. rewrite IH. lia.
Qed.

(** ** Nodes of a trie *)
Section Weight.
Context {K V : Type}.
Variable cmp : K -> K -> comparison.
Hypothesis cmp_eq : forall a b, cmp a b = Eq <-> a = b.
Variables (k : nat) (f : V -> nat).
Definition data_weight (o : option V) : nat := match o with Some v => f v | None => 0 end.
Fixpoint weight (t : Trie K V) : nat :=
  match t with
  | mkTrie d children => k + data_weight d + list_sum (map (fun kc => match kc with (_, c) => weight c end) children)
  end.
Definition children_weight (l : list (K * Trie K V)) : nat := list_sum (map (fun kc => weight (snd kc)) l).
Lemma weight_eq t : weight t = k + data_weight (t_data t) + children_weight (t_children t).
Proof.
  destruct t as [d ch]. cbn [weight t_data t_children]. unfold children_weight. do 2 f_equal.
  apply map_ext. intros [x c]. reflexivity.
Qed.
Lemma children_app a b : children_weight (a ++ b) = children_weight a + children_weight b.
Proof. unfold children_weight. rewrite map_app. apply list_sum_app. Qed.
Lemma child_weight x c l : In (x, c) l -> weight c <= children_weight l.
Proof.
  intros H. apply in_split in H. destruct H as (l1 & l2 & ->). rewrite children_app.
  unfold children_weight at 2. cbn [map list_sum snd fold_right]. lia.
Qed.
Lemma sub_weight s t : subtrie s t -> weight s <= weight t.
Proof.
  induction 1 as [|t x c Hin H IH]; [lia|]. rewrite (weight_eq t). pose proof (child_weight _ _ _ Hin). lia.
Qed.
Lemma two_weight x c y d l : In (x, c) l -> In (y, d) l -> x <> y -> weight c + weight d <= children_weight l.
Proof.
  intros H1 H2 Hne. apply in_split in H1. destruct H1 as (l1 & l2 & ->).
  apply in_app_iff in H2. rewrite children_app. change ((x, c) :: l2) with ([(x, c)] ++ l2). rewrite children_app.
  unfold children_weight at 2. cbn [map list_sum snd fold_right].
  destruct H2 as [H2|[[= -> ->]|H2]]; [|congruence|]; pose proof (child_weight _ _ _ H2); lia.
Qed.

(** An addition makes a new node for each part of the path that is not there yet. *)
Lemma adds_weight t p v t' : adds cmp t p v t' -> sorted_trie cmp t ->
  forall p1 p2 s, p = p1 ++ p2 -> trie_sub cmp t p1 = Some s -> weight t' <= weight t + f v + k * length p2.
Proof.
  induction 1 as [ch v | d l1 l2 c p v t' H1 H2 H IH | d l1 l2 c t p v t' H IH]; intros HS p1 p2 s Hp Hs;
    apply sorted_inv in HS; destruct HS as [HS Hsub].
  - destruct p1, p2; try discriminate. rewrite !weight_eq. cbn [t_data t_children data_weight length]. lia.
  - rewrite !weight_eq. cbn [t_data t_children]. rewrite !children_app.
    change ((c, t') :: l2) with ([(c, t')] ++ l2). rewrite children_app.
    unfold children_weight at 2. cbn [map list_sum snd fold_right].
    destruct p1 as [|c' p1].
    + cbn [app] in Hp. subst p2. specialize (IH (sorted_new cmp) [] p _ eq_refl eq_refl).
      rewrite (weight_eq trie_new) in IH. unfold trie_new, children_weight in IH. cbn [t_data t_children data_weight map list_sum fold_right] in IH.
      cbn [length]. lia.
    + injection Hp as <- Hp. exfalso. cbn [trie_sub t_children] in Hs.
      rewrite (find_child_none cmp cmp_eq) in Hs; [discriminate|].
      intros t0 Hin. apply in_app_or in Hin. destruct Hin as [Hin|Hin]; eapply klt_irrefl; eauto.
  - assert (Hin : In (c, t) (l1 ++ (c, t) :: l2)) by (apply in_or_app; right; left; reflexivity).
    rewrite !weight_eq. cbn [t_data t_children]. rewrite !children_app.
    change ((c, t') :: l2) with ([(c, t')] ++ l2). change ((c, t) :: l2) with ([(c, t)] ++ l2). rewrite !children_app.
    unfold children_weight at 2 5. cbn [map list_sum snd fold_right].
    destruct p1 as [|c' p1].
    + cbn [app] in Hp. subst p2. specialize (IH (Hsub _ _ Hin) [] p _ eq_refl eq_refl). cbn [length]. lia.
    + injection Hp as <- Hp. cbn [trie_sub t_children] in Hs.
      rewrite (find_child_sorted cmp cmp_eq _ _ _ HS Hin) in Hs.
      specialize (IH (Hsub _ _ Hin) p1 p2 s Hp Hs). lia.
Qed.
End Weight.

(** ** The program of a trie *)
Definition cw : ctrie -> nat := weight 24 (fun fr => 4 * length (f_resources fr)).
Definition cws : list (Charlike * ctrie) -> nat := children_weight 24 (fun fr => 4 * length (f_resources fr)).
Definition answers_in (o : option FlattenedRoute) : nat := match o with Some fr => length (f_resources fr) | None => 0 end.
Lemma cw_eq t : cw t = 24 + 4 * answers_in (t_data t) + cws (t_children t).
Proof. unfold cw, cws. rewrite weight_eq. unfold data_weight, answers_in. destruct (t_data t); lia. Qed.
Lemma resources_answers o fr : has_resources o = Some fr -> length (f_resources fr) = answers_in o.
Proof.
  destruct o as [fr'|]; [|discriminate]. cbn [has_resources answers_in].
  destruct (f_resources fr') eqn:Er; intros [= <-]. rewrite Er. reflexivity.
Qed.
Lemma size_block o : statements (methods_block o) <= 4 + 2 * answers_in o.
Proof.
  unfold methods_block. destruct (has_resources o) as [fr|] eqn:Er; [|cbn; lia].
  cbn [statements]. rewrite size_methods, (resources_answers _ _ Er). lia.
Qed.
Lemma size_expect n u : stmt_size (expect n u) = 5.
Proof. reflexivity. Qed.
Lemma size_dynamic n b : statements (dynamic_block n b) = 7 + statements b.
Proof. unfold dynamic_block. rewrite statements_app. reflexivity. Qed.
Lemma unamb_child (t next : ctrie) u us l : unamb t = (u :: us, l, next) ->
  exists c t', In (CStatic c, t') (t_children t) /\ subtrie next t'.
Proof.
  rewrite unamb_eq. destruct (existsb _ _); [discriminate|]. destruct (_ =? 1)%nat; [|discriminate].
  destruct (the_static (t_children t)) as [[c t']|] eqn:Es; [|discriminate].
  destruct (unamb t') as [[s n] t''] eqn:Eu. intros [= <- <- <- <-].
  exists c, t'. split; [apply the_static_in; exact Es|].
  pose proof (unamb_sub (trie_height t') t' (le_n _)) as H. rewrite Eu in H. exact H.
Qed.
Lemma gen_size : forall fuel t b, gen_trie fuel t = ROk b ->
  statements b + 2 * answers_in (t_data t) + 4 <= cw t.
Proof.
  induction fuel as [|fuel IH]; intros t b H; [discriminate|]. cbn [gen_trie] in H.
  destruct (gen_children (gen_trie fuel) t) as [b'| | |] eqn:Eg; try discriminate. injection H as <-.
  rewrite statements_app. pose proof (size_block (t_data t)) as Hm. rewrite cw_eq.
  enough (G : statements b' <= 16 + cws (t_children t)) by lia. clear Hm.
  assert (Hdyn : forall n c b, gen_dynamic (gen_trie fuel) c n = ROk b -> statements b <= 3 + cw c).
  { intros n c b Hg. apply gen_dynamic_inv in Hg. destruct Hg as (b'' & Hg & ->).
    rewrite size_dynamic. specialize (IH _ _ Hg). lia. }
  assert (Hmany : gen_many (gen_trie fuel) t = ROk b' -> statements b' <= 16 + cws (t_children t)).
  { unfold gen_many. destruct (unamb t) as [[u l] next] eqn:Eu. destruct u as [|u0 us].
    - destruct (gen_arms (gen_trie fuel) (t_children t)) as [arms| | |] eqn:Ea; try discriminate.
      intros [= <-]. rewrite statements_app. cbn [statements]. rewrite size_if, size_match, arms_app.
      cbn [arms_size statements stmt_size not_found].
      assert (Harms : forall l0 arms0, gen_arms (gen_trie fuel) l0 = ROk arms0 -> arms_size arms0 <= 6 + cws l0).
      { clear Ea. induction l0 as [|[k child] l0 IHl]; intros arms0 Ha; [injection Ha as <-; cbn; lia|].
        assert (Hc : cws ((k, child) :: l0) = cw child + cws l0) by reflexivity. rewrite Hc.
        destruct k as [c|n|]; cbn [gen_arms] in Ha.
        + destruct (gen_trie fuel child) as [bb| | |] eqn:Eb; try discriminate. cbn [rbind] in Ha.
          destruct (gen_arms (gen_trie fuel) l0) as [arms'| | |] eqn:Ea; try discriminate.
          injection Ha as <-. cbn [arms_size statements stmt_size]. specialize (IH _ _ Eb). specialize (IHl _ eq_refl). lia.
        + destruct (gen_dynamic (gen_trie fuel) child n) as [bb| | |] eqn:Eb; try discriminate.
          injection Ha as <-. cbn [arms_size]. specialize (Hdyn _ _ _ Eb). lia.
        + destruct (gen_arms (gen_trie fuel) l0) as [arms'| | |] eqn:Ea; try discriminate.
          injection Ha as <-. cbn [arms_size statements]. specialize (IHl _ eq_refl).
          pose proof (cw_eq child). lia. }
      specialize (Harms _ _ Ea).
      destruct (find_dynamic (t_children t)); cbn [statements stmt_size]; lia.
    - destruct (find_dynamic (t_children t)) as [[name dchild]|] eqn:Ef; try discriminate.
      destruct (gen_trie fuel next) as [bn| | |] eqn:En; try discriminate. cbn [rbind].
      destruct (gen_dynamic (gen_trie fuel) dchild name) as [bd| | |] eqn:Ed; try discriminate.
      intros [= <-]. cbn [app statements]. rewrite size_if. cbn [statements]. rewrite size_match.
      cbn [arms_size statements stmt_size].
      destruct (unamb_child _ _ _ _ _ Eu) as (c & t' & Hin & Hsub).
      pose proof (sub_weight 24 (fun fr => 4 * length (f_resources fr)) _ _ Hsub) as Hw. fold cw in Hw.
      apply find_dynamic_In in Ef.
      pose proof (two_weight 24 (fun fr => 4 * length (f_resources fr)) _ _ _ _ _ Hin Ef) as H2.
      fold cw cws in H2. specialize (H2 ltac:(discriminate)).
      specialize (IH _ _ En). specialize (Hdyn _ _ _ Ed). lia. }
  unfold gen_children in Eg. destruct (t_children t) as [|[k child] rest] eqn:Ech.
  { injection Eg as <-. cbn. lia. }
  destruct rest as [|k2 rest].
  2: { destruct k; apply Hmany; exact Eg. }
  assert (Hc : cws [(k, child)] = cw child) by (unfold cws, children_weight; cbn [map list_sum fold_right snd]; unfold cw; lia). rewrite Hc.
  destruct k as [c|n|].
  - pose proof (chase_sub (trie_height child) child (le_n _)) as Hcs. destruct (chase child) as [more child'].
    cbn [snd] in Hcs. apply (sub_weight 24 (fun fr => 4 * length (f_resources fr))) in Hcs. fold cw in Hcs.
    destruct (gen_trie fuel child') as [bb| | |] eqn:Eb; try discriminate. injection Eg as <-.
    cbn [statements]. rewrite size_if, size_expect. cbn [statements stmt_size not_found]. specialize (IH _ _ Eb). lia.
  - destruct (gen_dynamic (gen_trie fuel) child n) as [bb| | |] eqn:Eb; try discriminate. injection Eg as <-.
    cbn [statements stmt_size]. specialize (Hdyn _ _ _ Eb). lia.
  - destruct (gen_trie fuel child) as [bb| | |] eqn:Eb; try discriminate. injection Eg as <-.
    cbn [statements]. rewrite size_expect. specialize (IH _ _ Eb).
    destruct (has_resources (t_data child)) as [fr|] eqn:Er.
    + rewrite size_methods, (resources_answers _ _ Er). lia.
    + rewrite size_if. cbn [statements stmt_size not_found]. lia.
Qed.

(** ** The trie of a configuration *)
Fixpoint tree_weight (b : Routes) : nat :=
  match b with
  | mkRoutes resources routes _ =>
      4 * length resources
      + list_sum (map (fun nr => match nr with (seg, child) => 24 * segment_size seg + tree_weight child end) routes)
  end.
Lemma tree_weight_eq b : tree_weight b = 24 * places b + 4 * resources_in b.
Proof.
  revert b. refine (Routes_ind' _ _). intros rs ch qs IH. cbn [tree_weight places resources_in].
  enough (H : list_sum (map (fun nr : PathSegment * Routes => let (seg, child) := nr in 24 * segment_size seg + tree_weight child) ch)
    = 24 * list_sum (map (fun nr : PathSegment * Routes => let (seg, child) := nr in segment_size seg + places child) ch)
      + 4 * list_sum (map (fun nr : PathSegment * Routes => let (_, child) := nr in resources_in child) ch))
    by (rewrite H; lia).
  induction IH as [|[seg child] ch Hx _ IH]; [reflexivity|]. cbn [map list_sum fold_right] in *. cbn [snd] in Hx.
  rewrite Hx. unfold list_sum in IH. lia.
Qed.
Lemma segment_iter_size s : length (segment_iter s) = segment_size s.
Proof. destruct s; cbn [segment_iter segment_size]; [|reflexivity]. rewrite app_length, map_length. cbn. lia. Qed.
Notation get := (trie_get charlike_cmp).
Notation sub := (trie_sub charlike_cmp).
Notation sorted := (sorted_trie charlike_cmp).
Lemma flat_weight : forall b path q t l t2 p1 p2 s,
  to_trie_from t (flatten b path q ++ l) = ROk t2 -> sorted t ->
  path_iter path = p1 ++ p2 -> sub t p1 = Some s ->
  exists t1, to_trie_from t1 l = ROk t2 /\ sorted t1 /\ (forall p, get t p <> None -> get t1 p <> None) /\
    cw t1 <= cw t + tree_weight b + 24 * length p2.
Proof.
  refine (Routes_ind' _ _). intros rs ch qs IH path q t l t2 p1 p2 s H Hs Hp Hsub. cbn [flatten app] in H.
  cbn [to_trie_from f_path] in H.
  pose proof (trie_add_spec charlike_cmp charlike_cmp_eq charlike_cmp_sym charlike_cmp_trans
    (path_iter path) t (mkFlat path rs (q ++ qs)) Hs) as Ha.
  destruct (trie_add charlike_cmp t (path_iter path) (mkFlat path rs (q ++ qs))) as [t'|]; [|discriminate].
  destruct Ha as [_ Ha].
  pose proof (adds_sorted charlike_cmp _ _ _ _ Ha Hs) as Hs'.
  pose proof (adds_get charlike_cmp charlike_cmp_eq _ _ _ _ Ha Hs) as Hg.
  pose proof (adds_weight charlike_cmp charlike_cmp_eq 24
    (fun fr => 4 * length (f_resources fr)) _ _ _ _ Ha Hs _ _ _ Hp Hsub) as Hw. fold cw in Hw. cbn [f_resources] in Hw.
  assert (Hkeep : forall p, get t p <> None -> get t' p <> None).
  { intros p Hn. rewrite Hg. destruct (path_eq_dec charlike_cmp charlike_cmp_eq _ _); [discriminate|exact Hn]. }
  assert (Hroot : get t' (path_iter path) <> None).
  { rewrite Hg. destruct (path_eq_dec charlike_cmp charlike_cmp_eq _ _); [discriminate|congruence]. }
  enough (G : exists t1, to_trie_from t1 l = ROk t2 /\ sorted t1 /\ (forall p, get t' p <> None -> get t1 p <> None) /\
    cw t1 <= cw t' + list_sum (map (fun nr : PathSegment * Routes => let (seg, child) := nr in 24 * segment_size seg + tree_weight child) ch)).
  { destruct G as (t1 & G1 & G2 & G3 & G4). exists t1. split; [exact G1|]. split; [exact G2|]. split; [auto|].
    cbn [tree_weight]. lia. }
  clear Ha Hg Hw Hkeep Hs Hsub Hp t p1 p2 s. revert t' l H Hs' Hroot.
  induction IH as [|[seg child] ch Hx _ IHch]; intros t' l H Hs' Hroot.
  { exists t'. cbn [map concat app] in H. repeat split; auto. cbn. lia. }
  cbn [map concat] in H. rewrite <- app_assoc in H. cbn [snd] in Hx.
  assert (Hsub : exists s, sub t' (path_iter path) = Some s).
  { destruct (sub t' (path_iter path)) eqn:E; [eauto|]. exfalso. apply Hroot.
    clear - E. revert t' E. induction (path_iter path) as [|c p IH]; intros t' E; [discriminate|].
    cbn [trie_sub trie_get] in *. destruct (find_child charlike_cmp c (t_children t')); [|reflexivity]. auto. }
  destruct Hsub as [s Hsub].
  destruct (Hx (path ++ [seg]) (q ++ qs) t' _ t2 (path_iter path) (segment_iter seg) s H Hs') as (t1 & H1 & H2 & H3 & H4).
  { unfold path_iter. rewrite map_app, concat_app. cbn [map concat]. rewrite app_nil_r. reflexivity. }
  { exact Hsub. }
  destruct (IHch t1 l H1 H2 (H3 _ Hroot)) as (t3 & G1 & G2 & G3 & G4).
  exists t3. split; [exact G1|]. split; [exact G2|]. split; [auto|].
  rewrite segment_iter_size in H4. cbn [map list_sum fold_right]. unfold list_sum in G4. lia.
Qed.
Theorem program_size c body : gen_program c = ROk body ->
  statements body <= 24 * S (places (c_routes c)) + 4 * resources_in (c_routes c).
Proof.
  unfold gen_program, to_trie, flattened_routes. intros H.
  destruct (to_trie_from trie_new (flatten (c_routes c) [] [])) as [t| | |] eqn:Et; try discriminate. cbn [rbind] in H.
  apply gen_size in H. rewrite <- (app_nil_r (flatten _ _ _)) in Et.
  destruct (flat_weight (c_routes c) [] [] trie_new [] t [] [] trie_new Et (sorted_new _) eq_refl eq_refl)
    as (t1 & [= ->] & _ & _ & Hw).
  rewrite tree_weight_eq in Hw. cbn [length] in Hw. unfold cw in Hw at 2. cbn in Hw. lia.
Qed.

(** ** Characters of a route file *)
Section File.
Variable ualnum : char -> bool.
Lemma newlines_length e : newlines e -> 1 <= length e.
Proof. intros H. inversion H; subst; rewrite ?app_length; match goal with X : newline _ |- _ => inversion X; subst end; cbn; lia. Qed.
Lemma segment_length seg w : segment_text ualnum seg w -> segment_size seg <= S (length w).
Proof.
  intros H. inversion H; subst; cbn [segment_size]; [lia|]. rewrite !app_length. cbn. lia.
Qed.
Lemma margin_length n : length (margin n) = 2 * n.
Proof. unfold margin. induction n as [|n IH]; [reflexivity|]. cbn [repeat concat]. rewrite app_length, IH. cbn. lia. Qed.
Lemma texts_length {A} (P : A -> str -> Prop) l s : (forall x w, P x w -> 1 <= length w) -> texts P l s -> length l <= length s.
Proof.
  intros HP. induction 1 as [|x xs s rest H _ IH]; [cbn; lia|]. rewrite app_length. cbn [length]. specialize (HP _ _ H). lia.
Qed.
Scheme block_text_mut := Induction for block_text Sort Prop
with nested_texts_mut := Induction for nested_texts Sort Prop.
Combined Scheme block_both from block_text_mut, nested_texts_mut.
Lemma text_size :
  (forall level b s, block_text ualnum level b s -> 24 * places b + 4 * resources_in b <= 24 * length s) /\
  (forall level l s, nested_texts ualnum level l s ->
     24 * list_sum (map (fun nr => match nr with (seg, child) => segment_size seg + places child end) l)
     + 4 * list_sum (map (fun nr => match nr with (_, child) => resources_in child end) l) <= 24 * length s).
Proof.
  apply block_both.
  - intros level resources routes query s1 s2 s3 _ _ H2 _ H3. cbn [places resources_in]. rewrite !app_length.
    apply texts_length in H2; [lia|]. intros x w H. inversion H; subst. rewrite !app_length. cbn. lia.
  - intros level. cbn. lia.
  - intros level seg child routes w e s rest H1 H2 _ H3 _ H4.
    rewrite !app_length. cbn [map list_sum fold_right].
    apply segment_length in H1. apply newlines_length in H2. unfold list_sum in H4. lia.
Qed.
Theorem file_size text c body : route_config_p ualnum text = POk [] c -> gen_program c = ROk body ->
  statements body <= 24 * length text.
Proof.
  intros H Hb. apply parse_exact in H. apply program_size in Hb.
  inversion H as [hs b e0 s e w H0 H1 H2 H3]; subst. cbn [c_routes] in Hb.
  apply (proj1 text_size) in H3. rewrite !app_length. cbn. lia.
Qed.
End File.
