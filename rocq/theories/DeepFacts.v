(** * DeepFacts: the printed form of a configuration that is nested too deeply

    Every line that is indented too far carries two extra characters, which no
    accepted text of the same configuration has. *)
From Verif Require Import Base Core Nom Parse Spec SpecMatch SpecParse BaseFacts TrieFacts NodeFacts MatchFacts ParseFacts RelineFacts RoundFacts.

Definition marks (s : str) : nat := length (nonspace s).
Lemma marks_app a b : marks (a ++ b) = marks a + marks b.
Proof. unfold marks, nonspace. rewrite filter_app, app_length. reflexivity. Qed.
Lemma marks_concat l : marks (concat l) = list_sum (map marks l).
Proof. induction l as [|s l IH]; [reflexivity|]. cbn [concat map]. rewrite marks_app, IH. reflexivity. Qed.
Definition weight (ws : list (bool * str)) : nat := list_sum (map (fun w => marks (snd w)) ws).
Lemma sum_app a b : list_sum (a ++ b) = list_sum a + list_sum b.
Proof. induction a as [|x a IH]; [reflexivity|]. cbn [app]. change (list_sum (x :: ?l)) with (x + list_sum l). lia. Qed.
Lemma weight_app a b : weight (a ++ b) = weight a + weight b.
Proof. unfold weight. rewrite map_app. apply sum_app. Qed.
Lemma weight_flat {A} (f : A -> list (bool * str)) l : weight (flat_map f l) = list_sum (map (fun x => weight (f x)) l).
Proof. induction l as [|x l IH]; [reflexivity|]. cbn [flat_map map]. rewrite weight_app, IH. reflexivity. Qed.
Lemma sum_plus {A} (f g : A -> nat) l : list_sum (map (fun x => f x + g x) l) = list_sum (map f l) + list_sum (map g l).
Proof. induction l as [|x l IH]; [reflexivity|]. cbn [map]. change (list_sum (?x :: ?l)) with (x + list_sum l). lia. Qed.
Lemma sum_zero {A} (f : A -> nat) l x : list_sum (map f l) = 0 -> In x l -> f x = 0.
Proof.
  induction l as [|y l IH]; intros H []; cbn [map] in H; change (list_sum (?x :: ?l)) with (x + list_sum l) in H.
  - subst. lia.
  - apply IH; [lia|assumption].
Qed.
Lemma sum_ext {A} (f g : A -> nat) l : (forall x, In x l -> f x = g x) -> list_sum (map f l) = list_sum (map g l).
Proof. intros H. f_equal. apply map_ext_in. exact H. Qed.

(** A text that is told weighs what it tells. *)
Definition verbatim (w : bool * str) : Prop := fst w = true -> exists m, snd w = method_display m.
Lemma spells_weight w s : verbatim w -> spells w s -> length s = marks (snd w).
Proof.
  destruct w as [[|] t]; unfold verbatim, spells; cbn [fst snd]; intros Hv H.
  - destruct (Hv eq_refl) as [m ->]. apply (f_equal (@length N)) in H. rewrite !map_length in H. rewrite H. destruct m; reflexivity.
  - subst. reflexivity.
Qed.
Lemma told_weight ws text : Forall verbatim ws -> told ws text -> marks text = weight ws.
Proof.
  intros Hv (parts & E & H). unfold marks. rewrite E. clear E text. induction H as [|w s ws parts H1 _ IH]; [reflexivity|].
  inversion Hv; subst. cbn [concat]. rewrite app_length, IH by assumption. rewrite (spells_weight w s) by assumption. reflexivity.
Qed.
Lemma verbatim_word s : verbatim (word s).
Proof. intros H. discriminate. Qed.
Lemma verbatim_query p : Forall verbatim (query_words p).
Proof. repeat constructor; apply verbatim_word. Qed.
Lemma Forall_flat {A B} (P : B -> Prop) (f : A -> list B) l : (forall x, In x l -> Forall P (f x)) -> Forall P (flat_map f l).
Proof.
  intros H. apply Forall_forall. intros y Hy. apply in_flat_map in Hy. destruct Hy as (x & Hx & Hy).
  specialize (H x Hx). rewrite Forall_forall in H. apply H. exact Hy.
Qed.
Lemma verbatim_resource r : Forall verbatim (resource_words r).
Proof.
  unfold resource_words. constructor; [intros _; exists (r_method r); reflexivity|]. rewrite !Forall_app. repeat split.
  - destruct (r_is_redirect r); repeat constructor. apply verbatim_word.
  - apply Forall_flat. intros m _. repeat constructor; apply verbatim_word.
  - repeat constructor. apply verbatim_word.
  - apply Forall_flat. intros p _. apply verbatim_query.
Qed.
Lemma verbatim_routes b : Forall verbatim (routes_words b).
Proof.
  induction b as [rs ch q IH] using Routes_ind'. cbn [routes_words]. rewrite !Forall_app. repeat split.
  - apply Forall_flat. intros p _. apply verbatim_query.
  - apply Forall_flat. intros r _. apply verbatim_resource.
  - apply Forall_flat. intros [seg child] Hin. rewrite Forall_forall in IH. apply Forall_app. split; [|apply (IH _ Hin)].
    destruct seg; repeat constructor; apply verbatim_word.
Qed.
Lemma verbatim_config c : Forall verbatim (config_words c).
Proof.
  unfold config_words. rewrite !Forall_app. repeat split.
  - apply Forall_forall. intros w Hw. apply in_map_iff in Hw. destruct Hw as (h & <- & _). apply verbatim_word.
  - repeat constructor. apply verbatim_word.
  - apply verbatim_routes.
Qed.

(** The printed form. *)
Definition dash (n : nat) : nat := marks (indent n).
Fixpoint dashes (level : nat) (b : Routes) : nat :=
  match b with
  | mkRoutes rs ch q =>
      list_sum (map (fun _ : Param => dash level) q)
      + list_sum (map (fun r => dash level + list_sum (map (fun _ : Param => dash (S level)) (r_query r))) rs)
      + list_sum (map (fun nr : PathSegment * Routes => match nr with (_, child) => dash level + dashes (S level) child end) ch)
  end.
Lemma weight_param p : weight (param_words p) = marks (param_display p).
Proof. unfold param_words, param_display, weight. rewrite !marks_app. cbn [map word snd list_sum fold_right].
  change (marks (lit ":")) with 1. change (marks (lit ": ")) with 1. lia. Qed.
Lemma weight_query p : weight (query_words p) = 2 + marks (param_display p).
Proof.
  unfold query_words. change (weight (word (lit "[") :: ?l)) with (1 + weight l). rewrite weight_app, weight_param.
  change (weight [word (lit "]")]) with 1. lia.
Qed.
Lemma weight_resource level r :
  marks (resource_stringify level r) = weight (resource_words r) + (dash level + list_sum (map (fun _ : Param => dash (S level)) (r_query r))).
Proof.
  unfold resource_stringify, resource_words. rewrite !marks_app, !marks_concat, !map_map.
  change (weight (verb (r_method r) :: ?l)) with (marks (method_display (r_method r)) + weight l).
  rewrite !weight_app, !weight_flat.
  rewrite (sum_ext (fun x => weight (query_words x)) (fun p => 2 + marks (param_display p)))
    by (intros; apply weight_query).
  rewrite (sum_ext (fun x => marks ([c_nl] ++ indent (S level) ++ lit "[" ++ param_display x ++ lit "]"))
                   (fun p => (2 + marks (param_display p)) + dash (S level)))
    by (intros; rewrite !marks_app; change (marks [c_nl]) with 0; change (marks (lit "[")) with 1; change (marks (lit "]")) with 1;
        unfold dash; lia).
  rewrite sum_plus.
  rewrite (sum_ext (fun m => weight [word m; word (lit "::")]) (fun m => marks (m ++ lit "::")))
    by (intros; rewrite marks_app; unfold weight; cbn [map word snd list_sum fold_right]; lia).
  change (marks (lit " ")) with 0. change (marks [c_nl]) with 0.
  change (weight [word (r_name r)]) with (marks (r_name r) + 0). fold (dash level).
  destruct (r_is_redirect r).
  - change (marks (lit " ->")) with 2. change (weight [word (lit "->")]) with 2. lia.
  - change (marks (lit "")) with 0. change (weight []) with 0. lia.
Qed.
Lemma weight_segment s : weight (segment_words s) = marks (segment_stringify s).
Proof.
  destruct s as [t|p]; cbn [segment_words segment_stringify].
  - unfold weight. cbn [map word snd list_sum fold_right]. lia.
  - change (weight (word (lit "{") :: ?l)) with (1 + weight l). rewrite weight_app, weight_param, !marks_app. reflexivity.
Qed.
Lemma weight_routes : forall b level, marks (routes_stringify level b) = weight (routes_words b) + dashes level b.
Proof.
  induction b as [rs ch q IH] using Routes_ind'. intros level. cbn [routes_stringify routes_words dashes].
  rewrite !marks_app, !marks_concat, !map_map, !weight_app, !weight_flat.
  rewrite (sum_ext (fun x => marks (resource_stringify level x)) _ rs (fun r _ => weight_resource level r)).
  rewrite sum_plus.
  rewrite (sum_ext (fun x => marks (indent level ++ lit "[" ++ param_display x ++ lit "]" ++ [c_nl]))
                   (fun p => weight (query_words p) + dash level))
    by (intros; rewrite weight_query, !marks_app; change (marks [c_nl]) with 0; change (marks (lit "[")) with 1; change (marks (lit "]")) with 1;
        unfold dash; lia).
  rewrite sum_plus.
  rewrite Forall_forall in IH.
  rewrite (sum_ext (fun x : PathSegment * Routes => marks (let (seg, child) := x in indent level ++ segment_stringify seg ++ [c_nl] ++ routes_stringify (S level) child))
             (fun nr => weight (let (seg, child) := nr in segment_words seg ++ routes_words child)
                        + (let (_, child) := nr in dash level + dashes (S level) child))).
  2: { intros [seg child] Hin. rewrite !marks_app, weight_app, weight_segment, (IH _ Hin). change (marks [c_nl]) with 0.
       cbn [snd]. unfold dash. lia. }
  rewrite (sum_plus (fun nr : PathSegment * Routes => weight (let (seg, child) := nr in segment_words seg ++ routes_words child))
             (fun nr : PathSegment * Routes => let (_, child) := nr in dash level + dashes (S level) child)). lia.
Qed.
Lemma weight_config c : marks (config_stringify c) = weight (config_words c) + dashes 1 (c_routes c).
Proof.
  unfold config_stringify, config_words. rewrite !marks_app, !weight_app, weight_routes, marks_concat, map_map.
  unfold weight at 2. rewrite map_map. cbn [word snd].
  rewrite (sum_ext (fun x => marks (h_text x ++ [c_nl])) (fun h => marks (h_text h)))
    by (intros; rewrite marks_app; change (marks [c_nl]) with 0; lia).
  change (marks [c_nl]) with 0. change (marks (lit "/")) with 1. change (weight [word (lit "/")]) with 1.
  assert (E : forall b : bool, marks (if b then [] else [c_nl]) = 0) by (intros []; reflexivity). rewrite E. lia.
Qed.

Lemma dash_zero n : dash n = 0 -> n <= 7.
Proof. intros H. do 8 (destruct n as [|n]; [lia|]). discriminate. Qed.
Lemma dashes_block b p q x : block_at b p q x -> forall level, dashes level b = 0 -> dashes (level + length p) x = 0.
Proof.
  induction 1 as [b|b seg child p q x Hin _ IH]; intros level H; cbn [length]; [rewrite Nat.add_0_r; exact H|].
  rewrite Nat.add_succ_r. apply (IH (S level)). destruct b as [rs ch qs]. cbn [dashes rt_routes] in *.
  assert (E : list_sum (map (fun nr : PathSegment * Routes => let (_, child) := nr in dash level + dashes (S level) child) ch) = 0) by lia.
  apply (sum_zero _ _ _ E) in Hin. cbn beta iota in Hin. lia.
Qed.
Lemma dashes_fit ualnum c : wf_config ualnum c -> dashes 1 (c_routes c) = 0 -> lines_within 7 c.
Proof.
  intros [_ Hw] H p q b Hb. pose proof (dashes_block _ _ _ _ Hb 1 H) as Hd. specialize (Hw _ _ _ Hb).
  destruct Hw as [Hne _]. destruct b as [rs ch qs]. cbn [dashes rt_resources rt_routes] in *. split.
  - apply dash_zero. destruct Hne as [Hne|Hne].
    + destruct rs as [|r rs]; [congruence|]. cbn [map] in Hd. change (list_sum (?x :: ?l)) with (x + list_sum l) in Hd. lia.
    + destruct ch as [|[seg child] ch]; [congruence|]. cbn [map] in Hd. change (list_sum (?x :: ?l)) with (x + list_sum l) in Hd. lia.
  - intros r Hr Hq. apply dash_zero.
    assert (E : list_sum (map (fun r => dash (1 + length p) + list_sum (map (fun _ : Param => dash (S (1 + length p))) (r_query r))) rs) = 0) by lia.
    apply (sum_zero _ _ _ E) in Hr. cbn beta in Hr. destruct (r_query r) as [|x l]; [congruence|]. cbn [map] in Hr.
    change (list_sum (?x :: ?l)) with (x + list_sum l) in Hr. change (2 + length p) with (S (1 + length p)). lia.
Qed.
Lemma round_trip_iff ualnum c : wf_config ualnum c ->
  (route_config_p ualnum (config_stringify c) = POk [] c <-> lines_within 7 c).
Proof.
  intros Hw. split; [|apply round_trip; exact Hw]. intros H. apply parse_reads in H. destruct H as (_ & _ & H).
  apply told_weight in H; [|apply verbatim_config]. rewrite weight_config in H. apply (dashes_fit ualnum); [exact Hw|lia].
Qed.

(** For examples. *)
Definition lines_withinb (n : nat) (c : RouteConfig) : bool :=
  forallb (fun e : list PathSegment * list Param * Routes =>
    (1 + length (fst (fst e)) <=? n)%nat &&
    forallb (fun r => match r_query r with [] => true | _ => (2 + length (fst (fst e)) <=? n)%nat end) (rt_resources (snd e)))
    (blocks (c_routes c)).
Lemma lines_withinb_ok n c : lines_withinb n c = true -> lines_within n c.
Proof.
  unfold lines_withinb. rewrite forallb_forall. intros H p q b Hb. apply blocks_at in Hb. specialize (H _ Hb).
  cbn [fst snd] in H. apply andb_true_iff in H. destruct H as [H1 H2]. apply Nat.leb_le in H1. split; [exact H1|].
  intros r Hr Hq. rewrite forallb_forall in H2. specialize (H2 r Hr). destruct (r_query r); [congruence|].
  apply Nat.leb_le. exact H2.
Qed.
