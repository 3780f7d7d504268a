(** * SearchThms: exactly which requests end in an error, in a panic, or without a resource *)
From Verif Require Import Base Core Trie Flat MiniRust Gen Spec SpecMatch SpecPath
  BaseFacts TrieFacts NodeFacts RunFacts FlatFacts MatchFacts MatchProps MatchThms PathThms.

(** A text that goes on after some segments. *)
Definition under (segs : list bytes) (rest : bytes) : bytes :=
  concat (map (fun s => s ++ [c_slash]) segs) ++ rest.
Lemma under_nil rest : under [] rest = rest.
Proof. reflexivity. Qed.
Lemma under_cons s segs rest : under (s :: segs) rest = s ++ c_slash :: under segs rest.
Proof. unfold under. cbn [map concat]. rewrite <- !app_assoc. reflexivity. Qed.
Lemma under_join segs seg : under segs seg = join (segs ++ [seg]).
Proof.
  induction segs as [|s segs IH]; [reflexivity|]. rewrite under_cons, IH.
  cbn [app]. rewrite join_cons by (destruct segs; discriminate). reflexivity.
Qed.
Lemma under_app segs s t : under segs (s ++ t) = under segs s ++ t.
Proof. unfold under. apply app_assoc. Qed.

Section Search.
Context {T E : Type}.
Variable rt : runtime T E.
Let parse := rt_parse rt.
Notation tfind := (tree_find parse).

(** ** Going down *)
Lemma find_under : forall pat segs (vals : @args T), matches parse pat segs vals ->
  forall b q0 x q a rest, block_at b pat q0 x -> uncaptured b pat segs ->
  NoDup (block_paths b) -> every_block plain_statics b ->
  exists q' a', tfind b q a (under segs rest) = tfind x q' a' rest.
Proof.
  intros pat segs vals Hm.
  induction Hm as [|s pat segs vals Hm IH|p v seg pat segs vals Hns Hu Hp Hm IH];
    intros b q0 x q a rest Hb Hcap Hn Hpl.
  - inversion Hb; subst. exists q, a. reflexivity.
  - inversion Hb as [|? ? child ? q1 ? Hin Hb']; subst.
    inversion Hcap as [|? ? child' ? ? Hin' Hone Hcap'|]; subst.
    pose proof (every_block_here _ _ Hpl) as Hpb.
    rewrite <- (block_child_unique _ _ _ _ Hn Hin Hin') in Hcap'.
    destruct (Hpb s child Hin) as [_ Hs2].
    rewrite under_cons, find_choose by (auto; destruct s; discriminate).
    rewrite segment_unique by (auto; right; eexists; reflexivity). cbn [fst snd].
    rewrite (choose_static b s child Hn Hpb Hin Hone). cbn [go_in]. rewrite N.eqb_refl.
    apply (IH child q1); auto; [eapply block_paths_child|eapply every_block_child]; eauto.
  - inversion Hb as [|? ? child ? q1 ? Hin Hb']; subst.
    inversion Hcap as [| |? ? child' ? ? ? Hdyn Hone Hcap']; subst.
    pose proof (every_block_here _ _ Hpl) as Hpb.
    pose proof (proj1 (dynamic_children_In _ _ _) (least_in _ _ Hdyn)) as Hin'.
    rewrite <- (block_child_unique _ _ _ _ Hn Hin Hin') in *.
    rewrite under_cons, find_choose by (auto; destruct seg; discriminate).
    rewrite segment_unique by (auto; right; eexists; reflexivity). cbn [fst snd].
    rewrite (choose_dynamic b p child seg Hdyn Hone).
    unfold find_dyn. rewrite segment_unique by (auto; right; eexists; reflexivity). rewrite Hu, Hp.
    cbn [go_in]. rewrite N.eqb_refl.
    apply (IH child q1); auto; [eapply block_paths_child|eapply every_block_child]; eauto.
Qed.

(** ** Where it ends *)

(** In block [b] the rest [rest] of the text is given to the parameter [p]. *)
Definition given_to (b : Routes) (rest : bytes) (p : Param) (child : Routes) : Prop :=
  least_dynamic (dynamic_children (rt_routes b)) = Some (p, child) /\
  (forall s child', statics (rt_routes b) = [(s, child')] -> strip s (fst (segment rest)) = None) /\
  (rest = [] -> rt_resources b = [] /\ no_short_static b).
Lemma given_find b rest p child q a : plain_statics b -> given_to b rest p child ->
  tfind b q a rest = find_dyn parse p child (tfind child) (q ++ rt_query b) a rest.
Proof.
  intros Hp (Hl & Hs & He). destruct rest as [|c t].
  - destruct (He eq_refl) as [Hr Hn]. rewrite find_nil by exact Hp. rewrite Hr, Hl.
    destruct (statics (rt_routes b)) as [|[[|y [|z s]] c'] [|? ?]] eqn:Es; auto.
    exfalso. apply (Hn Hr (least_some _ _ Hl) _ _ Es). reflexivity.
  - rewrite find_choose by (auto; discriminate). rewrite (choose_dynamic b p child _ Hl Hs). reflexivity.
Qed.
Definition short_end (b : Routes) : Prop :=
  rt_resources b = [] /\ dynamic_children (rt_routes b) <> [] /\
  exists x child, statics (rt_routes b) = [([x], child)].
Lemma short_end_iff b : short_end b <-> ~ no_short_static b.
Proof.
  split.
  - intros (Hr & Hd & x & child & Hs) Hn. exact (Hn Hr Hd _ _ Hs eq_refl).
  - intros Hn. unfold no_short_static, short_end in *.
    destruct (rt_resources b); [|exfalso; apply Hn; discriminate].
    destruct (dynamic_children (rt_routes b)); [exfalso; apply Hn; congruence|].
    split; [reflexivity|]. split; [discriminate|].
    destruct (statics (rt_routes b)) as [|[[|y [|z s]] c'] [|? ?]]; try (exfalso; apply Hn; intros _ _ s0 c0 [=]; subst; discriminate).
    eauto.
Qed.
Lemma short_find b q a : plain_statics b -> short_end b -> tfind b q a [] = Stop.
Proof.
  intros Hp (Hr & Hd & x & child & Hs). rewrite find_nil by exact Hp. rewrite Hr, Hs.
  destruct (least_dynamic (dynamic_children (rt_routes b))) as [[p c]|] eqn:El; [reflexivity|].
  apply least_none in El. congruence.
Qed.

(** The last step of a search that ends in an error or a panic. *)
Definition last_step (b : Routes) (rest : bytes) (f : found T E) : Prop :=
  (exists p child, given_to b rest p child /\
     (utf8_valid (fst (segment rest)) = false /\ f = Stop \/
      utf8_valid (fst (segment rest)) = true /\ exists e, parse (p_typ p) (fst (segment rest)) = inr e /\ f = Bad p e)) \/
  (rest = [] /\ short_end b /\ f = Stop).
Lemma last_step_find b rest f q a : plain_statics b -> last_step b rest f -> tfind b q a rest = f.
Proof.
  intros Hp [(p & child & Hg & H)|(-> & Hs & ->)].
  - rewrite (given_find b rest p child q a Hp Hg). unfold find_dyn.
    destruct (segment rest) as [seg tail]. cbn [fst] in H. destruct H as [[Hu ->]|(Hu & e & He & ->)]; rewrite Hu; auto.
    rewrite He. reflexivity.
  - apply short_find; auto.
Qed.
Ltac no_end f Hf := exfalso; match goal with G : _ = f |- _ => rewrite <- G in Hf; exact Hf end.
Lemma find_ends : forall b q a text f, every_block plain_statics b -> tfind b q a text = f ->
  match f with Bad _ _ | Stop => True | _ => False end ->
  exists pat q0 x segs vals rest, block_at b pat q0 x /\ matches parse pat segs vals /\ uncaptured b pat segs /\
    text = under segs rest /\ last_step x rest f.
Proof.
  induction b as [b IH] using Routes_children_ind. intros q a text f Hpl H Hf.
  pose proof (every_block_here _ _ Hpl) as Hpb.
  assert (Hgo : forall seg child s qq aa tail, In (seg, child) (rt_routes b) ->
    go_in child (tfind child) qq aa tail = f ->
    exists pat q0 x segs vals rest, block_at child pat q0 x /\ matches parse pat segs vals /\ uncaptured child pat segs /\
      s ++ tail = under (s :: segs) rest /\ last_step x rest f).
  { intros seg child s qq aa tail Hin Hg. destruct tail as [|c t]; cbn [go_in] in Hg.
    - unfold here in Hg. destruct (rt_resources child); no_end f Hf.
    - destruct (N.eqb_spec c c_slash) as [->|]; [|no_end f Hf].
      destruct (IH _ _ Hin _ _ _ _ (every_block_child _ _ _ _ Hpl Hin) Hg Hf)
        as (pat & q0 & x & segs & vals & rest & H1 & H2 & H3 & H4 & H5).
      exists pat, q0, x, segs, vals, rest. split; [exact H1|]. split; [exact H2|]. split; [exact H3|].
      split; [rewrite under_cons, H4; reflexivity|exact H5]. }
  assert (Hdy : forall p child, given_to b text p child ->
    find_dyn parse p child (tfind child) (q ++ rt_query b) a text = f ->
    exists pat q0 x segs vals rest, block_at b pat q0 x /\ matches parse pat segs vals /\ uncaptured b pat segs /\
      text = under segs rest /\ last_step x rest f).
  { intros p child Hg Hd. pose proof Hg as (Hl & Hone & _). unfold find_dyn in Hd.
    pose proof (segment_app text) as Ha. pose proof (segment_no_slash text) as Hns.
    destruct (segment text) as [seg tail] eqn:Eseg. cbn [fst snd] in *.
    destruct (utf8_valid seg) eqn:Eu; [destruct (parse (p_typ p) seg) as [v|e] eqn:Ep|].
    - pose proof (proj1 (dynamic_children_In _ _ _) (least_in _ _ Hl)) as Hin.
      destruct (Hgo (Dynamic p) child seg _ _ _ Hin Hd) as (pat & q0 & x & segs & vals & rest & H1 & H2 & H3 & H4 & H5).
      exists (Dynamic p :: pat), (rt_query b ++ q0), x, (seg :: segs), ((p, v) :: vals), rest.
      split; [econstructor; eauto|]. split; [constructor; auto|]. split; [econstructor; eauto|].
      split; [congruence|exact H5].
    - exists [], (rt_query b), b, [], [], text. split; [constructor|]. split; [constructor|]. split; [constructor|].
      split; [reflexivity|]. left. exists p, child. split; [exact Hg|]. rewrite Eseg. right. eauto.
    - exists [], (rt_query b), b, [], [], text. split; [constructor|]. split; [constructor|]. split; [constructor|].
      split; [reflexivity|]. left. exists p, child. split; [exact Hg|]. rewrite Eseg. left. auto. }
  destruct text as [|c0 t0].
  - rewrite find_nil in H by exact Hpb. destruct (rt_resources b) as [|r rs] eqn:Er; [|no_end f Hf].
    destruct (least_dynamic (dynamic_children (rt_routes b))) as [[p child]|] eqn:El; [|no_end f Hf].
    assert (Hs : statics (rt_routes b) = [] \/ (exists x l, statics (rt_routes b) = x :: l)) by (destruct (statics (rt_routes b)); eauto).
    assert (Hcase : short_end b /\ f = Stop \/
                    no_short_static b /\ find_dyn parse p child (tfind child) (q ++ rt_query b) a [] = f).
    { unfold short_end, no_short_static. rewrite Er.
      destruct (statics (rt_routes b)) as [|[[|y [|z s]] c'] [|? ?]] eqn:Es;
        try (right; split; [intros _ _ s0 c0 [=]; subst; discriminate|exact H]).
      left. split; [|auto]. split; [reflexivity|]. split; [eapply least_some; eauto|eauto]. }
    destruct Hcase as [[Hsh ->]|[Hsh Hfd]].
    + exists [], (rt_query b), b, [], [], []. split; [constructor|]. split; [constructor|]. split; [constructor|].
      split; [reflexivity|]. right. auto.
    + apply (Hdy p child); auto. split; [exact El|]. split; [|auto].
      intros s c' Hst. assert (Hne : s <> []).
      { apply (Hpb s c'). apply statics_In. rewrite Hst. left. reflexivity. }
      destruct s; [congruence|reflexivity].
  - rewrite find_choose in H by (auto; discriminate).
    destruct (choose b (fst (segment (c0 :: t0)))) as [[[p|] child]|] eqn:Ec; [| |no_end f Hf].
    + destruct (choose_inv _ _ _ _ Ec) as [Hl Hone]. apply (Hdy p child); auto.
      split; [exact Hl|]. split; [exact Hone|discriminate].
    + pose proof (choose_inv _ _ _ _ Ec) as Hone. cbv beta iota in Hone. apply choose_in in Ec.
      pose proof (segment_app (c0 :: t0)) as Ha. set (s := fst (segment (c0 :: t0))) in *.
      destruct (Hgo (Static s) child s _ _ _ Ec H) as (pat & q0 & x & segs & vals & rest & H1 & H2 & H3 & H4 & H5).
      exists (Static s :: pat), (rt_query b ++ q0), x, (s :: segs), vals, rest.
      split; [econstructor; eauto|]. split; [constructor; exact H2|]. split; [econstructor; eauto|].
      split; [congruence|exact H5].
Qed.

(** ** One more parameter at the end of a path *)
Lemma uncaptured_snoc : forall pat b q x segs p child seg, block_at b pat q x -> uncaptured b pat segs ->
  NoDup (block_paths b) ->
  least_dynamic (dynamic_children (rt_routes x)) = Some (p, child) ->
  (forall s child', statics (rt_routes x) = [(s, child')] -> strip s seg = None) ->
  uncaptured b (pat ++ [Dynamic p]) (segs ++ [seg]).
Proof.
  induction pat as [|sg pat IH]; intros b q x segs p child seg Hb Hu Hn Hl Hs.
  - inversion Hb; inversion Hu; subst. cbn [app]. econstructor; eauto. constructor.
  - inversion Hb as [|? ? ch ? q1 ? Hin Hb']; subst.
    inversion Hu as [|? ? ch' ? ? Hin' Hone Hu'|? ? ch' ? ? ? Hd Hone Hu']; subst; cbn [app].
    + rewrite <- (block_child_unique _ _ _ _ Hn Hin Hin') in Hu'. apply (uncaptured_static _ _ ch); auto.
      eapply IH; eauto. eapply block_paths_child; eauto.
    + pose proof (proj1 (dynamic_children_In _ _ _) (least_in _ _ Hd)) as Hin'.
      rewrite <- (block_child_unique _ _ _ _ Hn Hin Hin') in *. apply (uncaptured_dynamic _ _ ch); auto.
      eapply IH; eauto. eapply block_paths_child; eauto.
Qed.
Lemma uncaptured_unsnoc : forall pat b segs p seg, uncaptured b (pat ++ [Dynamic p]) (segs ++ [seg]) ->
  exists q x child, block_at b pat q x /\ uncaptured b pat segs /\
    least_dynamic (dynamic_children (rt_routes x)) = Some (p, child) /\
    (forall s child', statics (rt_routes x) = [(s, child')] -> strip s seg = None).
Proof.
  induction pat as [|sg pat IH]; intros b segs p seg Hu.
  - destruct segs as [|s [|? ?]]; cbn [app] in Hu; inversion Hu as [| |? ? child ? ? ? Hd Hone Hu']; subst.
    + exists (rt_query b), b, child. split; [constructor|]. split; [constructor|]. auto.
    + inversion Hu'.
    + inversion Hu'.
  - destruct segs as [|s segs]; cbn [app] in Hu.
    { exfalso. assert (Hl : forall b p s, uncaptured b p s -> length p = length s).
      { clear. induction 1; simpl; congruence. }
      apply Hl in Hu. cbn [length] in Hu. rewrite app_length in Hu. cbn [length] in Hu. lia. }
    inversion Hu as [|? ? ch ? ? Hin Hone Hu'|? ? ch ? ? ? Hd Hone Hu']; subst;
      destruct (IH _ _ _ _ Hu') as (q & x & child & H1 & H2 & H3 & H4).
    + exists (rt_query b ++ q), x, child. split; [econstructor; eauto|]. split; [econstructor; eauto|]. auto.
    + exists (rt_query b ++ q), x, child. split; [|split; [econstructor; eauto|auto]].
      econstructor; eauto. apply dynamic_children_In. apply least_in. exact Hd.
Qed.
Lemma open_snoc : forall pat b q x p, block_at b pat q x -> NoDup (block_paths b) ->
  open_end b (pat ++ [Dynamic p]) <-> rt_resources x = [] /\ no_short_static x.
Proof.
  induction pat as [|sg pat IH]; intros b q x p Hb Hn; inversion Hb as [|? ? ch ? q1 ? Hin Hb']; subst; cbn [app].
  - split; [intros Ho|intros [H1 H2]; constructor; auto].
    inversion Ho as [? ? H1 H2|? ? ? ? _ Ho']; subst; [auto|inversion Ho'].
  - rewrite <- (IH ch q1 x p Hb') by (eapply block_paths_child; eauto). split; [intros Ho|intros Ho; econstructor; eauto].
    inversion Ho as [? ? H1 H2 E0|? ? ch' ? Hin' Ho']; subst.
    + destruct pat; discriminate.
    + rewrite (block_child_unique _ _ _ _ Hn Hin Hin'). exact Ho'.
Qed.

(** ** Requests *)
Lemma read_as_iff b text pat segs p seg : NoDup (block_paths b) ->
  read_as parse b text pat segs p seg <->
  exists q0 x child rest vals, block_at b pat q0 x /\ matches parse pat segs vals /\ uncaptured b pat segs /\
    text = under segs rest /\ given_to x rest p child /\ fst (segment rest) = seg.
Proof.
  intros Hn. split.
  - intros (Hu & [a Ha] & Hns & tail & Ht & Hl & Ho).
    destruct (uncaptured_unsnoc _ _ _ _ _ Hu) as (q & x & child & H1 & H2 & H3 & H4).
    assert (Hseg : segment (seg ++ tail) = (seg, tail)) by (apply segment_unique; auto).
    exists q, x, child, (seg ++ tail), a. split; [exact H1|]. split; [exact Ha|]. split; [exact H2|].
    split; [rewrite under_app, under_join; exact Ht|]. split; [|rewrite Hseg; reflexivity].
    split; [exact H3|]. rewrite Hseg. split; [exact H4|]. intros E0. apply app_eq_nil in E0. destruct E0 as [E1 E2].
    eapply (open_snoc pat b q x p); eauto.
  - intros (q0 & x & child & rest & vals & H1 & H2 & H3 & H4 & (H5 & H6 & H7) & H8).
    pose proof (segment_app rest) as Ha. pose proof (segment_no_slash rest) as Hns. pose proof (segment_tail rest) as Hl.
    rewrite H8 in *. split; [eapply uncaptured_snoc; eauto|]. split; [eauto|]. split; [exact Hns|].
    exists (snd (segment rest)). split; [rewrite <- under_join, <- under_app, Ha; exact H4|]. split; [exact Hl|].
    intros E1 E2. apply (open_snoc pat b q0 x p); auto. apply H7. rewrite <- Ha, E1, E2. reflexivity.
Qed.

Lemma match_error c path method name e : runnable c -> every_block plain_statics (c_routes c) ->
  match_route rt c path method = Some (RunResult (MError name e)) <->
  exists pat segs p seg, read_as parse (c_routes c) (no_slash path) pat segs p seg /\
    utf8_valid seg = true /\ parse (p_typ p) seg = inr e /\ p_name p = name.
Proof.
  intros Hc Hp. pose proof (compiles_paths c (proj1 Hc)) as Hn. rewrite match_eq by exact Hc. split.
  - intros H. destruct (tree_find (rt_parse rt) (c_routes c) [] [] (no_slash path)) as [b q a| |p e'|] eqn:Ef; cbn [finish] in H; try discriminate.
    { exfalso. destruct (answer_cases rt method b q a) as [(r & _ & Ha)|[_ Ha]]; rewrite Ha in H; [destruct (r_is_redirect r)|]; discriminate. }
    injection H as <- <-.
    destruct (find_ends _ _ _ _ _ Hp Ef I) as (pat & q0 & x & segs & vals & rest & H1 & H2 & H3 & H4 & H5).
    destruct H5 as [(p' & child & Hg & [[_ H]|(Hu & e0 & He & H)])|(_ & _ & H)]; try discriminate.
    injection H as <- <-. exists pat, segs, p, (fst (segment rest)). split; [|auto].
    apply read_as_iff; [exact Hn|]. exists q0, x, child, rest, vals. auto 10.
  - intros (pat & segs & p & seg & Hr & Hu & He & <-).
    apply read_as_iff in Hr; [|exact Hn]. destruct Hr as (q0 & x & child & rest & vals & H1 & H2 & H3 & H4 & H5 & H6).
    destruct (find_under pat segs vals H2 (c_routes c) q0 x [] [] rest H1 H3 Hn Hp) as (q' & a' & Hf).
    fold parse. rewrite H4, Hf.
    rewrite (last_step_find x rest (Bad p e)).
    + reflexivity.
    + apply (Hp pat q0 x H1).
    + left. exists p, child. split; [exact H5|]. rewrite H6. right. eauto.
Qed.
Lemma match_panic c path method : runnable c -> every_block plain_statics (c_routes c) ->
  match_route rt c path method = Some RunPanic <->
  (exists pat segs p seg, read_as parse (c_routes c) (no_slash path) pat segs p seg /\ utf8_valid seg = false) \/
  (exists pat q b segs a, block_at (c_routes c) pat q b /\ ~ no_short_static b /\ matches parse pat segs a /\
     uncaptured (c_routes c) pat segs /\ no_slash path = concat (map (fun s => s ++ [c_slash]) segs)).
Proof.
  intros Hc Hp. pose proof (compiles_paths c (proj1 Hc)) as Hn. rewrite match_eq by exact Hc. split.
  - intros H. destruct (tree_find (rt_parse rt) (c_routes c) [] [] (no_slash path)) as [b q a| |p e'|] eqn:Ef; cbn [finish] in H; try discriminate.
    { exfalso. destruct (answer_cases rt method b q a) as [(r & _ & Ha)|[_ Ha]]; rewrite Ha in H; [destruct (r_is_redirect r)|]; discriminate. }
    destruct (find_ends _ _ _ _ _ Hp Ef I) as (pat & q0 & x & segs & vals & rest & H1 & H2 & H3 & H4 & H5).
    destruct H5 as [(p' & child & Hg & [[Hu _]|(Hu & e0 & He & H5)])|(-> & Hs & _)]; try discriminate.
    + left. exists pat, segs, p', (fst (segment rest)). split; [|auto].
      apply read_as_iff; [exact Hn|]. exists q0, x, child, rest, vals. auto 10.
    + right. exists pat, q0, x, segs, vals. split; [exact H1|]. split; [apply short_end_iff; exact Hs|].
      split; [exact H2|]. split; [exact H3|]. rewrite H4. unfold under. apply app_nil_r.
  - intros [(pat & segs & p & seg & Hr & Hu)|(pat & q0 & x & segs & vals & H1 & Hs & H2 & H3 & H4)].
    + apply read_as_iff in Hr; [|exact Hn]. destruct Hr as (q0 & x & child & rest & vals & H1 & H2 & H3 & H4 & H5 & H6).
      destruct (find_under pat segs vals H2 (c_routes c) q0 x [] [] rest H1 H3 Hn Hp) as (q' & a' & Hf).
      fold parse. rewrite H4, Hf. rewrite (last_step_find x rest Stop).
      * reflexivity.
      * apply (Hp pat q0 x H1).
      * left. exists p, child. split; [exact H5|]. rewrite H6. left. auto.
    + destruct (find_under pat segs vals H2 (c_routes c) q0 x [] [] [] H1 H3 Hn Hp) as (q' & a' & Hf).
      fold parse. replace (no_slash path) with (under segs []) by (rewrite H4; unfold under; apply app_nil_r).
      rewrite Hf, (last_step_find x [] Stop).
      * reflexivity.
      * apply (Hp pat q0 x H1).
      * right. split; [reflexivity|]. split; [apply short_end_iff; exact Hs|reflexivity].
Qed.

Lemma match_not_allowed c path method : runnable c -> every_block plain_statics (c_routes c) ->
  match_route rt c path method = Some (RunResult MNotAllowed) <->
  exists pat q b segs a,
    block_at (c_routes c) pat q b /\ rt_resources b <> [] /\ no_resource_for method b /\
    reads (c_routes c) (no_slash path) pat segs /\ matches parse pat segs a /\ uncaptured (c_routes c) pat segs.
Proof.
  intros Hc Hp. pose proof (compiles_paths c (proj1 Hc)) as Hn. rewrite not_allowed_iff by exact Hc. split.
  - intros (b & q & a & Hf & Hno).
    destruct (find_sound (rt_parse rt) _ _ _ _ _ _ _ Hf) as [Hr _].
    destruct (found_reads rt _ _ _ _ _ _ _ Hp Hf) as (pat & segs & vals & q0 & H1 & H2 & H3 & H4 & H5 & H6).
    exists pat, q0, b, segs, vals. repeat (split; [assumption|]). exact H5.
  - intros (pat & q & b & segs & a & H1 & H2 & H3 & H4 & H5 & H6).
    exists b, q, a. split; [|exact H3]. exact (find_reads rt pat segs a H5 (c_routes c) q b [] [] _ H1 H6 Hn Hp H2 H4).
Qed.
Lemma match_not_found c path method : runnable c -> every_block plain_statics (c_routes c) ->
  match_route rt c path method = Some (RunResult MNotFound) <->
  ~ (exists pat q b segs a, block_at (c_routes c) pat q b /\ rt_resources b <> [] /\
       reads (c_routes c) (no_slash path) pat segs /\ matches parse pat segs a /\ uncaptured (c_routes c) pat segs) /\
  ~ (exists pat segs p seg, read_as parse (c_routes c) (no_slash path) pat segs p seg /\
       (utf8_valid seg = false \/ exists e, parse (p_typ p) seg = inr e)) /\
  ~ (exists pat q b segs a, block_at (c_routes c) pat q b /\ ~ no_short_static b /\ matches parse pat segs a /\
       uncaptured (c_routes c) pat segs /\ no_slash path = concat (map (fun s => s ++ [c_slash]) segs)).
Proof.
  intros Hc Hp. pose proof (compiles_paths c (proj1 Hc)) as Hn. split.
  - intros H. split; [|split].
    + intros (pat & q & b & segs & a & H1 & H2 & H4 & H5 & H6). apply not_found_iff in H; [|exact Hc].
      rewrite (find_reads rt pat segs a H5 (c_routes c) q b [] [] _ H1 H6 Hn Hp H2 H4) in H. discriminate.
    + intros (pat & segs & p & seg & Hr & Hx). destruct (utf8_valid seg) eqn:Eu.
      * destruct Hx as [Hx|[e He]]; [discriminate|].
        assert (G : match_route rt c path method = Some (RunResult (MError (p_name p) e))) by (apply match_error; eauto 10).
        congruence.
      * assert (G : match_route rt c path method = Some RunPanic) by (apply match_panic; eauto 10). congruence.
    + intros Hx. assert (G : match_route rt c path method = Some RunPanic) by (apply match_panic; auto). congruence.
  - intros (H1 & H2 & H3). apply not_found_iff; [exact Hc|].
    destruct (tree_find (rt_parse rt) (c_routes c) [] [] (no_slash path)) as [b q a| |p e|] eqn:Ef; [| reflexivity| |]; exfalso.
    + destruct (find_sound (rt_parse rt) _ _ _ _ _ _ _ Ef) as [Hr _].
      destruct (found_reads rt _ _ _ _ _ _ _ Hp Ef) as (pat & segs & vals & q0 & G1 & G2 & G3 & G4 & G5 & G6).
      apply H1. exists pat, q0, b, segs, vals. auto.
    + assert (G : match_route rt c path method = Some (RunResult (MError (p_name p) e))) by (rewrite match_eq, Ef by exact Hc; reflexivity).
      apply match_error in G; auto. destruct G as (pat & segs & p' & seg & G1 & G2 & G3 & G4). apply H2. exists pat, segs, p', seg. eauto.
    + assert (G : match_route rt c path method = Some RunPanic) by (rewrite match_eq, Ef by exact Hc; reflexivity).
      apply match_panic in G; auto. destruct G as [(pat & segs & p & seg & G1 & G2)|G]; [apply H2|apply H3; exact G].
      exists pat, segs, p, seg. auto.
Qed.
End Search.
