(** * TextFacts: texts as bytes *)
From Verif Require Import Base BaseFacts Core Flat MiniRust Gen Spec SpecMatch SpecText MatchThms.
Local Open Scope N_scope.


Lemma div_digit a b : b < 64 -> (64 * a + b) / 64 = a.
Proof. intros H. symmetry. apply (N.div_unique _ _ _ b); lia. Qed.
Lemma mod_digit a b : b < 64 -> (64 * a + b) mod 64 = b.
Proof. intros H. symmetry. apply (N.mod_unique _ _ a); lia. Qed.
Lemma div_4096 c : c / 4096 = c / 64 / 64.
Proof. rewrite N.div_div by discriminate. reflexivity. Qed.
Lemma div_262144 c : c / 262144 = c / 64 / 64 / 64.
Proof. rewrite !N.div_div by discriminate. reflexivity. Qed.

Lemma encodes_utf8 c b : encodes c b <-> is_scalar c = true /\ b = utf8_char c.
Proof.
  unfold is_scalar, utf8_char. rewrite orb_true_iff, andb_true_iff, !N.ltb_lt, N.leb_le. split.
  - intros H. inversion H as [c' H1|x y c' H1 H2 H3|x y z c' H1 H2 H3 H4 H5|x y z w c' H1 H2 H3 H4 H5]; subst c'; subst b.
    + split; [lia|]. destruct (N.ltb_spec c 128); [reflexivity|lia].
    + split; [lia|]. destruct (N.ltb_spec c 128); [lia|]. destruct (N.ltb_spec c 2048); [|lia].
      rewrite H1, div_digit, mod_digit by assumption. reflexivity.
    + split; [lia|]. destruct (N.ltb_spec c 128); [lia|]. destruct (N.ltb_spec c 2048); [lia|].
      destruct (N.ltb_spec c 65536); [|lia].
      rewrite div_4096, H1, !div_digit, !mod_digit by assumption. reflexivity.
    + split; [lia|]. destruct (N.ltb_spec c 128); [lia|]. destruct (N.ltb_spec c 2048); [lia|].
      destruct (N.ltb_spec c 65536); [lia|].
      rewrite div_262144, div_4096, H1, !div_digit, !mod_digit by assumption. reflexivity.
  - intros [Hs ->].
    destruct (N.ltb_spec c 128); [constructor; assumption|].
    pose proof (N.div_mod' c 64) as E1. pose proof (N.mod_lt c 64 ltac:(discriminate)) as M1.
    destruct (N.ltb_spec c 2048); [apply encodes_2; lia|].
    pose proof (N.div_mod' (c / 64) 64) as E2. pose proof (N.mod_lt (c / 64) 64 ltac:(discriminate)) as M2.
    destruct (N.ltb_spec c 65536); [rewrite div_4096; apply encodes_3; lia|].
    pose proof (N.div_mod' (c / 64 / 64) 64) as E3. pose proof (N.mod_lt (c / 64 / 64) 64 ltac:(discriminate)) as M3.
    rewrite div_262144, div_4096. apply encodes_4; lia.
Qed.
Lemma encoded_utf8 s b : encoded s b <-> Forall (fun c => is_scalar c = true) s /\ b = utf8 s.
Proof.
  split.
  - induction 1 as [|c s b rest H _ [IH1 IH2]]; [split; constructor|]. apply encodes_utf8 in H. destruct H as [H ->].
    subst rest. split; [constructor; assumption|reflexivity].
  - intros [H ->]. induction H as [|c s Hc _ IH]; [constructor|].
    unfold utf8. cbn [flat_map]. apply encoded_cons; [|exact IH]. apply encodes_utf8. auto.
Qed.

(** ** What [from_utf8] accepts *)
Lemma in_range_iff lo hi b : in_range lo hi b = true <-> lo <= b <= hi.
Proof. unfold in_range. rewrite andb_true_iff, !N.leb_le. tauto. Qed.
Lemma encodes_valid c b rest : encodes c b -> utf8_valid (b ++ rest) = utf8_valid rest.
Proof.
  intros H. inversion H as [c' H1|x y c' H1 H2 H3|x y z c' H1 H2 H3 H4 H5|x y z w c' H1 H2 H3 H4 H5]; subst c'; subst b;
    cbn [app utf8_valid].
  - destruct (N.ltb_spec c 128); [reflexivity|lia].
  - destruct (N.ltb_spec (192 + x) 128); [lia|].
    destruct (in_range 194 223 (192 + x)) eqn:R; [|apply not_true_iff_false in R; rewrite in_range_iff in R; lia].
    unfold is_cont. replace (in_range 128 191 (128 + y)) with true; [reflexivity|].
    symmetry. apply in_range_iff. lia.
  - destruct (N.ltb_spec (224 + x) 128); [lia|].
    destruct (in_range 194 223 (224 + x)) eqn:R; [apply in_range_iff in R; lia|]. clear R.
    destruct (in_range 224 239 (224 + x)) eqn:R; [|apply not_true_iff_false in R; rewrite in_range_iff in R; lia].
    match goal with |- ?a && ?b && ?c = _ => assert (Ha : a = true); [|assert (Hb : b = true); [|rewrite Ha, Hb; reflexivity]] end.
    + unfold is_cont. rewrite !orb_true_iff, !andb_true_iff, !N.eqb_eq, !in_range_iff. lia.
    + apply in_range_iff. lia.
  - destruct (N.ltb_spec (240 + x) 128); [lia|].
    destruct (in_range 194 223 (240 + x)) eqn:R; [apply in_range_iff in R; lia|]. clear R.
    destruct (in_range 224 239 (240 + x)) eqn:R; [apply in_range_iff in R; lia|]. clear R.
    destruct (in_range 240 244 (240 + x)) eqn:R; [|apply not_true_iff_false in R; rewrite in_range_iff in R; lia].
    match goal with |- ?a && ?b && ?d && ?c = _ =>
      assert (Ha : a = true); [|assert (Hb : b = true); [|assert (Hd : d = true); [|rewrite Ha, Hb, Hd; reflexivity]]] end.
    + unfold is_cont. rewrite !orb_true_iff, !andb_true_iff, !N.eqb_eq, !in_range_iff. lia.
    + apply in_range_iff. lia.
    + apply in_range_iff. lia.
Qed.
Lemma valid_encodes b0 l : utf8_valid (b0 :: l) = true ->
  exists c b rest, b0 :: l = b ++ rest /\ encodes c b /\ utf8_valid rest = true.
Proof.
  cbn [utf8_valid]. destruct (N.ltb_spec b0 128) as [H|H].
  { intros V. exists b0, [b0], l. split; [reflexivity|]. split; [constructor; assumption|exact V]. }
  destruct (in_range 194 223 b0) eqn:R.
  { apply in_range_iff in R. destruct l as [|b1 l]; [discriminate|]. rewrite andb_true_iff. unfold is_cont. rewrite in_range_iff.
    intros [H1 V]. exists (64 * (b0 - 192) + (b1 - 128)), [b0; b1], l. split; [reflexivity|]. split; [|exact V].
    replace [b0; b1] with [192 + (b0 - 192); 128 + (b1 - 128)] by (repeat f_equal; lia). apply encodes_2; lia. }
  destruct (in_range 224 239 b0) eqn:R3.
  { apply in_range_iff in R3. destruct l as [|b1 [|b2 l]]; try discriminate. unfold is_cont.
    rewrite !andb_true_iff, !orb_true_iff, !andb_true_iff, !N.eqb_eq, !in_range_iff.
    intros [[H1 H2] V]. exists (64 * (64 * (b0 - 224) + (b1 - 128)) + (b2 - 128)), [b0; b1; b2], l.
    split; [reflexivity|]. split; [|exact V].
    replace [b0; b1; b2] with [224 + (b0 - 224); 128 + (b1 - 128); 128 + (b2 - 128)] by (repeat f_equal; lia).
    apply encodes_3; lia. }
  destruct (in_range 240 244 b0) eqn:R4; [|discriminate].
  apply in_range_iff in R4. destruct l as [|b1 [|b2 [|b3 l]]]; try discriminate. unfold is_cont.
  rewrite !andb_true_iff, !orb_true_iff, !andb_true_iff, !N.eqb_eq, !in_range_iff.
  intros [[[H1 H2] H3] V].
  exists (64 * (64 * (64 * (b0 - 240) + (b1 - 128)) + (b2 - 128)) + (b3 - 128)), [b0; b1; b2; b3], l.
  split; [reflexivity|]. split; [|exact V].
  replace [b0; b1; b2; b3] with [240 + (b0 - 240); 128 + (b1 - 128); 128 + (b2 - 128); 128 + (b3 - 128)] by (repeat f_equal; lia).
  apply encodes_4; lia.
Qed.
Lemma encodes_long c b : encodes c b -> (0 < length b)%nat.
Proof. intros H. inversion H; subst; cbn; lia. Qed.
Theorem valid_encoded b : utf8_valid b = true <-> exists s, encoded s b.
Proof.
  split.
  - remember (length b) as n eqn:Hn. assert (Hl : (length b <= n)%nat) by lia. clear Hn. revert b Hl.
    induction n as [|n IH]; intros [|b0 l] Hl V; try (exists []; constructor); [cbn in Hl; lia|].
    apply valid_encodes in V. destruct V as (c & b & rest & E & Hc & V). rewrite E in *.
    pose proof (encodes_long _ _ Hc). rewrite app_length in Hl.
    destruct (IH rest ltac:(lia) V) as [s Hs]. exists (c :: s). constructor; assumption.
  - intros [s H]. induction H as [|c s b rest H _ IH]; [reflexivity|]. rewrite (encodes_valid _ _ _ H). exact IH.
Qed.

(** ** Only one text has these bytes *)
Lemma cons_same (x y : N) l l' : x :: l = y :: l' -> x = y /\ l = l'.
Proof. intros [= -> ->]. auto. Qed.
Lemma encodes_unique c b r c' b' r' : encodes c b -> encodes c' b' -> b ++ r = b' ++ r' -> c = c' /\ r = r'.
Proof.
  intros H H' E.
  inversion H as [d H1|x y d H1 H2 H3|x y z d H1 H2 H3 H4 H5|x y z w d H1 H2 H3 H4 H5]; subst d; subst b;
  inversion H' as [d G1|x' y' d G1 G2 G3|x' y' z' d G1 G2 G3 G4 G5|x' y' z' w' d G1 G2 G3 G4 G5]; subst d; subst b';
  cbn [app] in E; repeat (apply cons_same in E; let D := fresh "D" in destruct E as [D E]);
  solve [split; [lia|assumption] | exfalso; lia].
Qed.
Theorem encoded_unique s s' b : encoded s b -> encoded s' b -> s = s'.
Proof.
  intros H. revert s'. induction H as [|c s b rest H _ IH]; intros s' H'.
  - inversion H' as [|c' s0 b' rest' H1 H2]; [reflexivity|]. apply encodes_long in H1.
    destruct b'; [cbn in H1; lia|discriminate].
  - inversion H' as [E1 E2|c' s0 b' rest' H1 H2 E1 E2].
    + apply encodes_long in H. destruct b; [cbn in H; lia|discriminate].
    + destruct (encodes_unique _ _ _ _ _ _ H H1 (eq_sym E2)) as [-> ->]. f_equal. apply IH. exact H2.
Qed.

(** ** Cutting at slashes before and after encoding *)
Lemma utf8_cons c s : utf8 (c :: s) = utf8_char c ++ utf8 s.
Proof. reflexivity. Qed.
Lemma utf8_app a b : utf8 (a ++ b) = utf8 a ++ utf8 b.
Proof. unfold utf8. apply flat_map_app. Qed.
Lemma char_bytes c : c < 128 /\ utf8_char c = [c] \/ 128 <= c /\ Forall (fun b => 128 <= b) (utf8_char c) /\ utf8_char c <> [].
Proof.
  unfold utf8_char. destruct (N.ltb_spec c 128); [left; auto|right]. split; [assumption|].
  destruct (_ <? _); [|destruct (_ <? _)]; (split; [|discriminate]); repeat (apply Forall_cons; [match goal with |- context [_ + ?x] => generalize x; intros; lia end|]);
    apply Forall_nil.
Qed.
Lemma cut_slash s : forall a b, utf8 s = a ++ c_slash :: b ->
  exists s1 s2, s = s1 ++ c_slash :: s2 /\ utf8 s1 = a /\ utf8 s2 = b.
Proof.
  assert (Hslash : c_slash = 47) by reflexivity.
  induction s as [|c s IH]; intros a b E; [destruct a; discriminate|]. rewrite utf8_cons in E.
  assert (Hgo : forall bs a, bs ++ utf8 s = a ++ c_slash :: b -> Forall (fun b => b <> c_slash) bs ->
            exists a', a = bs ++ a' /\ utf8 s = a' ++ c_slash :: b).
  { clear IH E a. induction bs as [|x bs IH]; intros a E H; [exists a; auto|]. inversion H; subst.
    destruct a as [|y a]; [apply cons_same in E; destruct E; congruence|].
    cbn [app] in E. apply cons_same in E. destruct E as [<- E].
    destruct (IH a E) as (a' & -> & E'); [assumption|]. exists a'. auto. }
  destruct (char_bytes c) as [[Hc Hu]|(Hc & Hu & _)].
  - rewrite Hu in E. destruct (N.eq_dec c c_slash) as [->|Hn].
    + destruct a as [|y a].
      * apply cons_same in E. destruct E as [_ E]. exists [], s. auto.
      * cbn [app] in E. apply cons_same in E. destruct E as [<- E].
        destruct (IH _ _ E) as (s1 & s2 & -> & E1 & E2). exists (c_slash :: s1), s2.
        rewrite utf8_cons, E1, Hu. auto.
    + destruct (Hgo [c] a E) as (a' & -> & E'); [constructor; [exact Hn|constructor]|].
      destruct (IH _ _ E') as (s1 & s2 & -> & E1 & E2). exists (c :: s1), s2. rewrite utf8_cons, E1, Hu. auto.
  - destruct (Hgo (utf8_char c) a E) as (a' & -> & E').
    { eapply Forall_impl; [|exact Hu]. cbn. intros. lia. }
    destruct (IH _ _ E') as (s1 & s2 & -> & E1 & E2). exists (c :: s1), s2. rewrite utf8_cons, E1. auto.
Qed.
Lemma no_slash_utf8 s : no_slash (utf8 s) = utf8 (no_slash s).
Proof.
  destruct s as [|c s]; [reflexivity|]. rewrite utf8_cons.
  destruct (char_bytes c) as [[Hc Hu]|(Hc & Hu & Hne)].
  - rewrite Hu. cbn [app no_slash]. destruct (N.eqb c c_slash); [reflexivity|]. rewrite utf8_cons, Hu. reflexivity.
  - cbn [no_slash]. destruct (N.eqb_spec c c_slash) as [->|Hn]; [unfold c_slash in Hc; cbn in Hc; lia|].
    rewrite utf8_cons. destruct (utf8_char c) as [|x bs]; [contradiction|]. cbn [app no_slash].
    inversion Hu; subst. destruct (N.eqb_spec x c_slash) as [->|_]; [unfold c_slash in *; lia|]. reflexivity.
Qed.
Lemma join_utf8 bsegs : forall s, utf8 s = join bsegs -> exists segs, s = join segs /\ bsegs = map utf8 segs.
Proof.
  induction bsegs as [|x l IH]; intros s E.
  - exists []. split; [|reflexivity]. destruct s as [|c s]; [reflexivity|]. rewrite utf8_cons in E.
    destruct (char_bytes c) as [[_ Hu]|(_ & _ & Hu)]; destruct (utf8_char c); try discriminate. contradiction.
  - destruct l as [|y l].
    + cbn [join] in E. exists [s]. rewrite <- E. auto.
    + change (join (x :: y :: l)) with (x ++ c_slash :: join (y :: l)) in E.
      destruct (cut_slash _ _ _ E) as (s1 & s2 & -> & <- & E2).
      destruct (IH _ E2) as (segs & -> & E3). exists (s1 :: segs). cbn [map]. rewrite <- E3.
      split; [|reflexivity]. destruct segs; [discriminate|]. reflexivity.
Qed.
Lemma spells_utf8 s bsegs : spells (utf8 s) bsegs -> exists segs, spells s segs /\ bsegs = map utf8 segs.
Proof.
  unfold spells. rewrite no_slash_utf8. generalize (no_slash s). clear s. intros s [E|[Hn E]].
  - destruct (join_utf8 _ _ E) as (segs & -> & ->). exists segs. split; [left|]; reflexivity.
  - destruct (cut_slash _ _ _ E) as (s1 & s2 & -> & E1 & E2).
    destruct (join_utf8 _ _ E1) as (segs & -> & ->). exists segs. split; [|reflexivity].
    right. split; [intros ->; apply Hn; reflexivity|]. f_equal. f_equal.
    destruct s2 as [|c s2]; [reflexivity|]. rewrite utf8_cons in E2.
    destruct (char_bytes c) as [[_ Hu]|(_ & _ & Hu)]; destruct (utf8_char c); try discriminate. contradiction.
Qed.
Lemma utf8_nil s : utf8 s = [] -> s = [].
Proof.
  destruct s as [|c s]; [reflexivity|]. rewrite utf8_cons. intros E.
  destruct (char_bytes c) as [[_ Hu]|(_ & _ & Hu)]; destruct (utf8_char c); try discriminate. contradiction.
Qed.
Lemma split_bytes bs l : Forall (fun b => b <> c_slash) bs ->
  split_slash (bs ++ l) = match split_slash l with x :: r => (bs ++ x) :: r | [] => [bs] end.
Proof.
  assert (Hn : split_slash l <> []).
  { destruct l as [|x l]; [discriminate|]. cbn [split_slash]. destruct (N.eqb _ _); [discriminate|]. destruct (split_slash l); discriminate. }
  induction 1 as [|x bs Hx _ IH]; cbn [app]; [destruct (split_slash l); [contradiction|reflexivity]|].
  cbn [split_slash]. rewrite IH. destruct (N.eqb_spec x c_slash); [contradiction|]. destruct (split_slash l); reflexivity.
Qed.
Lemma split_utf8 s : split_slash (utf8 s) = map utf8 (split_slash s).
Proof.
  induction s as [|c s IH]; [reflexivity|]. rewrite utf8_cons. cbn [split_slash].
  destruct (N.eqb_spec c c_slash) as [->|Hn].
  - change (utf8_char c_slash) with [c_slash]. cbn [app split_slash]. rewrite N.eqb_refl, IH. reflexivity.
  - rewrite split_bytes, IH.
    + destruct (split_slash s) as [|x r]; cbn [map]; rewrite ?utf8_cons; [rewrite app_nil_r|]; reflexivity.
    + destruct (char_bytes c) as [[_ ->]|(Hc & Hu & _)]; [constructor; [exact Hn|constructor]|].
      eapply Forall_impl; [|exact Hu]. cbn. unfold c_slash. intros. lia.
Qed.
Theorem segments_utf8 s : request_segments (utf8 s) = map utf8 (request_segments s).
Proof.
  unfold request_segments. rewrite no_slash_utf8. generalize (no_slash s). clear s. intros s.
  unfold pieces. rewrite split_utf8. generalize (split_slash s). clear s. intros l.
  assert (Hl : last (map utf8 l) [] = utf8 (last l [])).
  { induction l as [|x [|y l] IH]; [reflexivity|reflexivity|exact IH]. }
  assert (Hr : removelast (map utf8 l) = map utf8 (removelast l)).
  { clear. induction l as [|x [|y l] IH]; [reflexivity|reflexivity|]. cbn [map removelast] in *. rewrite IH. reflexivity. }
  rewrite Hl, Hr. destruct (last l []) as [|c t] eqn:El; [reflexivity|].
  destruct (utf8 (c :: t)) eqn:Eu; [apply utf8_nil in Eu; discriminate|reflexivity].
Qed.

(** ** Requests that are texts *)
Theorem text_sound {T E} (rt : runtime T E) c s path method redirect v :
  runnable c -> encoded s path ->
  match_route rt c path method = Some (RunResult (hit redirect v)) ->
  exists pat q b r segs a,
    block_at (c_routes c) pat q b /\ first_resource_for method b r /\ r_is_redirect r = redirect /\
    spells s segs /\ matches (rt_parse rt) pat (map utf8 segs) a /\ v = route_for r q a.
Proof.
  intros Hr He H. apply encoded_utf8 in He. destruct He as [_ ->].
  destruct (sound rt c _ method redirect v Hr H) as (pat & q & b & r & bsegs & a & H1 & H2 & H3 & H4 & H5 & H6).
  destruct (spells_utf8 _ _ H4) as (segs & H7 & ->). exists pat, q, b, r, segs, a. repeat split; auto; apply H2.
Qed.
Theorem text_no_panic {T E} (rt : runtime T E) c s path method :
  runnable c -> every_block no_short_static (c_routes c) -> encoded s path ->
  match_route rt c path method <> Some RunPanic.
Proof. intros Hr Hs He. apply no_panic; auto. apply valid_encoded. exists s. exact He. Qed.
