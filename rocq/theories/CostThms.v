(** * CostThms: the cost of a request does not depend on the configuration *)
From Verif Require Import Base BaseFacts Core Flat MiniRust Gen Spec SpecMatch SpecCost Trie TrieFacts MatchFacts ExecFacts CompFacts
  RunFacts MatchThms CostFacts.

(** A parameter named [path] does not pass the check either. *)
Lemma dynamic_path senv tyf fuel t n child b :
  trie_good senv tyf t -> In (CDynamic n, child) (t_children t) ->
  gen_dynamic (gen_trie fuel) child n = ROk b -> checks senv b -> n <> s_path.
Proof.
  intros Hg Hin Hb (te & d0 & d & Hc).
  destruct (gen_dynamic_sep _ _ _ _ Hb) as [c Hsep].
  apply gen_dynamic_inv in Hb. destruct Hb as (b' & Hb & ->).
  unfold dynamic_block in Hc. cbn [app] in Hc.
  rewrite check_block_cons in Hc. cbn [check_stmt] in Hc.
  rewrite check_block_cons in Hc. rewrite check_stmt_while in Hc.
  destruct (check_bexpr te _); [|discriminate].
  destruct (check_block senv te [SAdd s_i 1] false); [|discriminate].
  rewrite check_block_cons in Hc. cbn [check_stmt] in Hc.
  rewrite check_block_cons in Hc. cbn [check_stmt] in Hc.
  destruct (check_slice te s_path (EVar s_start) (EVar s_i) && _); [|discriminate].
  rewrite check_block_cons in Hc. cbn [check_stmt] in Hc.
  rewrite lookup_cons_eq in Hc.
  destruct (infer senv n (SBlank :: b')) as [ty0|] eqn:Einf; [|discriminate].
  destruct (no_variable senv n); [discriminate|].
  rewrite check_block_cons in Hc. cbn [check_stmt] in Hc.
  destruct (after_dynamic _ _ _ _ _ _ _ _ Hsep Hb Hc) as (_ & (m & Hp) & _).
  intros ->. rewrite lookup_cons_eq in Hp. discriminate.
Qed.

Ltac bytes := first [lia|nia].

Section Steps.
Context {T E : Type}.
Variable rt : runtime T E.
Variable senv : struct_env.

(** [i], [len] and [path] in the environment. *)
Definition here (en : env T) (i L : nat) : Prop :=
  counts en i L /\ exists m l, lookup s_path en = Some (m, VBytes l) /\ length l = L.
Lemma here_bind en i L x (v : bool * val T) :
  other x -> x <> s_path -> here en i L -> here ((x, v) :: en) i L.
Proof.
  intros H1 H2 [C P]. split; [apply counts_bind; assumption|]. cbn [lookup].
  destruct (str_eqb_spec x s_path); [contradiction|exact P].
Qed.
Lemma add_lookup n : forall (en en' : env T) x, x <> s_i -> add_assign s_i n en = Some en' ->
  lookup x en' = lookup x en.
Proof.
  induction en as [|[y [m v]] en IH]; intros en' x Hx H; [discriminate|]. cbn [add_assign] in H.
  destruct (str_eqb_spec y s_i) as [->|Hy].
  - destruct m, v; try discriminate. injection H as <-. cbn [lookup].
    destruct (str_eqb_spec s_i x); [congruence|reflexivity].
  - destruct (add_assign s_i n en) as [e|] eqn:Ea; [|discriminate]. injection H as <-. cbn [lookup].
    rewrite (IH _ x Hx eq_refl). reflexivity.
Qed.
Lemma add_length n : forall (en en' : env T), add_assign s_i n en = Some en' -> length en' = length en.
Proof.
  induction en as [|[y [m v]] en IH]; intros en' H; [discriminate|]. cbn [add_assign] in H.
  destruct (str_eqb y s_i).
  - destruct m, v; try discriminate. injection H as <-. reflexivity.
  - destruct (add_assign s_i n en) as [e|] eqn:Ea; [|discriminate]. injection H as <-. cbn. f_equal. auto.
Qed.
Lemma here_add n (en en' : env T) i L : here en i L -> add_assign s_i n en = Some en' -> here en' (i + n) L.
Proof.
  intros [C P] H. destruct (add_counts n en i L en' C H) as [C' _]. split; [exact C'|].
  rewrite (add_lookup n en en'); [exact P|discriminate|exact H].
Qed.

(** What a step leaves over: [c] to begin with, [k] for each byte of the path
    that is still to be read. *)
Definition left_over (k c n i L : nat) (o : outcome T E) : Prop :=
  match o with
  | ONext en' => exists i', here en' i' L /\ n + k * (L - i') <= c + k * (L - i)
  | _ => n <= c + k * (L - i)
  end.
Definition cheap (k c : nat) (s : stmt) : Prop := forall en i L rest n o,
  here en i L -> takes rt senv en s rest n o -> left_over k c n i L o.
(** A block that always ends the function, within [c] steps and [k] per byte. *)
Definition ends (k c : nat) (l : list stmt) : Prop := forall en i L n o,
  here en i L -> takes_block rt senv en l n o -> n <= c + k * (L - i) /\ forall en', o <> ONext en'.
Lemma ends_cons k c c' s l : cheap k c s -> ends k c' l -> ends k (c + c') (s :: l).
Proof.
  intros Hs Hl en i L n o Hh H. inversion H as [|? ? ? n1 en1 m ? H1 H2|? ? ? ? ? H1 H2]; subst.
  - specialize (Hs _ _ _ _ _ _ Hh H1). cbn [left_over] in Hs. destruct Hs as (i' & Hi & Hc).
    destruct (Hl _ _ _ _ _ Hi H2) as [H3 H4]. split; [bytes|exact H4].
  - specialize (Hs _ _ _ _ _ _ Hh H1). split; [|exact H2].
    destruct o; cbn [left_over] in Hs; try bytes. exfalso. eapply H2. reflexivity.
Qed.
Lemma ends_more k c c' l : ends k c l -> c <= c' -> ends k c' l.
Proof. intros H Hc en i L n o Hh Ht. destruct (H _ _ _ _ _ Hh Ht). split; [bytes|assumption]. Qed.

Lemma cheap_blank k : cheap k 1 SBlank.
Proof.
  intros en i L rest n o Hh H. inversion H; subst; try discriminate. cbn [exec_stmt left_over]. exists i.
  split; [exact Hh|bytes].
Qed.
Lemma cheap_let k x e : other x -> x <> s_path -> cheap k 1 (SLet x e).
Proof.
  intros Hx Hp en i L rest n o Hh H. inversion H; subst; try discriminate. cbn [exec_stmt].
  destruct (eval_expr rt en e); cbn [left_over]; try bytes.
  exists i. split; [apply here_bind; assumption|bytes].
Qed.
Lemma cheap_utf8 k x src a b : other x -> x <> s_path -> cheap k 1 (SLetUtf8 x src a b).
Proof.
  intros Hx Hp en i L rest n o Hh H. inversion H; subst; try discriminate. cbn [exec_stmt].
  destruct (eval_slice rt en src a b) as [[l|]|]; cbn [left_over]; try bytes.
  destruct (utf8_valid l); cbn [left_over]; try bytes.
  exists i. split; [apply here_bind; assumption|bytes].
Qed.
Lemma cheap_parse k x src what : other x -> x <> s_path -> cheap k 1 (SLetParse x src what).
Proof.
  intros Hx Hp en i L rest n o Hh H. inversion H; subst; try discriminate. cbn [exec_stmt].
  destruct (lookup src en) as [[m [j|bs|bs|t v]]|]; cbn [left_over]; try bytes.
  destruct (infer senv x rest); cbn [left_over]; try bytes.
  destruct (rt_parse rt _ _); cbn [left_over]; try bytes.
  exists i. split; [apply here_bind; assumption|bytes].
Qed.
Lemma ends_return k r : ends k 1 [SReturn r].
Proof.
  intros en i L n o Hh H. inversion H as [|? ? ? n1 en1 m ? H1 H2|? ? ? ? ? H1 H2]; subst.
  - inversion H1; subst; try discriminate. cbn [exec_stmt] in *.
    unfold eval_ret in *. destruct r; try discriminate. destruct (eval_fields en fields); discriminate.
  - inversion H1; subst; try discriminate. split; [bytes|exact H2].
Qed.
(** A conditional whose body ends the function leaves everything as it was
    when it is passed. *)
Lemma cheap_if k c cond body : ends k c body -> cheap k (S c) (SIf cond body).
Proof.
  intros Hb en i L rest n o Hh H. inversion H; subst; try discriminate; cbn [left_over]; try bytes.
  - exists i. split; [exact Hh|bytes].
  - match goal with X : takes_block _ _ _ _ _ _ |- _ => destruct (Hb _ _ _ _ _ Hh X) as [H1 H2] end.
    match goal with |- context [leave en ?o] => destruct o as [en'| | | |] end; cbn [leave left_over]; try bytes.
    exfalso. eapply H2. reflexivity.
Qed.
Lemma ends_match k c sc arms : (forall h body, In (h, body) arms -> ends k c body) -> ends k (S c) [SMatch sc arms].
Proof.
  intros Ha.
  assert (Hm : forall en i L rest n o, here en i L -> takes rt senv en (SMatch sc arms) rest n o ->
                n <= S c + k * (L - i) /\ forall en', o <> ONext en').
  { intros en i L rest n o Hh H. inversion H as [| | | | |? ? ? ? v [h body] m o1 Hs Hf Hb| | | |]; subst; try discriminate.
    - split; [bytes|discriminate].
    - apply find_some in Hf. destruct Hf as [Hin _]. destruct (Ha _ _ Hin _ _ _ _ _ Hh Hb) as [H1 H2].
      split; [bytes|]. destruct o1; cbn [leave]; try discriminate. exfalso. eapply H2. reflexivity. }
  intros en i L n o Hh H. inversion H as [|? ? ? n1 en1 m ? H1 H2|? ? ? ? ? H1 H2]; subst.
  - destruct (Hm _ _ _ _ _ _ Hh H1) as [_ H3]. exfalso. eapply H3. reflexivity.
  - split; [apply (Hm _ _ _ _ _ _ Hh H1)|exact H2].
Qed.
Lemma cheap_methods k fr : cheap k 3 (methods_stmt fr).
Proof.
  apply cheap_if, ends_match. intros h body Hin. apply in_app_iff in Hin. destruct Hin as [Hin|[[= <- <-]|[]]].
  - apply in_map_iff in Hin. destruct Hin as (r & [= <- <-] & _). apply ends_return.
  - apply ends_return.
Qed.
Lemma cheap_check k cond : cheap k 2 (SIf cond [not_found]).
Proof. apply cheap_if, ends_return. Qed.

(** What has been read of the path is there to be read. *)
Lemma slice_left en i L m v : here en i L -> eval_scrut rt en (path_slice m) = Some (Some v) -> i + m <= L.
Proof.
  intros [[C1 C2] (mu & l & P & Hl)] H. unfold path_slice in H. cbn [eval_scrut] in H. unfold eval_slice in H.
  rewrite P in H. cbn [eval_expr] in H. unfold get_usize in H. rewrite C1 in H. cbn in H.
  unfold slice in H. destruct (i <=? i + m)%nat eqn:E1; cbn in H; [|discriminate].
  destruct (Nat.leb_spec (i + m) (length l)); [bytes|discriminate].
Qed.
Lemma ends_add k c m l : 1 <= m -> ends k c l ->
  forall en i L n o, here en i L -> i + m <= L -> takes_block rt senv en (SAdd s_i m :: l) n o ->
    n + k <= S c + k * (L - i) /\ forall en', o <> ONext en'.
Proof.
  intros Hm Hl en i L n o Hh Hle H. inversion H as [|? ? ? n1 en1 n2 ? H1 H2|? ? ? ? ? H1 H2]; subst.
  - inversion H1; subst; try discriminate. cbn [exec_stmt] in *.
    destruct (add_assign s_i m en) as [en'|] eqn:Ea; [|discriminate].
    match goal with X : ONext _ = ONext _ |- _ => injection X as -> end.
    destruct (Hl _ _ _ _ _ (here_add _ _ _ _ _ Hh Ea) H2) as [H3 H4]. split; [|exact H4].
    assert (k * (L - (i + m)) + k <= k * (L - i)) by nia. bytes.
  - inversion H1; subst; try discriminate. cbn [exec_stmt] in *.
    destruct (add_assign s_i m en) as [en'|] eqn:Ea; [exfalso; eapply H2; reflexivity|].
    split; [|discriminate]. assert (k <= k * (L - i)) by nia. bytes.
Qed.
Lemma ends_expect k c m u l : 1 <= m -> ends k c l -> c <= k -> ends k 2 (expect m u :: l).
Proof.
  intros Hm Hl Hk en i L n o Hh H. inversion H as [|? ? ? n1 en1 n2 ? H1 H2|? ? ? ? ? H1 H2]; subst.
  - unfold expect in H1. inversion H1 as [| | | | |? ? ? ? v [h body] n3 o1 Hs Hf Hb| | | |]; subst; try discriminate.
    pose proof (slice_left _ _ _ _ _ Hh Hs) as Hle. cbn [find fst] in Hf.
    destruct (arm_matches (AHBlock u) v).
    + injection Hf as <- <-. cbn [snd] in Hb.
      inversion Hb as [|? ? ? n4 en4 n5 ? H3 H4|? ? ? ? ? H3 H4]; subst.
      * inversion H4; subst. inversion H3; subst; try discriminate. cbn [exec_stmt] in *.
        destruct (add_assign s_i m en) as [en'|] eqn:Ea; [|discriminate].
        match goal with X : ONext _ = ONext _ |- _ => injection X as -> end.
        cbn [leave] in *. rewrite (add_length _ _ _ Ea), Nat.sub_diag in *. cbn [skipn] in *.
        match goal with X : ONext _ = ONext _ |- _ => injection X as -> end.
        destruct (Hl _ _ _ _ _ (here_add _ _ _ _ _ Hh Ea) H2) as [H5 H6]. split; [|exact H6].
        assert (k * (L - (i + m)) + k <= k * (L - i)) by nia. bytes.
      * destruct o1; try discriminate. exfalso. eapply H4. reflexivity.
    + cbn [arm_matches] in Hf. injection Hf as <- <-. cbn [snd] in Hb.
      destruct (ends_return k RetNotFound _ _ _ _ _ Hh Hb) as [_ H3].
      destruct o1; try discriminate. exfalso. eapply H3. reflexivity.
  - split; [|exact H2]. unfold expect in H1.
    inversion H1 as [| | | | |? ? ? ? v [h body] n3 o1 Hs Hf Hb| | | |]; subst; try discriminate; [bytes|].
    cbn [find fst] in Hf. destruct (arm_matches (AHBlock u) v).
    + injection Hf as <- <-. cbn [snd] in Hb.
      inversion Hb as [|? ? ? n4 en4 n5 ? H3 H4|? ? ? ? ? H3 H4]; subst.
      * inversion H4; subst. inversion H3; subst; try discriminate. bytes.
      * inversion H3; subst; try discriminate. bytes.
    + cbn [arm_matches] in Hf. injection Hf as <- <-. cbn [snd] in Hb.
      destruct (ends_return k RetNotFound _ _ _ _ _ Hh Hb) as [H3 _]. bytes.
Qed.

(** The loop over a parameter: a test and an increment for each byte. *)
Definition loop : stmt :=
  SWhile (BAnd (BLt (EVar s_i) (EVar s_len)) (BSliceNe s_path (EVar s_i) (EPlus s_i 1) (lit "/"))) [SAdd s_i 1].
Lemma cheap_loop k : 2 <= k -> cheap k 1 loop.
Proof.
  intros Hk.
  enough (G : forall en s rest n o, takes rt senv en s rest n o -> s = loop -> forall i L, here en i L ->
            left_over k 1 n i L o) by (intros en i L rest n o Hh H; exact (G _ _ _ _ _ H eq_refl _ _ Hh)).
  intros en s rest n o H.
  induction H as [| | | | | |? ? ? ? Hb|? ? ? ? Hb|en c body rest n en' m o Hb Ht Hw IHw|en c body rest n o Hb Ht Hn]; intros Heq i L Hh;
    try (subst; discriminate); cbn [left_over].
  - bytes.
  - exists i. split; [exact Hh|bytes].
  - injection Heq as -> ->.
    assert (Hlt : i < L).
    { cbn [eval_bexpr] in Hb. unfold cmp_expr in Hb. cbn [eval_expr] in Hb. unfold get_usize in Hb.
      destruct Hh as [[C1 [j C2]] _]. rewrite C1, C2 in Hb. destruct (Nat.ltb_spec i L); [assumption|discriminate]. }
    assert (Hbody : n = 1 /\ add_assign s_i 1 en = Some en').
    { inversion Ht as [|? ? ? n1 en1 m1 ? H1 H2|]; subst.
      - inversion H2; subst. inversion H1; subst; try discriminate. cbn [exec_stmt] in *.
        destruct (add_assign s_i 1 en) as [e|] eqn:Ea; [|discriminate].
        match goal with X : ONext _ = ONext _ |- _ => injection X as -> end. auto.
      - exfalso. match goal with X : forall en', _ <> _ |- _ => eapply X; reflexivity end. }
    destruct Hbody as [-> Ha]. rewrite (add_length _ _ _ Ha), Nat.sub_diag in *. cbn [skipn] in *.
    specialize (IHw eq_refl _ _ (here_add _ _ _ _ _ Hh Ha)).
    assert (k * (L - (i + 1)) + k <= k * (L - i)) by nia.
    destruct o; cbn [left_over] in *; try bytes. destruct IHw as (i' & Hi & Hc). exists i'. split; [exact Hi|bytes].
  - injection Heq as -> ->.
    assert (Hlt : i < L).
    { cbn [eval_bexpr] in Hb. unfold cmp_expr in Hb. cbn [eval_expr] in Hb. unfold get_usize in Hb.
      destruct Hh as [[C1 [j C2]] _]. rewrite C1, C2 in Hb. destruct (Nat.ltb_spec i L); [assumption|discriminate]. }
    assert (k <= k * (L - i)) by nia.
    inversion Ht as [|? ? ? n1 en1 m1 ? H1 H2|? ? ? ? ? H1 H2]; subst.
    + inversion H2; subst. exfalso. eapply Hn. reflexivity.
    + inversion H1; subst; try discriminate.
      match goal with |- left_over _ _ _ _ _ ?o => destruct o eqn:Eo; cbn [left_over]; try bytes end.
      exfalso. eapply Hn. reflexivity.
Qed.
Lemma ends_dynamic k c name rest : 2 <= k -> other name -> name <> s_path -> ends k c rest ->
  ends k (6 + c) (dynamic_block name rest).
Proof.
  intros Hk Ho Hp Hr. unfold dynamic_block. cbn [app].
  change (6 + c) with (1 + (1 + (1 + (1 + (1 + (1 + c)))))).
  apply ends_cons; [apply cheap_blank|]. apply ends_cons; [apply cheap_loop; exact Hk|].
  apply ends_cons; [apply cheap_blank|]. apply ends_cons; [apply cheap_utf8; [apply other_text|discriminate]|].
  apply ends_cons; [apply cheap_parse; assumption|]. apply ends_cons; [apply cheap_blank|exact Hr].
Qed.
(** The branch for the only static sibling of a parameter. *)
Lemma cheap_branch k c m cond u b : 1 <= m -> ends k c b -> c <= k ->
  cheap k 3 (SIf cond [SMatch (path_slice m) [(AHBlock u, SAdd s_i m :: b); (AHWildUnit, [])]]).
Proof.
  intros Hm Hb Hk en i L rest n o Hh H.
  inversion H as [|? ? ? ? Hc|? ? ? ? Hc|? ? ? ? n1 o1 Hc Ht| | | | | |]; subst; try discriminate; cbn [left_over]; try bytes.
  { exists i. split; [exact Hh|bytes]. }
  assert (G : forall n1 o1, takes rt senv en (SMatch (path_slice m) [(AHBlock u, SAdd s_i m :: b); (AHWildUnit, [])]) [] n1 o1 ->
    (n1 = 1 /\ o1 = ONext en) \/ (n1 <= 2 + k * (L - i) /\ forall en', o1 <> ONext en')).
  { clear Ht. intros n2 o2 Ht.
    inversion Ht as [| | | | |? ? ? ? v [h body] n3 o3 Hs Hf Hbb| | | |]; subst; try discriminate.
    { right. split; [bytes|discriminate]. }
    pose proof (slice_left _ _ _ _ _ Hh Hs) as Hle.
    cbn [find fst] in Hf. destruct (arm_matches (AHBlock u) v).
    - right. injection Hf as <- <-. cbn [snd] in Hbb.
      destruct (ends_add k c m b Hm Hb _ _ _ _ _ Hh Hle Hbb) as [H1 H2]. split; [bytes|].
      destruct o3; cbn [leave]; try discriminate. exfalso. eapply H2. reflexivity.
    - left. cbn [arm_matches] in Hf. injection Hf as <- <-. cbn [snd] in Hbb. inversion Hbb; subst. split; [reflexivity|].
      cbn [leave]. rewrite Nat.sub_diag. reflexivity. }
  inversion Ht as [|? ? ? n2 en2 n3 ? H1 H2|? ? ? ? ? H1 H2]; subst.
  - inversion H2; subst. destruct (G _ _ H1) as [[-> [= ->]]|[_ H3]]; [|exfalso; eapply H3; reflexivity].
    cbn [leave left_over]. rewrite Nat.sub_diag. exists i. split; [exact Hh|bytes].
  - destruct (G _ _ H1) as [[_ ->]|[H3 _]]; [exfalso; eapply H2; reflexivity|].
    destruct o1; cbn [leave left_over]; try bytes. exfalso. eapply H2. reflexivity.
Qed.

(** Twenty-three steps to begin with and for each byte; eight to begin with
    where a segment has just ended. *)
Definition per_byte : nat := 23.
Lemma byte_len_pos c s : 1 <= byte_len (c :: s).
Proof.
  unfold byte_len, utf8. cbn [flat_map]. rewrite app_length. unfold utf8_char.
  repeat match goal with |- context [if ?b then _ else _] => destruct b end; cbn [length]; bytes.
Qed.
Lemma gen_ends tyf : forall fuel t b,
  trie_good senv tyf t -> gen_trie fuel t = ROk b -> checks senv b ->
  ends per_byte per_byte b /\ (forall c, t_children t = [(CSeparator, c)] -> ends per_byte 8 b).
Proof.
  induction fuel as [|fuel IH]; intros t b Hok H Hck; [discriminate|]. cbn [gen_trie] in H.
  destruct (gen_children (gen_trie fuel) t) as [b'| | |] eqn:Eg; try discriminate. injection H as <-.
  assert (Hmeth : forall c l, ends per_byte c l -> ends per_byte (3 + c) (methods_block (t_data t) ++ l)).
  { intros c l Hl. unfold methods_block. destruct (has_resources (t_data t)) as [fr|].
    - apply ends_cons; [apply cheap_methods|exact Hl].
    - eapply ends_more; [exact Hl|]. bytes. }
  apply checks_app in Hck.
  enough (G : ends per_byte 20 b' /\ (forall c, t_children t = [(CSeparator, c)] -> ends per_byte 5 b')).
  { destruct G as [G1 G2]. split; [apply (Hmeth 20), G1|]. intros c Hc. apply (Hmeth 5), (G2 c Hc). }
  assert (Hrec : forall s b, subtrie s t -> gen_trie fuel s = ROk b -> checks senv b -> ends per_byte per_byte b).
  { intros s b Hs Hb Hc. eapply IH; [eapply trie_good_sub; eauto|exact Hb|exact Hc]. }
  assert (Hdyn : forall n c b, In (CDynamic n, c) (t_children t) -> gen_dynamic (gen_trie fuel) c n = ROk b ->
                 checks senv b -> ends per_byte 14 b).
  { intros n c b Hin Hg Hcb. pose proof (dynamic_other _ _ _ _ _ _ _ Hok Hin Hg Hcb) as Hn.
    pose proof (dynamic_path _ _ _ _ _ _ _ Hok Hin Hg Hcb) as Hp.
    destruct (gen_dynamic_sep _ _ _ _ Hg) as [c' Hsep].
    apply gen_dynamic_inv in Hg. destruct Hg as (b'' & Hg & ->).
    apply (ends_dynamic per_byte 8); [unfold per_byte; bytes|exact Hn|exact Hp|].
    eapply IH; [|exact Hg|eapply checks_dynamic; exact Hcb|exact Hsep].
    eapply trie_good_sub; [eapply subtrie_child; eauto|exact Hok]. }
  assert (Hmany : gen_many (gen_trie fuel) t = ROk b' -> ends per_byte 20 b').
  { unfold gen_many. pose proof (unamb_sub (trie_height t) t (le_n _)) as Hsub.
    destruct (unamb t) as [[u l] next] eqn:Eu. cbn [snd] in Hsub.
    destruct u as [|u0 us].
    - destruct (gen_arms (gen_trie fuel) (t_children t)) as [arms| | |] eqn:Ea; try discriminate.
      intros [= <-].
      set (tail := [SIf i_eq_len [not_found]; SMatch (path_slice 1) (arms ++ [(AHWild, [not_found])])]) in *.
      assert (Htail : ends per_byte 17 tail).
      2: { destruct (find_dynamic (t_children t)); [|eapply ends_more; [exact Htail|bytes]]. cbn [app].
           change 20 with (1 + (1 + (1 + 17))).
           apply ends_cons; [apply cheap_blank|]. apply ends_cons; [apply cheap_let; [apply other_start|discriminate]|].
           apply ends_cons; [apply cheap_blank|exact Htail]. }
      apply checks_app in Hck. subst tail. apply checks_cons in Hck.
      change 17 with (2 + 15). apply ends_cons; [apply cheap_check|].
      destruct Hck as (te & d0 & d & Hck).
      rewrite check_block_cons, check_stmt_match in Hck.
      destruct (check_scrut te _ && _); [|discriminate].
      destruct (check_arms senv te _) as [d2|] eqn:Ec; [|discriminate]. clear Hck.
      assert (Hall : forall a, In a arms -> exists d', check_arm senv te a = Some d').
      { intros a Ha. eapply check_arms_in; eauto. apply in_app_iff; auto. }
      assert (Harms : forall l0 arms0, incl l0 (t_children t) -> gen_arms (gen_trie fuel) l0 = ROk arms0 ->
                 incl arms0 arms -> forall h body, In (h, body) arms0 ->
                 exists bb, body = SAdd s_i 1 :: bb /\ ends per_byte per_byte bb).
      { clear Ea. induction l0 as [|[k child] l0 IHl]; intros arms0 Hi Ha Hia h body Hin.
        - injection Ha as <-. destruct Hin.
        - assert (Hk : In (k, child) (t_children t)) by (apply Hi; left; reflexivity).
          assert (Hi' : incl l0 (t_children t)) by (intros y Hy; apply Hi; right; exact Hy).
          destruct k as [c|n|]; cbn [gen_arms] in Ha.
          + destruct (gen_trie fuel child) as [bb| | |] eqn:Eb; try discriminate. cbn [rbind] in Ha.
            destruct (gen_arms (gen_trie fuel) l0) as [arms'| | |] eqn:Ea; try discriminate.
            injection Ha as <-. destruct Hin as [[= <- <-]|Hin].
            2: { eapply IHl; eauto. intros y Hy. apply Hia. right. exact Hy. }
            exists bb. split; [reflexivity|]. eapply Hrec; [eapply subtrie_child; eauto|exact Eb|].
            destruct (Hall _ (Hia _ (or_introl eq_refl))) as [d' Hd]. cbn [check_arm] in Hd.
            destruct (plain_lit [c]); [|discriminate].
            apply (checks_cons _ (SAdd s_i 1)). do 3 eexists. exact Hd.
          + destruct (gen_dynamic (gen_trie fuel) child n) as [bb| | |] eqn:Eb; try discriminate.
            injection Ha as <-. exfalso.
            destruct (Hall _ (Hia _ (or_introl eq_refl))) as [d' Hd]. discriminate.
          + destruct (gen_arms (gen_trie fuel) l0) as [arms'| | |] eqn:Ea; try discriminate.
            injection Ha as <-. exfalso.
            destruct (Hall _ (Hia _ (or_introl eq_refl))) as [d' Hd]. discriminate. }
      eapply ends_more with (c := 2); [|bytes].
      intros en i L n o Hh Ht. inversion Ht as [|? ? ? n1 en1 n2 ? H1 H2|? ? ? ? ? H1 H2]; subst.
      + exfalso. inversion H1 as [| | | | |? ? ? ? v [h body] n3 o1 Hs Hf Hb| | | |]; subst; try discriminate.
        pose proof (slice_left _ _ _ _ _ Hh Hs) as Hle.
        apply find_some in Hf. destruct Hf as [Hin _]. cbn [snd] in Hb. apply in_app_iff in Hin.
        assert (No : forall en', o1 <> ONext en').
        { destruct Hin as [Hin|[[= <- <-]|[]]]; [|apply (ends_return per_byte RetNotFound _ _ _ _ _ Hh Hb)].
          destruct (Harms _ _ (incl_refl _) Ea (incl_refl _) _ _ Hin) as (bb & -> & He).
          apply (ends_add per_byte per_byte 1 bb (le_n _) He _ _ _ _ _ Hh Hle Hb). }
        destruct o1; cbn [leave] in *; try discriminate. eapply No. reflexivity.
      + split; [|exact H2].
        inversion H1 as [| | | | |? ? ? ? v [h body] n3 o1 Hs Hf Hb| | | |]; subst; try discriminate; [bytes|].
        pose proof (slice_left _ _ _ _ _ Hh Hs) as Hle.
        apply find_some in Hf. destruct Hf as [Hin _]. cbn [snd] in Hb. apply in_app_iff in Hin.
        destruct Hin as [Hin|[[= <- <-]|[]]].
        * destruct (Harms _ _ (incl_refl _) Ea (incl_refl _) _ _ Hin) as (bb & -> & He).
          destruct (ends_add per_byte per_byte 1 bb (le_n _) He _ _ _ _ _ Hh Hle Hb). bytes.
        * destruct (ends_return per_byte RetNotFound _ _ _ _ _ Hh Hb). bytes.
    - destruct (find_dynamic (t_children t)) as [[name dchild]|] eqn:Ef; try discriminate.
      destruct (gen_trie fuel next) as [bn| | |] eqn:En; try discriminate. cbn [rbind].
      destruct (gen_dynamic (gen_trie fuel) dchild name) as [bd| | |] eqn:Ed; try discriminate.
      intros [= <-]. do 3 apply checks_cons in Hck. pose proof Hck as Hcd. apply checks_cons in Hcd.
      assert (Hcn : checks senv bn).
      { destruct Hck as (te & d0 & dd & Hc). cbn [app] in Hc. rewrite check_block_cons, check_stmt_if in Hc.
        destruct (check_bexpr te _); [|discriminate].
        rewrite check_block_cons, check_stmt_match in Hc.
        destruct (check_scrut te (path_slice _) && _); [|discriminate].
        cbn [check_arms check_arm] in Hc. destruct (plain_lit (u0 :: us)); [|discriminate].
        destruct (check_block senv te (SAdd s_i _ :: bn) false) as [d1|] eqn:Ec1; [|discriminate].
        eapply checks_cons. do 3 eexists; exact Ec1. }
      cbn [app]. change 20 with (1 + (1 + (1 + (3 + 14)))).
      apply ends_cons; [apply cheap_blank|]. apply ends_cons; [apply cheap_let; [apply other_start|discriminate]|].
      apply ends_cons; [apply cheap_blank|]. apply ends_cons.
      + apply cheap_branch with (c := per_byte); [|eapply Hrec; eauto|bytes].
        destruct (l =? 0)%nat eqn:El; [bytes|]. apply Nat.eqb_neq in El. bytes.
      + eapply Hdyn; [apply find_dynamic_In; exact Ef|exact Ed|exact Hcd]. }
  unfold gen_children in Eg. destruct (t_children t) as [|[k child] rest] eqn:Ech.
  { injection Eg as <-. split; [|discriminate]. eapply ends_more; [apply ends_return|bytes]. }
  assert (Hsub : subtrie child t) by (eapply subtrie_child; rewrite Ech; left; reflexivity).
  destruct rest as [|k2 rest].
  2: { split; [|discriminate]. destruct k; apply Hmany; exact Eg. }
  destruct k as [c|n|].
  - split; [|discriminate].
    pose proof (chase_sub (trie_height child) child (le_n _)) as Hcs. destruct (chase child) as [more child'].
    cbn [snd] in Hcs. destruct (gen_trie fuel child') as [bb| | |] eqn:Eb; try discriminate. injection Eg as <-.
    do 2 apply checks_cons in Hck. eapply ends_more with (c := 2 + 2); [|bytes].
    apply ends_cons; [apply cheap_check|].
    eapply ends_expect; [apply byte_len_pos| |apply le_n].
    eapply Hrec; [eapply subtrie_trans; eauto|exact Eb|exact Hck].
  - split; [|discriminate].
    destruct (gen_dynamic (gen_trie fuel) child n) as [bb| | |] eqn:Eb; try discriminate. injection Eg as <-.
    apply checks_cons in Hck. eapply ends_more with (c := 1 + 14); [|bytes].
    apply ends_cons; [apply cheap_let; [apply other_start|discriminate]|].
    eapply Hdyn; [left; reflexivity|exact Eb|exact Hck].
  - destruct (gen_trie fuel child) as [bb| | |] eqn:Eb; try discriminate. injection Eg as <-.
    do 2 apply checks_cons in Hck.
    enough (G : ends per_byte (3 + 2) ((match has_resources (t_data child) with
        Some route => methods_stmt route | None => SIf i_eq_len [not_found] end) :: expect 1 (lit "/") :: bb)).
    { split; [eapply ends_more; [exact G|bytes]|]. intros _ _. exact G. }
    apply ends_cons.
    + destruct (has_resources (t_data child)); [apply cheap_methods|].
      intros en i L r n o Hh Ht. pose proof (cheap_check per_byte _ _ _ _ _ _ _ Hh Ht) as Hl.
      destruct o; cbn [left_over] in *; try bytes. destruct Hl as (i' & Hi & Hl). exists i'. split; [exact Hi|bytes].
    + eapply ends_expect; [apply le_n|eapply Hrec; eauto|apply le_n].
Qed.

End Steps.

Lemma match_route_bytes {T E} (rt : runtime T E) c path method : runnable c ->
  exists root body r n,
    flattened_modules (c_routes c) = ROk root /\ gen_program c = ROk body /\
    match_route rt c path method = Some r /\
    takes_block rt (module_structs [] root) (prologue_env path method) body n (outcome_of r) /\
    n <= per_byte * S (length path).
Proof.
  intros Hc. destruct (match_route_cost rt c path method Hc) as (root & body & r & n & Em & Eg & Hr & Hn & _).
  exists root, body, r, n. do 4 (split; [assumption|]).
  destruct Hc as (Hc & Hh & Hred). pose proof Hc as Hc'. unfold compiles in Hc'. rewrite Em, Eg in Hc'.
  rewrite !andb_true_iff in Hc'. destruct Hc' as [[Hok _] Hck].
  unfold gen_program in Eg. destruct (to_trie (flattened_routes (c_routes c))) as [t| | |] eqn:Et; try discriminate.
  cbn [rbind] in Eg.
  pose proof (trie_good_config c root t Em Hok Et Hh Hred) as Hg.
  assert (Hchk : checks (module_structs [] root) body).
  { destruct (check_block _ prologue_tenv body false) as [d|] eqn:Ec; [|discriminate]. do 3 eexists. exact Ec. }
  destruct (gen_ends rt _ _ _ _ _ Hg Eg Hchk) as [He _].
  set (i := match path with b :: _ => if N.eqb b c_slash then 1 else 0 | [] => 0 end).
  assert (C : here (prologue_env (T := T) path method) i (length path)).
  { split; [split; [reflexivity|]; exists false; reflexivity|]. exists false, path. split; reflexivity. }
  destruct (He _ _ _ _ _ C Hn) as [H _]. unfold per_byte in *. lia.
Qed.
