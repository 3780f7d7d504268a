(** * OutlineFacts: route files as lists of lines *)
From Verif Require Import Base Core Nom Parse Spec SpecMatch SpecParse SpecGrammar SpecOutline BaseFacts ParseFacts RelineFacts RoundFacts NodeFacts GrammarFacts.

Definition child_lines (level : nat) (nr : NestedRoutes) : list line := (level, ESegment (fst nr)) :: outline (S level) (snd nr).
Lemma outline_eq level rs ch q : outline level (mkRoutes rs ch q) =
  map (param_line level) q ++ flat_map (resource_lines level) rs ++ flat_map (child_lines level) ch.
Proof.
  cbn [outline]. do 2 f_equal. apply flat_map_ext. intros [s child]. reflexivity.
Qed.

(** ** The grammar of C66, line by line *)
Section Lines.
Variable ualnum : char -> bool.
Notation line_text := (line_text ualnum).
Lemma texts_app {A} (P : A -> str -> Prop) l1 l2 s1 s2 : texts P l1 s1 -> texts P l2 s2 -> texts P (l1 ++ l2) (s1 ++ s2).
Proof. induction 1 as [|x xs s rest Hx _ IH]; intros H2; [exact H2|]. rewrite <- app_assoc. constructor; auto. Qed.
Lemma texts_split {A} (P : A -> str -> Prop) l1 l2 s : texts P (l1 ++ l2) s -> exists s1 s2, s = s1 ++ s2 /\ texts P l1 s1 /\ texts P l2 s2.
Proof.
  revert s. induction l1 as [|x l1 IH]; intros s H; [exists [], s; repeat split; [constructor|exact H]|].
  inversion H as [|? ? v rest Hv Hr]; subst. destruct (IH _ Hr) as (s1 & s2 & -> & H1 & H2).
  exists (v ++ s1), s2. rewrite app_assoc. repeat split; [constructor; assumption|exact H2].
Qed.
Lemma texts_flat {A B} (P : A -> str -> Prop) (Q : B -> str -> Prop) (f : A -> list B) l s :
  (forall x s, In x l -> P x s <-> texts Q (f x) s) -> texts P l s <-> texts Q (flat_map f l) s.
Proof.
  intros H. split.
  - intros Hs. induction Hs as [|x xs v rest Hv _ IH]; [constructor|]. cbn [flat_map].
    apply texts_app; [apply H; [left; reflexivity|exact Hv]|]. apply IH. intros y t Hy. apply H. right. exact Hy.
  - revert s. induction l as [|x l IH]; intros s Hs; cbn [flat_map] in Hs; [inversion Hs; constructor|].
    apply texts_split in Hs. destruct Hs as (s1 & s2 & -> & H1 & H2). constructor; [apply H; [left; reflexivity|exact H1]|].
    apply IH; [|exact H2]. intros y t Hy. apply H. right. exact Hy.
Qed.
Lemma texts_one {A} (P : A -> str -> Prop) x s : texts P [x] s <-> P x s.
Proof.
  split; intros H.
  - inversion H as [|? ? v rest Hv Hr]; subst. inversion Hr; subst. rewrite app_nil_r. exact Hv.
  - rewrite <- (app_nil_r s). constructor; [exact H|constructor].
Qed.
Lemma query_lined level p s : query_text ualnum level p s <-> line_text (param_line level p) s.
Proof.
  split; intros H.
  - destruct H as [p a w b e Ha Hw Hb He].
    replace (margin level ++ lit "[" ++ a ++ w ++ b ++ lit "]" ++ e) with (margin level ++ (lit "[" ++ a ++ w ++ b ++ lit "]") ++ e)
      by (rewrite <- !app_assoc; reflexivity).
    constructor; [constructor; assumption|exact He].
  - inversion H as [k x w e Hw He E]; subst. inversion Hw as [? a v b Ha Hv Hb| |]; subst. rewrite <- !app_assoc.
    constructor; assumption.
Qed.
Lemma queries_lined level q s : texts (query_text ualnum level) q s <-> texts line_text (map (param_line level) q) s.
Proof.
  rewrite (texts_flat _ line_text (fun p => [param_line level p])).
  - rewrite flat_map_concat_map. replace (concat (map (fun p => [param_line level p]) q)) with (map (param_line level) q); [reflexivity|].
    induction q as [|p q IH]; [reflexivity|]. cbn [map concat app]. f_equal. exact IH.
  - intros p v _. rewrite texts_one. apply query_lined.
Qed.
Lemma resource_lined level r s : resource_text ualnum level r s <-> texts line_text (resource_lines level r) s.
Proof.
  split; intros H.
  - destruct H as [m ms n redirect query v w e s Hv Hw He Hq].
    replace (margin level ++ v ++ lit " " ++ w ++ e ++ s) with ((margin level ++ (v ++ lit " " ++ w) ++ e) ++ s)
      by (rewrite <- !app_assoc; reflexivity).
    constructor; [constructor; [constructor; assumption|exact He]|]. apply queries_lined. exact Hq.
  - destruct r as [m ms n redirect query]. inversion H as [|? ? v rest Hv Hr]; subst. apply queries_lined in Hr.
    inversion Hv as [k x w e Hw He E]; subst. inversion Hw as [|? ? ? ? v' w' Hm Ht|]; subst.
    rewrite <- !app_assoc. constructor; assumption.
Qed.
Lemma block_lined : forall b level s,
  block_text ualnum level b s <-> every_block filled b /\ texts line_text (outline level b) s.
Proof.
  induction b as [rs ch q IH] using Routes_ind'. intros level s. rewrite outline_eq, every_block_cons.
  assert (Hch : forall s, nested_texts ualnum level ch s <->
            (forall seg child, In (seg, child) ch -> every_block filled child) /\ texts line_text (flat_map (child_lines level) ch) s).
  { clear s. induction IH as [|[seg child] ch Hc _ IHch]; intros s.
    - split; [intros H; inversion H; subst; split; [intros ? ? []|constructor]|intros [_ H]; inversion H; constructor].
    - cbn [snd] in Hc. cbn [flat_map]. split; intros H.
      + inversion H as [|? ? ? ? w e v rest Hw He Hv Hr]; subst. apply Hc in Hv. destruct Hv as [Hf Hv]. apply IHch in Hr.
        destruct Hr as [Hfs Hr]. split.
        { intros seg' child' [E|Hin]; [injection E as <- <-; exact Hf|eapply Hfs; exact Hin]. }
        replace (margin level ++ w ++ e ++ v ++ rest) with (((margin level ++ w ++ e) ++ v) ++ rest) by (rewrite <- !app_assoc; reflexivity).
        apply texts_app; [|exact Hr]. constructor; [constructor; [constructor; exact Hw|exact He]|exact Hv].
      + destruct H as [Hf H]. apply texts_split in H. destruct H as (s1 & s2 & -> & H1 & H2).
        inversion H1 as [|? ? v rest Hv Hr]; subst. inversion Hv as [k x w e Hw He E]; subst.
        inversion Hw as [| |? ? Hs]; subst. cbn [fst snd] in *. rewrite <- !app_assoc. constructor; [exact Hs|exact He| |].
        * apply Hc. split; [apply (Hf seg child); left; reflexivity|exact Hr].
        * apply IHch. split; [intros; eapply Hf; right; eassumption|exact H2]. }
  split.
  - intros H. inversion H as [? ? ? ? s1 s2 s3 Hne Hq Hr Hc]; subst. apply Hch in Hc. destruct Hc as [Hf Hc].
    split; [split; [exact Hne|exact Hf]|]. apply texts_app; [apply queries_lined; exact Hq|].
    apply texts_app; [|exact Hc]. apply (texts_flat (resource_text ualnum level)); [|exact Hr].
    intros r v _. apply resource_lined.
  - intros [[Hne Hf] H]. apply texts_split in H. destruct H as (s1 & s' & -> & Hq & H).
    apply texts_split in H. destruct H as (s2 & s3 & -> & Hr & Hc). constructor.
    + exact Hne.
    + apply queries_lined. exact Hq.
    + apply (texts_flat (resource_text ualnum level)) in Hr; [exact Hr|]. intros r v _. apply resource_lined.
    + apply Hch. auto.
Qed.
Lemma config_lined c text : config_text ualnum c text <->
  every_block filled (c_routes c) /\ lined_text ualnum (c_headers c) (outline 1 (c_routes c)) text.
Proof.
  split.
  - intros H. destruct H as [hs b e0 s e w He0 Hs He Hw]. apply block_lined in Hw. destruct Hw as [Hf Hw].
    split; [exact Hf|]. constructor; assumption.
  - destruct c as [hs b]. cbn [c_headers c_routes]. intros [Hf H]. inversion H as [? ? e0 s e w He0 Hs He Hw]; subst.
    constructor; try assumption. apply block_lined. auto.
Qed.

(** ** A text is one list of lines *)
Definition line_p (level : nat) : parser entry :=
  do x <- (alt (do q <- query_parameter_p ualnum level; pret (EQuery q))
         (alt (indent_p level ;; (do m <- method_p; pchar c_space ;; do t <- target_p ualnum;
               pret (EVerb m (snd (fst t)) (snd t) (fst (fst t)))))
              (do s <- path_segment_p ualnum level; pret (ESegment s))));
  many1 line_ending ;; pret x.
Lemma line_at_text level x s : line_text (level, x) s -> line_at level s.
Proof.
  intros H. inversion H as [k y w e Hw He E]; subst. destruct Hw as [p a w b Ha Hw Hb|m ms n r v w Hv Hw|sg w Hs].
  - exists c_lbrack. eexists. split; [reflexivity|]. split; [reflexivity|discriminate].
  - destruct (verb_head v m Hv) as (c & t & -> & H1 & H2 & _). eexists. eexists. split; [reflexivity|]. auto.
  - destruct (segment_start ualnum sg w e Hs) as (c & t & E & H1 & H2 & _). exists c, t. rewrite E. auto.
Qed.
Lemma line_says n level x s tail : line_text (level, x) s -> before n tail -> line_p level (s ++ tail) = POk tail x.
Proof.
  intros H Hb. inversion H as [k y w e Hw He E]; subst.
  destruct (endings_says n e tail He Hb) as [u Eu]. unfold line_p, pbind at 1.
  destruct Hw as [p a w b Ha Hw Hbl|m ms nm r v w Hv Hw|sg w Hs].
  - replace ((margin level ++ (lit "[" ++ a ++ w ++ b ++ lit "]") ++ e) ++ tail)
      with (ind level ++ c_lbrack :: a ++ w ++ b ++ c_rbrack :: e ++ tail) by (rewrite <- !app_assoc; reflexivity).
    unfold alt at 1, pbind at 1, query_parameter_p, pbind at 1. rewrite indent_ok.
    rewrite (bracket_says ualnum c_lbrack c_rbrack (fun p => p) p a w b); try assumption; try reflexivity.
    unfold pret, pbind. rewrite Eu. reflexivity.
  - replace ((margin level ++ (v ++ lit " " ++ w) ++ e) ++ tail) with (ind level ++ v ++ c_space :: w ++ e ++ tail)
      by (rewrite <- !app_assoc; reflexivity).
    assert (Hq : query_parameter_p ualnum level (ind level ++ v ++ c_space :: w ++ e ++ tail) = PErr).
    { destruct (verb_head v m Hv) as (c & t & -> & _ & _ & Hc). apply query_other. exact Hc. }
    assert (Em : method_p (v ++ c_space :: w ++ e ++ tail) = POk (c_space :: w ++ e ++ tail) m) by (apply method_iff; eauto).
    unfold alt at 1, pbind at 1. rewrite Hq. unfold alt at 1. unfold pbind at 1. rewrite indent_ok. unfold pbind at 1. rewrite Em.
    unfold pbind at 1. cbn [pchar]. rewrite N.eqb_refl. unfold pbind at 1.
    rewrite (target_says ualnum r n e tail ms nm w) by assumption. unfold pret, pbind. rewrite Eu. reflexivity.
  - rewrite <- !app_assoc.
    assert (Hq : query_parameter_p ualnum level (margin level ++ w ++ e ++ tail) = PErr).
    { destruct (segment_start ualnum sg w (e ++ tail) Hs) as (c & t & E & _ & _ & Hc). rewrite E. apply query_other. exact Hc. }
    unfold alt at 1, pbind at 1. rewrite Hq. unfold alt at 1.
    assert (Hv : (indent_p level ;; (do m <- method_p; pchar c_space ;; do t <- target_p ualnum;
               pret (EVerb m (snd (fst t)) (snd t) (fst (fst t))))) (margin level ++ w ++ e ++ tail) = PErr).
    { unfold pbind at 1. rewrite indent_ok. unfold pbind at 1.
      destruct (no_verb ualnum sg w e tail Hs He) as [E|(r & m & E & Hsp)]; rewrite E; [reflexivity|].
      unfold pbind. rewrite Hsp. reflexivity. }
    rewrite Hv. unfold pbind at 1. rewrite (segment_says ualnum level sg) by assumption. unfold pret, pbind. rewrite Eu. reflexivity.
Qed.
Lemma ind_inj k k' c t c' t' : is_sp c = false -> is_sp c' = false -> ind k ++ c :: t = ind k' ++ c' :: t' -> k = k'.
Proof.
  intros Hc Hc'. revert k'. induction k as [|k IH]; intros [|k'] E; [reflexivity| | |].
  - injection E as -> _. discriminate Hc.
  - injection E as <- _. discriminate Hc'.
  - f_equal. apply IH. injection E as E. exact E.
Qed.
Lemma before_all l w : texts line_text l w -> exists n, before n w.
Proof.
  intros H. destruct H as [|[k x] l s rest Hs _]; [exists 0; left; reflexivity|]. exists (S k).
  eapply before_line; [|eapply line_at_text; exact Hs]. lia.
Qed.
Lemma lines_unique : forall l l' w, texts line_text l w -> texts line_text l' w -> l = l'.
Proof.
  intros l l' w H. revert l'. induction H as [|[k x] l s rest Hs H IH]; intros l' H'.
  - inversion H' as [|[k x] ? s rest Hs _ E1 E2]; subst; [reflexivity|]. apply line_at_text, line_at_ne in Hs.
    destruct s; [congruence|discriminate].
  - inversion H' as [E1 E2|[k' x'] l2 s' rest' Hs' Hr E1 E2]; subst.
    { exfalso. apply line_at_text, line_at_ne in Hs. destruct s; [congruence|discriminate]. }
    assert (Hk : k = k').
    { destruct (line_at_text _ _ _ Hs) as (c & t & -> & Hc & _). destruct (line_at_text _ _ _ Hs') as (c' & t' & -> & Hc' & _).
      rewrite <- !app_assoc in E2. eapply ind_inj; [exact Hc|exact Hc'|]. symmetry. exact E2. }
    subst k'. destruct (before_all _ _ H) as [n Hn]. destruct (before_all _ _ Hr) as [n' Hn'].
    pose proof (line_says n k x s rest Hs Hn) as P1. pose proof (line_says n' k x' s' rest' Hs' Hn') as P2.
    rewrite E2 in P2. rewrite P1 in P2. injection P2 as -> ->. f_equal. apply IH. exact Hr.
Qed.
Lemma skip_slash_lines hs s u : texts header_line hs s -> many0 header_p (s ++ c_slash :: u) = POk (c_slash :: u) hs.
Proof. intros H. unfold many0. apply headers_says; [exact H|lia]. Qed.
Lemma lined_unique hs hs' l l' text : lined_text ualnum hs l text -> lined_text ualnum hs' l' text -> hs = hs' /\ l = l'.
Proof.
  intros H H'. destruct H as [hs l e0 s e w He0 Hs He Hw]. remember (e0 ++ s ++ lit "/" ++ e ++ w) as text eqn:Et. destruct H' as [hs' l' e0' s' e' w' He0' Hs' He' Hw']. rename Et into E.
  assert (Es : s' ++ c_slash :: e' ++ w' = s ++ c_slash :: e ++ w).
  { assert (Hsk : forall e0 hs s u, (e0 = [] \/ newlines e0) -> texts header_line hs s -> skip (e0 ++ s ++ c_slash :: u) = s ++ c_slash :: u).
    { intros f0 fs v u [->|Hf] Hv; cbn [app]; [|rewrite skip_newlines by exact Hf]; eapply headers_skip; exact Hv. }
    rewrite <- (Hsk e0' hs' s' (e' ++ w') He0' Hs'). rewrite <- (Hsk e0 hs s (e ++ w) He0 Hs). f_equal. exact E. }
  pose proof (skip_slash_lines hs s (e ++ w) Hs) as P1. pose proof (skip_slash_lines hs' s' (e' ++ w') Hs') as P2.
  rewrite Es in P2. rewrite P1 in P2. injection P2 as E2 ->. split; [reflexivity|].
  destruct (before_all _ _ Hw) as [n Hn]. destruct (before_all _ _ Hw') as [n' Hn'].
  destruct (endings_says n e w He Hn) as [u Eu]. destruct (endings_says n' e' w' He' Hn') as [u' Eu'].
  rewrite <- E2 in Eu'. rewrite Eu in Eu'. injection Eu' as <- _. eapply lines_unique; eassumption.
Qed.
End Lines.

(** ** Which lists of lines are outlines *)
Definition ends (at_ : place) (l : list line) : Prop := exists m, walk at_ l = Some (Verbs m).
Lemma walk_app p l1 l2 : walk p (l1 ++ l2) = match walk p l1 with Some p' => walk p' l2 | None => None end.
Proof. revert p. induction l1 as [|x l1 IH]; intros p; [reflexivity|]. cbn [app walk]. destruct (next p x); [apply IH|reflexivity]. Qed.
Lemma walk_queries n q : walk (Open n) (map (param_line n) q) = Some (Open n).
Proof. induction q as [|p q IH]; [reflexivity|]. cbn [map walk next param_line]. rewrite Nat.eqb_refl. exact IH. Qed.
Lemma walk_verb_queries n q : walk (Verbs n) (map (param_line (S n)) q) = Some (Verbs n).
Proof. induction q as [|p q IH]; [reflexivity|]. cbn [map walk next param_line]. rewrite Nat.eqb_refl. exact IH. Qed.
Lemma walk_resource n p r : p = Open n \/ p = Verbs n -> walk p (resource_lines n r) = Some (Verbs n).
Proof.
  intros [-> | ->]; unfold resource_lines; cbn [walk next]; rewrite Nat.eqb_refl; apply walk_verb_queries.
Qed.
Lemma walk_resources n p rs : p = Open n \/ p = Verbs n ->
  walk p (flat_map (resource_lines n) rs) = Some (match rs with [] => p | _ => Verbs n end).
Proof.
  revert p. induction rs as [|r rs IH]; intros p Hp; [reflexivity|]. cbn [flat_map]. rewrite walk_app, walk_resource by exact Hp.
  rewrite IH by (right; reflexivity). destruct rs; reflexivity.
Qed.
Lemma walk_outline : forall b n, 1 <= n -> every_block filled b -> exists m, n <= m /\ walk (Open n) (outline n b) = Some (Verbs m).
Proof.
  induction b as [rs ch q IH] using Routes_ind'. intros n Hn H. apply every_block_cons in H. destruct H as [Hne Hc].
  rewrite outline_eq, walk_app, walk_queries, walk_app, walk_resources by (left; reflexivity).
  assert (Hch : forall p, (p = Open n \/ exists m, n <= m /\ p = Verbs m) -> ch <> [] ->
            exists m, n <= m /\ walk p (flat_map (child_lines n) ch) = Some (Verbs m)).
  { clear Hne. induction IH as [|[seg child] ch H1 _ IHch]; [congruence|]. intros p Hp _. cbn [flat_map]. rewrite walk_app.
    unfold child_lines at 1. cbn [fst snd walk] in *.
    assert (Hx : next p (n, ESegment seg) = Some (Open (S n))).
    { destruct Hp as [->|(m & Hm & ->)]; cbn [next]; [rewrite Nat.eqb_refl; reflexivity|].
      rewrite (proj2 (Nat.leb_le 1 n)), (proj2 (Nat.leb_le n m)) by lia. reflexivity. }
    rewrite Hx. destruct (H1 (S n) ltac:(lia) (Hc seg child (or_introl eq_refl))) as (m & Hm & ->).
    destruct ch as [|nr ch]; [exists m; split; [lia|reflexivity]|].
    apply IHch; [intros; eapply Hc; right; eassumption|right; exists m; split; [lia|reflexivity]|discriminate]. }
  destruct ch as [|nr ch].
  - cbn [flat_map walk]. destruct Hne as [Hne|Hne]; cbn [rt_resources rt_routes] in Hne; [|congruence].
    destruct rs; [congruence|]. eauto.
  - destruct rs; apply Hch; [left; reflexivity|discriminate|right; eauto|discriminate].
Qed.
Definition low (n : nat) (l : list line) : Prop :=
  l = [] \/ exists k s l', l = (k, ESegment s) :: l' /\ 1 <= k < n /\ ends (Open (S k)) l'.
Definition block_found (n : nat) (l : list line) : Prop :=
  exists b rest, every_block filled b /\ l = outline n b ++ rest /\ low n rest.
Definition children_found (n : nat) (l : list line) : Prop :=
  exists ch rest, (forall seg child, In (seg, child) ch -> every_block filled child) /\
    l = flat_map (child_lines n) ch ++ rest /\ low n rest.
Section Find.
Variable len : nat.
Hypothesis find : forall n l, length l < len -> 1 <= n -> ends (Open n) l -> block_found n l.
Lemma find_children n : 1 <= n -> forall k l, length l <= k -> length l <= len -> low (S n) l -> children_found n l.
Proof.
  intros Hn. induction k as [|k IH]; intros l Hk Hl H.
  - destruct l; [|simpl in Hk; lia]. exists [], []. repeat split; [intros ? ? []|left; reflexivity].
  - destruct H as [->|(j & s & l' & -> & Hj & H)].
    { exists [], []. repeat split; [intros ? ? []|left; reflexivity]. }
    destruct (Nat.eq_dec j n) as [->|Hne].
    2: { exists [], ((j, ESegment s) :: l'). repeat split; [intros ? ? []|]. right. exists j, s, l'. repeat split; [lia|lia|exact H]. }
    cbn [length] in *. destruct (find (S n) l' ltac:(lia) ltac:(lia) H) as (b & rest & Hb & -> & Hr).
    rewrite app_length in *. destruct (IH rest ltac:(lia) ltac:(lia) Hr) as (ch & rest' & Hc & -> & Hr').
    exists ((s, b) :: ch), rest'. split; [|split; [|exact Hr']].
    + intros seg child [E|Hin]; [injection E as <- <-; exact Hb|eapply Hc; exact Hin].
    + cbn [flat_map]. rewrite <- app_assoc. reflexivity.
Qed.
Lemma find_verbs n : 1 <= n -> forall l, length l <= len -> ends (Verbs n) l ->
  exists q rs l', l = map (param_line (S n)) q ++ flat_map (resource_lines n) rs ++ l' /\ children_found n l'.
Proof.
  intros Hn. induction l as [|[k x] l IH]; intros Hl [m H].
  - exists [], [], []. split; [reflexivity|]. exists [], []. repeat split; [intros ? ? []|left; reflexivity].
  - cbn [walk next length] in *. destruct x as [p|v ms nm r|s].
    + destruct (Nat.eqb_spec k (S n)) as [->|]; [|discriminate].
      destruct (IH ltac:(lia) (ex_intro _ m H)) as (q & rs & l' & -> & Hc). exists (p :: q), rs, l'. split; [reflexivity|exact Hc].
    + destruct (Nat.eqb_spec k n) as [->|]; [|discriminate].
      destruct (IH ltac:(lia) (ex_intro _ m H)) as (q & rs & l' & -> & Hc). exists [], (mkResource v ms nm r q :: rs), l'.
      split; [|exact Hc]. cbn [map app flat_map]. rewrite <- app_assoc. reflexivity.
    + destruct (Nat.leb_spec 1 k) as [H1|]; [|discriminate]. destruct (Nat.leb_spec k n) as [H2|]; [|discriminate].
      exists [], [], ((k, ESegment s) :: l). split; [reflexivity|].
      apply (find_children n Hn (S (length l))); [simpl; lia|simpl; lia|]. right. exists k, s, l. repeat split; [lia|lia|eexists; exact H].
Qed.
Lemma find_block n : 1 <= n -> forall l, length l <= len -> ends (Open n) l -> block_found n l.
Proof.
  intros Hn. induction l as [|[k x] l IH]; intros Hl [m H]; [discriminate|].
  cbn [walk next length] in *. destruct (Nat.eqb_spec k n) as [->|]; [|discriminate]. destruct x as [p|v ms nm r|s].
  - destruct (IH ltac:(lia) (ex_intro _ m H)) as ([rs ch q] & rest & Hb & -> & Hr). exists (mkRoutes rs ch (p :: q)), rest.
    split; [|split; [|exact Hr]].
    + apply every_block_cons in Hb. apply every_block_cons. exact Hb.
    + rewrite !outline_eq. reflexivity.
  - destruct (find_verbs n Hn l ltac:(lia) (ex_intro _ m H)) as (q & rs & l' & -> & ch & rest & Hc & -> & Hr).
    exists (mkRoutes (mkResource v ms nm r q :: rs) ch []), rest. split; [|split; [|exact Hr]].
    + apply every_block_cons. split; [left; discriminate|exact Hc].
    + rewrite outline_eq. cbn [map app flat_map]. rewrite <- !app_assoc. reflexivity.
  - destruct (find_children n Hn (S (length l)) ((n, ESegment s) :: l)) as (ch & rest & Hc & E & Hr).
    + simpl; lia.
    + simpl; lia.
    + right. exists n, s, l. repeat split; [lia|lia|eexists; exact H].
    + exists (mkRoutes [] ch []), rest. split; [|split; [|exact Hr]].
      * apply every_block_cons. split; [|exact Hc]. right. intros Hch. cbn [rt_routes] in Hch. subst ch. cbn [flat_map app] in E. subst rest.
        destruct Hr as [Hr|(k & s' & l' & Hr & Hk & _)]; [discriminate|]. injection Hr as <- _. lia.
      * rewrite outline_eq. exact E.
Qed.
End Find.
Lemma find_all : forall len n l, length l < len -> 1 <= n -> ends (Open n) l -> block_found n l.
Proof.
  induction len as [|len IH]; intros n l Hl Hn H; [lia|]. apply (find_block len IH n Hn l ltac:(lia) H).
Qed.
Lemma outlines l : (exists b, every_block filled b /\ outline 1 b = l) <-> well_ordered l = true.
Proof.
  unfold well_ordered. split.
  - intros (b & Hb & <-). destruct (walk_outline b 1 ltac:(lia) Hb) as (m & _ & ->). reflexivity.
  - intros H. assert (He : ends (Open 1) l).
    { destruct (walk (Open 1) l) as [[n|m]|] eqn:E; try discriminate. exists m. exact E. }
    destruct (find_all (S (length l)) 1 l ltac:(lia) ltac:(lia) He) as (b & rest & Hb & -> & Hr).
    exists b. split; [exact Hb|]. destruct Hr as [->|(k & s & l' & -> & Hk & _)]; [rewrite app_nil_r; reflexivity|lia].
Qed.
Lemma lined_accepted ualnum hs l text : lined_text ualnum hs l text ->
  (exists c, route_config_p ualnum text = POk [] c) <-> well_ordered l = true.
Proof.
  intros H. rewrite <- outlines. split.
  - intros (c & Hc). apply parse_exact, config_lined in Hc. destruct Hc as [Hf Hc].
    destruct (lined_unique ualnum _ _ _ _ _ H Hc) as [-> ->]. eauto.
  - intros (b & Hb & <-). exists (mkConfig hs b). apply parse_exact, config_lined. auto.
Qed.

(** ** Order *)
Definition deep (k : nat) (p : place) : Prop := match p with Open j => k < j | Verbs j => k < j end.
Lemma deep_next k p j x p' : deep k p -> k <= j -> next p (j, x) = Some p' -> deep k p'.
Proof.
  intros Hp Hj H. destruct p as [n|n]; cbn [next deep] in *.
  - destruct (Nat.eqb_spec j n); [|discriminate]. destruct x; injection H as <-; cbn [deep]; lia.
  - destruct x.
    + destruct (Nat.eqb_spec j (S n)); [|discriminate]. injection H as <-. exact Hp.
    + destruct (Nat.eqb_spec j n); [|discriminate]. injection H as <-. exact Hp.
    + destruct (_ && _); [|discriminate]. injection H as <-. cbn [deep]. lia.
Qed.
Lemma deep_at k p x p' : deep k p -> next p (k, x) = Some p' -> rank x = 2.
Proof.
  intros Hp H. destruct p as [n|n]; cbn [next deep] in *.
  - destruct (Nat.eqb_spec k n); [lia|discriminate].
  - destruct x; [destruct (Nat.eqb_spec k (S n)); [lia|discriminate]|destruct (Nat.eqb_spec k n); [lia|discriminate]|reflexivity].
Qed.
Lemma verbs_next k j x p' : k <= j -> next (Verbs k) (j, x) = Some p' -> deep k p' \/ p' = Verbs k.
Proof.
  intros Hj H. cbn [next] in H. destruct x.
  - destruct (_ =? _)%nat; [|discriminate]. injection H as <-. right. reflexivity.
  - destruct (_ =? _)%nat; [|discriminate]. injection H as <-. right. reflexivity.
  - destruct (_ && _); [|discriminate]. injection H as <-. left. cbn [deep]. lia.
Qed.
Lemma verbs_at k x p' : next (Verbs k) (k, x) = Some p' -> 1 <= rank x.
Proof. cbn [next]. destruct x; cbn [rank]; try lia. destruct (Nat.eqb_spec k (S k)); [lia|discriminate]. Qed.
Lemma walk_rank l2 : forall (least : nat) k p y l3 q, (deep k p \/ (least <= 1 /\ p = Verbs k)) -> least <= 2 ->
  Forall (fun x : line => k <= fst x) l2 -> walk p (l2 ++ (k, y) :: l3) = Some q -> least <= rank y.
Proof.
  induction l2 as [|[j x] l2 IH]; intros least k p y l3 q Hp Hl HF H; cbn [app walk] in H.
  - destruct (next p (k, y)) as [p'|] eqn:E; [|discriminate]. destruct Hp as [Hp|[Hl' ->]].
    + rewrite (deep_at _ _ _ _ Hp E). exact Hl.
    + pose proof (verbs_at _ _ _ E). lia.
  - inversion HF as [|? ? Hj HF']; subst. cbn [fst] in Hj. destruct (next p (j, x)) as [p'|] eqn:E; [|discriminate].
    apply (IH least k p' y l3 q); [|exact Hl|exact HF'|exact H].
    destruct Hp as [Hp|[Hl' ->]]; [left; eapply deep_next; eassumption|].
    destruct (verbs_next _ _ _ _ Hj E) as [Hd|Hd]; auto.
Qed.
Lemma lines_ordered l l1 l2 l3 k x y : well_ordered l = true -> l = l1 ++ (k, x) :: l2 ++ (k, y) :: l3 ->
  Forall (fun z : line => k <= fst z) l2 -> rank x <= rank y.
Proof.
  unfold well_ordered. intros H -> HF. rewrite walk_app in H. destruct (walk (Open 1) l1) as [p|]; [|discriminate].
  cbn [walk] in H. destruct (next p (k, x)) as [p'|] eqn:E; [|discriminate].
  destruct (walk p' _) as [q|] eqn:Ew; [|discriminate]. destruct x as [a|v ms nm r|s].
  - apply Nat.le_0_l.
  - apply (walk_rank l2 1 k p' y l3 q); [|lia|exact HF|exact Ew]. right. split; [lia|].
    destruct p as [n|n]; cbn [next] in E; (destruct (Nat.eqb_spec k n) as [->|]; [|discriminate]); injection E as <-; reflexivity.
  - apply (walk_rank l2 2 k p' y l3 q); [|lia|exact HF|exact Ew]. left.
    destruct p as [n|n]; cbn [next] in E.
    + destruct (Nat.eqb_spec k n) as [->|]; [|discriminate]. injection E as <-. cbn [deep]. lia.
    + destruct (_ && _); [|discriminate]. injection E as <-. cbn [deep]. lia.
Qed.

(** ** The lines say which block it is *)
Definition shallow (n : nat) (l : list line) : Prop := match l with [] => True | (k, _) :: _ => k < n end.
Definition no_query (n : nat) (l : list line) : Prop := match l with (k, EQuery _) :: _ => k <> n | _ => True end.
Definition after_verbs (n : nat) (l : list line) : Prop :=
  match l with [] => True | (k, ESegment _) :: _ => k <= n | (k, _) :: _ => k < n end.
Lemma params_inj n q : forall q' r r', no_query n r -> no_query n r' ->
  map (param_line n) q ++ r = map (param_line n) q' ++ r' -> q = q' /\ r = r'.
Proof.
  induction q as [|p q IH]; intros [|p' q'] r r' Hr Hr' E; cbn [map app] in E.
  - auto.
  - subst r. cbn in Hr. congruence.
  - subst r'. cbn in Hr'. congruence.
  - injection E as <- E. destruct (IH q' r r' Hr Hr' E) as [<- <-]. auto.
Qed.
Lemma resources_no_query n k rs r : n < k -> after_verbs n r -> no_query k (flat_map (resource_lines n) rs ++ r).
Proof.
  intros Hk Hr. destruct rs; cbn; [|exact I]. destruct r as [|[j []] r]; cbn in *; try exact I; lia.
Qed.
Lemma resources_inj n rs : forall rs' r r', after_verbs n r -> after_verbs n r' ->
  flat_map (resource_lines n) rs ++ r = flat_map (resource_lines n) rs' ++ r' -> rs = rs' /\ r = r'.
Proof.
  induction rs as [|[v ms nm rd q] rs IH]; intros [|[v' ms' nm' rd' q'] rs'] r r' Hr Hr' E; cbn [flat_map app] in E.
  - auto.
  - subst r. cbn in Hr. lia.
  - subst r'. cbn in Hr'. lia.
  - rewrite <- !app_assoc in E. unfold resource_lines at 1 3 in E. cbn [r_method r_modules r_name r_is_redirect r_query] in E.
    cbn [app] in E. injection E as <- <- <- <- E.
    apply params_inj in E; [|apply resources_no_query; [lia|assumption]|apply resources_no_query; [lia|assumption]].
    destruct E as [<- E]. destruct (IH rs' r r' Hr Hr' E) as [<- <-]. auto.
Qed.
Lemma children_after n ch r : shallow n r -> after_verbs n (flat_map (child_lines n) ch ++ r).
Proof. intros H. destruct ch as [|[s c] ch]; cbn; [|lia]. destruct r as [|[k []] r]; cbn in *; try exact I; lia. Qed.
Lemma after_no_query n r : after_verbs n r -> no_query n r.
Proof. destruct r as [|[k []] r]; cbn; try exact (fun _ => I). lia. Qed.
Lemma children_shallow n ch r : shallow n r -> shallow (S n) (flat_map (child_lines n) ch ++ r).
Proof. intros H. destruct ch as [|[s c] ch]; cbn; [|lia]. destruct r as [|[k x] r]; cbn in *; [exact I|lia]. Qed.
Lemma outline_inj : forall b n b' r r', shallow n r -> shallow n r' -> outline n b ++ r = outline n b' ++ r' -> b = b' /\ r = r'.
Proof.
  induction b as [rs ch q IH] using Routes_ind'. intros n [rs' ch' q'] r r' Hr Hr' E.
  rewrite !outline_eq, <- !app_assoc in E.
  assert (Hq : forall rs ch r, shallow n r -> no_query n (flat_map (resource_lines n) rs ++ flat_map (child_lines n) ch ++ r)).
  { intros rs0 ch0 r0 H0. destruct rs0; [|exact I]. apply after_no_query, children_after, H0. }
  apply params_inj in E; [|apply Hq, Hr|apply Hq, Hr']. destruct E as [<- E].
  apply resources_inj in E; [|apply children_after, Hr|apply children_after, Hr']. destruct E as [<- E].
  assert (Hc : ch = ch' /\ r = r'); [|destruct Hc as [<- <-]; auto].
  clear Hq. revert ch' E. induction IH as [|[s c] ch H1 _ IHch]; intros [|[s' c'] ch'] E; cbn [flat_map app] in E.
  - auto.
  - subst r. cbn in Hr. lia.
  - subst r'. cbn in Hr'. lia.
  - rewrite <- !app_assoc in E. unfold child_lines at 1 3 in E. cbn [fst snd app] in E. injection E as <- E.
    cbn [snd] in H1. apply H1 in E; [|apply children_shallow, Hr|apply children_shallow, Hr'].
    destruct E as [<- E]. destruct (IHch ch' E) as [<- <-]. auto.
Qed.
Lemma outline_unique n b b' : outline n b = outline n b' -> b = b'.
Proof. intros E. apply (outline_inj b n b' [] []); [exact I|exact I|rewrite E; reflexivity]. Qed.

(** ** Levels of lines next to each other *)
Lemma levels_step l l1 l2 n x m y : well_ordered l = true -> l = l1 ++ (n, x) :: (m, y) :: l2 ->
  match x with ESegment _ => m = S n | EVerb _ _ _ _ => m = S n /\ rank y = 0 \/ m = n /\ rank y <> 0 \/ m < n /\ rank y = 2 | EQuery _ => m <= n end.
Proof.
  unfold well_ordered. intros H ->. rewrite walk_app in H. destruct (walk (Open 1) l1) as [p|]; [|discriminate].
  cbn [walk] in H. destruct (next p (n, x)) as [p1|] eqn:E1; [|discriminate]. destruct (next p1 (m, y)) as [p2|] eqn:E2; [|discriminate].
  clear H. assert (H : match x with EQuery _ => p1 = Open n \/ exists k, n = S k /\ p1 = Verbs k | EVerb _ _ _ _ => p1 = Verbs n | ESegment _ => p1 = Open (S n) end).
  { destruct p as [k|k]; cbn [next] in E1; destruct x;
      repeat match type of E1 with context [if (?a =? ?b)%nat then _ else _] => destruct (Nat.eqb_spec a b); [subst|discriminate]
                                 | context [if ?b then _ else _] => destruct b; [|discriminate] end;
      injection E1 as <-; eauto. }
  destruct x.
  - destruct H as [->|(k & -> & ->)]; cbn [next] in E2.
    + destruct (Nat.eqb_spec m n); [lia|discriminate].
    + destruct y; [destruct (Nat.eqb_spec m (S k)); [lia|discriminate]|destruct (Nat.eqb_spec m k); [lia|discriminate]|].
      destruct (Nat.leb_spec 1 m); [|discriminate]. destruct (Nat.leb_spec m k); [lia|discriminate].
  - subst p1. cbn [next] in E2.
    destruct y; cbn [rank]; [destruct (Nat.eqb_spec m (S n)); [lia|discriminate]|destruct (Nat.eqb_spec m n); [lia|discriminate]|].
    destruct (Nat.leb_spec 1 m); [|discriminate]. destruct (Nat.leb_spec m n); [lia|discriminate].
  - subst p1. cbn [next] in E2. destruct (Nat.eqb_spec m (S n)); [assumption|discriminate].
Qed.
Lemma first_level n x l : well_ordered ((n, x) :: l) = true -> n = 1.
Proof. unfold well_ordered. cbn [walk next]. destruct (Nat.eqb_spec n 1); [auto|discriminate]. Qed.

(** ** As statements about files *)
Lemma lines_exact ualnum text c : route_config_p ualnum text = POk [] c <->
  every_block filled (c_routes c) /\ lined_text ualnum (c_headers c) (outline 1 (c_routes c)) text.
Proof. rewrite parse_exact. apply config_lined. Qed.
Lemma accepted_ordered ualnum text c hs l : route_config_p ualnum text = POk [] c -> lined_text ualnum hs l text -> well_ordered l = true.
Proof. intros Hc Hl. apply (lined_accepted ualnum hs l text Hl). eauto. Qed.
Lemma children_ordered ualnum text c hs l1 l2 l3 k x y : route_config_p ualnum text = POk [] c ->
  lined_text ualnum hs (l1 ++ (k, x) :: l2 ++ (k, y) :: l3) text -> Forall (fun z : line => k <= fst z) l2 -> rank x <= rank y.
Proof. intros Hc Hl HF. eapply lines_ordered; [eapply accepted_ordered; eassumption|reflexivity|exact HF]. Qed.
Lemma levels ualnum text c hs l1 l2 n x m y : route_config_p ualnum text = POk [] c ->
  lined_text ualnum hs (l1 ++ (n, x) :: (m, y) :: l2) text ->
  match x with ESegment _ => m = S n | EVerb _ _ _ _ => m = S n /\ rank y = 0 \/ m = n /\ rank y <> 0 \/ m < n /\ rank y = 2 | EQuery _ => m <= n end.
Proof. intros Hc Hl. eapply levels_step; [eapply accepted_ordered; eassumption|reflexivity]. Qed.
