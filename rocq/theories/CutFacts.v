(** * CutFacts: files that are cut off *)
From Verif Require Import Base Core Nom Parse Spec SpecParse SpecMatch SpecGrammar SpecOutline SpecCut
  BaseFacts NodeFacts ParseFacts RelineFacts RoundFacts GrammarFacts MatchProps OutlineFacts.

(** ** Lists of lines *)
Definition longer (P : Prop) (x1 x : line) : Prop :=
  x1 = x \/ P /\ exists k m ms n ms' n' r, x1 = (k, EVerb m ms n r) /\ x = (k, EVerb m ms' n' r) /\ beginning (ms ++ [n]) (ms' ++ [n']).

Lemma app_cases {A} (a b : list A) : forall l0 x l2, a ++ b = l0 ++ x :: l2 ->
  (exists q, a = l0 ++ x :: q /\ l2 = q ++ b) \/ (exists p, l0 = a ++ p /\ b = p ++ x :: l2).
Proof.
  induction a as [|y a IH]; intros l0 x l2 H; [right; exists l0; auto|]. destruct l0 as [|z l0]; cbn [app] in H.
  - injection H as -> <-. left. exists a. auto.
  - injection H as -> H. destruct (IH _ _ _ H) as [(q & -> & ->)|(p & -> & ->)]; [left; exists q; auto|right; exists p; auto].
Qed.
Lemma flat_map_split {A B} (f : A -> list B) l : forall l0 x l2, flat_map f l = l0 ++ x :: l2 ->
  exists la y lb p q, l = la ++ y :: lb /\ f y = p ++ x :: q /\ l0 = flat_map f la ++ p /\ l2 = q ++ flat_map f lb.
Proof.
  induction l as [|y l IH]; intros l0 x l2 H; [destruct l0; discriminate|]. cbn [flat_map] in H.
  destruct (app_cases _ _ _ _ _ H) as [(q & E1 & E2)|(p & E1 & E2)].
  - exists [], y, l, l0, q. auto.
  - destruct (IH _ _ _ E2) as (la & z & lb & p' & q & -> & E3 & -> & ->).
    exists (y :: la), z, lb, p', q. cbn [flat_map app]. subst l0. rewrite <- app_assoc. auto.
Qed.

Lemma map_split {A B} (f : A -> B) l : forall l0 x l2, map f l = l0 ++ x :: l2 ->
  exists la y lb, l = la ++ y :: lb /\ f y = x /\ l0 = map f la /\ l2 = map f lb.
Proof.
  induction l as [|y l IH]; intros l0 x l2 H; [destruct l0; discriminate|]. cbn [map] in H. destruct l0 as [|z l0]; injection H as H1 H2.
  - exists [], y, l. auto.
  - destruct (IH _ _ _ H2) as (la & w & lb & -> & E & -> & ->). exists (y :: la), w, lb. subst z. auto.
Qed.
Lemma longer_query P k p x1 : longer P x1 (k, EQuery p) -> x1 = (k, EQuery p).
Proof. intros [H|(_ & ? & ? & ? & ? & ? & ? & ? & _ & H & _)]; [exact H|discriminate]. Qed.
Lemma longer_segment P k s x1 : longer P x1 (k, ESegment s) -> x1 = (k, ESegment s).
Proof. intros [H|(_ & ? & ? & ? & ? & ? & ? & ? & _ & H & _)]; [exact H|discriminate]. Qed.
Lemma walk_segment p l k s m : walk p (l ++ [(k, ESegment s)]) = Some (Verbs m) -> False.
Proof.
  rewrite walk_app. destruct (walk p l) as [[n|n]|]; cbn [walk next]; [| |discriminate].
  - destruct (k =? n)%nat; discriminate.
  - destruct ((1 <=? k)%nat && (k <=? n)%nat); discriminate.
Qed.

(** The lines up to a verb or a query parameter of it. *)
Lemma cut_lines P : forall b n l0 x l2 x1 m, outline n b = l0 ++ x :: l2 -> longer P x1 x ->
  walk (Open n) (l0 ++ [x1]) = Some (Verbs m) ->
  exists b1, cut false b1 b /\ outline n b1 = l0 ++ [x1] /\ (x1 = x -> cut true b1 b).
Proof.
  induction b as [rs ch q IH] using Routes_ind'. intros n l0 x l2 x1 m H Hl Hw. rewrite Forall_forall in IH.
  rewrite outline_eq in H. destruct (app_cases _ _ _ _ _ H) as [(u & E1 & E2)|(p0 & -> & H1)].
  { exfalso. destruct (map_split _ _ _ _ _ E1) as (la & y & lb & -> & <- & -> & _).
    apply longer_query in Hl. subst x1. change (map (param_line n) la ++ [(n, EQuery y)]) with (map (param_line n) la ++ map (param_line n) [y]) in Hw.
    rewrite <- map_app, walk_queries in Hw. discriminate. }
  destruct (app_cases _ _ _ _ _ H1) as [(u & E1 & E2)|(p1 & -> & H2)].
  - destruct (flat_map_split _ _ _ _ _ E1) as (la & r & lb & p & u' & -> & Er & -> & _).
    assert (Hcut : forall r1, cut_resource false r1 r -> (x1 = x -> cut_resource true r1 r) -> resource_lines n r1 = p ++ [x1] ->
              exists b1, cut false b1 (mkRoutes (la ++ r :: lb) ch q) /\
                outline n b1 = (map (param_line n) q ++ flat_map (resource_lines n) la ++ p) ++ [x1] /\
                (x1 = x -> cut true b1 (mkRoutes (la ++ r :: lb) ch q))).
    { intros r1 Hc Hc' Hr. exists (mkRoutes (la ++ [r1]) [] q). split; [constructor; exact Hc|]. split; [|intros E; constructor; exact (Hc' E)].
      rewrite outline_eq, flat_map_app. cbn [flat_map]. rewrite !app_nil_r, Hr, <- !app_assoc. reflexivity. }
    unfold resource_lines in Er. destruct p as [|y p].
    + injection Er as <- _. destruct Hl as [->|(_ & k & mm & ms & nm & ms' & nm' & rd & -> & Ex & Hb)].
      * apply (Hcut (mkResource (r_method r) (r_modules r) (r_name r) (r_is_redirect r) [])).
        -- split; [reflexivity|]. split; [reflexivity|]. left. split; [reflexivity|]. exists (r_query r). reflexivity.
        -- intros _. split; [reflexivity|]. split; [reflexivity|]. left. split; [reflexivity|]. exists (r_query r). reflexivity.
        -- reflexivity.
      * injection Ex as <- <- <- <- <-. apply (Hcut (mkResource (r_method r) ms nm (r_is_redirect r) [])).
        -- split; [reflexivity|]. split; [reflexivity|]. right. split; [reflexivity|]. split; [reflexivity|exact Hb].
        -- intros E. injection E as -> ->. split; [reflexivity|]. split; [reflexivity|]. left. split; [reflexivity|]. exists (r_query r). reflexivity.
        -- reflexivity.
    + injection Er as <- Er. destruct (map_split _ _ _ _ _ Er) as (qa & z & qb & Eq & <- & -> & _).
      apply longer_query in Hl. subst x1.
      assert (Hb : beginning (qa ++ [z]) (r_query r)) by (exists qb; rewrite Eq, <- app_assoc; reflexivity).
      apply (Hcut (mkResource (r_method r) (r_modules r) (r_name r) (r_is_redirect r) (qa ++ [z]))).
      * split; [reflexivity|]. split; [reflexivity|]. left. split; [reflexivity|exact Hb].
      * intros _. split; [reflexivity|]. split; [reflexivity|]. left. split; [reflexivity|exact Hb].
      * unfold resource_lines. cbn [r_method r_modules r_name r_is_redirect r_query]. rewrite map_app. reflexivity.
  - destruct (flat_map_split _ _ _ _ _ H2) as (la & [s child] & lb & p & u' & -> & Er & -> & _). unfold child_lines in Er. cbn [fst snd] in Er.
    destruct p as [|y p]; cbn [app] in Er.
    + exfalso. injection Er as <- _. apply longer_segment in Hl. subst x1. rewrite app_nil_r in Hw. exact (walk_segment _ _ _ _ _ Hw).
    + injection Er as <- Er.
      assert (Hin : In (s, child) (la ++ (s, child) :: lb)) by (apply in_or_app; right; left; reflexivity).
      assert (Hw' : walk (Open (S n)) (p ++ [x1]) = Some (Verbs m)).
      { set (pre := map (param_line n) q ++ flat_map (resource_lines n) rs ++ flat_map (child_lines n) la).
        assert (Hw0 : walk (Open n) (pre ++ (n, ESegment s) :: p ++ [x1]) = Some (Verbs m)).
        { rewrite <- Hw. f_equal. unfold pre. rewrite <- !app_assoc. reflexivity. }
        clear Hw. rename Hw0 into Hw. rewrite walk_app in Hw. destruct (walk (Open n) pre) as [[k|k]|]; cbn [walk next] in Hw; [| |discriminate].
        - destruct (Nat.eqb_spec n k) as [->|]; [exact Hw|discriminate].
        - destruct ((1 <=? n)%nat && (n <=? k)%nat); [exact Hw|discriminate]. }
      destruct (IH _ Hin (S n) p x u' x1 m Er Hl Hw') as (b1 & Hb1 & Ho & Hb2). cbn [snd] in *.
      exists (mkRoutes rs (la ++ [(s, b1)]) q). split; [constructor; exact Hb1|]. split.
      * rewrite outline_eq, flat_map_app. cbn [flat_map]. unfold child_lines at 2. cbn [fst snd]. rewrite Ho, app_nil_r, <- !app_assoc. reflexivity.
      * intros E. constructor. exact (Hb2 E).
Qed.

(** ** The text of the last line *)
Section Text.
Variable ualnum : char -> bool.
Notation line_text := (line_text ualnum).
Notation ident := (ident ualnum).

Lemma blanks_split a : forall a' c t c' t', blanks a -> blanks a' -> is_space c = false -> is_space c' = false ->
  a ++ c :: t = a' ++ c' :: t' -> a = a' /\ c = c' /\ t = t'.
Proof.
  induction a as [|x a IH]; intros [|y a'] c t c' t' Ha Ha' Hc Hc' E; cbn [app] in E; injection E as E1 E2; subst.
  - auto.
  - inversion Ha'; congruence.
  - inversion Ha; congruence.
  - inversion Ha; inversion Ha'; subst. destruct (IH a' c t c' t') as (-> & -> & ->); auto.
Qed.
Lemma idents_split n n' t t' : ident n -> ident n' ->
  (forall c, hd_error t = Some c -> is_identifier_char ualnum c = false) ->
  (forall c, hd_error t' = Some c -> is_identifier_char ualnum c = false) ->
  n ++ t = n' ++ t' -> n = n' /\ t = t'.
Proof.
  intros Hn Hn' Ht Ht' E. pose proof (ident_ok ualnum n t Hn Ht) as P. rewrite E in P.
  rewrite (ident_ok ualnum n' t' Hn' Ht') in P. injection P as -> ->. auto.
Qed.
Lemma blanks_colon a t : blanks a -> forall c, hd_error (a ++ lit "::" ++ t) = Some c -> is_identifier_char ualnum c = false.
Proof.
  intros Ha c H. destruct a as [|x a]; cbn [app] in H.
  - injection H as <-. reflexivity.
  - injection H as <-. inversion Ha as [|? ? Hx _]; subst. destruct (is_identifier_char ualnum x) eqn:Ex; [|reflexivity].
    apply ident_not in Ex. destruct Ex as [Ex _]. change (is_sp x = true) in Hx. congruence.
Qed.
Lemma resumes_from e : forall tail a t, blanks e -> blanks a -> e ++ tail = a ++ c_colon :: t -> resumes tail.
Proof.
  induction e as [|x e IH]; intros tail a t He Ha E.
  - exists a, t. auto.
  - inversion He as [|? ? Hx He']; subst. destruct a as [|y a]; cbn [app] in E; injection E as -> E; [discriminate Hx|].
    inversion Ha; subst. eapply IH; [exact He'| |exact E]. assumption.
Qed.
Lemma path_longer ms n w : path_text ualnum ms n w -> forall ms' n' w' e tail e' rest k, path_text ualnum ms' n' w' ->
  newlines e -> newlines e' -> before k rest -> w ++ e ++ tail = w' ++ e' ++ rest ->
  ms = ms' /\ n = n' \/ resumes tail /\ beginning (ms ++ [n]) (ms' ++ [n']).
Proof.
  induction 1 as [n Hn|m ms n a b w Hm Ha Hb Hw IH]; intros ms' n' w' e tail e' rest k Hw' He He' Hk E.
  - destruct Hw' as [n' Hn'|m' ms' n' a' b' w' Hm' Ha' Hb' Hw']; rewrite <- ?app_assoc in E.
    + apply idents_split in E; [|assumption|assumption|apply newlines_ident; assumption|apply newlines_ident; assumption].
      destruct E as [-> _]. left. auto.
    + apply idents_split in E; [|assumption|assumption|apply newlines_ident; assumption|apply blanks_colon; assumption].
      destruct E as [-> E]. right. split; [|exists (ms' ++ [n']); reflexivity].
      eapply (resumes_from e tail a'); [apply newlines_spaces; exact He|exact Ha'|exact E].
  - destruct Hw' as [n' Hn'|m' ms' n' a' b' w' Hm' Ha' Hb' Hw']; rewrite <- ?app_assoc in E.
    + exfalso. apply idents_split in E; [|assumption|assumption|apply blanks_colon; assumption|apply newlines_ident; assumption].
      destruct E as [_ E]. apply newlines_spaces in He'. destruct Hk as [->|(j & c & t & _ & -> & Hc & Hc')].
      * rewrite app_nil_r in E. assert (Hin : In c_colon e') by (rewrite <- E; apply in_or_app; right; left; reflexivity).
        unfold spaces in He'. rewrite Forall_forall in He'. discriminate (He' _ Hin).
      * assert (Hj : blanks (e' ++ ind j)).
        { apply Forall_app. split; [exact He'|]. clear. induction j as [|j IH]; [constructor|]. cbn [ind app]. repeat constructor. exact IH. }
        rewrite (app_assoc e') in E. change (lit "::" ++ b ++ w ++ e ++ tail) with (c_colon :: lit ":" ++ b ++ w ++ e ++ tail) in E.
        apply blanks_split in E; [|assumption|assumption|reflexivity|exact Hc]. destruct E as (_ & E & _). congruence.
    + apply idents_split in E; [|assumption|assumption|apply blanks_colon; assumption|apply blanks_colon; assumption].
      destruct E as [<- E]. change (lit "::" ++ b ++ w ++ e ++ tail) with (c_colon :: c_colon :: b ++ w ++ e ++ tail) in E.
      change (lit "::" ++ b' ++ w' ++ e' ++ rest) with (c_colon :: c_colon :: b' ++ w' ++ e' ++ rest) in E.
      apply blanks_split in E; [|assumption|assumption|reflexivity|reflexivity]. destruct E as (_ & _ & E). injection E as E.
      destruct (stops_path ualnum ms n w (e ++ tail) Hw) as (c & t & E1 & Hc).
      destruct (stops_path ualnum ms' n' w' (e' ++ rest) Hw') as (c' & t' & E1' & Hc').
      pose proof E as E0. rewrite E1, E1' in E0. apply ident_not in Hc. apply ident_not in Hc'.
      apply blanks_split in E0; [|assumption|assumption|apply Hc|apply Hc']. destruct E0 as (<- & _ & _).
      apply app_inv_head in E. destruct (IH _ _ _ _ _ _ _ _ Hw' He He' Hk E) as [[-> ->]|[Ht [l El]]]; [left; auto|].
      right. split; [exact Ht|]. exists l. cbn [app]. rewrite El. reflexivity.
Qed.
Lemma target_longer r ms n w r' ms' n' w' e tail e' rest k : target_text ualnum r ms n w -> target_text ualnum r' ms' n' w' ->
  newlines e -> newlines e' -> before k rest -> w ++ e ++ tail = w' ++ e' ++ rest ->
  r = r' /\ (ms = ms' /\ n = n' \/ resumes tail /\ beginning (ms ++ [n]) (ms' ++ [n'])).
Proof.
  assert (Hno : forall ms n w e tail a t, path_text ualnum ms n w -> blanks a -> w ++ e ++ tail = a ++ lit "->" ++ t -> False).
  { intros ms0 n0 w0 e0 tail0 a t Hw Ha E. destruct (stops_path ualnum ms0 n0 w0 (e0 ++ tail0) Hw) as (c & u & E1 & Hc). rewrite E1 in E.
    apply ident_not in Hc. destruct Hc as (Hc & _ & _ & _ & _ & Hd).
    change (c :: u) with ([] ++ c :: u) in E. change (lit "->" ++ t) with (45%N :: lit ">" ++ t) in E.
    destruct (blanks_split [] a c u 45%N _ (Forall_nil _) Ha Hc eq_refl E) as (_ & Ec & _). congruence. }
  intros H H' He He' Hk E. destruct H as [ms n w Hw|ms n a b w Ha Hb Hw], H' as [ms' n' w' Hw'|ms' n' a' b' w' Ha' Hb' Hw'];
    rewrite <- ?app_assoc in E.
  - split; [reflexivity|]. exact (path_longer ms n w Hw ms' n' w' e tail e' rest k Hw' He He' Hk E).
  - exfalso. exact (Hno ms n w e tail _ _ Hw Ha' E).
  - exfalso. symmetry in E. exact (Hno ms' n' w' e' rest _ _ Hw' Ha E).
  - split; [reflexivity|].
    change (lit "->" ++ b ++ w ++ e ++ tail) with (45%N :: 62%N :: b ++ w ++ e ++ tail) in E.
    change (lit "->" ++ b' ++ w' ++ e' ++ rest) with (45%N :: 62%N :: b' ++ w' ++ e' ++ rest) in E.
    apply blanks_split in E; [|assumption|assumption|reflexivity|reflexivity]. destruct E as (_ & _ & E). injection E as E.
    destruct (stops_path ualnum ms n w (e ++ tail) Hw) as (c & t & E1 & Hc).
    destruct (stops_path ualnum ms' n' w' (e' ++ rest) Hw') as (c' & t' & E1' & Hc').
    pose proof E as E0. rewrite E1, E1' in E0. apply ident_not in Hc. apply ident_not in Hc'.
    apply blanks_split in E0; [|assumption|assumption|apply Hc|apply Hc']. destruct E0 as (<- & _ & _).
    apply app_inv_head in E. exact (path_longer ms n w Hw ms' n' w' e tail e' rest k Hw' He He' Hk E).
Qed.
Lemma endings_any e tail : newlines e -> exists r u, many1 line_ending (e ++ tail) = POk r u.
Proof.
  intros He. destruct (endings1_skip (e ++ tail)) as [l Hl].
  - destruct (newlines_head e He) as (c & e' & -> & [->|(-> & e'' & ->)]); discriminate.
  - eauto.
Qed.
Lemma last_line k x1 s1 x s tail rest j : line_text (k, x1) s1 -> line_text (k, x) s -> before j rest ->
  s1 ++ tail = s ++ rest -> longer (resumes tail) (k, x1) (k, x).
Proof.
  intros H1 H Hj E. pose proof (line_says ualnum j k x s rest H Hj) as P. rewrite <- E in P.
  inversion H1 as [k0 y w e Hw He E0]; subst k0 y s1. destruct (endings_any e tail He) as (r0 & u & Eu).
  destruct Hw as [p a w b Ha Hw Hbl|m ms nm r v w Hv Hw|sg w Hs].
  - left. replace ((margin k ++ (lit "[" ++ a ++ w ++ b ++ lit "]") ++ e) ++ tail)
      with (ind k ++ c_lbrack :: a ++ w ++ b ++ c_rbrack :: e ++ tail) in P by (rewrite <- !app_assoc; reflexivity).
    unfold line_p, pbind at 1, alt at 1, pbind at 1, query_parameter_p, pbind at 1 in P. rewrite indent_ok in P.
    rewrite (bracket_says ualnum c_lbrack c_rbrack (fun p => p) p a w b) in P; try assumption; try reflexivity.
    unfold pret, pbind in P. rewrite Eu in P. injection P as _ <-. reflexivity.
  - clear P. inversion H as [k0 y w' e' Hw' He' E0]; subst k0 y s. rewrite <- !app_assoc in E. apply app_inv_head in E.
    assert (Em : forall u, method_p (v ++ lit " " ++ u) = POk (lit " " ++ u) m) by (intros; apply method_iff; eauto).
    destruct Hw' as [p a w' b Ha Hw' Hbl|m' ms' nm' r' v' w' Hv' Hw'|sg w' Hs].
    + exfalso. destruct (verb_head v m Hv) as (c & t & -> & _ & _ & Hc). rewrite <- !app_assoc in E. cbn [app lit] in E.
      pose proof (f_equal (hd_error (A:=N)) E) as Eh. injection Eh as Eh. apply Hc. exact Eh.
    + rewrite <- !app_assoc in E. assert (Em' : method_p (v' ++ lit " " ++ w' ++ e' ++ rest) = POk (lit " " ++ w' ++ e' ++ rest) m')
        by (apply method_iff; eauto).
      rewrite <- E, Em in Em'. injection Em' as Ew <-.
      destruct (target_longer r ms nm w r' ms' nm' w' e tail e' rest j Hw Hw' He He' Hj Ew) as [<- [[<- <-]|[Ht Hb]]]; [left; reflexivity|].
      right. split; [exact Ht|]. exists k, m, ms, nm, ms', nm', r. auto.
    + exfalso. destruct (no_verb ualnum sg w' e' rest Hs He') as [Er|(r1 & m1 & Er & Hsp)]; rewrite <- E, Em in Er; [discriminate|].
      injection Er as <- _. discriminate Hsp.
  - left. rewrite <- !app_assoc in P.
    assert (Hq : query_parameter_p ualnum k (margin k ++ w ++ e ++ tail) = PErr).
    { destruct (segment_start ualnum sg w (e ++ tail) Hs) as (c & t & E1 & _ & _ & Hc). rewrite E1. apply query_other. exact Hc. }
    unfold line_p, pbind at 1, alt at 1, pbind at 1 in P. rewrite Hq in P. unfold alt at 1 in P.
    assert (Hv : (indent_p k ;; (do m <- method_p; pchar c_space ;; do t <- target_p ualnum;
               pret (EVerb m (snd (fst t)) (snd t) (fst (fst t))))) (margin k ++ w ++ e ++ tail) = PErr).
    { unfold pbind at 1. rewrite indent_ok. unfold pbind at 1.
      destruct (no_verb ualnum sg w e tail Hs He) as [E1|(r & m & E1 & Hsp)]; rewrite E1; [reflexivity|].
      unfold pbind. rewrite Hsp. reflexivity. }
    rewrite Hv in P. unfold pbind at 1 in P. rewrite (segment_says ualnum k sg) in P by assumption. unfold pret, pbind in P. rewrite Eu in P.
    injection P as _ <-. reflexivity.
Qed.
Lemma before_more l w tail : texts line_text l w -> l <> [] -> exists n, before n (w ++ tail).
Proof.
  intros H Hl. destruct H as [|[k x] l s rest Hs _]; [congruence|]. exists (S k). rewrite <- app_assoc.
  eapply before_line; [|eapply line_at_text; exact Hs]. lia.
Qed.
Lemma lines_longer l1 w1 : texts line_text l1 w1 -> forall l tail, l1 <> [] -> texts line_text l (w1 ++ tail) ->
  exists l0 x1 x l2, l1 = l0 ++ [x1] /\ l = l0 ++ x :: l2 /\ longer (resumes tail) x1 x.
Proof.
  induction 1 as [|[k x] l1 s rest Hs H IH]; intros l' tail Hne H'; [congruence|]. rewrite <- app_assoc in H'.
  inversion H' as [E1 E2|[k' x'] l2 s' rest' Hs' Hr E1 E2]; subst.
  { exfalso. apply line_at_text, line_at_ne in Hs. destruct s; [congruence|discriminate]. }
  assert (Hk : k = k').
  { destruct (line_at_text _ _ _ _ Hs) as (c & t & -> & Hc & _). destruct (line_at_text _ _ _ _ Hs') as (c' & t' & -> & Hc' & _).
    rewrite <- !app_assoc in E2. eapply ind_inj; [exact Hc|exact Hc'|]. symmetry. exact E2. }
  subst k'. destruct (before_all _ _ _ Hr) as [n' Hn']. destruct l1 as [|y l1].
  - inversion H; subst. exists [], (k, x), (k, x'), l2. split; [reflexivity|]. split; [reflexivity|].
    eapply last_line; [exact Hs|exact Hs'|exact Hn'|]. symmetry. exact E2.
  - destruct (before_more _ _ tail H ltac:(discriminate)) as [n Hn].
    pose proof (line_says ualnum n k x s (rest ++ tail) Hs Hn) as P1. pose proof (line_says ualnum n' k x' s' rest' Hs' Hn') as P2.
    rewrite E2 in P2. rewrite P1 in P2. injection P2 as E3 ->. subst rest'.
    destruct (IH l2 tail ltac:(discriminate) Hr) as (l0 & x1 & z & l3 & E4 & -> & Hl). exists ((k, x') :: l0), x1, z, l3.
    rewrite E4. auto.
Qed.
Lemma lined_longer hs hs' l1 l text tail : lined_text ualnum hs l1 text -> l1 <> [] -> lined_text ualnum hs' l (text ++ tail) ->
  hs = hs' /\ exists l0 x1 x l2, l1 = l0 ++ [x1] /\ l = l0 ++ x :: l2 /\ longer (resumes tail) x1 x.
Proof.
  intros H Hne H'. destruct H as [hs l1 e0 s e w He0 Hs He Hw]. remember ((e0 ++ s ++ lit "/" ++ e ++ w) ++ tail) as text eqn:Et.
  destruct H' as [hs' l e0' s' e' w' He0' Hs' He' Hw']. rename Et into E. rewrite <- !app_assoc in E.
  assert (Es : s' ++ c_slash :: e' ++ w' = s ++ c_slash :: e ++ w ++ tail).
  { assert (Hsk : forall e0 hs s u, (e0 = [] \/ newlines e0) -> texts header_line hs s -> skip (e0 ++ s ++ c_slash :: u) = s ++ c_slash :: u).
    { intros f0 fs v u [->|Hf] Hv; cbn [app]; [|rewrite skip_newlines by exact Hf]; eapply headers_skip; exact Hv. }
    rewrite <- (Hsk e0' hs' s' (e' ++ w') He0' Hs'). rewrite <- (Hsk e0 hs s (e ++ w ++ tail) He0 Hs). f_equal. exact E. }
  pose proof (skip_slash_lines hs s (e ++ w ++ tail) Hs) as P1. pose proof (skip_slash_lines hs' s' (e' ++ w') Hs') as P2.
  rewrite Es in P2. rewrite P1 in P2. injection P2 as E2 ->. split; [reflexivity|].
  destruct (before_more _ _ tail Hw Hne) as [n Hn]. destruct (before_all _ _ _ Hw') as [n' Hn'].
  destruct (endings_says n e (w ++ tail) He Hn) as [u Eu]. destruct (endings_says n' e' w' He' Hn') as [u' Eu'].
  rewrite <- E2 in Eu'. rewrite Eu in Eu'. injection Eu' as <- _. eapply lines_longer; eassumption.
Qed.
(** A file and the same file cut off. *)
Lemma cut_file text tail c1 c : route_config_p ualnum text = POk [] c1 -> route_config_p ualnum (text ++ tail) = POk [] c ->
  c_headers c1 = c_headers c /\ cut false (c_routes c1) (c_routes c) /\ (~ resumes tail -> cut true (c_routes c1) (c_routes c)).
Proof.
  intros H1 H. apply lines_exact in H1. destruct H1 as [Hf1 H1]. apply lines_exact in H. destruct H as [Hf H].
  destruct (walk_outline (c_routes c1) 1 ltac:(lia) Hf1) as (m & _ & Hw).
  assert (Hne : outline 1 (c_routes c1) <> []) by (intros E; rewrite E in Hw; discriminate).
  destruct (lined_longer _ _ _ _ _ _ H1 Hne H) as (Eh & l0 & x1 & x & l2 & E1 & E2 & Hl). split; [exact Eh|].
  rewrite E1 in Hw. destruct (cut_lines _ _ _ _ _ _ _ _ E2 Hl Hw) as (b1 & Hc & Ho & Hc').
  rewrite <- E1 in Ho. apply outline_unique in Ho. subst b1. split; [exact Hc|].
  intros Hn. apply Hc'. destruct Hl as [Hl|[Hl _]]; [exact Hl|contradiction].
Qed.
End Text.

(** ** Every beginning is that of a file *)
Lemma cut_whole_lines b1 b : cut true b1 b -> forall n, exists l2, outline n b = outline n b1 ++ l2.
Proof.
  induction 1 as [rs r1 r rs' ch q H|rs seg b1 b ch ch' q H IH]; intros n; rewrite !outline_eq.
  - destruct H as (Hm & Hr & [[Hh [qs Hq]]|[Hf _]]); [|discriminate]. apply app_inj_tail in Hh. destruct Hh as [Hms Hn].
    rewrite !flat_map_app. cbn [flat_map]. exists (map (param_line (S n)) qs ++ flat_map (resource_lines n) rs' ++ flat_map (child_lines n) ch).
    unfold resource_lines at 2 5. rewrite Hm, Hr, Hms, Hn, Hq, map_app, !app_nil_r. repeat (rewrite <- !app_assoc; cbn [app]). reflexivity.
  - destruct (IH (S n)) as [l2 E]. rewrite !flat_map_app. cbn [flat_map]. unfold child_lines at 2 5. cbn [fst snd].
    exists (l2 ++ flat_map (child_lines n) ch'). rewrite E, !app_nil_r. repeat (rewrite <- !app_assoc; cbn [app]). reflexivity.
Qed.
Lemma cut_blocks whole b1 b : cut whole b1 b -> forall pat q x1, block_at b1 pat q x1 ->
  exists x, block_at b pat q x /\ (x1 = x \/ cut whole x1 x).
Proof.
  induction 1 as [rs r1 r rs' ch q H|rs seg b1 b ch ch' q H IH]; intros pat q0 x1 Hx.
  - inversion Hx as [|? seg child p q1 ? Hin]; subst; [|destruct Hin]. exists (mkRoutes (rs ++ r :: rs') ch q). split; [exact (block_root _)|]. right. constructor. exact H.
  - inversion Hx as [|? seg0 child p q1 ? Hin Hat]; subst.
    + exists (mkRoutes rs (ch ++ (seg, b) :: ch') q). split; [exact (block_root _)|]. right. constructor. exact H.
    + cbn [rt_routes] in Hin. apply in_app_or in Hin. destruct Hin as [Hin|[[= <- <-]|[]]].
      * exists x1. split; [|left; reflexivity]. apply (block_step (mkRoutes rs (ch ++ (seg, b) :: ch') q) seg0 child p q1 x1); [|exact Hat].
        cbn [rt_routes]. apply in_or_app. left. exact Hin.
      * destruct (IH _ _ _ Hat) as (x & Hb & Hc). exists x. split; [|exact Hc].
        apply (block_step (mkRoutes rs (ch ++ (seg, b) :: ch') q) seg b p q1 x); [|exact Hb].
        cbn [rt_routes]. apply in_or_app. right. left. reflexivity.
Qed.
Lemma cut_filled whole b1 b : cut whole b1 b -> filled b1.
Proof. intros [rs r1 r rs' ch q H|rs seg b1' b' ch ch' q H]; [left|right]; cbn; intros E; destruct (app_eq_nil _ _ E); discriminate. Qed.
Lemma cut_written ualnum text c b1 : route_config_p ualnum text = POk [] c -> cut true b1 (c_routes c) ->
  exists text1 tail, text = text1 ++ tail /\ route_config_p ualnum text1 = POk [] (mkConfig (c_headers c) b1).
Proof.
  intros H Hc. apply lines_exact in H. destruct H as [Hf H]. destruct (cut_whole_lines _ _ Hc 1) as [l2 E]. rewrite E in H.
  inversion H as [hs l e0 s e w He0 Hs He Hw]; subst. apply texts_split in Hw. destruct Hw as (w1 & w2 & -> & Hw1 & Hw2).
  exists (e0 ++ s ++ lit "/" ++ e ++ w1), w2. split; [rewrite <- !app_assoc; reflexivity|]. apply lines_exact. cbn [c_headers c_routes]. split.
  - intros pat q x1 Hx. destruct (cut_blocks _ _ _ Hc _ _ _ Hx) as (x & Hb & [->|Hcx]); [exact (Hf _ _ _ Hb)|exact (cut_filled _ _ _ Hcx)].
  - constructor; assumption.
Qed.
