(** * CommentThms: which characters can stand where in a route file *)
From Verif Require Import Base Core Nom Parse SpecParse SpecGrammar SpecComment BaseFacts GrammarFacts.

Section Chars.
Variable ualnum : char -> bool.
Notation good s := (Forall (route_char ualnum) s).
Lemma ident_good s : ident ualnum s -> good s.
Proof. intros [_ H]. eapply Forall_impl; [|exact H]. intros c Hc. left. exact Hc. Qed.
Lemma blanks_good s : blanks s -> good s.
Proof. intros H. eapply Forall_impl; [|exact H]. intros c Hc. right. left. exact Hc. Qed.
Lemma newline_good s : newline s -> good s.
Proof. intros H. destruct H; repeat constructor; right; left; reflexivity. Qed.
Lemma newlines_good s : newlines s -> good s.
Proof. induction 1 as [e H|e es H _ IH]; [apply newline_good, H|]. apply Forall_app. split; [apply newline_good, H|exact IH]. Qed.
Lemma margin_good n : good (margin n).
Proof.
  unfold margin. induction n as [|n IH]; [constructor|]. cbn [repeat concat]. apply Forall_app. split; [|exact IH].
  repeat constructor; right; left; reflexivity.
Qed.
Lemma app_good (a b : str) : good a -> good b -> good (a ++ b).
Proof. intros Ha Hb. apply Forall_app. split; assumption. Qed.
Ltac pieces := repeat apply app_good; auto using ident_good, blanks_good, newlines_good, margin_good;
  try solve [repeat constructor; first [right; left; reflexivity|right; right; vm_compute; tauto]].
Lemma param_good p s : param_text ualnum p s -> good s.
Proof. intros H. destruct H. pieces. Qed.
Lemma segment_good p s : segment_text ualnum p s -> good s.
Proof. intros H. destruct H; [apply ident_good; assumption|]. pieces. eapply param_good; eassumption. Qed.
Lemma query_good n p s : query_text ualnum n p s -> good s.
Proof. intros H. destruct H. pieces. eapply param_good; eassumption. Qed.
Lemma path_good ms n s : path_text ualnum ms n s -> good s.
Proof. induction 1; pieces. Qed.
Lemma target_good r ms n s : target_text ualnum r ms n s -> good s.
Proof. intros H. destruct H; pieces; eapply path_good; eassumption. Qed.
Lemma texts_good {A} (P : A -> str -> Prop) l s : (forall x t, P x t -> good t) -> texts P l s -> good s.
Proof. intros H. induction 1 as [|x xs s rest Hx _ IH]; [constructor|]. apply app_good; [exact (H _ _ Hx)|exact IH]. Qed.
Lemma lower_letter c : (97 <= to_lower c <= 122)%N -> ident_char ualnum c.
Proof.
  unfold to_lower, is_upper, ident_char. destruct (_ && _) eqn:E; [|lia]. intros _.
  apply andb_prop in E. destruct E as [E1 E2]. apply N.leb_le in E1, E2. lia.
Qed.
Lemma verb_good m v : map to_lower v = map to_lower (method_display m) -> good v.
Proof.
  intros Hv. rewrite Forall_forall. intros c Hc. left. apply lower_letter. apply (in_map to_lower) in Hc. rewrite Hv in Hc.
  revert Hc. generalize (to_lower c). intros x Hx. clear -Hx. destruct m; vm_compute in Hx;
  repeat (destruct Hx as [<-|Hx]; [split; discriminate|]); destruct Hx.
Qed.
Lemma resource_good n r s : resource_text ualnum n r s -> good s.
Proof.
  intros H. destruct H as [m ms k redirect query v w e s Hv Ht He Hq]. pieces.
  - exact (verb_good _ _ Hv).
  - eapply target_good; eassumption.
  - eapply texts_good; [|eassumption]. intros. eapply query_good; eassumption.
Qed.
Fixpoint block_good n b s (H : block_text ualnum n b s) : good s
with nested_good n l s (H : nested_texts ualnum n l s) : good s.
Proof.
  - destruct H as [n rs ch qs s1 s2 s3 _ H1 H2 H3]. apply app_good; [|apply app_good].
    + eapply texts_good; [|exact H1]. intros. eapply query_good; eassumption.
    + eapply texts_good; [|exact H2]. intros. eapply resource_good; eassumption.
    + exact (nested_good _ _ _ H3).
  - destruct H as [n|n seg child ch w e s rest H1 H2 H3 H4]; [constructor|]. apply app_good; [apply margin_good|].
    apply app_good; [exact (segment_good _ _ H1)|]. apply app_good; [apply newlines_good, H2|].
    apply app_good; [exact (block_good _ _ _ H3)|exact (nested_good _ _ _ H4)].
Qed.

(** ** The header *)
Definition no_slash_line (a : str) : Prop := line_start a /\ forall u v, a = u ++ c_slash :: v -> ~ line_start u.
Lemma no_slash_nil : no_slash_line [].
Proof. split; [left; reflexivity|]. intros [|? u] v E; discriminate E. Qed.
Lemma no_slash_app a b : no_slash_line a -> no_slash_line b -> no_slash_line (a ++ b).
Proof.
  intros [A1 A2] [B1 B2]. split.
  - destruct B1 as [->|[u ->]]; [rewrite app_nil_r; exact A1|]. right. exists (a ++ u). rewrite app_assoc. reflexivity.
  - intros u v E Hu. apply app_eq_app in E. destruct E as [l [[E1 E2]|[E1 E2]]].
    + destruct l as [|x l].
      * cbn [app] in E2. rewrite app_nil_r in E1. refine (B2 [] v (eq_sym E2) _). left. reflexivity.
      * injection E2 as <- E2. exact (A2 u l E1 Hu).
    + apply (B2 l v E2). destruct Hu as [Hu|[w Hu]].
      * rewrite E1 in Hu. apply app_eq_nil in Hu. left. apply Hu.
      * rewrite E1 in Hu. destruct l as [|x l _] using rev_ind; [left; reflexivity|]. rewrite app_assoc in Hu.
        apply app_inj_tail in Hu. destruct Hu as [_ ->]. right. exists l. reflexivity.
Qed.
Lemma no_slash_newlines e : newlines e -> no_slash_line e.
Proof.
  induction 1 as [e H|e es H _ IH]; [|apply no_slash_app; [|exact IH]];
  (split; [right; destruct H; [exists []|exists [c_cr]]; reflexivity|]);
  intros u v E _; apply (f_equal (In c_slash)) in E;
  (assert (Hi : In c_slash e) by (rewrite E; apply in_or_app; right; left; reflexivity));
  destruct H; vm_compute in Hi; intuition discriminate.
Qed.
Lemma no_slash_header h s : header_line h s -> no_slash_line s.
Proof.
  intros H. destruct H as [h e [H1 [H2 [H3 H4]]] He]. destruct (no_slash_newlines _ He) as [E1 E2]. split.
  - destruct E1 as [->|[u ->]]; [inversion He as [e0 Hn|e0 es Hn _ E0]; [inversion Hn|destruct Hn; discriminate E0]|].
    right. exists (h_text h ++ u). rewrite app_assoc. reflexivity.
  - intros u v E Hu. apply app_eq_app in E. destruct E as [l [[E3 E4]|[E3 E4]]].
    + destruct Hu as [->|[w ->]].
      * destruct l as [|x l]; [apply H1; exact E3|]. injection E4 as <- _. cbn [app] in E3. rewrite E3 in H4. apply H4. reflexivity.
      * apply H2. rewrite E3. apply in_or_app. left. apply in_or_app. right. left. reflexivity.
    + apply (E2 l v E4). destruct l as [|x l _] using rev_ind; [left; reflexivity|]. right. exists l. f_equal.
      destruct Hu as [->|[w ->]]; [destruct (h_text h); [destruct l; discriminate E3|discriminate E3]|].
      rewrite app_assoc in E3. apply app_inj_tail in E3. destruct E3 as [_ <-]. reflexivity.
Qed.
Lemma no_slash_headers hs s : texts header_line hs s -> no_slash_line s.
Proof. induction 1 as [|h hs s rest H _ IH]; [apply no_slash_nil|]. apply no_slash_app; [exact (no_slash_header _ _ H)|exact IH]. Qed.
Lemma newlines_chars e c : newlines e -> In c e -> is_space c = true.
Proof.
  induction 1 as [e H|e es H _ IH]; [destruct H; cbn [In]; intuition (subst; reflexivity)|].
  rewrite in_app_iff. intros [Hi|Hi]; [|exact (IH Hi)]. destruct H; cbn [In] in Hi; intuition (subst; reflexivity).
Qed.
Lemma headers_chars hs s c : texts header_line hs s -> In c s -> is_space c = true \/ exists h, In h hs /\ In c (h_text h).
Proof.
  induction 1 as [|h hs s rest H _ IH]; [intros []|]. rewrite in_app_iff. intros [Hi|Hi].
  - destruct H as [h e _ He]. apply in_app_or in Hi. destruct Hi as [Hi|Hi].
    + right. exists h. split; [left; reflexivity|exact Hi].
    + left. exact (newlines_chars _ _ He Hi).
  - destruct (IH Hi) as [Hs|(h' & H1 & H2)]; [left; exact Hs|]. right. exists h'. split; [right; exact H1|exact H2].
Qed.

(** ** Route files *)
Lemma file_shape text c : config_text ualnum c text -> exists a e b,
  text = a ++ c_slash :: e ++ b /\ no_slash_line a /\ newlines e /\ good (e ++ b) /\
  forall x, In x a -> is_space x = true \/ exists h, In h (c_headers c) /\ In x (h_text h).
Proof.
  intros H. destruct H as [hs b e0 s e w H0 Hs He Hb]. exists (e0 ++ s), e, w.
  split; [rewrite <- app_assoc; reflexivity|].
  split; [apply no_slash_app; [destruct H0 as [->|H0]; [apply no_slash_nil|exact (no_slash_newlines _ H0)]|exact (no_slash_headers _ _ Hs)]|].
  split; [exact He|]. split; [apply app_good; [exact (newlines_good _ He)|exact (block_good _ _ _ Hb)]|].
  intros x Hx. apply in_app_or in Hx. destruct Hx as [Hx|Hx]; [|exact (headers_chars _ _ _ Hs Hx)].
  left. destruct H0 as [->|H0]; [destruct Hx|exact (newlines_chars _ _ H0 Hx)].
Qed.
Lemma slash_bad : ~ route_char ualnum c_slash.
Proof.
  intros [H|[H|H]]; [unfold ident_char, c_slash in H; lia|discriminate H|vm_compute in H; intuition discriminate].
Qed.
Lemma newlines_head e : newlines e -> hd_error e = Some c_nl \/ hd_error e = Some c_cr.
Proof. destruct 1 as [e H|e es H _]; destruct H; cbn; tauto. Qed.

(** One line begins with a slash, and nothing follows in it. *)
Lemma comment_rejected before x after c : line_start before -> x <> c_nl -> x <> c_cr ->
  ~ config_text ualnum c (before ++ c_slash :: x :: after).
Proof.
  intros Hl Hx Hx' H. destruct (file_shape _ _ H) as (a & e & b & E & [_ Ha] & He & Hb & _).
  apply app_eq_app in E. destruct E as [l [[E1 E2]|[E1 E2]]].
  - destruct l as [|y l].
    + cbn [app] in E2. injection E2 as E2. destruct (newlines_head _ He) as [Hh|Hh]; destruct e as [|z e]; try discriminate Hh;
      injection Hh as ->; injection E2 as E2 _; congruence.
    + injection E2 as <- E2. rewrite Forall_forall in Hb. apply slash_bad, Hb. rewrite E2. apply in_or_app. right. left. reflexivity.
  - destruct l as [|y l].
    + cbn [app] in E2. injection E2 as E2. destruct (newlines_head _ He) as [Hh|Hh]; destruct e as [|z e]; try discriminate Hh;
      injection Hh as ->; injection E2 as E2 _; congruence.
    + injection E2 as <- E2. exact (Ha before l E1 Hl).
Qed.
Lemma slash_lines before before' after after' c :
  config_text ualnum c (before ++ c_slash :: after) -> before ++ c_slash :: after = before' ++ c_slash :: after' ->
  line_start before -> line_start before' -> before = before' /\ after = after'.
Proof.
  intros H Eb H1 H2. destruct (file_shape _ _ H) as (a & e & b & E & [_ Ha] & _ & Hb & _).
  assert (K : forall u v, u ++ c_slash :: v = a ++ c_slash :: e ++ b -> line_start u -> u = a /\ v = e ++ b).
  { clear E Eb. intros u v E Hu. apply app_eq_app in E. destruct E as [l [[E1 E2]|[E1 E2]]].
    - destruct l as [|y l]; [injection E2 as E2; rewrite app_nil_r in E1; split; congruence|].
      injection E2 as <- E2. exfalso. rewrite Forall_forall in Hb. apply slash_bad, Hb. rewrite E2. apply in_or_app. right. left. reflexivity.
    - destruct l as [|y l]; [injection E2 as E2; rewrite app_nil_r in E1; split; congruence|].
      injection E2 as <- E2. exfalso. exact (Ha u l E1 Hu). }
  destruct (K _ _ E H1) as [-> ->]. destruct (K _ _ (eq_sym Eb) H2) as [-> ->]. split; reflexivity.
Qed.
(** A character that is not one of those of the routes is in the header, or the slash. *)
Lemma mark_header before x after c : ~ route_char ualnum x -> config_text ualnum c (before ++ x :: after) ->
  (x = c_slash /\ line_start before /\ exists e, newlines e /\ exists b, after = e ++ b) \/
  (exists h u, In h (c_headers c) /\ In x (h_text h) /\ exists v, after = u ++ c_nl :: c_slash :: v).
Proof.
  intros Hx H. destruct (file_shape _ _ H) as (a & e & b & E & [Hl Ha] & He & Hb & Hh).
  apply app_eq_app in E. destruct E as [l [[E1 E2]|[E1 E2]]].
  - destruct l as [|y l].
    + cbn [app] in E2. injection E2 as -> E2. left. rewrite app_nil_r in E1. subst. eauto 6.
    + injection E2 as <- E2. exfalso. rewrite Forall_forall in Hb. apply Hx, Hb. rewrite E2. apply in_or_app. right. left. reflexivity.
  - destruct l as [|y l].
    + cbn [app] in E2. injection E2 as -> E2. left. rewrite app_nil_r in E1. subst. eauto 6.
    + injection E2 as <- E2. right. destruct (Hh x) as [Hs|(h & H1 & H2)].
      { rewrite E1. apply in_or_app. right. left. reflexivity. }
      { exfalso. apply Hx. right. left. exact Hs. }
      destruct Hl as [->|[u Hu]]; [destruct before; discriminate E1|].
      destruct l as [|z l _] using rev_ind.
      { exfalso. rewrite E1 in Hu. apply app_inj_tail in Hu. destruct Hu as [_ ->]. apply Hx. right. left. reflexivity. }
      rewrite E1 in Hu. change (x :: l ++ [z]) with ((x :: l) ++ [z]) in Hu. rewrite app_assoc in Hu.
      apply app_inj_tail in Hu. destruct Hu as [_ ->]. exists h, l. split; [exact H1|]. split; [exact H2|].
      exists (e ++ b). rewrite E2, <- app_assoc. reflexivity.
Qed.
End Chars.
(** The same, of the parser. *)
Section Parser.
Variable ualnum : char -> bool.
Notation accepts text c := (route_config_p ualnum text = POk [] c).
Lemma accepted_shape text c : accepts text c -> exists before after,
  text = before ++ c_slash :: after /\ line_start before /\ (forall u v, before = u ++ c_slash :: v -> ~ line_start u) /\
  Forall (route_char ualnum) after.
Proof.
  rewrite parse_exact. intros H. destruct (file_shape _ _ _ H) as (a & e & b & E & [H1 H2] & _ & H3 & _).
  exists a, (e ++ b). auto.
Qed.
Lemma accepted_comment before x after : line_start before -> x <> c_nl -> x <> c_cr ->
  ~ exists c, accepts (before ++ c_slash :: x :: after) c.
Proof. intros H1 H2 H3 (c & H). rewrite parse_exact in H. exact (comment_rejected _ _ _ _ _ H1 H2 H3 H). Qed.
Lemma accepted_mark before x after c : ~ route_char ualnum x -> x <> c_slash -> accepts (before ++ x :: after) c ->
  (exists h, In h (c_headers c) /\ In x (h_text h)) /\ exists u v, after = u ++ c_nl :: c_slash :: v.
Proof.
  intros H1 H2 H. rewrite parse_exact in H. destruct (mark_header _ _ _ _ _ H1 H) as [[E _]|(h & u & H3 & H4 & v & E)]; [destruct (H2 E)|].
  split; [exists h; auto|exists u, v; exact E].
Qed.
Lemma accepted_slash before after c : accepts (before ++ c_slash :: after) c -> ~ line_start before ->
  (exists h, In h (c_headers c) /\ In c_slash (h_text h)) /\ exists u v, after = u ++ c_nl :: c_slash :: v.
Proof.
  intros H H2. rewrite parse_exact in H.
  destruct (mark_header _ _ _ _ _ (slash_bad ualnum) H) as [(_ & E & _)|(h & u & H3 & H4 & v & E)]; [destruct (H2 E)|].
  split; [exists h; auto|exists u, v; exact E].
Qed.
End Parser.
