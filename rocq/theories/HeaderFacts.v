(** * HeaderFacts: header lines *)
From Verif Require Import Base Core Nom Parse Flat MiniRust Gen Items Spec SpecMatch SpecParse SpecGen SpecItems SpecGrammar SpecHeader
  BaseFacts GenThms ItemFacts ItemText ItemThms ParseFacts RoundFacts GrammarFacts Examples.

(** ** In every module *)
Lemma module_begins hs m root : begins_with hs (module_items root hs m).
Proof.
  destruct m as [name acts mods]. cbn [module_items]. unfold header_items. eexists. rewrite <- app_assoc. split; [reflexivity|].
  apply Forall_app. split; [|apply Forall_app; split].
  - apply Forall_flat_map. apply Forall_forall. intros a _. repeat constructor; intros [t H]; discriminate.
  - apply Forall_flat_map. apply Forall_forall. intros a _. repeat constructor; intros [t H]; discriminate.
  - repeat constructor; intros [t H]; discriminate.
Qed.
Lemma modules_begin hs : forall items path l, module_at items path l ->
  forall root m, items = module_items root hs m -> begins_with hs l.
Proof.
  intros items path l H. induction H as [items|items k l path l' Hin H IH]; intros root m ->; [apply module_begins|].
  destruct m as [name acts mods]. cbn [module_items] in Hin. rewrite !in_app_iff in Hin.
  destruct Hin as [Hin|[Hin|[Hin|Hin]]].
  - unfold header_items in Hin. apply in_app_iff in Hin. destruct Hin as [Hin|Hin].
    + apply in_map_iff in Hin. destruct Hin as (h & Hh & _). discriminate.
    + destruct hs; [destruct Hin|]. destruct Hin as [Hin|[]]; discriminate.
  - apply in_flat_map in Hin. destruct Hin as (a & _ & Hin). cbn in Hin. decompose [or] Hin; try discriminate; contradiction.
  - apply in_flat_map in Hin. destruct Hin as (s & _ & Hin). destruct Hin as [Hin|[Hin|[]]]; [|discriminate].
    injection Hin as <- <-. apply (IH false s eq_refl).
  - cbn in Hin. decompose [or] Hin; try discriminate; contradiction.
Qed.

(** ** In the text *)
Lemma copies_pre hs n t t' u : copies hs n t t' -> copies hs n (u ++ t) (u ++ t').
Proof.
  intros H. destruct H as [t|n v ind name t t' H]; [constructor|]. rewrite !(app_assoc u v). constructor. exact H.
Qed.
Lemma copies_app hs n m a a' b b' : copies hs n a a' -> copies hs m b b' -> copies hs (n + m) (a ++ b) (a' ++ b').
Proof.
  intros H Hb. induction H as [t|n v ind name t t' H IH]; [apply copies_pre; exact Hb|].
  cbn [Nat.add]. set (L := ind ++ lit "pub mod " ++ name ++ lit " {" ++ [c_nl]).
  replace ((v ++ L ++ t) ++ b) with (v ++ L ++ t ++ b) by (rewrite <- !app_assoc; reflexivity).
  replace ((v ++ L ++ copied_lines (ind ++ lit "    ") hs ++ t') ++ b')
    with (v ++ L ++ copied_lines (ind ++ lit "    ") hs ++ t' ++ b') by (rewrite <- !app_assoc; reflexivity).
  apply (copies_next hs (n + m) v ind name). exact IH.
Qed.
Lemma pr_items_app ind a b : pr_items ind (a ++ b) = pr_items ind a ++ pr_items ind b.
Proof. unfold pr_items. rewrite flat_map_app. apply text_app. Qed.
Lemma header_text ind hs : hs <> [] -> pr_items ind (header_items hs) = copied_lines ind hs.
Proof.
  intros Hne. unfold header_items, copied_lines. rewrite pr_items_app.
  destruct hs as [|h hs]; [congruence|]. f_equal. generalize (h :: hs). clear. intros l.
  unfold pr_items, unlines. induction l as [|h l IH]; [reflexivity|].
  cbn [map flat_map pr_item app concat] in *. rewrite IH. reflexivity.
Qed.
Lemma module_text hs : hs <> [] -> forall m root ind, exists t,
  pr_items ind (module_items root hs m) = copied_lines ind hs ++ t /\
    copies hs (modules_in m) (pr_items ind (module_items root [] m)) t.
Proof.
  intros Hne. induction m as [name acts mods IH] using FlattenedModule_ind'. intros root ind. cbn [module_items modules_in].
  rewrite !pr_items_app, header_text by exact Hne. eexists. split; [reflexivity|].
  change (pr_items ind (header_items [])) with (@nil N). cbn [app]. apply copies_pre.
  rewrite <- (Nat.add_0_r (list_sum _)). apply copies_app; [|apply copies_none].
  revert IH. induction mods as [|s mods IHm]; intros IH; [apply copies_none|].
  cbn [flat_map map list_sum fold_right]. rewrite !pr_items_app. apply copies_app; [|apply IHm; intros x Hx; apply IH; right; exact Hx].
  destruct (IH s (or_introl eq_refl) false (ind ++ lit "    ")) as (t & E1 & E2).
  assert (Em : forall its, pr_items ind [ItMod (to_snake_case (m_name s)) its; ItBlank] =
     [] ++ (ind ++ lit "pub mod " ++ to_snake_case (m_name s) ++ lit " {" ++ [c_nl]) ++ pr_items (ind ++ lit "    ") its
     ++ (ind ++ lit "}" ++ [c_nl]) ++ [c_nl]).
  { intros its. unfold pr_items. cbn [flat_map pr_item]. fold (text_of (flat_map (pr_item (ind ++ lit "    ")) its)).
    match goal with |- ?x = _ => match x with concat (map _ ?ls) => change x with (text_of ls) end end.
    rewrite !text_app, !text_cons, text_nil.
    rewrite !app_nil_r. rewrite <- !app_assoc. reflexivity. }
  rewrite !Em, E1. rewrite <- (app_assoc (copied_lines _ _)). constructor. rewrite <- (Nat.add_0_r (modules_in s)).
  apply copies_app; [exact E2|apply copies_none].
Qed.
Lemma headers_generate hs b : snd (codegen (mkConfig hs b)) = ROk tt <-> snd (codegen (mkConfig [] b)) = ROk tt.
Proof.
  assert (G : forall c, snd (codegen c) = ROk tt <-> generates c).
  { intros c. destruct (codegen_status c) as [[H1 H2]|[H1 [p H2]]]; [tauto|]. split; [intros H; congruence|contradiction]. }
  rewrite !G. reflexivity.
Qed.
Lemma headers_text hs b root : hs <> [] -> flattened_modules b = ROk root -> snd (codegen (mkConfig hs b)) = ROk tt ->
  exists u t t', w_text (codegen (mkConfig [] b)) = u ++ t /\
      w_text (codegen (mkConfig hs b)) = u ++ copied_lines (lit "    ") hs ++ t' /\ copies hs (modules_in root) t t'.
Proof.
  intros Hne Hr H. destruct (codegen_text _ H) as (r1 & l1 & b1 & A1 & A2 & A5 & A3 & A4).
  apply headers_generate in H. destruct (codegen_text _ H) as (r2 & l2 & b2 & B1 & B2 & B5 & B3 & B4).
  rewrite codegen_items_text in A4, B4.
  cbn [c_routes c_headers] in *. rewrite Hr in A1, B1. injection A1 as <-. injection B1 as <-.
  change (gen_program (mkConfig hs b)) with (gen_program (mkConfig [] b)) in A3. rewrite B3 in A3. injection A3 as <-.
  assert (l1 = l2) as -> by (rewrite <- (lines_of_unlines l1 A5), <- (lines_of_unlines l2 B5), <- A2, <- B2; reflexivity).
  destruct (module_text hs Hne root true (lit "    ")) as (t & E1 & E2). rewrite E1 in A4.
  set (u := w_text (w_lines preamble1) ++ unlines (map (fun x => doc_prefix ++ x) l2) ++ w_text (w_lines preamble2)) in *.
  set (v := nl ++ w_text (w_lines boilerplate) ++ pr_block 2 b2 ++ unlines [lit "    }"; []; lit "} // mod routes"]) in *.
  exists u, (pr_items (lit "    ") (module_items true [] root) ++ v), (t ++ v).
  split; [rewrite B4; unfold u, v; rewrite <- !app_assoc; reflexivity|].
  split; [rewrite A4; unfold u, v; rewrite <- !app_assoc; reflexivity|].
  rewrite <- (Nat.add_0_r (modules_in root)). apply copies_app; [exact E2|apply copies_none].
Qed.

(** ** In the file *)
Lemma prefixed_line ualnum l hs b text : plain_line l -> config_text ualnum (mkConfig hs b) text ->
  config_text ualnum (mkConfig (map mkHeader (filter not_empty [l]) ++ hs) b) (l ++ c_nl :: text).
Proof.
  intros (H1 & H2 & H3) H. inversion H as [hs' b' e0 s e w He0 Hs He Hw]; subst.
  assert (Hn : newlines (c_nl :: e0)).
  { destruct He0 as [->|He0]; [do 2 constructor|]. apply (newlines_more [c_nl]); [constructor|exact He0]. }
  destruct l as [|c l].
  - cbn [filter not_empty map app]. apply (config_text_intro ualnum hs b (c_nl :: e0)); auto.
  - cbn [filter not_empty map]. replace ((c :: l) ++ c_nl :: e0 ++ s ++ lit "/" ++ e ++ w)
      with ([] ++ (((c :: l) ++ (c_nl :: e0)) ++ s) ++ lit "/" ++ e ++ w) by (rewrite <- !app_assoc; reflexivity).
    constructor; auto. constructor; [|exact Hs]. apply (header_line_intro (mkHeader (c :: l))); [|exact Hn].
    repeat split; auto. discriminate.
Qed.
Lemma prefixed_lines ualnum ls b text : Forall plain_line ls -> config_text ualnum (mkConfig [] b) text ->
  config_text ualnum (mkConfig (map mkHeader (filter not_empty ls)) b) (unlines ls ++ text).
Proof.
  intros Hls H. induction Hls as [|l ls Hl Hls IH]; [exact H|].
  apply (prefixed_line ualnum l _ _ _ Hl) in IH.
  assert (E : unlines (l :: ls) ++ text = l ++ c_nl :: unlines ls ++ text)
    by (unfold unlines; cbn [map concat]; rewrite <- !app_assoc; reflexivity).
  rewrite E. destruct l; exact IH.
Qed.
Lemma lines_ok ualnum c text : config_text ualnum c text ->
  Forall (fun h => plain_line (h_text h) /\ h_text h <> []) (c_headers c).
Proof.
  intros H. assert (Hw : wf_config ualnum c) by (apply config_writable; exists text; apply parse_exact; exact H).
  destruct Hw as [Hw _]. eapply Forall_impl; [|exact Hw]. intros h (A & B & C & D). repeat split; auto.
Qed.
Lemma comment_line : exists line text,
  ~ In c_nl line /\ ~ In c_cr line /\
  (exists c, config_text (fun _ => false) c text) /\ ~ exists c, config_text (fun _ => false) c (unlines [line] ++ text).
Proof.
  exists (lit "// types"), (file ["/"; "  GET home"]%string).
  split; [intros H; vm_compute in H; decompose [or] H; try discriminate; contradiction|].
  split; [intros H; vm_compute in H; decompose [or] H; try discriminate; contradiction|]. split.
  - exists (read ["/"; "  GET home"]%string). apply parse_exact. vm_compute. reflexivity.
  - intros [c H]. apply parse_exact in H. vm_compute in H. discriminate.
Qed.
