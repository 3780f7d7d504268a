(** * ReportFacts: the parser with errors *)
From Verif Require Import Base Core Nom Parse Errors NomErr ParseErr SpecParse SpecGrammar SpecErrors SpecReport
  BaseFacts ParseFacts GrammarFacts ErrorFacts.

(** ** Forgetting the errors *)
Definition erase {A} (r : vres A) : pres A :=
  match r with
  | VOk r a => POk r a
  | VErr _ => PErr
  | VFail _ => PFail
  | VFuel => PFuel
  end.
Definition same {A} (v : vparser A) (p : parser A) : Prop := forall i, erase (v i) = p i.

Ltac by_erase H i := specialize (H i); rewrite <- H; clear H.
Lemma same_bind {A B} (v : vparser A) p (f : A -> vparser B) g :
  same v p -> (forall a, same (f a) (g a)) -> same (vbind v f) (pbind p g).
Proof. intros H Hf i. unfold vbind, pbind. by_erase H i. destruct (v i); cbn; try reflexivity. apply Hf. Qed.
Lemma same_ret {A} (a : A) : same (vret a) (pret a).
Proof. intros i. reflexivity. Qed.
Lemma same_start {A} k (p : parser A) : same (at_start k p) p.
Proof. intros i. unfold at_start. destruct (p i); reflexivity. Qed.
Lemma same_sp : same vsp sp.
Proof. intros i. reflexivity. Qed.
Lemma same_ws {A} (v : vparser A) p : same v p -> same (vws v) (ws p).
Proof.
  intros H. apply same_bind; [apply same_sp|]. intros _. apply same_bind; [exact H|]. intros a.
  apply same_bind; [apply same_sp|]. intros _. apply same_ret.
Qed.
Lemma same_alt {A} (v v' : vparser A) p p' : same v p -> same v' p' -> same (valt v v') (alt p p').
Proof.
  intros H H' i. unfold valt, alt. by_erase H i. by_erase H' i.
  destruct (v i); cbn; try reflexivity. destruct (v' i); reflexivity.
Qed.
Lemma same_error {A} n (v : vparser A) p : same v p -> same (vreturn_error n v) (return_error p).
Proof. intros H i. unfold vreturn_error, return_error. by_erase H i. destruct (v i); reflexivity. Qed.
Lemma same_not {A} (v : vparser A) p : same v p -> same (vnot v) (pnot p).
Proof. intros H i. unfold vnot, pnot. by_erase H i. destruct (v i); reflexivity. Qed.
Lemma same_count {A} (v : vparser A) p n : same v p -> same (vcount v n) (pcount p n).
Proof.
  intros H. assert (Ha : forall s, same (vcount_aux s v n) (pcount p n)); [|intros i; apply Ha].
  intros s. induction n as [|n IH]; intros i; [reflexivity|]. cbn [vcount_aux pcount]. unfold pbind. by_erase H i.
  destruct (v i); cbn; try reflexivity. apply IH.
Qed.
Lemma same_many_aux {A} (v : vparser A) p : same v p -> forall fuel, same (vmany0_aux fuel v) (many0_aux fuel p).
Proof.
  intros H. induction fuel as [|fuel IH]; intros i; [reflexivity|]. cbn [vmany0_aux many0_aux]. rewrite <- (H i).
  destruct (v i) as [r a| | |]; cbn; try reflexivity. destruct (str_eqb r i); [reflexivity|]. by_erase IH r.
  destruct (vmany0_aux fuel v r); reflexivity.
Qed.
Lemma same_many0 {A} (v : vparser A) p : same v p -> same (vmany0 v) (many0 p).
Proof. intros H i. apply same_many_aux. exact H. Qed.
Lemma same_many1 {A} keep (v : vparser A) p : same v p -> same (vmany1 keep v) (many1 p).
Proof.
  intros H i. unfold vmany1, many1. unfold pbind at 1. rewrite <- (H i). destruct (v i) as [r a| | |]; cbn; try reflexivity.
  apply same_bind; [apply same_many0, H|]. intros l. apply same_ret.
Qed.
Lemma same_recognize {A} (v : vparser A) p : same v p -> same (vrecognize v) (recognize p).
Proof. intros H i. unfold vrecognize, recognize. by_erase H i. destruct (v i); reflexivity. Qed.

Ltac same :=
  repeat first
    [ apply same_ret | apply same_start | apply same_sp | assumption
    | apply same_ws | apply same_alt | apply same_error | apply same_not | apply same_count
    | apply same_many0 | apply same_many1 | apply same_recognize
    | apply same_bind; [|intros ?] ].

Section Same.
Variable ualnum : char -> bool.
Variable keep : bool.
Variable code : nat -> N.
Lemma same_method : same method_v method_p.
Proof. unfold method_v, method_p. same. Qed.
Lemma same_param : same (param_v ualnum code) (param_p ualnum).
Proof. unfold param_v, param_p, colon_v, colon_p. same. Qed.
Lemma same_segment level : same (path_segment_v ualnum code level) (path_segment_p ualnum level).
Proof. pose proof same_param. unfold path_segment_v, path_segment_p, indent_v, indent_p. same. Qed.
Lemma same_query level : same (query_parameter_v ualnum code level) (query_parameter_p ualnum level).
Proof. pose proof same_param. unfold query_parameter_v, query_parameter_p, indent_v, indent_p. same. Qed.
Lemma same_target : same (target_v ualnum) (target_p ualnum).
Proof. unfold target_v, target_p, modules_v, modules_p. same. Qed.
Lemma same_newline : same (require_newline_v keep code) require_newline.
Proof. unfold require_newline_v, require_newline. same. Qed.
Lemma same_resource level : same (resource_v ualnum keep code level) (resource_p ualnum level).
Proof.
  pose proof same_method. pose proof same_target. pose proof same_newline. pose proof (same_query (S level)).
  unfold resource_v, resource_p, indent_v, indent_p. same.
Qed.
Lemma same_body nv np level : same (nv level) (np level) ->
  same (routes_body_v ualnum keep code nv level) (routes_body_p ualnum np level).
Proof.
  intros Hn. pose proof (same_query level). pose proof (same_resource level).
  unfold routes_body_v, routes_body_p, resources_and_routes_v, resources_and_routes_p. same.
Qed.
Lemma same_nested rv rp level : same (rv (S level)) (rp (S level)) ->
  same (nested_body_v ualnum keep code rv level) (nested_body_p ualnum rp level).
Proof. intros H. pose proof (same_segment level). unfold nested_body_v, nested_body_p. same. Qed.
Lemma same_routes : forall fuel level, same (routes_v ualnum keep code fuel level) (routes_p ualnum fuel level).
Proof.
  induction fuel as [|fuel IH]; intros level i; [reflexivity|]. cbn [routes_v routes_p].
  apply same_body. apply same_nested. apply IH.
Qed.
Lemma same_header : same (header_v keep) header_p.
Proof. unfold header_v, header_p. same. Qed.
Lemma same_config : same (route_config_v ualnum keep code) (route_config_p ualnum).
Proof.
  intros i. unfold route_config_v, route_config_p. pose proof same_header. pose proof (same_routes (S (length i)) 1).
  revert i H0. intros i H0.
  match goal with |- erase (?v i) = ?p i => assert (Hs : same v p) end; [|apply Hs]. same.
Qed.
End Same.

(** ** Places *)
Lemma inner_first_add v i e : inner_first v -> Forall (fun je => exists w, i = w ++ fst je) v -> inner_first (v ++ [(i, e)]).
Proof.
  induction v as [|[j k] v IH]; intros H Hi; cbn [app inner_first]; [split; constructor|].
  inversion Hi as [|? ? [w Hw] Hi']; subst. destruct H as [H1 H2]. split; [|apply IH; assumption].
  apply Forall_app. split; [exact H1|]. constructor; [|constructor]. exists w. reflexivity.
Qed.

Section Places.
Variable code : nat -> N.
Variable T : str.

Definition fine (i : str) (c : context) : Prop :=
  items c <> [] /\ Forall (fun je => exists w, i = w ++ fst je) (items c) /\ inner_first (items c) /\
  Forall (true_item code T) (items c).
Definition good {A} (pre : str -> Prop) (p : vparser A) : Prop :=
  forall u i, T = u ++ i -> pre u ->
  match p i with
  | VOk r _ => exists w, i = w ++ r
  | VErr c => exists j k w, c = Code j (Builtin k) /\ i = w ++ j
  | VFail c => fine i c
  | VFuel => True
  end.
Definition any (u : str) : Prop := True.

Lemma fine_more w r c : fine r c -> fine (w ++ r) c.
Proof.
  intros (H1 & H2 & H3 & H4). split; [exact H1|]. split; [|auto]. eapply Forall_impl; [|exact H2].
  intros je [x ->]. exists (w ++ x). apply app_assoc.
Qed.
Lemma fine_code i k : fine i (Code i (Builtin k)).
Proof.
  split; [discriminate|]. split; [repeat constructor; exists []; reflexivity|]. split; [split; constructor|].
  repeat constructor.
Qed.
Lemma fine_add i c n : fine i c -> true_item code T (i, Custom n) -> fine i (add_error i (Custom n) c).
Proof.
  intros (H1 & H2 & H3 & H4) Ht.
  assert (E : items (add_error i (Custom n) c) = items c ++ [(i, Custom n)]) by (destruct c; reflexivity).
  unfold fine. rewrite E. split; [destruct (items c); discriminate|]. split.
  - apply Forall_app. split; [exact H2|]. repeat constructor. exists []. reflexivity.
  - split; [apply inner_first_add; assumption|]. apply Forall_app. split; [exact H4|]. repeat constructor. exact Ht.
Qed.

Lemma good_bind {A B} (pre post : str -> Prop) (p : vparser A) (f : A -> vparser B) :
  good pre p -> (forall a, good post (f a)) ->
  (forall u w r a, pre u -> p (w ++ r) = VOk r a -> post (u ++ w)) -> good pre (vbind p f).
Proof.
  intros Hp Hf Hpost u i E Hu. unfold vbind. specialize (Hp u i E Hu). destruct (p i) as [r a|c|c|] eqn:Ep; try exact Hp.
  destruct Hp as [w ->]. specialize (Hf a (u ++ w) r). rewrite <- app_assoc in Hf. specialize (Hf E (Hpost _ _ _ _ Hu Ep)).
  destruct (f a r) as [r' b|c|c|]; auto.
  - destruct Hf as [w' ->]. exists (w ++ w'). apply app_assoc.
  - destruct Hf as (j & k & w' & -> & ->). exists j, k, (w ++ w'). split; [reflexivity|apply app_assoc].
  - apply fine_more. exact Hf.
Qed.
Lemma good_any {A} pre (p : vparser A) : good any p -> good pre p.
Proof. intros H u i E _. apply (H u i E I). Qed.
Lemma good_then {A B} pre (p : vparser A) (f : A -> vparser B) :
  good pre p -> (forall a, good any (f a)) -> good pre (vbind p f).
Proof. intros Hp Hf. apply (good_bind pre any); [exact Hp|exact Hf|]. intros. exact I. Qed.
Lemma good_ret {A} pre (a : A) : good pre (vret a).
Proof. intros u i _ _. exists []. reflexivity. Qed.
Lemma good_start {A} pre k (p : parser A) Q : reads p Q -> (forall i, p i <> PFail) -> good pre (at_start k p).
Proof.
  intros Hp Hn u i _ _. unfold at_start. specialize (Hn i). destruct (p i) as [r a| | |] eqn:E; auto.
  - destruct (Hp _ _ _ E) as (w & -> & _). eauto.
  - exists i, (lit k), []. auto.
  - congruence.
Qed.
Lemma good_sp pre : good pre vsp.
Proof. intros u i _ _. cbn. destruct (span_spec is_sp i) as [E _]. exists (fst (span is_sp i)). exact E. Qed.
Lemma good_ws {A} pre (p : vparser A) : good any p -> good pre (vws p).
Proof.
  intros H. apply good_then; [apply good_sp|]. intros _. apply good_then; [exact H|]. intros a.
  apply good_then; [apply good_sp|]. intros _. apply good_ret.
Qed.
Lemma good_alt {A} pre (p q : vparser A) : good pre p -> good pre q -> good pre (valt p q).
Proof.
  intros Hp Hq u i E Hu. specialize (Hp u i E Hu). specialize (Hq u i E Hu). unfold valt.
  destruct (p i) as [r a|c|c|]; try exact Hp. destruct (q i) as [r a|c'|c'|]; try exact Hq.
  eexists i, _, []. split; reflexivity.
Qed.
Lemma good_error {A} (pre : str -> Prop) s (p : vparser A) : s < site_count -> good pre p ->
  (forall u i, pre u -> erase (p i) = PErr \/ erase (p i) = PFail -> true_at (site_message s) u i) -> good pre (vreturn_error (code s) p).
Proof.
  intros Hs Hp Ht u i E Hu. specialize (Hp u i E Hu). specialize (Ht u i Hu). unfold vreturn_error.
  destruct (p i) as [r a|c|c|]; try exact Hp; cbn [erase] in Ht; (apply fine_add; [|exists s, u; cbn [fst]; split; [exact Hs|]; split; [reflexivity|]; split; [exact E|apply Ht; auto]]).
  - destruct Hp as (j & k & w & -> & ->). apply fine_more, fine_code.
  - exact Hp.
Qed.
Lemma good_not {A} pre (p : vparser A) : good pre p -> good pre (vnot p).
Proof.
  intros Hp u i E Hu. specialize (Hp u i E Hu). unfold vnot. destruct (p i) as [r a|c|c|]; auto.
  - eexists i, _, []. split; reflexivity.
  - exists []. reflexivity.
Qed.
Lemma good_count {A} pre (p : vparser A) n : good any p -> good pre (vcount p n).
Proof.
  intros Hp u i E Hu. unfold vcount.
  assert (H : forall n u0 w i', T = u0 ++ i' -> i = w ++ i' ->
    match vcount_aux i p n i' with
    | VOk r _ => exists w, i = w ++ r
    | VErr c => exists j k w, c = Code j (Builtin k) /\ i = w ++ j
    | VFail c => fine i c
    | VFuel => True
    end).
  { clear n. induction n as [|n IH]; intros u0 w i' E' Hi; cbn [vcount_aux vret]; [eauto|].
    specialize (Hp u0 i' E' I). destruct (p i') as [r a|c|c|]; auto.
    - destruct Hp as [w' ->]. apply (IH (u0 ++ w') (w ++ w')); rewrite <- app_assoc; assumption.
    - eexists i, _, []. split; reflexivity.
    - subst i. apply fine_more. exact Hp. }
  apply (H n u []); auto.
Qed.
Lemma good_many_aux {A} (p : vparser A) : good any p -> forall fuel, good any (vmany0_aux fuel p).
Proof.
  intros Hp. induction fuel as [|fuel IH]; intros u i E _; cbn [vmany0_aux]; [exact I|].
  specialize (Hp u i E I). destruct (p i) as [r a|c|c|]; auto; [|exists []; reflexivity].
  destruct (str_eqb r i); [exists []; reflexivity|]. destruct Hp as [w ->].
  specialize (IH (u ++ w) r). rewrite <- app_assoc in IH. specialize (IH E I). destruct (vmany0_aux fuel p r) as [r' l|c|c|]; auto.
  - destruct IH as [w' ->]. exists (w ++ w'). apply app_assoc.
  - destruct IH as (j & k & w' & -> & ->). exists j, k, (w ++ w'). split; [reflexivity|apply app_assoc].
  - apply fine_more. exact IH.
Qed.
Lemma good_many0 {A} pre (p : vparser A) : good any p -> good pre (vmany0 p).
Proof. intros Hp u i E _. apply (good_many_aux p Hp _ u i E I). Qed.
Lemma good_many1 {A} pre keep (p : vparser A) : good any p -> good pre (vmany1 keep p).
Proof.
  intros Hp u i E Hu. unfold vmany1. pose proof (Hp u i E I) as H. destruct (p i) as [r a|c|c|] eqn:Ep; auto.
  - destruct H as [w ->]. pose proof (good_then any (vmany0 p) (fun l => vret (a :: l)) (good_many0 _ _ Hp) (fun l => good_ret any _)) as H.
    specialize (H (u ++ w) r). rewrite <- app_assoc in H. specialize (H E I). destruct (vbind (vmany0 p) _ r) as [r' l|c|c|]; auto.
    + destruct H as [w' ->]. exists (w ++ w'). apply app_assoc.
    + destruct H as (j & k & w' & -> & ->). exists j, k, (w ++ w'). split; [reflexivity|apply app_assoc].
    + apply fine_more. exact H.
  - eexists i, _, []. split; reflexivity.
  - destruct keep; [exact H|apply fine_code].
Qed.
Lemma good_recognize {A} pre (p : vparser A) : good pre p -> good pre (vrecognize p).
Proof. intros Hp u i E Hu. specialize (Hp u i E Hu). unfold vrecognize. destruct (p i); exact Hp. Qed.

Lemma good_tag pre t : good pre (vtag t).
Proof. apply (good_start _ _ _ _ (reads_tag t)). intros i. unfold tag. destruct (is_prefix t i); discriminate. Qed.
Lemma good_no_case pre t : good pre (vtag_no_case t).
Proof. apply (good_start _ _ _ _ (reads_no_case t)). intros i. unfold tag_no_case. destruct (is_prefix_no_case t i); discriminate. Qed.
Lemma good_char pre c : good pre (vchar c).
Proof. apply (good_start _ _ _ _ (reads_char c)). intros [|x i]; cbn; [discriminate|]. destruct (N.eqb x c); discriminate. Qed.
Lemma good_take pre f : good pre (vtake_while1 f).
Proof. apply (good_start _ _ _ _ (reads_take f)). intros i. unfold take_while1. destruct (span f i) as [[|] ?]; discriminate. Qed.
Lemma good_line_ending pre : good pre vline_ending.
Proof.
  apply (good_start _ _ _ _ reads_line_ending). intros [|x i]; cbn; [discriminate|]. destruct (N.eqb x c_nl); [discriminate|].
  destruct (N.eqb x c_cr); [|discriminate]. destruct i as [|y i]; [discriminate|]. destruct (N.eqb y c_nl); discriminate.
Qed.
Lemma good_eof pre : good pre veof.
Proof. apply (good_start _ _ _ _ reads_eof). intros [|x i]; discriminate. Qed.
Lemma good_line pre : good pre vnot_line_ending.
Proof.
  apply (good_start _ _ _ (fun _ _ => True)).
  - intros i r a H. unfold not_line_ending in H. destruct (span_spec is_line_char i) as [E _].
    destruct (span is_line_char i) as [b r']. cbn [fst snd] in E. exists b. split; [|exact I].
    destruct r' as [|x r']; [injection H as <- _; exact E|]. destruct (N.eqb x c_cr).
    + destruct (is_prefix _ _); [|discriminate]. injection H as <- _. exact E.
    + injection H as <- _. exact E.
  - intros i. unfold not_line_ending. destruct (span is_line_char i) as [b [|x r]]; [discriminate|].
    destruct (N.eqb x c_cr); [|discriminate]. destruct (is_prefix _ _); discriminate.
Qed.

(** ** The messages are true *)
Lemma true_colon u i : erase (vtag (lit ":") i) = PErr \/ erase (vtag (lit ":") i) = PFail -> true_at (site_message s_colon) u i.
Proof.
  intros H. split; [|split; [discriminate|split; [discriminate|split; [discriminate|intros [E|E]; discriminate]]]].
  intros _. unfold vtag in H. rewrite same_start in H. destruct i as [|x i]; [discriminate|]. intros [= ->].
  destruct H as [H|H]; vm_compute in H; discriminate.
Qed.
Lemma char_fails c i : erase (vchar c i) = PErr \/ erase (vchar c i) = PFail -> hd_error i <> Some c.
Proof.
  unfold vchar. rewrite same_start. intros H E. destruct i as [|x i]; [discriminate|]. injection E as ->. cbn in H.
  rewrite N.eqb_refl in H. destruct H; discriminate.
Qed.
Lemma true_brace u i : erase (vchar c_rbrace i) = PErr \/ erase (vchar c_rbrace i) = PFail -> true_at (site_message s_brace) u i.
Proof.
  intros H. split; [discriminate|split; [|split; [discriminate|split; [discriminate|intros [E|E]; discriminate]]]].
  intros _. apply char_fails. exact H.
Qed.
Lemma true_bracket u i : erase (vchar c_rbrack i) = PErr \/ erase (vchar c_rbrack i) = PFail -> true_at (site_message s_bracket) u i.
Proof.
  intros H. split; [discriminate|split; [discriminate|split; [|split; [discriminate|intros [E|E]; discriminate]]]].
  intros _. apply char_fails. exact H.
Qed.
Lemma endings_start e r : newline e -> exists l r', many1 line_ending (e ++ r) = POk r' l.
Proof.
  intros He. unfold many1, pbind at 1. assert (E : line_ending (e ++ r) = POk r tt) by (destruct He; reflexivity).
  rewrite E. unfold pbind. destruct (safe_many0 (length r) line_ending (safe_line_ending _) r) as [Hn _]; [lia|].
  assert (Hm : forall fuel i, match many0_aux fuel line_ending i with PErr | PFail => False | _ => True end).
  { induction fuel as [|fuel IH]; intros i; cbn [many0_aux]; [exact I|].
    assert (Hl : line_ending i <> PFail).
    { destruct i as [|x i]; cbn; [discriminate|]. destruct (N.eqb x c_nl); [discriminate|]. destruct (N.eqb x c_cr); [|discriminate].
      destruct i as [|y i]; [discriminate|]. destruct (N.eqb y c_nl); discriminate. }
    destruct (line_ending i) as [r' a| | |]; auto. destruct (str_eqb r' i); [exact I|]. specialize (IH r').
    destruct (many0_aux fuel line_ending r'); auto. }
  specialize (Hm (S (length r)) r). fold (many0 line_ending r) in Hm. destruct (many0 line_ending r) as [r' l| | |]; try contradiction; try congruence.
  eexists. eexists. reflexivity.
Qed.
Lemma true_newline {B} keep (f : list unit -> vparser B) u i : (forall l r, exists b, f l r = VOk r b) ->
  erase (vbind (vmany1 keep vline_ending) f i) = PErr \/ erase (vbind (vmany1 keep vline_ending) f i) = PFail -> true_at (site_message s_newline) u i.
Proof.
  intros Hf H. split; [discriminate|split; [discriminate|split; [discriminate|split; [|intros [E|E]; discriminate]]]].
  intros _ (e & r & He & ->). destruct (endings_start e r He) as (l & r' & E).
  pose proof (same_many1 keep _ _ (same_start "CrLf" line_ending) (e ++ r)) as Es. fold vline_ending in Es. rewrite E in Es.
  unfold vbind in H. destruct (vmany1 keep vline_ending (e ++ r)) as [r2 l2| | |]; cbn in Es; try discriminate.
  destruct (Hf l2 r2) as [b Hb]. rewrite Hb in H. destruct H; discriminate.
Qed.
Definition ended (u : str) : Prop := exists v, u = v ++ [c_nl].
Lemma true_ended s u i : s = s_content \/ s = s_routes -> ended u -> true_at (site_message s) u i.
Proof. intros [->| ->] H; (split; [discriminate|split; [discriminate|split; [discriminate|split; [discriminate|auto]]]]). Qed.
Lemma newlines_ended e : newlines e -> ended e.
Proof.
  induction 1 as [e He|e e' He _ [v IH]].
  - destruct He; [exists []; reflexivity|exists [c_cr]; reflexivity].
  - exists (e ++ v). rewrite IH. apply app_assoc.
Qed.
Lemma ended_app u w : ended w -> ended (u ++ w).
Proof. intros [v ->]. exists (u ++ v). apply app_assoc. Qed.
End Places.

(** ** The parts of the grammar *)
Ltac good :=
  repeat first
    [ apply good_ret | apply good_tag | apply good_no_case | apply good_char | apply good_take | apply good_line_ending
    | apply good_eof | apply good_line | apply good_sp | assumption | (apply good_any; assumption)
    | apply good_ws | apply good_alt | apply good_not | apply good_count
    | apply good_many0 | apply good_many1 | apply good_recognize
    | apply good_then; [|intros ?] ].
Section Good.
Variable ualnum : char -> bool.
Variable keep : bool.
Variable code : nat -> N.
Variable T : str.
Notation good := (good code T).

Lemma good_colon : good any (colon_v code).
Proof. apply good_error; [cbv; lia|good|]. intros u i _ H. apply true_colon. exact H. Qed.
Lemma good_param : good any (param_v ualnum code).
Proof. pose proof good_colon. unfold param_v. good. Qed.
Lemma good_rbrace : good any (vreturn_error (code s_brace) (vchar c_rbrace)).
Proof. apply good_error; [cbv; lia|good|]. intros u i _ H. apply true_brace. exact H. Qed.
Lemma good_rbrack : good any (vreturn_error (code s_bracket) (vchar c_rbrack)).
Proof. apply good_error; [cbv; lia|good|]. intros u i _ H. apply true_bracket. exact H. Qed.
Lemma good_segment level : good any (path_segment_v ualnum code level).
Proof. pose proof good_param. pose proof good_rbrace. unfold path_segment_v, indent_v. good. Qed.
Lemma good_query level : good any (query_parameter_v ualnum code level).
Proof. pose proof good_param. pose proof good_rbrack. unfold query_parameter_v, indent_v. good. Qed.
Lemma good_target : good any (target_v ualnum).
Proof. unfold target_v, modules_v. good. Qed.
Lemma good_newline : good any (require_newline_v keep code).
Proof.
  apply good_error; [cbv; lia|good|]. intros u i _ H. eapply true_newline; [|exact H]. intros l r. exists tt. reflexivity.
Qed.
Lemma good_method : good any method_v.
Proof. unfold method_v. good. Qed.
Lemma good_resource level : good any (resource_v ualnum keep code level).
Proof.
  pose proof good_method. pose proof good_target. pose proof good_newline. pose proof (good_query (S level)).
  unfold resource_v, indent_v. good.
Qed.
Lemma good_content nested level : good any (nested level) -> good ended (resources_and_routes_v ualnum keep code nested level).
Proof.
  intros Hn. pose proof (good_resource level). apply good_error; [cbv; lia|good|].
  intros u i Hu _. apply true_ended; auto.
Qed.
Lemma texts_ended level : reads (many0 (do q <- query_parameter_p ualnum level; do _u <- many1 line_ending; pret q)) (fun w _ => w = [] \/ ended w).
Proof.
  eapply reads_weaken; [|apply reads_texts, says_query_line, reads_endings]. intros w l H. unfold of in H.
  induction H as [|q qs s rest Hq Hqs IH]; [auto|]. right. destruct IH as [->|H2]; [|apply ended_app; exact H2].
  rewrite app_nil_r. destruct Hq as [p a v b e _ _ _ He]. do 6 apply ended_app. apply newlines_ended. exact He.
Qed.
Lemma verr_reads {A} (v : vparser A) p Q w r a : same v p -> reads p Q -> v (w ++ r) = VOk r a -> Q w a.
Proof.
  intros Hs Hp H. assert (E : p (w ++ r) = POk r a) by (rewrite <- (Hs (w ++ r)), H; reflexivity).
  apply Hp in E. destruct E as (w' & E & HQ). apply app_inv_tail in E. subst w'. exact HQ.
Qed.
Lemma good_body nested level : good any (nested level) -> good ended (routes_body_v ualnum keep code nested level).
Proof.
  intros Hn. pose proof (good_query level). unfold routes_body_v. eapply (good_bind _ _ ended ended); [good| |].
  - intros q. apply good_then; [apply good_content, Hn|]. intros rnr. apply good_ret.
  - intros u w r a Hu E. eapply verr_reads in E; [| |apply (texts_ended level)].
    + destruct E as [->|E]; [rewrite app_nil_r; exact Hu|apply ended_app; exact E].
    + pose proof (same_query ualnum code level). same.
Qed.
Lemma good_nested routes level : good ended (routes (S level)) -> good any (nested_body_v ualnum keep code routes level).
Proof.
  intros Hr. pose proof (good_segment level). unfold nested_body_v. apply good_then; [good|]. intros seg.
  eapply (good_bind _ _ any ended); [good| |].
  - intros l. apply good_then; [|intros b; apply good_ret]. apply good_error; [cbv; lia|exact Hr|].
    intros u i Hu _. apply true_ended; auto.
  - intros u w r a _ E. apply ended_app, newlines_ended. apply (verr_reads (vmany1 keep vline_ending) (many1 line_ending) (fun w _ => newlines w) w r a); [same|apply reads_endings|exact E].
Qed.
Lemma good_routes : forall fuel level, good ended (routes_v ualnum keep code fuel level).
Proof.
  induction fuel as [|fuel IH]; intros level u i E Hu; cbn [routes_v]; [exact I|].
  apply (good_body (nested_body_v ualnum keep code (routes_v ualnum keep code fuel)) level (good_nested _ _ (IH (S level))) u i E Hu).
Qed.
Lemma good_header : good any (header_v keep).
Proof. unfold header_v. good. Qed.
End Good.

Section Config.
Variable ualnum : char -> bool.
Variable keep : bool.
Variable code : nat -> N.
Lemma good_config text : good code text any (route_config_v ualnum keep code).
Proof.
  intros u i E _. unfold route_config_v. pose proof (good_header keep code text). pose proof (good_routes ualnum keep code text (S (length i)) 1).
  match goal with |- match ?v i with _ => _ end => assert (Hg : good code text any v) end; [|apply (Hg u i E I)].
  apply good_then; [good|]. intros hs. apply good_then; [good|]. intros l. apply good_then; [good|]. intros _.
  eapply (good_bind _ _ any ended); [good| |].
  - intros l'. apply good_then; [assumption|]. intros b. good.
  - intros u0 w r a _ E0. apply ended_app, newlines_ended. apply (verr_reads (vmany1 keep vline_ending) (many1 line_ending) (fun w _ => newlines w) w r a); [same|apply reads_endings|exact E0].
Qed.
End Config.

(** ** Which failures are lists *)
Definition never {A} (p : vparser A) : Prop := forall i c, p i <> VFail c.
Definition lists {A} (code : nat -> N) (p : vparser A) : Prop :=
  forall i c, p i = VFail c -> exists v j s, c = CList (v ++ [(j, Custom (code s))]) /\ In s [s_colon; s_bracket; s_content].
Lemma lists_never {A} code (p : vparser A) : never p -> lists code p.
Proof. intros H i c E. destruct (H i c E). Qed.
Lemma lists_bind {A B} code (p : vparser A) (f : A -> vparser B) : lists code p -> (forall a, lists code (f a)) -> lists code (vbind p f).
Proof.
  intros Hp Hf i c. unfold vbind. specialize (Hp i). destruct (p i) as [r a|x|x|]; try discriminate; [apply Hf|].
  intros [= <-]. apply Hp. reflexivity.
Qed.
Lemma never_bind {A B} (p : vparser A) (f : A -> vparser B) : never p -> (forall a, never (f a)) -> never (vbind p f).
Proof.
  intros Hp Hf i c. unfold vbind. specialize (Hp i). destruct (p i) as [r a|x|x|]; try discriminate; [apply Hf|].
  destruct (Hp x eq_refl).
Qed.
Lemma lists_error {A} code s (p : vparser A) : In s [s_colon; s_bracket; s_content] -> lists code (vreturn_error (code s) p).
Proof.
  intros Hs i c. unfold vreturn_error. destruct (p i) as [r a|x|x|]; try discriminate; intros [= <-];
    (exists (items x), i, s; split; [destruct x; reflexivity|exact Hs]).
Qed.
Lemma never_ret {A} (a : A) : never (vret a).
Proof. intros i c. discriminate. Qed.
Lemma never_sp : never vsp.
Proof. intros i c. discriminate. Qed.
Lemma never_start {A} k (p : parser A) : (forall i, p i <> PFail) -> never (at_start k p).
Proof. intros H i c. unfold at_start. specialize (H i). destruct (p i); try discriminate. congruence. Qed.
Lemma never_char x : never (vchar x).
Proof. apply never_start. intros [|y i]; cbn; [discriminate|]. destruct (N.eqb y x); discriminate. Qed.
Lemma never_tag t : never (vtag t).
Proof. apply never_start. intros i. unfold tag. destruct (is_prefix t i); discriminate. Qed.
Lemma never_take f : never (vtake_while1 f).
Proof. apply never_start. intros i. unfold take_while1. destruct (span f i) as [[|] ?]; discriminate. Qed.
Lemma never_ending : never vline_ending.
Proof.
  apply never_start. intros [|x i]; cbn; [discriminate|]. destruct (N.eqb x c_nl); [discriminate|].
  destruct (N.eqb x c_cr); [|discriminate]. destruct i as [|y i]; [discriminate|]. destruct (N.eqb y c_nl); discriminate.
Qed.
Lemma never_line : never vnot_line_ending.
Proof.
  apply never_start. intros i. unfold not_line_ending. destruct (span is_line_char i) as [b [|x r]]; [discriminate|].
  destruct (N.eqb x c_cr); [|discriminate]. destruct (is_prefix _ _); discriminate.
Qed.
Lemma never_eof : never veof.
Proof. apply never_start. intros [|x i]; discriminate. Qed.
Lemma never_not {A} (p : vparser A) : never p -> never (vnot p).
Proof. intros H i c. unfold vnot. specialize (H i). destruct (p i); try discriminate. destruct (H c0 eq_refl). Qed.
Lemma never_recognize {A} (p : vparser A) : never p -> never (vrecognize p).
Proof. intros H i c. unfold vrecognize. specialize (H i). destruct (p i); try discriminate. destruct (H c0 eq_refl). Qed.
Lemma never_many0 {A} (p : vparser A) : never p -> never (vmany0 p).
Proof.
  intros H. assert (Ha : forall fuel, never (vmany0_aux fuel p)); [|intros i; apply Ha].
  induction fuel as [|fuel IH]; intros i c; cbn [vmany0_aux]; [discriminate|]. specialize (H i).
  destruct (p i) as [r a|x|x|]; try discriminate; [|destruct (H x eq_refl)]. destruct (str_eqb r i); [discriminate|].
  specialize (IH r). destruct (vmany0_aux fuel p r) as [r' l|x|x|]; try discriminate. destruct (IH x eq_refl).
Qed.
Lemma never_many1 {A} keep (p : vparser A) : never p -> never (vmany1 keep p).
Proof.
  intros H i c. unfold vmany1. pose proof (H i) as Hi. destruct (p i) as [r a|x|x|]; try discriminate; [|destruct (Hi x eq_refl)].
  apply never_bind; [apply never_many0, H|]. intros l. apply never_ret.
Qed.
Lemma lists_many0 {A} code (p : vparser A) : lists code p -> lists code (vmany0 p).
Proof.
  intros H. assert (Ha : forall fuel, lists code (vmany0_aux fuel p)); [|intros i; apply Ha].
  induction fuel as [|fuel IH]; intros i c; cbn [vmany0_aux]; [discriminate|]. specialize (H i).
  destruct (p i) as [r a|x|x|]; try discriminate; [|intros [= <-]; apply H; reflexivity]. destruct (str_eqb r i); [discriminate|].
  specialize (IH r). destruct (vmany0_aux fuel p r) as [r' l|x|x|]; try discriminate. intros [= <-]. apply IH. reflexivity.
Qed.
Lemma never_count {A} (p : vparser A) n : never p -> never (vcount p n).
Proof.
  intros H. assert (Ha : forall s, never (vcount_aux s p n)); [|intros i; apply Ha].
  intros s. induction n as [|n IH]; intros i c; cbn [vcount_aux]; [discriminate|]. specialize (H i).
  destruct (p i) as [r a|x|x|]; try discriminate; [apply IH|destruct (H x eq_refl)].
Qed.
Lemma lists_query ualnum code level : lists code (query_parameter_v ualnum code level).
Proof.
  unfold query_parameter_v, indent_v. apply lists_bind; [apply lists_never, never_count, never_tag|]. intros _.
  apply lists_bind; [apply lists_never, never_char|]. intros _. apply lists_bind.
  - apply lists_bind; [apply lists_never, never_sp|]. intros _. apply lists_bind.
    + unfold param_v. apply lists_bind; [apply lists_never, never_take|]. intros n. apply lists_bind.
      * apply lists_bind; [apply lists_never, never_sp|]. intros _. apply lists_bind; [apply lists_error; cbn; tauto|]. intros v.
        apply lists_never, never_bind; [apply never_sp|]. intros _. apply never_ret.
      * intros _. apply lists_never, never_bind; [apply never_take|]. intros t. apply never_ret.
    + intros p. apply lists_never, never_bind; [apply never_sp|]. intros _. apply never_ret.
  - intros p. apply lists_bind; [apply lists_error; cbn; tauto|]. intros _. apply lists_never, never_ret.
Qed.
Lemma lists_routes ualnum keep code fuel level : lists code (routes_v ualnum keep code fuel level).
Proof.
  destruct fuel as [|fuel]; intros i; cbn [routes_v]; [discriminate|]. revert i.
  match goal with |- forall i c, ?p i = _ -> _ => change (lists code p) end. unfold routes_body_v. apply lists_bind.
  - apply lists_many0, lists_bind; [apply lists_query|]. intros q. apply lists_never, never_bind; [apply never_many1, never_ending|].
    intros _. apply never_ret.
  - intros q. apply lists_bind; [apply lists_error; cbn; tauto|]. intros rnr. apply lists_never, never_ret.
Qed.
Lemma never_header keep : never (header_v keep).
Proof.
  unfold header_v. apply never_bind.
  - apply never_recognize, never_bind; [apply never_not, never_char|]. intros _. apply never_many0, never_line.
  - intros t. apply never_bind; [apply never_many1, never_ending|]. intros _. apply never_ret.
Qed.
Lemma lists_config ualnum keep code : lists code (route_config_v ualnum keep code).
Proof.
  intros i. unfold route_config_v.
  match goal with |- forall c, ?v i = _ -> _ => assert (Hl : lists code v); [|exact (Hl i)] end.
  apply lists_bind; [apply lists_never, never_many0, never_header|]. intros hs.
  apply lists_bind; [apply lists_never, never_many0, never_ending|]. intros _.
  apply lists_bind; [apply lists_never, never_char|]. intros _.
  apply lists_bind; [apply lists_never, never_many1, never_ending|]. intros _.
  apply lists_bind; [apply lists_routes|]. intros b. apply lists_never, never_bind; [apply never_eof|]. intros _. apply never_ret.
Qed.

(** ** What the failures are lists of *)
Definition m_colon : str := lit "Expected "":""".
Definition m_brace : str := lit "Expected a ""}""".
Definition m_bracket : str := lit "Expected a ""]""".
Definition m_newline : str := lit "Expected a newline".
(** The failures are chains that end with one of these messages, or a [Many1] alone. *)
Definition chained {A} (code : nat -> N) (ms : list str) (alone : bool) (p : vparser A) : Prop :=
  forall i c, p i = VFail c ->
  (exists m v, c = CList v /\ chain code m v /\ In m ms) \/ (alone = true /\ exists j, c = Code j (Builtin (lit "Many1"))).
Lemma chained_never {A} code ms alone (p : vparser A) : never p -> chained code ms alone p.
Proof. intros H i c E. destruct (H i c E). Qed.
Lemma chained_more {A} code ms alone ms' alone' (p : vparser A) : (forall m, In m ms -> In m ms') ->
  (alone = true -> alone' = true) -> chained code ms alone p -> chained code ms' alone' p.
Proof.
  intros H H' Hp i c E. destruct (Hp i c E) as [(m & v & H1 & H2 & H3)|[H1 H2]]; [left; exists m, v; auto|right; auto].
Qed.
Lemma chained_bind {A B} code ms alone (p : vparser A) (f : A -> vparser B) :
  chained code ms alone p -> (forall a, chained code ms alone (f a)) -> chained code ms alone (vbind p f).
Proof.
  intros Hp Hf i c. unfold vbind. specialize (Hp i). destruct (p i) as [r a|x|x|]; try discriminate; [apply Hf|].
  intros [= <-]. apply Hp. reflexivity.
Qed.
Lemma chained_alt {A} code ms alone (p q : vparser A) :
  chained code ms alone p -> chained code ms alone q -> chained code ms alone (valt p q).
Proof.
  intros Hp Hq i c. unfold valt. specialize (Hp i). specialize (Hq i).
  destruct (p i) as [r a|x|x|]; try discriminate.
  - destruct (q i) as [r a|y|y|]; try discriminate. intros [= <-]. apply Hq. reflexivity.
  - intros [= <-]. apply Hp. reflexivity.
Qed.
Lemma chained_many0 {A} code ms alone (p : vparser A) : chained code ms alone p -> chained code ms alone (vmany0 p).
Proof.
  intros H. assert (Ha : forall fuel, chained code ms alone (vmany0_aux fuel p)); [|intros i; apply Ha].
  induction fuel as [|fuel IH]; intros i c; cbn [vmany0_aux]; [discriminate|]. specialize (H i).
  destruct (p i) as [r a|x|x|]; try discriminate; [|intros [= <-]; apply H; reflexivity]. destruct (str_eqb r i); [discriminate|].
  specialize (IH r). destruct (vmany0_aux fuel p r) as [r' l|x|x|]; try discriminate. intros [= <-]. apply IH. reflexivity.
Qed.
Lemma chained_many1 {A} code ms alone keep (p : vparser A) : chained code ms alone p -> chained code ms true (vmany1 keep p).
Proof.
  intros H i c. unfold vmany1. pose proof (H i) as Hi. destruct (p i) as [r a|x|x|]; try discriminate.
  - apply chained_bind; [|intros l; apply chained_never, never_ret]. apply chained_many0.
    eapply chained_more; [| |exact H]; auto.
  - intros [= <-]. destruct keep; [|right; eauto]. destruct (Hi x eq_refl) as [Hx|[_ Hx]]; auto.
Qed.
Lemma chained_ws {A} code ms alone (p : vparser A) : chained code ms alone p -> chained code ms alone (vws p).
Proof.
  intros H. unfold vws. apply chained_bind; [apply chained_never, never_sp|]. intros _. apply chained_bind; [exact H|]. intros a.
  apply chained_never, never_bind; [apply never_sp|]. intros _. apply never_ret.
Qed.
(** The innermost message: around something that does not fail. *)
Lemma chained_here {A} code s k alone (p : vparser A) : never p -> (forall i c, p i = VErr c -> c = Code i (Builtin k)) ->
  In (site_message s, k)
      [ (m_colon, lit "Tag"); (m_brace, lit "Char"); (m_bracket, lit "Char");
        (m_newline, lit "Many1"); (m_content, lit "Alt"); (m_content, lit "Many1") ] ->
  chained code [site_message s] alone (vreturn_error (code s) p).
Proof.
  intros Hn He Hs i c. unfold vreturn_error. specialize (Hn i). specialize (He i).
  destruct (p i) as [r a|x|x|]; try discriminate; [|destruct (Hn x eq_refl)].
  intros [= <-]. rewrite (He x eq_refl). left. exists (site_message s). eexists. split; [reflexivity|]. split; [|left; reflexivity].
  apply chain_here; auto.
Qed.
Lemma start_err {A} k (p : parser A) i c : at_start k p i = VErr c -> c = Code i (Builtin (lit k)).
Proof. unfold at_start. destruct (p i); try discriminate. intros [= <-]. reflexivity. Qed.
Lemma many0_fine {A} (p : vparser A) i c : vmany0 p i <> VErr c.
Proof.
  unfold vmany0. generalize (S (length i)). intros fuel. revert i. induction fuel as [|fuel IH]; intros i; cbn [vmany0_aux]; [discriminate|].
  destruct (p i) as [r a|x|x|]; try discriminate. destruct (str_eqb r i); [discriminate|].
  specialize (IH r). destruct (vmany0_aux fuel p r); try discriminate. congruence.
Qed.
Lemma many1_err {A} keep (p : vparser A) i c : vmany1 keep p i = VErr c -> c = Code i (Builtin (lit "Many1")).
Proof.
  unfold vmany1. destruct (p i) as [r a|x|x|]; try discriminate; [|intros [= <-]; reflexivity].
  unfold vbind. destruct (vmany0 p r) as [r' l|x|x|] eqn:E; try discriminate. destruct (many0_fine p r x E).
Qed.
Lemma alt_err {A} (p q : vparser A) i c : valt p q i = VErr c -> c = Code i (Builtin (lit "Alt")).
Proof.
  unfold valt. destruct (p i) as [r a|x|x|]; try discriminate. destruct (q i); try discriminate. intros [= <-]. reflexivity.
Qed.

Section Chain.
Variable ualnum : char -> bool.
Variable keep : bool.
Variable code : nat -> N.
Lemma chained_param alone : chained code [m_colon] alone (param_v ualnum code).
Proof.
  unfold param_v. apply chained_bind; [apply chained_never, never_take|]. intros n. apply chained_bind.
  - apply chained_ws. apply (chained_here code s_colon (lit "Tag")); [apply never_tag|apply start_err|left; reflexivity].
  - intros _. apply chained_never, never_bind; [apply never_take|]. intros t. apply never_ret.
Qed.
Lemma chained_query alone level : chained code [m_colon; m_bracket] alone (query_parameter_v ualnum code level).
Proof.
  unfold query_parameter_v, indent_v. apply chained_bind; [apply chained_never, never_count, never_tag|]. intros _.
  apply chained_bind; [apply chained_never, never_char|]. intros _. apply chained_bind.
  - apply chained_ws. eapply chained_more; [| |apply (chained_param alone)]; auto. intros m [<-|[]]. cbn. tauto.
  - intros p. apply chained_bind; [|intros _; apply chained_never, never_ret].
    eapply chained_more; [| |apply (chained_here code s_bracket (lit "Char") alone); [apply never_char|apply start_err|cbn; tauto]]; auto.
    intros m [<-|[]]. right. left. reflexivity.
Qed.
Lemma chained_segment alone level : chained code [m_colon; m_brace] alone (path_segment_v ualnum code level).
Proof.
  unfold path_segment_v, indent_v. apply chained_bind; [apply chained_never, never_count, never_tag|]. intros _.
  apply chained_alt.
  - apply chained_bind; [apply chained_never, never_char|]. intros _. apply chained_bind.
    + apply chained_ws. eapply chained_more; [| |apply (chained_param alone)]; auto. intros m [<-|[]]. cbn. tauto.
    + intros p. apply chained_bind; [|intros _; apply chained_never, never_ret].
      eapply chained_more; [| |apply (chained_here code s_brace (lit "Char") alone); [apply never_char|apply start_err|cbn; tauto]]; auto.
      intros m [<-|[]]. right. left. reflexivity.
  - apply chained_never, never_bind; [apply never_take|]. intros t. apply never_ret.
Qed.
Lemma chained_newline alone : chained code [m_newline] alone (require_newline_v keep code).
Proof.
  apply (chained_here code s_newline (lit "Many1")); [| |cbn; tauto].
  - apply never_bind; [apply never_many1, never_ending|]. intros _. apply never_ret.
  - intros i c. unfold vbind. destruct (vmany1 keep vline_ending i) as [r l|x|x|] eqn:E; try discriminate.
    intros [= <-]. apply many1_err in E. exact E.
Qed.
Lemma never_alt {A} (p q : vparser A) : never p -> never q -> never (valt p q).
Proof.
  intros Hp Hq i c. unfold valt. specialize (Hp i). specialize (Hq i). destruct (p i) as [r a|x|x|]; try discriminate; [|apply Hp].
  destruct (q i); try discriminate. apply Hq.
Qed.
Lemma never_no_case t : never (vtag_no_case t).
Proof. apply never_start. intros i. unfold tag_no_case. destruct (_ : bool); discriminate. Qed.
Lemma never_method : never method_v.
Proof.
  unfold method_v. repeat (apply never_alt || (apply never_bind; [apply never_no_case|intros _; apply never_ret])).
Qed.
Lemma never_target : never (target_v ualnum).
Proof.
  assert (Hm : never (modules_v ualnum)).
  { apply never_many0, never_bind; [apply never_take|]. intros m. apply never_bind; [|intros _; apply never_ret].
    apply never_bind; [apply never_sp|]. intros _. apply never_bind; [apply never_tag|]. intros u.
    apply never_bind; [apply never_sp|]. intros _. apply never_ret. }
  unfold target_v. apply never_alt.
  - apply never_bind.
    + apply never_bind; [apply never_sp|]. intros _. apply never_bind; [apply never_tag|]. intros u.
      apply never_bind; [apply never_sp|]. intros _. apply never_ret.
    + intros _. apply never_bind; [exact Hm|]. intros ms. apply never_bind; [apply never_take|]. intros a. apply never_ret.
  - apply never_bind; [exact Hm|]. intros ms. apply never_bind; [apply never_take|]. intros a. apply never_ret.
Qed.
Definition inside : list str := [m_colon; m_brace; m_bracket; m_newline; m_routes].
Ltac within := intros m; cbn; tauto.
Lemma chained_resource alone level : chained code inside alone (resource_v ualnum keep code level).
Proof.
  unfold resource_v, indent_v. apply chained_bind; [apply chained_never, never_count, never_tag|]. intros _.
  apply chained_bind; [apply chained_never, never_method|]. intros md.
  apply chained_bind; [apply chained_never, never_char|]. intros _.
  apply chained_bind; [apply chained_never, never_target|]. intros t.
  apply chained_bind; [eapply chained_more; [| |apply (chained_newline alone)]; [within|auto]|]. intros _.
  apply chained_bind; [|intros q; apply chained_never, never_ret]. apply chained_many0.
  apply chained_bind; [eapply chained_more; [| |apply (chained_query alone)]; [within|auto]|]. intros q.
  apply chained_bind; [eapply chained_more; [| |apply (chained_newline alone)]; [within|auto]|]. intros _.
  apply chained_never, never_ret.
Qed.
Lemma chained_content nested level : chained code inside false (nested level) ->
  chained code [m_content] false (resources_and_routes_v ualnum keep code nested level).
Proof.
  intros Hn. unfold resources_and_routes_v.
  assert (Hm : chained code inside true (vmany1 keep (nested level))) by (eapply chained_many1; exact Hn).
  match goal with |- chained _ _ _ (vreturn_error _ ?p) => assert (Hp : chained code inside true p); [|assert (He : forall i c, p i = VErr c -> c = Code i (Builtin (lit "Alt"))) by apply alt_err; set (q := p) in *; clearbody q] end.
  - apply chained_alt.
    + apply chained_bind; [apply (chained_many1 code inside false), chained_resource|]. intros rs.
      apply chained_bind; [|intros ns; apply chained_never, never_ret].
      apply chained_alt; [|apply chained_never, never_ret].
      apply chained_bind; [apply chained_never, never_many0, never_ending|]. intros _. exact Hm.
    + apply chained_bind; [exact Hm|]. intros ns. apply chained_never, never_ret.
  - intros i c. unfold vreturn_error. specialize (Hp i). specialize (He i).
    destruct (q i) as [r a|x|x|]; try discriminate; intros [= <-]; left; exists m_content.
    + rewrite (He x eq_refl). eexists. split; [reflexivity|]. split; [|left; reflexivity].
      apply (chain_here code i i (lit "Alt") s_content); [cbn; tauto|auto].
    + destruct (Hp x eq_refl) as [(m & v & -> & Hv & Hm')|[_ [j ->]]].
      * eexists. split; [reflexivity|]. split; [|left; reflexivity]. apply (chain_content code m v i s_content); auto.
        intros ->. cbn in Hm'. repeat destruct Hm' as [Hm'|Hm']; try discriminate Hm'. exact Hm'.
      * eexists. split; [reflexivity|]. split; [|left; reflexivity].
        apply (chain_here code j i (lit "Many1") s_content); [cbn; tauto|]. intros [H|H]; destruct H; reflexivity.
Qed.
Definition top : list str := [m_colon; m_bracket; m_content].
Lemma chained_routes : forall fuel level, chained code top false (routes_v ualnum keep code fuel level).
Proof.
  induction fuel as [|fuel IH]; intros level i; cbn [routes_v]; [discriminate|]. revert i.
  match goal with |- forall i c, ?p i = _ -> _ => change (chained code top false p) end. unfold routes_body_v. apply chained_bind.
  - apply chained_many0, chained_bind; [eapply chained_more; [| |apply (chained_query false)]; [within|auto]|]. intros q.
    apply chained_never, never_bind; [apply never_many1, never_ending|]. intros _. apply never_ret.
  - intros q. apply chained_bind; [|intros rnr; apply chained_never, never_ret].
    eapply chained_more; [| |apply chained_content]; [within|auto|].
    unfold nested_body_v. apply chained_bind; [eapply chained_more; [| |apply (chained_segment false)]; [within|auto]|]. intros seg.
    apply chained_bind; [apply chained_never, never_many1, never_ending|]. intros _.
    apply chained_bind; [|intros r; apply chained_never, never_ret].
    intros i c. unfold vreturn_error. specialize (IH (S level) i).
    destruct (routes_v ualnum keep code fuel (S level) i) as [r a|x|x|] eqn:E; try discriminate.
    + exfalso. destruct fuel as [|fuel]; cbn [routes_v] in E; [discriminate|]. unfold routes_body_v, vbind in E.
      destruct (vmany0 _ i) as [r l|y|y|] eqn:E'; try discriminate; [|exact (many0_fine _ _ _ E')].
      unfold resources_and_routes_v, vreturn_error in E. destruct (valt _ _ r); discriminate.
    + intros [= <-]. destruct (IH x eq_refl) as [(m & v & -> & Hv & Hm)|[H _]]; [|discriminate].
      left. exists m_routes. eexists. split; [reflexivity|]. split; [|cbn; tauto].
      apply (chain_routes code m v i s_routes); auto.
Qed.
Lemma chained_config : chained code top false (route_config_v ualnum keep code).
Proof.
  intros i. unfold route_config_v.
  match goal with |- forall c, ?v i = _ -> _ => assert (Hl : chained code top false v); [|exact (Hl i)] end.
  apply chained_bind; [apply chained_never, never_many0, never_header|]. intros hs.
  apply chained_bind; [apply chained_never, never_many0, never_ending|]. intros _.
  apply chained_bind; [apply chained_never, never_char|]. intros _.
  apply chained_bind; [apply chained_never, never_many1, never_ending|]. intros _.
  apply chained_bind; [apply chained_routes|]. intros b. apply chained_never, never_bind; [apply never_eof|]. intros _. apply never_ret.
Qed.
End Chain.

(** ** The result *)
Section Result.
Variable ualnum : char -> bool.
Variable keep : bool.
Variable code : nat -> N.
Notation config := (route_config_v ualnum keep code).
Lemma config_total text : config text <> VFuel.
Proof.
  intros E. pose proof (same_config ualnum keep code text) as Hs. rewrite E in Hs. symmetry in Hs. exact (parse_total ualnum text Hs).
Qed.
Lemma config_ok text r c : config text = VOk r c <-> r = [] /\ config_text ualnum c text.
Proof.
  pose proof (same_config ualnum keep code text) as Hs. rewrite <- parse_exact, <- Hs. split.
  - intros E. rewrite E in *. symmetry in Hs. apply parse_reads in Hs as H. destruct H as [-> _]. auto.
  - intros [-> E]. destruct (config text); try discriminate. injection E as -> ->. reflexivity.
Qed.
Lemma config_fail text c : config text = VFail c -> exists v, c = CList v /\ headed code v /\
  Forall (fun ie => exists u, text = u ++ fst ie) v /\ inner_first v /\ Forall (true_item code text) v /\
  exists m, chain code m v.
Proof.
  intros E. destruct (chained_config ualnum keep code text c E) as [(m & v0 & Ec & Hc & _)|[H _]]; [|discriminate].
  destruct (lists_config _ _ _ _ _ E) as (v & j & s & -> & Hs). exists (v ++ [(j, Custom (code s))]). split; [reflexivity|].
  pose proof (good_config ualnum keep code text [] text eq_refl I) as H. rewrite E in H. destruct H as [_ H].
  injection Ec as <-. destruct H as (H1 & H2 & H3).
  split; [|split; [exact H1|split; [exact H2|split; [exact H3|exists m; exact Hc]]]].
  exists v, j, s. split; [reflexivity|]. destruct Hs as [<-|[<-|[<-|[]]]]; cbn; tauto.
Qed.
Lemma config_err text c : config text = VErr c -> exists i k u, c = Code i (Builtin k) /\ text = u ++ i.
Proof. intros E. pose proof (good_config ualnum keep code text [] text eq_refl I) as H. rewrite E in H. exact H. Qed.

(** The parser without the end of the file. *)
Definition open_config (fuel : nat) : parser RouteConfig :=
  do headers <- many0 header_p;
  do _u <- many0 line_ending;
  pchar c_slash ;;
  do _u <- many1 line_ending;
  do r <- routes_p ualnum fuel 1;
  pret (mkConfig (retain_headers headers) r).
Lemma says_open fuel : reads (open_config fuel) (of (config_text ualnum)).
Proof.
  unfold open_config. eapply reads_weaken; [|eapply reads_bind; [apply reads_many0, says_header|intros ? ?;
    eapply reads_bind; [apply reads_breaks|intros ? ?; eapply reads_bind; [apply reads_char|intros ? ?;
    eapply reads_bind; [apply reads_endings|intros ? ?; eapply reads_bind; [apply says_routes|intros ? ?; apply reads_ret]]]]]].
  cbn beta. intros w c (w1 & hs & w' & -> & (ws & -> & HF) & w2 & ? & w'' & -> & He & w3 & ? & w''' & -> & -> & w4 & ? & w'''' & -> & Hn
    & w5 & b & w6 & -> & Hb & -> & ->).
  apply header_lines in HF. destruct HF as (e0 & s & -> & He0 & Hs). rewrite app_nil_r.
  assert (Hs' : exists e1 s', s ++ w2 = e1 ++ s' /\ (e1 = [] \/ newlines e1) /\ texts header_line (retain_headers hs) s').
  { destruct He as [->|He]; [exists [], s; rewrite app_nil_r; auto|]. apply headers_more; assumption. }
  destruct Hs' as (e1 & s' & E & He1 & Hs'). rewrite <- app_assoc, (app_assoc s), E.
  rewrite <- app_assoc, app_assoc. apply (config_text_intro ualnum _ b (e0 ++ e1) s' w4 w5); auto using breaks_app.
Qed.

Lemma many0_no_err {A} (p : vparser A) i c : vmany0 p i <> VErr c.
Proof.
  unfold vmany0. generalize (S (length i)) as fuel. intros fuel. revert i. induction fuel as [|fuel IH]; intros i; cbn [vmany0_aux]; [discriminate|].
  destruct (p i) as [r a|x|x|]; try discriminate. destruct (str_eqb r i); [discriminate|]. specialize (IH r).
  destruct (vmany0_aux fuel p r) as [r' l|x|x|]; try discriminate. intros [= ->]. exact (IH eq_refl).
Qed.
Lemma routes_no_err fuel level i c : routes_v ualnum keep code fuel level i <> VErr c.
Proof.
  destruct fuel as [|fuel]; cbn [routes_v]; [discriminate|]. unfold routes_body_v, vbind.
  match goal with |- context [vmany0 ?p i] => pose proof (many0_no_err p i) as Hm; destruct (vmany0 p i) as [r a|x|x|] end; try discriminate.
  - unfold resources_and_routes_v, vreturn_error. match goal with |- context [valt ?p ?q r] => destruct (valt p q r) end; discriminate.
  - destruct (Hm x eq_refl).
Qed.
Lemma vok_suffix {A} (v : vparser A) p Q i r a : same v p -> reads p Q -> v i = VOk r a -> exists w, i = w ++ r.
Proof.
  intros Hs Hp H. assert (E : p i = POk r a) by (rewrite <- (Hs i), H; reflexivity). apply Hp in E. destruct E as (w & E & _). eauto.
Qed.
Lemma vok_same {A} (v : vparser A) p i r a : same v p -> v i = VOk r a -> p i = POk r a.
Proof. intros Hs H. rewrite <- (Hs i), H. reflexivity. Qed.
Lemma config_err_why text c : config text = VErr c ->
  exists i k u, c = Code i (Builtin k) /\ text = u ++ i /\ why_rejected ualnum u i k.
Proof.
  intros E. unfold route_config_v in E. unfold vbind in E.
  destruct (vmany0 (header_v keep) text) as [r1 hs|x|x|] eqn:E1; try discriminate; [|destruct (many0_no_err _ _ _ E1)].
  destruct (vmany0 vline_ending r1) as [r2 l2|x|x|] eqn:E2; try discriminate; [|destruct (many0_no_err _ _ _ E2)].
  assert (S1 : same (vmany0 (header_v keep)) (many0 header_p)) by (pose proof (same_header keep); same).
  assert (S2 : same (vmany0 vline_ending) (many0 line_ending)) by same.
  destruct (vok_suffix _ _ _ _ _ _ S1 (reads_many0 _ _ reads_header) E1) as [w1 H1].
  destruct (vok_suffix _ _ _ _ _ _ S2 reads_endings0 E2) as [w2 H2]. subst r1.
  destruct (vchar c_slash r2) as [r3 ?|x|x|] eqn:E3; try discriminate.
  2: { injection E as <-. exists r2, (lit "Char"), (w1 ++ w2). rewrite <- app_assoc.
       assert (Hx : x = Code r2 (Builtin (lit "Char"))).
       { unfold vchar, at_start in E3. destruct (pchar c_slash r2); try discriminate. injection E3 as <-. reflexivity. }
       split; [exact Hx|]. split; [exact H1|]. left. split; [reflexivity|]. apply char_fails. rewrite E3. left. reflexivity. }
  assert (Hr2 : r2 = c_slash :: r3).
  { pose proof (vok_same _ _ _ _ _ (same_start "Char" (pchar c_slash)) E3) as E4. apply reads_char in E4. destruct E4 as (w & Hw & ->). exact Hw. }
  destruct (vmany1 keep vline_ending r3) as [r4 l4|x|x|] eqn:E4; try discriminate.
  2: { injection E as <-. exists r3, (lit "Many1"), (w1 ++ w2 ++ [c_slash]).
       assert (Hx : x = Code r3 (Builtin (lit "Many1"))).
       { unfold vmany1 in E4. destruct (vline_ending r3) as [r5 a5|y|y|] eqn:E5; try discriminate.
         - unfold vbind in E4. destruct (vmany0 vline_ending r5) as [r6 l6|y|y|] eqn:E6; try discriminate. destruct (many0_no_err _ _ _ E6).
         - injection E4 as <-. reflexivity. }
       split; [exact Hx|]. split; [rewrite H1, Hr2, <- !app_assoc; reflexivity|]. right. left. split; [reflexivity|].
       split; [exists (w1 ++ w2); apply app_assoc|]. intros (e & r & He & Hr). destruct (endings_start e r He) as (l & r' & Hm). rewrite <- Hr in Hm.
       pose proof (same_many1 keep _ _ (same_start "CrLf" line_ending) r3) as Hs. fold vline_ending in Hs. rewrite E4, Hm in Hs. discriminate. }
  destruct (routes_v ualnum keep code (S (length text)) 1 r4) as [r5 b|x|x|] eqn:E5; try discriminate; [|destruct (routes_no_err _ _ _ _ E5)].
  destruct (veof r5) as [r6 ?|x|x|] eqn:E6; try discriminate. injection E as <-.
  assert (Hr5 : r5 <> [] /\ x = Code r5 (Builtin (lit "Eof"))).
  { destruct r5; [discriminate|]. injection E6 as <-. split; [discriminate|reflexivity]. }
  destruct Hr5 as [Hr5 ->].
  assert (Ho : open_config (S (length text)) text = POk r5 (mkConfig (retain_headers hs) b)).
  { unfold open_config, pbind. rewrite (vok_same _ _ _ _ _ S1 E1), (vok_same _ _ _ _ _ S2 E2).
    rewrite (vok_same _ _ _ _ _ (same_start "Char" (pchar c_slash)) E3).
    assert (S4 : same (vmany1 keep vline_ending) (many1 line_ending)) by same. rewrite (vok_same _ _ _ _ _ S4 E4).
    rewrite (vok_same _ _ _ _ _ (same_routes ualnum keep code _ 1) E5). reflexivity. }
  apply says_open in Ho. destruct Ho as (w & Hw & Hc). exists r5, (lit "Eof"), w. split; [reflexivity|]. split; [exact Hw|].
  right. right. split; [reflexivity|]. split; [exact Hr5|]. eauto.
Qed.

(** ** The report *)
Section Report.
Variable debug_kind : error_kind -> str.
Variable debug_context : context -> str.
Variable errors : list str.
Notation told text prefix := (diagnosis ualnum keep code debug_kind debug_context errors text prefix).
Lemma diagnosis_cases text prefix :
  (exists c, config_text ualnum c text /\ told text prefix = Some []) \/
  (exists i k u line, text = u ++ i /\ why_rejected ualnum u i k /\ first_line text line /\
     told text prefix = Some (report prefix (lit "error " ++ debug_kind (Builtin k)) 1 line 1)) \/
  (exists v texts, headed code v /\ Forall2 (reported debug_kind errors text prefix) (rev v) texts /\ 
     inner_first v /\ Forall (true_item code text) v /\ (exists m, chain code m v) /\
     told text prefix = Some (concat texts)).
Proof.
  unfold diagnosis. destruct (config text) as [r c|c|c|] eqn:E; cbn [as_result].
  - left. apply config_ok in E. destruct E as [_ E]. eauto.
  - right. left. apply config_err_why in E. destruct E as (i & k & u & -> & Hu & Hw). cbn [show_errors].
    destruct (show_error_at [] text (lit "error " ++ debug_kind (Builtin k)) prefix) as (n & line & col & Hl & Hs). cbn [app] in Hs.
    exists i, k, u, line. split; [exact Hu|]. split; [exact Hw|]. destruct Hl as (a & l1 & l2 & b & H1 & H2 & _ & H3 & _ & H4 & Hn & Hline & Hcol).
    symmetry in H1. apply app_eq_nil in H1. destruct H1 as [-> ->]. cbn [app] in Hline. subst. split; [|exact Hs].
    exists b. auto.
  - right. right. destruct (config_fail _ _ E) as (v & -> & Hv & Hp & Ho & Ht & Hc).
    destruct (show_errors_ok debug_kind debug_context errors text prefix v (NFailure (CList v)) (or_intror eq_refl) Hp) as (texts & Hs & HF).
    exists v, texts. auto 8.
  - destruct (config_total text E).
Qed.
Lemma diagnosis_some text prefix : exists rep, told text prefix = Some rep /\ (rep = [] <-> exists c, config_text ualnum c text).
Proof.
  assert (Hn : (exists c, config_text ualnum c text) -> told text prefix = Some []).
  { intros [c Hc]. unfold diagnosis. assert (E : config text = VOk [] c) by (apply config_ok; auto). rewrite E. reflexivity. }
  destruct (diagnosis_cases text prefix) as [(c & Hc & H)|[(i & k & u & line & _ & _ & _ & H)|(v & texts & Hv & HF & _ & _ & _ & H)]].
  - exists []. split; [exact H|]. split; [eauto|reflexivity].
  - eexists. split; [exact H|]. split.
    + intros E. exfalso. unfold report in E. apply app_eq_nil in E. destruct E as [_ E]. discriminate.
    + intros Hc. rewrite (Hn Hc) in H. congruence.
  - exists (concat texts). split; [exact H|]. split; [|intros Hc; rewrite (Hn Hc) in H; congruence].
    intros E. exfalso. destruct (rev v) as [|ie v'] eqn:Er.
    + destruct Hv as (v' & j & s & -> & _). rewrite rev_app_distr in Er. discriminate.
    + inversion HF as [|? t ? ts Hr HF']; subst. destruct Hr as (u & n & line & col & msg & _ & _ & _ & ->). cbn [concat] in E.
      apply app_eq_nil in E. destruct E as [E _]. unfold report in E. apply app_eq_nil in E. destruct E as [_ E]. discriminate.
Qed.
End Report.
End Result.

(** ** Messages *)
Lemma site_registered tr st t s c debug_kind :
  exec site_message site_count tr st -> In (EUse t s c) tr ->
  forall m, message debug_kind (st_errors st) (Custom c) m <-> m = site_message s.
Proof.
  intros H Hi. assert (Hn : (N.of_nat site_count <= 2 ^ 32)%N) by (vm_compute; discriminate).
  assert (E : get_message debug_kind (st_errors st) (Custom c) = site_message s)
    by (cbn [get_message]; rewrite (exec_state site_message site_count Hn tr st t s c H Hi); reflexivity).
  intros m. rewrite <- E. split; [|intros ->; apply get_message_said].
  intros Hm. eapply message_one; [exact Hm|apply get_message_said].
Qed.

(** ** Misplaced reports *)
Definition one_resource : RouteConfig := mkConfig [] (mkRoutes [mkResource Get [] (lit "a") false []] [] []).
Lemma eof_misplaced : exists good bad c, (forall ualnum, config_text ualnum c good) /\
  (forall ualnum c', ~ config_text ualnum c' (good ++ bad)) /\
  located good bad 3 (lit "   GET b") 1 /\
  forall ualnum keep code debug_kind debug_context errors prefix,
    diagnosis ualnum keep code debug_kind debug_context errors (good ++ bad) prefix =
      Some (report prefix (lit "error " ++ debug_kind (Builtin (lit "Eof"))) 1 (lit "/") 1).
Proof.
  exists (lit "/" ++ [c_nl] ++ lit "  GET a" ++ [c_nl]), (lit "   GET b" ++ [c_nl]), one_resource.
  split; [|split; [|split]].
  - intros ualnum. apply parse_exact. vm_compute. reflexivity.
  - intros ualnum c' H. apply parse_exact in H. vm_compute in H. discriminate.
  - exists (lit "/" ++ [c_nl] ++ lit "  GET a" ++ [c_nl]), [], (lit "   GET b"), [c_nl]. 
    repeat split; try (cbn; intuition discriminate).
    + right. exists (lit "/" ++ [c_nl] ++ lit "  GET a"). reflexivity.
    + right. exists []. reflexivity.
  - intros. set (text := _ ++ _).
    assert (E : route_config_v ualnum keep code text = VErr (Code (lit "   GET b" ++ [c_nl]) (Builtin (lit "Eof")))) by (vm_compute; reflexivity).
    unfold diagnosis. rewrite E. cbn [as_result show_errors].
    destruct (show_error_at [] text (lit "error " ++ debug_kind (Builtin (lit "Eof"))) prefix) as (n & line & col & Hl & Hs).
    assert (Hl' : located [] text 1 (lit "/") 1).
    { exists [], [], (lit "/"), (skipn 1 text). repeat split; try (cbn; intuition discriminate). right. eexists. reflexivity. }
    destruct (located_fun _ _ _ _ _ _ _ _ Hl Hl') as (-> & -> & ->). exact Hs.
Qed.
