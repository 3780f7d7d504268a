(** * MacroFacts: the resource macros *)
From Verif Require Import Base Core Nom Parse Macros SpecMacros SpecParse ParseFacts RoundFacts.

Lemma path_tokens_app n names rest :
  path_idents (path_tokens (n :: names) ++ rest) =
  (let (l, r) := nested_idents (skipn (length (path_tokens (n :: names)) - 0) (path_tokens (n :: names)) ++ rest) in
   Some (n :: names ++ l, r)).
Proof.
  rewrite Nat.sub_0_r, skipn_all. cbn [app].
  revert n. induction names as [|m names IH]; intros n; [cbn; destruct (nested_idents rest); reflexivity|].
  specialize (IH m). change (path_tokens (n :: m :: names)) with (TIdent n :: TColons :: path_tokens (m :: names)).
  assert (E : exists ts, path_tokens (m :: names) = TIdent m :: ts) by (destruct names; eexists; reflexivity).
  destruct E as [ts E]. rewrite E in *. cbn [app path_idents nested_idents] in *.
  destruct (nested_idents (ts ++ rest)) as [l r], (nested_idents rest) as [l' r']. injection IH as -> ->. reflexivity.
Qed.
Lemma path_idents_ok n names rest : (forall s ts, rest <> TColons :: TIdent s :: ts) ->
  path_idents (path_tokens (n :: names) ++ rest) = Some (n :: names, rest).
Proof.
  intros H. rewrite path_tokens_app, Nat.sub_0_r, skipn_all. cbn [app].
  assert (E : nested_idents rest = ([], rest)).
  { destruct rest as [|[] [|[] ?]]; try reflexivity. exfalso. eapply H. reflexivity. }
  rewrite E, app_nil_r. reflexivity.
Qed.
Lemma nested_inv : forall n ts l rest, length ts < n -> nested_idents ts = (l, rest) ->
  forall s, TIdent s :: ts = path_tokens (s :: l) ++ rest.
Proof.
  induction n as [|n IH]; intros ts l rest Hn H s; [lia|].
  assert (Hnil : l = [] -> rest = ts -> TIdent s :: ts = path_tokens (s :: l) ++ rest) by (intros -> ->; reflexivity).
  destruct ts as [|[x| | | |p] [|[y| | | |p'] ts]]; cbn [nested_idents] in H; try (injection H as <- <-; auto; fail).
  destruct (nested_idents ts) as [l' r'] eqn:E. injection H as <- <-. simpl in Hn.
  change (path_tokens (s :: y :: l')) with (TIdent s :: TColons :: path_tokens (y :: l')). cbn [app].
  rewrite <- (IH ts l' r') by (auto; lia). reflexivity.
Qed.
Lemma path_idents_inv ts l rest : path_idents ts = Some (l, rest) -> l <> [] /\ ts = path_tokens l ++ rest.
Proof.
  destruct ts as [|[s| | | |p] ts]; try discriminate. cbn [path_idents]. destruct (nested_idents ts) as [l' r] eqn:E.
  intros [= <- <-]. split; [discriminate|]. eapply nested_inv; eauto.
Qed.
Lemma exprs_ok params : param_exprs (flat_map (fun p => [TComma; TExpr p]) params) = Some params.
Proof. induction params as [|p l IH]; [reflexivity|]. cbn [flat_map app param_exprs]. rewrite IH. reflexivity. Qed.
Lemma exprs_inv : forall n ts l, length ts < n -> param_exprs ts = Some l -> ts = flat_map (fun p => [TComma; TExpr p]) l.
Proof.
  induction n as [|n IH]; intros ts l Hn H; [lia|].
  destruct ts as [|[x| | | |p] [|[y| | | |p'] ts]]; cbn [param_exprs] in H; try discriminate; [injection H as <-; reflexivity|].
  destruct (param_exprs ts) as [l'|] eqn:E; [|discriminate]. injection H as <-. cbn [flat_map app]. simpl in Hn.
  rewrite <- (IH ts l') by (auto; lia). reflexivity.
Qed.
Lemma make_ok m names redirect params : names <> [] ->
  resource_make m names redirect params = ROk (mkResource m (removelast names) (last names []) redirect params).
Proof.
  intros H. destruct (exists_last H) as (l & x & ->). unfold resource_make. rewrite rev_app_distr. cbn [rev app].
  rewrite rev_involutive, removelast_last, last_last. reflexivity.
Qed.

Lemma verb_plain m names params : names <> [] ->
  verb_macro m (plain_call names params) = Some (resource_make m names false params).
Proof.
  intros H. destruct names as [|n names]; [congruence|].
  assert (E : verb_rules (resource_make m) (plain_call (n :: names) params) = Some (resource_make m (n :: names) false params)).
  { unfold verb_rules, plain_call. rewrite path_idents_ok by (intros s ts; destruct params; discriminate).
    rewrite exprs_ok. reflexivity. }
  destruct m; exact E.
Qed.
Lemma verb_redirect m names : names <> [] ->
  verb_macro m (redirect_call names) = Some (resource_make m names true []).
Proof.
  intros H. destruct names as [|n names]; [congruence|].
  assert (E : verb_rules (resource_make m) (redirect_call (n :: names)) = Some (resource_make m (n :: names) true [])).
  { unfold verb_rules, redirect_call. cbn [path_idents]. rewrite <- (app_nil_r (path_tokens (n :: names))).
    rewrite path_idents_ok by discriminate. reflexivity. }
  destruct m; exact E.
Qed.
Lemma verb_iff m ts out :
  verb_macro m ts = Some out <->
  exists names, names <> [] /\
    ((exists params, ts = plain_call names params /\
        out = ROk (mkResource m (removelast names) (last names []) false params)) \/
     (ts = redirect_call names /\ out = ROk (mkResource m (removelast names) (last names []) true []))).
Proof.
  split.
  - intros H. assert (E : verb_rules (resource_make m) ts = Some out) by (destruct m; exact H). clear H.
    unfold verb_rules in E. destruct (path_idents ts) as [[l rest]|] eqn:Ep.
    + destruct (path_idents_inv _ _ _ Ep) as [Hl ->]. destruct (param_exprs rest) as [ps|] eqn:Ee; [|discriminate].
      apply (exprs_inv (S (length rest))) in Ee; [|lia]. injection E as <-. exists l. split; [exact Hl|]. left.
      exists ps. split; [unfold plain_call; congruence|]. apply make_ok. exact Hl.
    + destruct ts as [|[x| | | |p] ts]; try discriminate. destruct (path_idents ts) as [[l [|? ?]]|] eqn:Er; try discriminate.
      destruct (path_idents_inv _ _ _ Er) as [Hl ->]. injection E as <-. exists l. split; [exact Hl|]. right.
      split; [unfold redirect_call; rewrite app_nil_r; reflexivity|]. apply make_ok. exact Hl.
  - intros (names & Hn & [(params & -> & ->)|[-> ->]]).
    + rewrite verb_plain, make_ok by exact Hn. reflexivity.
    + rewrite verb_redirect, make_ok by exact Hn. reflexivity.
Qed.

Lemma margin_ind level : margin level = concat (repeat (lit "  ") level).
Proof. induction level as [|n IH]; [reflexivity|]. cbn [margin repeat concat]. rewrite IH. reflexivity. Qed.
Lemma path_text_eq names : names <> [] ->
  path_text names = concat (map (fun m => m ++ lit "::") (removelast names)) ++ last names [].
Proof.
  induction names as [|n names IH]; [congruence|]. intros _. destruct names as [|n' names]; [reflexivity|].
  change (path_text (n :: n' :: names)) with (n ++ lit "::" ++ path_text (n' :: names)).
  change (removelast (n :: n' :: names)) with (n :: removelast (n' :: names)).
  change (last (n :: n' :: names) []) with (last (n' :: names) (@nil N)).
  rewrite IH by discriminate. cbn [map concat]. rewrite <- !app_assoc. reflexivity.
Qed.
Lemma resource_text_line level m redirect names params : names <> [] ->
  resource_text level m redirect names params =
  resource_line level (mkResource m (removelast names) (last names []) redirect params).
Proof.
  intros H. unfold resource_text, resource_line. cbn [r_method r_is_redirect r_modules r_name r_query].
  rewrite margin_ind, path_text_eq by exact H. rewrite <- !app_assoc. cbn [app].
  assert (E : flat_map (fun p => margin (S level) ++ lit "[" ++ p_name p ++ lit ": " ++ p_typ p ++ lit "]" ++ [c_nl]) params =
              concat (map (query_line (S level)) params)).
  { rewrite flat_map_concat_map. f_equal. apply map_ext. intros p. unfold query_line, param_display. rewrite margin_ind, <- !app_assoc. reflexivity. }
  rewrite E. reflexivity.
Qed.
Lemma ident_removelast ualnum names : names <> [] -> Forall (ident ualnum) names ->
  Forall (ident ualnum) (removelast names) /\ ident ualnum (last names []).
Proof.
  intros H Hf. destruct (exists_last H) as (l & x & ->). rewrite removelast_last, last_last.
  apply Forall_app in Hf. destruct Hf as [Hl Hx]. inversion Hx; subst. auto.
Qed.
Lemma macro_and_line ualnum level m names params : names <> [] -> Forall (ident ualnum) names -> Forall (wf_param ualnum) params ->
  exists r, verb_macro m (plain_call names params) = Some (ROk r) /\
    resource_p ualnum level (resource_text level m false names params) = POk [] r.
Proof.
  intros H Hn Hp. exists (mkResource m (removelast names) (last names []) false params). split.
  - rewrite verb_plain, make_ok by exact H. reflexivity.
  - rewrite resource_text_line by exact H. rewrite <- (app_nil_r (resource_line _ _)). apply resource_ok; [|left; reflexivity].
    destruct (ident_removelast _ _ H Hn) as [H1 H2]. exact (conj H1 (conj H2 Hp)).
Qed.
Lemma macro_and_redirect ualnum level m names : names <> [] -> Forall (ident ualnum) names ->
  exists r, verb_macro m (redirect_call names) = Some (ROk r) /\
    resource_p ualnum level (resource_text level m true names []) = POk [] r.
Proof.
  intros H Hn. exists (mkResource m (removelast names) (last names []) true []). split.
  - rewrite verb_redirect, make_ok by exact H. reflexivity.
  - rewrite resource_text_line by exact H. rewrite <- (app_nil_r (resource_line _ _)). apply resource_ok; [|left; reflexivity].
    destruct (ident_removelast _ _ H Hn) as [H1 H2]. exact (conj H1 (conj H2 (Forall_nil _))).
Qed.
Lemma macro_no_redirect_params m ts r : verb_macro m ts = Some (ROk r) -> r_is_redirect r = true -> r_query r = [].
Proof.
  intros H Hr. apply verb_iff in H. destruct H as (names & _ & [(ps & _ & [= ->])|[_ [= ->]]]); [discriminate Hr|reflexivity].
Qed.
Lemma redirect_query :
  exists text r, resource_p (fun _ => false) 1 text = POk [] r /\
    forall m ts, verb_macro m ts <> Some (ROk r).
Proof.
  exists (lit "  GET -> people::index" ++ [c_nl] ++ lit "    [page: u32]" ++ [c_nl]),
    (mkResource Get [lit "people"] (lit "index") true [mkParam (lit "page") (lit "u32")]).
  split; [vm_compute; reflexivity|]. intros m ts H. apply macro_no_redirect_params in H; [discriminate H|reflexivity].
Qed.

Lemma http_iff h m : http_ok h -> (method_from_http h = Some m <-> http_as_str h = method_display m).
Proof.
  intros Hok. destruct h, m; cbn [method_from_http http_as_str method_display]; split; intros H;
    try reflexivity; try discriminate H; try (exfalso; apply Hok; rewrite H; cbn; tauto).
Qed.
Lemma http_none h : http_ok h -> (method_from_http h = None <-> forall m, http_as_str h <> method_display m).
Proof.
  intros Hok. split.
  - intros H m E. apply (http_iff h m Hok) in E. congruence.
  - intros H. destruct (method_from_http h) as [m|] eqn:E; [|reflexivity]. apply (http_iff h m Hok) in E. exfalso. exact (H m E).
Qed.
Lemma propfind_ok : http_ok (HExtension (lit "PROPFIND")).
Proof.
  intros H. cbv [http_standard] in H. repeat (destruct H as [H|H]; [discriminate H|]). exact H.
Qed.
