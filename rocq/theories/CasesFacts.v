(** * CasesFacts: the test cases of wayfinder-tests *)
From Verif Require Import Base Core Nom Parse MiniRust Gen Errors NomErr ParseErr Build Diff Cases
  SpecGen SpecGrammar SpecBuild SpecCases BaseFacts ParseFacts GrammarFacts ReportFacts GenThms BuildFacts CompFacts DiffFacts.

Lemma joined_join d f p : joined d f p <-> p = path_join d f.
Proof. exact (placed_iff (Some d) f p). Qed.

(** ** The text *)
Lemma between_app a b x : between a b (a ++ x ++ b) = Some x.
Proof.
  unfold between. rewrite !app_length.
  replace (length a + (length x + length b) - length a - length b) with (length x) by lia.
  rewrite skipn_app, skipn_all, Nat.sub_diag. cbn [app skipn]. rewrite firstn_app, firstn_all, Nat.sub_diag. cbn [firstn].
  rewrite app_nil_r, str_eqb_refl. reflexivity.
Qed.

Definition case_test (dir name : str) : str * (str * str) :=
  (lit "test_" ++ name, (path_join (path_join dir name) (lit "routes.routes"), path_join (path_join dir name) (lit "routes.rs"))).
Definition body_lines : list str := map lit
  [ "        let mut dest = vec![];";
    "        match wayfinder::parse::route_config(&routes) {";
    "            Ok(config) => wayfinder::gen::codegen(&mut dest, &config.1).unwrap(),";
    "            result => {";
    "                wayfinder::parse::errors::show_errors(&mut std::io::stderr(), &routes, result, """");";
    "                assert!(false);";
    "            }";
    "        }";
    "        let actual = String::from_utf8(dest).expect(""result as utf8"");";
    "        diff::TestResult::new(rs, &actual).assert();";
    "    }" ]%string.
Definition head_lines : list str := map lit [ "#[cfg(test)]"; "mod test_cases {"; "    use super::diff;" ]%string.
Definition case_lines (t : str * (str * str)) : list str :=
  (lit "    #[test]")
  :: (lit "    fn " ++ fst t ++ lit "() {")
  :: (lit "        let routes = include_str!(""" ++ fst (snd t) ++ lit """);")
  :: (lit "        let rs = include_str!(""" ++ snd (snd t) ++ lit """);")
  :: body_lines.
Definition file_lines (ts : list (str * (str * str))) : list str := head_lines ++ flat_map case_lines ts ++ [lit "}"].

Lemma wl_lines l : w_all (map wl l) = (map (fun s => s ++ [c_nl]) l, ROk tt).
Proof. induction l as [|s l IH]; [reflexivity|]. cbn [map w_all]. rewrite IH. reflexivity. Qed.
Lemma w_lines_lines l : w_lines l = (map (fun s => s ++ [c_nl]) (map lit l), ROk tt).
Proof. rewrite <- wl_lines. unfold w_lines. rewrite map_map. reflexivity. Qed.
Lemma seq_ok_ok l m r : (l, ROk tt) >> (m, r) = (l ++ m, r).
Proof. reflexivity. Qed.
Lemma write_case_lines dir name :
  write_case dir (Some name) = (map (fun s => s ++ [c_nl]) (case_lines (case_test dir name)), ROk tt).
Proof.
  unfold write_case. cbv zeta. rewrite w_lines_lines. unfold wl. rewrite !seq_ok_ok. reflexivity.
Qed.
Lemma write_cases_lines dir names :
  write_cases dir (map Some names) = (map (fun s => s ++ [c_nl]) (file_lines (map (case_test dir) names)), ROk tt).
Proof.
  unfold write_cases, file_lines. rewrite w_lines_lines.
  assert (H : w_all (map (write_case dir) (map Some names)) =
              (map (fun s => s ++ [c_nl]) (flat_map case_lines (map (case_test dir) names)), ROk tt)).
  { induction names as [|n names IH]; [reflexivity|]. cbn [map w_all flat_map]. rewrite IH, write_case_lines, seq_ok_ok, map_app.
    reflexivity. }
  rewrite H. unfold wl. rewrite !seq_ok_ok. rewrite !map_app. reflexivity.
Qed.
(** An entry whose name is not Unicode. *)
Lemma write_cases_panics dir es : ~ (exists names, es = map Some names) -> snd (write_cases dir es) = RPanic PanicUnwrapNone.
Proof.
  intros H. unfold write_cases. rewrite w_lines_lines.
  assert (Hs : snd (w_all (map (write_case dir) es)) = RPanic PanicUnwrapNone).
  { induction es as [|[n|] es IH]; [exfalso; apply H; exists []; reflexivity| |reflexivity].
    cbn [map w_all]. rewrite write_case_lines. destruct (w_all (map (write_case dir) es)) as [l r]. cbn [snd] in IH.
    rewrite seq_ok_ok. apply IH. intros [names ->]. apply H. exists (n :: names). reflexivity. }
  destruct (w_all (map (write_case dir) es)) as [l r]. cbn [snd] in Hs. subst r. reflexivity.
Qed.

Lemma tests_skip l ls : str_eqb l (lit "    #[test]") = false -> tests_in (l :: ls) = tests_in ls.
Proof. intros H. cbn [tests_in]. rewrite H. reflexivity. Qed.
Lemma tests_case t ls : tests_in (case_lines t ++ ls) = t :: tests_in ls.
Proof.
  destruct t as [n [p q]]. unfold case_lines. cbn [fst snd app]. 
  set (F := lit "    fn " ++ n ++ lit "() {"). set (P := lit "        let routes = include_str!(""" ++ p ++ lit """);").
  set (Q := lit "        let rs = include_str!(""" ++ q ++ lit """);").
  assert (E : forall l, tests_in (lit "    #[test]" :: F :: P :: Q :: l) = (n, (p, q)) :: tests_in (F :: P :: Q :: l)).
  { intros l. cbn [tests_in]. rewrite str_eqb_refl. unfold F at 1, P at 1, Q at 1. rewrite !between_app. reflexivity. }
  rewrite E. f_equal.
Qed.
Lemma tests_file ts : tests_in (file_lines ts) = ts.
Proof.
  unfold file_lines. change (head_lines ++ flat_map case_lines ts ++ [lit "}"]) with
    (lit "#[cfg(test)]" :: lit "mod test_cases {" :: lit "    use super::diff;" :: (flat_map case_lines ts ++ [lit "}"])).
  rewrite !tests_skip by reflexivity. induction ts as [|t ts IH]; [reflexivity|]. cbn [flat_map]. rewrite <- app_assoc, tests_case, IH.
  reflexivity.
Qed.

Lemma no_break_lit s : forallb (fun c => negb (N.eqb c c_nl)) (lit s) = true -> ~ In c_nl (lit s).
Proof. intros H Hin. apply (proj1 (forallb_forall _ _) H) in Hin. rewrite N.eqb_refl in Hin. discriminate. Qed.
Lemma no_break_app a b : ~ In c_nl a -> ~ In c_nl b -> ~ In c_nl (a ++ b).
Proof. intros Ha Hb H. apply in_app_or in H. tauto. Qed.
Lemma no_break_join d f : ~ In c_nl d -> ~ In c_nl f -> ~ In c_nl (path_join d f).
Proof.
  intros Hd Hf. unfold path_join. destruct (is_absolute f); [exact Hf|]. destruct (ends_with_slash d); [exact (no_break_app _ _ Hd Hf)|].
  apply no_break_app; [exact Hd|]. apply no_break_app; [|exact Hf]. apply no_break_lit. reflexivity.
Qed.
Lemma file_no_breaks dir names : ~ In c_nl dir -> Forall (fun n => ~ In c_nl n) names ->
  Forall (fun l => ~ In c_nl l) (file_lines (map (case_test dir) names)).
Proof.
  intros Hd Hn. unfold file_lines. apply Forall_app. split; [|apply Forall_app; split].
  - unfold head_lines. repeat (constructor; [apply no_break_lit; reflexivity|]). constructor.
  - induction Hn as [|n names Hn _ IH]; [constructor|]. cbn [map flat_map]. apply Forall_app. split; [|exact IH].
    unfold case_lines, case_test. cbn [fst snd]. constructor; [apply no_break_lit; reflexivity|].
    constructor; [repeat apply no_break_app; try (apply no_break_lit; reflexivity); exact Hn|].
    constructor; [|constructor].
    + apply no_break_app; [apply no_break_lit; reflexivity|]. apply no_break_app; [|apply no_break_lit; reflexivity].
      apply no_break_join; [apply no_break_join; assumption|apply no_break_lit; reflexivity].
    + apply no_break_app; [apply no_break_lit; reflexivity|]. apply no_break_app; [|apply no_break_lit; reflexivity].
      apply no_break_join; [apply no_break_join; assumption|apply no_break_lit; reflexivity].
    + unfold body_lines. repeat (constructor; [apply no_break_lit; reflexivity|]). constructor.
  - constructor; [apply no_break_lit; reflexivity|constructor].
Qed.
Lemma cases_tests dir names : ~ In c_nl dir -> Forall (fun n => ~ In c_nl n) names ->
  snd (write_cases dir (map Some names)) = ROk tt /\
  exists tests, tests_in (lines_of (w_text (write_cases dir (map Some names)))) = tests /\
    Forall2 (test_for dir) names tests.
Proof.
  intros Hd Hn. rewrite write_cases_lines. split; [reflexivity|]. exists (map (case_test dir) names).
  split.
  - unfold w_text. cbn [fst]. fold (unlines (file_lines (map (case_test dir) names))).
    rewrite lines_of_unlines by (apply file_no_breaks; assumption). apply tests_file.
  - clear. induction names as [|n names IH]; [constructor|]. cbn [map]. constructor; [|exact IH].
    cbn [case_test fst snd]. split; [reflexivity|].
    split; exists (path_join dir n); split; apply joined_join; reflexivity.
Qed.

(** ** The build script *)
Lemma collect_some l es : collect_entries l = Some es <-> l = map Some es.
Proof.
  revert es. induction l as [|[e|] l IH]; intros es; cbn [collect_entries].
  - destruct es; split; intros H; try discriminate; reflexivity.
  - destruct es as [|e' es]; cbn [map].
    + destruct (collect_entries l); split; discriminate.
    + split.
      * destruct (collect_entries l) as [x|]; [|discriminate]. cbn [option_map]. intros [= -> ->]. f_equal. apply IH. reflexivity.
      * intros [= -> H]. apply IH in H. rewrite H. reflexivity.
  - split; [discriminate|]. destruct es; discriminate.
Qed.

Lemma cases_main_spec wo read_dir :
  (exists dir p names, cases_ready wo read_dir dir p names /\
     cases_main wo read_dir = ([Create p; Write (ToFile p) (w_text (write_cases dir (map Some names)))], Finished tt)) \/
  ((forall dir p names, ~ cases_ready wo read_dir dir p names) /\
   exists es q, cases_main wo read_dir = (es, Panicked q)).
Proof.
  unfold cases_main, var_unwrap.
  destruct (wo_var wo (lit "CARGO_MANIFEST_DIR")) as [root| |] eqn:Er;
    [|right; split; [intros dir p names (r & o & H & _); congruence|cbn; eauto]..].
  cbn [bind ret app].
  destruct (wo_var wo (lit "OUT_DIR")) as [out| |] eqn:Eo;
    [|right; split; [intros dir p names (r & o & _ & _ & H & _); congruence|cbn; eauto]..].
  cbn [bind ret app].
  set (dir := path_join root (lit "cases")). set (p := path_join out (lit "cases.rs")).
  assert (Hu : forall dir' p' names, cases_ready wo read_dir dir' p' names -> dir' = dir /\ p' = p).
  { intros dir' p' names (r & o & H1 & H2 & H3 & H4 & _). apply joined_join in H2, H4.
    assert (r = root) by congruence. assert (o = out) by congruence. subst. auto. }
  destruct (wo_create wo p) as [e|] eqn:Ec.
  { right. split; [|eauto]. intros dir' p' names H. destruct (Hu _ _ _ H) as [-> ->]. destruct H as (? & ? & _ & _ & _ & _ & H & _). congruence. }
  cbn [bind emit].
  destruct (read_dir dir) as [l|] eqn:Ed.
  2:{ right. split; [|cbn; eauto]. intros dir' p' names H. destruct (Hu _ _ _ H) as [-> ->]. destruct H as (? & ? & _ & _ & _ & _ & _ & H & _). congruence. }
  destruct (collect_entries l) as [es|] eqn:El.
  2:{ right. split; [|cbn; eauto]. intros dir' p' names H. destruct (Hu _ _ _ H) as [-> ->]. destruct H as (? & ? & _ & _ & _ & _ & _ & H & _).
      rewrite H in Ed. injection Ed as <-. 
      assert (E : collect_entries (map (fun n => Some (Some n)) names) = Some (map Some names))
        by (apply collect_some; rewrite map_map; reflexivity).
      congruence. }
  apply collect_some in El. subst l.
  assert (Hes : (exists names, es = map Some names) \/ ~ exists names, es = map Some names).
  { clear. induction es as [|[n|] es [[names ->]|IH]]; [left; exists []; reflexivity|left; exists (n :: names); reflexivity| |right|right].
    - right. intros [[|? names] H]; [discriminate|]. injection H as _ ->. apply IH. exists names. reflexivity.
    - intros [[|? ?] H]; discriminate.
    - intros [[|? ?] H]; discriminate. }
  destruct Hes as [[names ->]|Hes].
  - destruct (run_on_spec (wo_writer wo (ToFile p)) (write_cases dir (map Some names))) as [E|(t & E & _)].
    + assert (Hok : snd (write_cases dir (map Some names)) = ROk tt) by (rewrite write_cases_lines; reflexivity).
      left. exists dir, p, names. split.
      * exists root, out. rewrite map_map in Ed. repeat split; try assumption; try (apply joined_join; reflexivity).
        rewrite E, Hok. reflexivity.
      * rewrite E, Hok. reflexivity.
    + right. split; [|rewrite E; cbn; eauto].
      intros dir' p' names' H. destruct (Hu _ _ _ H) as [-> ->]. destruct H as (? & ? & _ & _ & _ & _ & _ & H & Hw).
      rewrite H in Ed. injection Ed as Ed. rewrite map_map in Ed.
      assert (names' = names). { clear - Ed. revert names Ed. induction names' as [|n l IH]; intros [|m k] H; try discriminate; [reflexivity|].
        injection H as -> H. f_equal. auto. }
      subst names'. rewrite E in Hw. discriminate.
  - right. split.
    + intros dir' p' names H. destruct (Hu _ _ _ H) as [-> ->]. destruct H as (? & ? & _ & _ & _ & _ & _ & H & _).
      rewrite H in Ed. injection Ed as Ed. apply Hes. exists names. clear - Ed. revert names Ed.
      induction es as [|e es IH]; intros [|n names] H; try discriminate; [reflexivity|]. injection H as <- H. cbn [map]. f_equal. auto.
    + destruct (run_on_spec (wo_writer wo (ToFile p)) (write_cases dir es)) as [E|(t & E & _)]; rewrite E.
      * rewrite (write_cases_panics dir es Hes). cbn. eauto.
      * cbn. eauto.
Qed.

(** ** One test *)
Lemma run_case_spec wo diff_lines routes rs :
  (case_holds (wo_alnum wo) routes rs /\ run_case wo diff_lines routes rs = ([], Finished tt)) \/
  (exists c, config_text (wo_alnum wo) c routes /\ generates c /\ w_text (codegen c) <> rs /\
     run_case wo diff_lines routes rs =
       ([Stderr (diff_display (lit "expected") (lit "actual") (diff_lines rs (w_text (codegen c))) ++ [c_nl])], Panicked PanicAssert)) \/
  (exists c p, config_text (wo_alnum wo) c routes /\ ~ generates c /\ run_case wo diff_lines routes rs = ([], Panicked p)) \/
  ((~ exists c, config_text (wo_alnum wo) c routes) /\
   exists rep p, rep <> [] /\ wo_diagnosis wo routes = Some rep /\ run_case wo diff_lines routes rs = ([Stderr rep], Panicked p)).
Proof.
  unfold run_case. destruct (route_config_p (wo_alnum wo) routes) as [rest c| | |] eqn:Ep.
  - assert (rest = []) by exact (proj1 (parse_reads _ _ _ _ Ep)). subst rest.
    pose proof Ep as Hc. apply parse_exact in Hc.
    destruct (codegen_status c) as [[Hg Hs]|[Hg [p Hs]]].
    + unfold test_assert. destruct (codegen c) as [l r] eqn:Ec. cbn [snd] in Hs. subst r.
      destruct (str_eqb_spec rs (concat l)) as [->|Hn].
      * left. split; [|reflexivity]. exists c. rewrite Ec. auto.
      * right. left. exists c. rewrite Ec. unfold w_text. cbn [fst].
        split; [exact Hc|]. split; [exact Hg|]. split; [congruence|reflexivity].
    + right. right. left. exists c. destruct (codegen c) as [l r]. cbn [snd] in Hs. subst r. eauto.
  - right. right. right. split; [apply parse_rejects; auto|].
    destruct (diagnosis_some (wo_alnum wo) (wo_keep wo) (wo_code wo) (wo_debug_kind wo) (wo_debug_context wo) (wo_errors wo) routes []) as (rep & Hd & Hn).
    assert (Hr : rep <> []). { intros E. apply Hn in E. revert E. apply parse_rejects. auto. }
    change (wo_diagnosis wo routes = Some rep) in Hd. rewrite Hd. eexists rep, _. repeat split; auto.
  - right. right. right. split; [apply parse_rejects; auto|].
    destruct (diagnosis_some (wo_alnum wo) (wo_keep wo) (wo_code wo) (wo_debug_kind wo) (wo_debug_context wo) (wo_errors wo) routes []) as (rep & Hd & Hn).
    assert (Hr : rep <> []). { intros E. apply Hn in E. revert E. apply parse_rejects. auto. }
    change (wo_diagnosis wo routes = Some rep) in Hd. rewrite Hd. eexists rep, _. repeat split; auto.
  - exfalso. exact (parse_total _ _ Ep).
Qed.

(** ** Compiling the tests *)
Lemma ident_word c : ident_char c = true <-> word_char c.
Proof.
  unfold ident_char, ident_start, is_upper, is_lower, is_digit, word_char, c_under. rewrite !orb_true_iff, !andb_true_iff, !N.leb_le, N.eqb_eq.
  tauto.
Qed.
Lemma no_keyword name : existsb (fun k => str_eqb (lit k) (lit "test_" ++ name)) keywords = false.
Proof. reflexivity. Qed.
Lemma test_ident name : is_ident (lit "test_" ++ name) = true <-> Forall word_char name.
Proof.
  unfold is_ident. pose proof (no_keyword name) as Hk. 
  change (lit "test_" ++ name) with (116%N :: (lit "est_" ++ name)) in *. rewrite Hk, forallb_app.
  change (forallb ident_char (lit "est_")) with true. change (ident_start 116) with true.
  replace (str_eqb (116%N :: lit "est_" ++ name) (lit "_")) with false by reflexivity.
  cbn [negb andb]. rewrite !andb_true_r, forallb_forall, Forall_forall. setoid_rewrite ident_word. reflexivity.
Qed.

Lemma include_iff wo p text : include_str wo p = Some text <-> included wo p text.
Proof.
  unfold include_str, included. destruct (forallb literal_char p) eqn:E.
  - assert (H : forall c, In c p -> c <> 34%N /\ c <> 92%N /\ c <> 13%N).
    { intros c Hc. apply (proj1 (forallb_forall _ _) E) in Hc. unfold literal_char in Hc.
      rewrite negb_true_iff, !orb_false_iff, !N.eqb_neq in Hc. unfold c_quote, c_cr in Hc. tauto. }
    destruct (wo_read wo p); split; [intros [= ->]; auto|intros [_ [= ->]]; reflexivity|discriminate|intros [_ [=]]].
  - split; [discriminate|]. intros [H _]. assert (forallb literal_char p = true); [|congruence].
    apply forallb_forall. intros c Hc. apply H in Hc. unfold literal_char.
    rewrite negb_true_iff, !orb_false_iff, !N.eqb_neq. unfold c_quote, c_cr. tauto.
Qed.
Lemma include_all_iff wo tests l : include_all wo tests = Some l <->
  Forall2 (fun t u => fst u = fst t /\ included wo (fst (snd t)) (fst (snd u)) /\ included wo (snd (snd t)) (snd (snd u))) tests l.
Proof.
  revert l. induction tests as [|[n [p q]] tests IH]; intros l; cbn [include_all].
  - split; [intros [= <-]; constructor|]. intros H. inversion H. reflexivity.
  - split.
    + destruct (include_str wo p) as [x|] eqn:Ep; [|discriminate]. destruct (include_str wo q) as [y|] eqn:Eq; [|discriminate].
      destruct (include_all wo tests) as [k|]; [|discriminate]. intros [= <-]. constructor; [|apply IH; reflexivity].
      cbn [fst snd]. rewrite <- !include_iff. auto.
    + intros H. inversion H as [|t u ts us (H1 & H2 & H3) H4]; subst. destruct u as [n' [x y]]. cbn [fst snd] in *. subst n'.
      apply include_iff in H2, H3. rewrite H2, H3, (proj2 (IH us) H4). reflexivity.
Qed.
Lemma tests_compile wo dir names tests l : Forall2 (test_for dir) names tests ->
  (compile_tests wo tests = Some l <->
   NoDup names /\ Forall (Forall word_char) names /\
   Forall2 (fun t u => fst u = fst t /\ included wo (fst (snd t)) (fst (snd u)) /\ included wo (snd (snd t)) (snd (snd u))) tests l).
Proof.
  intros H. unfold compile_tests.
  assert (Hn : map fst tests = map (app (lit "test_")) names).
  { induction H as [|n t names tests (H1 & _) _ IH]; [reflexivity|]. cbn [map]. rewrite H1, IH. reflexivity. }
  rewrite Hn.
  assert (H1 : forallb is_ident (map (app (lit "test_")) names) = true <-> Forall (Forall word_char) names).
  { rewrite forallb_forall, Forall_forall. split.
    - intros Hi n Hin. apply test_ident, Hi, in_map, Hin.
    - intros Hi x Hx. apply in_map_iff in Hx. destruct Hx as (n & <- & Hx). apply test_ident, Hi, Hx. }
  assert (H2 : nodup_strs (map (app (lit "test_")) names) = true <-> NoDup names).
  { rewrite nodup_strs_NoDup. split; [apply NoDup_map_inv|]. intros Hd. apply FinFun.Injective_map_NoDup; [|exact Hd].
    intros a b E. exact (app_inv_head _ _ _ E). }
  rewrite <- include_all_iff, <- H1, <- H2.
  destruct (forallb is_ident (map (app (lit "test_")) names)), (nodup_strs (map (app (lit "test_")) names)); cbn [andb];
    intuition congruence.
Qed.

Lemma run_case_passes wo diff_lines routes rs :
  run_case wo diff_lines routes rs = ([], Finished tt) <-> case_holds (wo_alnum wo) routes rs.
Proof.
  destruct (run_case_spec wo diff_lines routes rs) as [[H ->]|[(c & Hc & Hg & Hn & ->)|[(c & p & Hc & Hg & ->)|(Hc & rep & p & _ & _ & ->)]]];
    split; try discriminate; auto.
  - intros (c' & Hc' & _ & Ht). rewrite (text_unique _ _ _ _ Hc' Hc) in Ht. congruence.
  - intros (c' & Hc' & Hg' & _). rewrite (text_unique _ _ _ _ Hc' Hc) in Hg'. contradiction.
  - intros (c' & Hc' & _). exfalso. eauto.
Qed.
(** ** The same with the command line tool *)
Lemma run_case_cmd wo diff_lines name path routes rs :
  (forall st s, exists st', wr_write (wo_writer wo ToStdout) st s = inl st') -> wo_read wo path = inl routes ->
  (snd (run_case wo diff_lines routes rs) = Finished tt <->
   cmd_main wo [name; path] = ([Read path; Write ToStdout rs], Finished tt)).
Proof.
  intros Hw Hr. transitivity (case_holds (wo_alnum wo) routes rs).
  - rewrite <- run_case_passes with (diff_lines := diff_lines). split; [|intros ->; reflexivity].
    destruct (run_case_spec wo diff_lines routes rs) as [[_ ->]|[(c & _ & _ & _ & ->)|[(c & p & _ & _ & ->)|(_ & rep & p & _ & _ & ->)]]];
      cbn [snd]; congruence.
  - split.
    + intros (c & Hc & Hg & <-). apply (cmd_ok wo name path [] routes Hr c Hc); [|exact Hw].
      destruct (codegen_status c) as [[_ H]|[H _]]; [exact H|contradiction].
    + intros H. assert (Hf : snd (cmd_main wo [name; path]) = Finished tt) by (rewrite H; reflexivity).
      apply cmd_finished in Hf. destruct Hf as (text & c & Ht & Hc & Hrun). rewrite Hr in Ht. injection Ht as <-.
      assert (Hs : snd (codegen c) = ROk tt). { rewrite run_on_total in Hrun by exact Hw. injection Hrun as ->. reflexivity. }
      rewrite (cmd_ok wo name path [] routes Hr c Hc Hs Hw) in H. injection H as H. exists c.
      split; [exact Hc|]. split; [|exact H]. destruct (codegen_status c) as [[Hg _]|[_ [p Hp]]]; [exact Hg|congruence].
Qed.
