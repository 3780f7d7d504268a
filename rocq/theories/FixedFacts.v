(** * FixedFacts: the fixed code of a generated module, its text and what it does *)
From Verif Require Import Base Core Flat MiniRust Gen Items Cli Fixed SpecGen ItemFacts ItemThms CompileFacts.

Lemma fixed_text : exists docs,
  Forall (fun l => exists s, l = lit "    ///" ++ s) docs /\
  w_text (w_lines boilerplate) =
    unlines (flat_map pr_fixed fixed_code ++ docs ++ match_route_head ++ map pr_pstmt prologue ++ [[]]).
Proof.
  exists (map lit (firstn 22 (skipn 54 boilerplate))). split.
  - vm_compute. repeat (apply Forall_cons; [eexists; reflexivity|]). apply Forall_nil.
  - vm_compute. reflexivity.
Qed.

Lemma check_head_free senv :
  (forall x, In x [s_method; s_path; s_len; s_i] -> no_variable senv x = false) ->
  check_head senv [s_path; s_method] prologue = Some prologue_tenv.
Proof.
  intros H. unfold check_head. cbn [forallb]. rewrite !H by (simpl; tauto).
  change (nodup_strs [s_path; s_method]) with true. cbn [negb andb].
  unfold prologue. cbn [check_prologue check_pstmt]. rewrite !H by (simpl; tauto).
  vm_compute. reflexivity.
Qed.
Lemma fixed_free c root x ch t : flattened_modules (c_routes c) = ROk root -> module_ok true root = true ->
  x = ch :: t -> is_lower ch = true -> prelude_ctor x = false -> no_variable (module_structs [] root) x = false.
Proof.
  intros Hr G Hx Hl Hp. apply (no_variable_iff c root Hr G).
  split; [eapply not_unit_lower; eauto|apply ctor_no; exact Hp].
Qed.

Lemma fixed_check c root body : flattened_modules (c_routes c) = ROk root -> gen_program c = ROk body ->
  let items := module_items true (c_headers c) root in
  compiles c = true <->
  items_ok true items = true /\ doc_ok c = true /\
  exists env, check_head (items_env items) [lit "path"; lit "method"] prologue = Some env /\
    check_block (items_env items) env body false = Some true.
Proof.
  intros Hr Hb items. unfold items. rewrite (items_check c root body Hr Hb).
  split; intros (H1 & H2 & H3); (split; [exact H1|]; split; [exact H2|]).
  all: assert (G : module_ok true root = true)
         by (rewrite <- (items_ok_module (c_headers c) root true (root_params _ _ Hr) (or_introl eq_refl)); exact H1).
  all: rewrite (items_env_module _ _ G) in *.
  all: assert (Hh : check_head (module_structs [] root) [lit "path"; lit "method"] prologue = Some prologue_tenv)
         by (apply (check_head_free (module_structs [] root)); intros x Hx; simpl in Hx;
             destruct Hx as [<-|[<-|[<-|[<-|[]]]]]; (eapply fixed_free; [exact Hr|exact G|reflexivity..])).
  - exists prologue_tenv. auto.
  - destruct H3 as (env & E & H3). rewrite Hh in E. injection E as <-. exact H3.
Qed.

Section Run.
Context {T E : Type}.
Variable rt : runtime T E.

Lemma run_prologue path method :
  exec_prologue rt [(lit "path", path); (lit "method", method)] [] prologue = ONext (prologue_env path method).
Proof.
  unfold prologue. cbn [exec_prologue exec_pstmt].
  destruct path as [|b path]; [reflexivity|].
  unfold prologue_env. cbn. destruct (N.eqb b c_slash) eqn:Eb.
  - apply N.eqb_eq in Eb. subst b. reflexivity.
  - change 47%N with c_slash. rewrite Eb. reflexivity.
Qed.
Lemma fixed_runs c root body path method : compiles c = true ->
  flattened_modules (c_routes c) = ROk root -> gen_program c = ROk body ->
  exists en,
    exec_prologue rt [(lit "path", path); (lit "method", method)] [] prologue = ONext en /\
    match_route rt c path method =
      match exec_block rt (items_env (module_items true (c_headers c) root)) (S (length path)) en body with
      | ORet m => Some (RunResult m)
      | OPanic => Some RunPanic
      | _ => None
      end.
Proof.
  intros Hc Hr Hb. exists (prologue_env path method). split; [apply run_prologue|].
  unfold match_route. rewrite Hr, Hb, Hc. unfold run_program.
  rewrite (items_env_module (c_headers c) root); [reflexivity|].
  unfold compiles in Hc. rewrite Hr, Hb, !andb_true_iff in Hc. tauto.
Qed.
Lemma prologue_start path method : exists en : env T,
  exec_prologue rt [(lit "path", path); (lit "method", method)] [] prologue = ONext en /\
  lookup (lit "path") en = Some (false, VBytes path) /\
  lookup (lit "method") en = Some (false, VBytes method) /\
  lookup (lit "len") en = Some (false, VUsize (length path)) /\
  exists i, lookup (lit "i") en = Some (true, VUsize i) /\
    ((exists rest, path = c_slash :: rest) -> i = 1) /\ (~ (exists rest, path = c_slash :: rest) -> i = 0).
Proof.
  exists (prologue_env path method). split; [apply run_prologue|].
  split; [reflexivity|]. split; [reflexivity|]. split; [reflexivity|].
  eexists. split; [reflexivity|]. destruct path as [|b path].
  - split; [intros [? ?]; discriminate|reflexivity].
  - destruct (N.eqb_spec b c_slash) as [->|Hn].
    + split; [reflexivity|]. intros H. exfalso. eauto.
    + split; [|reflexivity]. intros [r Hr]. injection Hr as Hr. contradiction.
Qed.

Variable debug : str -> T -> bytes.
Variable debug_error : E -> bytes.
Variable of_usize : nat -> T.
Lemma match_debug s :
  enum_debug fixed_code (lit "Match") (lit "NotFound") None = Some (lit "Match::NotFound") /\
  enum_debug fixed_code (lit "Match") (lit "NotAllowed") None = Some (lit "Match::NotAllowed") /\
  enum_debug fixed_code (lit "Match") (lit "Route") (Some s) = Some (lit "Match::Route(" ++ s ++ lit ")") /\
  enum_debug fixed_code (lit "Match") (lit "Redirect") (Some s) = Some (lit "Match::Redirect(" ++ s ++ lit ")").
Proof. repeat split. Qed.
Lemma fail_value x e : exists v,
  make fixed_code (lit "Error") (lit "fail") [lit "param"; lit "what"] x debug_error e = Some v /\
  struct_debug fixed_code (lit "Error") v = Some (error_debug debug_error x e) /\
  struct_display fixed_code (lit "Error") v = Some (error_display debug_error x e).
Proof.
  eexists. split; [reflexivity|]. split.
  - unfold error_debug.
    transitivity (Some (lit "wayfinder::Error { "
                        ++ ((lit "param: " ++ debug_string x) ++ lit ", " ++ (lit "what: " ++ debug_error e)) ++ lit " }"));
      [reflexivity|]. rewrite <- !app_assoc. reflexivity.
  - transitivity (Some (lit "Error parsing '" ++ (utf8 x ++ lit "' parameter " ++ (debug_error e ++ []))));
      [reflexivity|]. rewrite app_nil_r. reflexivity.
Qed.
End Run.

(** Apart from the fixed code, the fixed text is the line that opens the module,
    documentation, attributes and blank lines. *)
Lemma preamble_lines l : In l (preamble1 ++ preamble2) ->
  lit l = lit "pub mod routes {" \/ lit l = [] \/ (exists s, lit l = lit "    //!" ++ s) \/
  (exists s, lit l = lit "    #![allow(" ++ s ++ lit ")]").
Proof.
  intros H. cbn [preamble1 preamble2 app In] in H.
  repeat (destruct H as [<-|H]).
  all: try contradiction.
  all: first [left; reflexivity | right; left; reflexivity | right; right; left; eexists; reflexivity | idtac].
  all: right; right; right.
  - exists (lit "dead_code"). reflexivity.
  - exists (lit "unused_imports"). reflexivity.
  - exists (lit "unused_mut"). reflexivity.
  - exists (lit "unused_variables"). reflexivity.
Qed.
