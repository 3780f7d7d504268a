(** * DiffFacts: printed differences *)
From Verif Require Import Base BaseFacts Errors Diff SpecDiff.

Lemma patches_shift i j same old ks new :
  patches (i + length same) (j + length same) old ks new -> patches i j (same ++ old) ks (same ++ new).
Proof.
  intros H. inversion H as [|i' j' same' op k ks' old' new' H1 H2 H3 H4 H5 H6 H7]; subst; [constructor|].
  rewrite !(app_assoc same same'). apply patches_chunk; rewrite ?app_length, ?Nat.add_assoc; auto.
Qed.
Lemma chunks_patch ops : forall i j, patches i j (old_lines ops) (to_chunks_from i j ops) (new_lines ops).
Proof.
  induction ops as [|op ops IH]; intros i j; [constructor|]. cbn [old_lines new_lines flat_map].
  fold (old_lines ops) (new_lines ops). destruct op as [a|a|a|a b]; cbn [to_chunks_from kept removed inserted].
  - rewrite !app_nil_r. apply patches_shift. apply IH.
  - rewrite ?app_nil_r, ?app_nil_l. apply (patches_chunk i j [] (DInsert a)); cbn [k_diff k_old_line k_old_count k_new_line k_new_count kept removed inserted length];
      rewrite ?Nat.add_0_r; auto.
  - rewrite ?app_nil_r, ?app_nil_l. apply (patches_chunk i j [] (DRemove a)); cbn [k_diff k_old_line k_old_count k_new_line k_new_count kept removed inserted length];
      rewrite ?Nat.add_0_r; auto.
  - rewrite ?app_nil_r, ?app_nil_l. apply (patches_chunk i j [] (DReplace a b)); cbn [k_diff k_old_line k_old_count k_new_line k_new_count kept removed inserted length];
      rewrite ?Nat.add_0_r; auto.
Qed.
Lemma chunks_patch1 ops : patches 1 1 (old_lines ops) (to_chunks ops) (new_lines ops).
Proof. apply chunks_patch. Qed.
Lemma chunks_ops ops : map k_diff (to_chunks ops) =
  map (fun op => [op]) (filter (fun op => match op with DEqual _ => false | _ => true end) ops).
Proof.
  unfold to_chunks. generalize 1 at 1. generalize 1. induction ops as [|op ops IH]; intros i j; [reflexivity|].
  destruct op; cbn [to_chunks_from filter map k_diff]; rewrite IH; reflexivity.
Qed.
Lemma join_marked mark a : a <> [] -> mark :: join_with (c_nl :: [mark]) a = marked mark a.
Proof.
  unfold marked. induction a as [|x a IH]; [congruence|]. intros _. destruct a as [|y a]; [reflexivity|].
  cbn [map join_with]. cbn [map join_with] in IH. rewrite <- IH by discriminate. reflexivity.
Qed.
Lemma chunk_text old_name new_name k op : k_diff k = [op] -> kept op = [] ->
  (removed op <> [] \/ inserted op <> []) ->
  (forall a b, op = DReplace a b -> a <> [] /\ b <> []) ->
  chunk_display old_name new_name k =
  bold "33" (lit "--- " ++ old_name ++ [c_nl] ++ lit "+++ " ++ new_name ++ [c_nl]
    ++ lit "@@ -" ++ decimal (k_old_line k) ++ lit "," ++ decimal (k_old_count k)
    ++ lit " +" ++ decimal (k_new_line k) ++ lit "," ++ decimal (k_new_count k) ++ lit " @@") ++ [c_nl]
  ++ (match removed op with [] => [] | a => bold "31" (marked 45%N a) ++ [c_nl] end)
  ++ (match inserted op with [] => [] | b => bold "32" (marked 43%N b) ++ [c_nl] end).
Proof.
  intros Hk Hq Hne Hr. unfold chunk_display, chunk_header. rewrite Hk. cbn [map concat]. rewrite app_nil_r. f_equal. f_equal.
  assert (Hrem : forall a, a <> [] -> removal a = bold "31" (marked 45%N a)) by (intros a Ha; unfold removal; rewrite <- join_marked by exact Ha; reflexivity).
  assert (Hins : forall a, a <> [] -> insertion a = bold "32" (marked 43%N a)) by (intros a Ha; unfold insertion; rewrite <- join_marked by exact Ha; reflexivity).
  destruct op as [a|a|a|a b]; cbn [op_display removed inserted] in *.
  - destruct Hne; congruence.
  - destruct Hne as [|Hne]; [congruence|]. rewrite Hins by exact Hne. destruct a; [congruence|reflexivity].
  - destruct Hne as [Hne|]; [|congruence]. rewrite Hrem by exact Hne. destruct a; [congruence|]. rewrite app_nil_r. reflexivity.
  - destruct (Hr _ _ eq_refl) as [Ha Hb]. rewrite Hrem, Hins by assumption. destruct a, b; try congruence. rewrite <- !app_assoc. reflexivity.
Qed.
Lemma assert_iff diff_lines expected actual :
  (snd (test_assert diff_lines expected actual) = true <-> expected = actual) /\
  (fst (test_assert diff_lines expected actual) = [] <-> expected = actual).
Proof.
  unfold test_assert. destruct (str_eqb expected actual) eqn:E.
  - apply str_eqb_eq in E. cbn. tauto.
  - assert (Hn : expected <> actual) by (intros ->; rewrite str_eqb_refl in E; discriminate). cbn [fst snd].
    split; split; intros H; try discriminate; try contradiction. apply app_eq_nil in H. destruct H. discriminate.
Qed.
