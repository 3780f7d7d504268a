(** * Property C61: the differences that the test suite prints *)
From Verif Require Import Base Errors Diff SpecDiff DiffFacts.

(** The chunks, at the lines and with the counts in their headers, turn the old
    lines into the new ones. *)
Theorem C61_patch ops : patches 1 1 (old_lines ops) (to_chunks ops) (new_lines ops).
Proof. exact (chunks_patch1 ops). Qed.
Print Assumptions C61_patch.
(** One chunk per change, in order. *)
Theorem C61_chunks ops :
  map k_diff (to_chunks ops) =
  map (fun op => [op]) (filter (fun op => match op with DEqual _ => false | _ => true end) ops).
Proof. exact (chunks_ops ops). Qed.
Print Assumptions C61_chunks.
(** The text of a chunk. *)
Theorem C61_text old_name new_name k op :
  k_diff k = [op] -> kept op = [] -> (removed op <> [] \/ inserted op <> []) ->
  (forall a b, op = DReplace a b -> a <> [] /\ b <> []) ->
  chunk_display old_name new_name k =
  in_bold "33" (lit "--- " ++ old_name ++ [c_nl] ++ lit "+++ " ++ new_name ++ [c_nl]
    ++ lit "@@ -" ++ decimal (k_old_line k) ++ lit "," ++ decimal (k_old_count k)
    ++ lit " +" ++ decimal (k_new_line k) ++ lit "," ++ decimal (k_new_count k) ++ lit " @@") ++ [c_nl]
  ++ (match removed op with [] => [] | a => in_bold "31" (marked 45%N a) ++ [c_nl] end)
  ++ (match inserted op with [] => [] | b => in_bold "32" (marked 43%N b) ++ [c_nl] end).
Proof. exact (chunk_text old_name new_name k op). Qed.
Print Assumptions C61_text.
(** The assertion passes, and nothing is printed, exactly when the texts are equal. *)
Theorem C61_assert diff_lines expected actual :
  (snd (test_assert diff_lines expected actual) = true <-> expected = actual) /\
  (fst (test_assert diff_lines expected actual) = [] <-> expected = actual).
Proof. exact (assert_iff diff_lines expected actual). Qed.
Print Assumptions C61_assert.
Definition sample_ops : list diff_op :=
  [ DEqual [lit "a"; lit "b"]; DInsert [lit "x"]; DEqual [lit "c"]; DReplace [lit "d"; lit "e"] [lit "y"];
    DRemove [lit "f"]; DEqual [lit "g"]; DRemove [lit "h"; lit "i"] ].
Example C61_example :
  concat (old_lines sample_ops) = lit "abcdefghi" /\ concat (new_lines sample_ops) = lit "abxcyg" /\
  map (fun k => (k_old_line k, k_old_count k, (k_new_line k, k_new_count k))) (to_chunks sample_ops) =
    [ (3, 0, (3, 1)); (4, 2, (5, 1)); (6, 1, (6, 0)); (8, 2, (7, 0)) ] /\
  chunk_display (lit "o") (lit "n") (mkChunk 4 2 5 1 [DReplace [lit "d"; lit "e"] [lit "y"]]) =
    in_bold "33" (lit "--- o" ++ [c_nl] ++ lit "+++ n" ++ [c_nl] ++ lit "@@ -4,2 +5,1 @@") ++ [c_nl]
    ++ in_bold "31" (lit "-d" ++ [c_nl] ++ lit "-e") ++ [c_nl] ++ in_bold "32" (lit "+y") ++ [c_nl] /\
  test_assert (fun _ _ => sample_ops) (lit "x") (lit "x") = ([], true).
Proof. vm_compute. repeat split. Qed.
