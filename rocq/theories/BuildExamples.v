(** * BuildExamples: a file system for the examples of the builder *)
From Verif Require Import Base Core Nom Parse Flat MiniRust Gen Spec SpecGen GenThms Examples Errors ParseErr Build SpecBuild SpecGrammar GrammarFacts BuildFacts.

Definition routes_text : list string := ["/"; "  people"; "    GET people::index"; "    {id: u32}"; "      GET people::show"]%string.
Definition all_writer : Writer := mkWriter unit tt (fun _ _ => inl tt).
Definition ex_world : world := {|
  wo_var := fun v => if str_eqb v (lit "OUT_DIR") then Value (lit "/out") else Value (lit "/src");
  wo_read := fun p => if str_eqb p (lit "/src/app.routes") then inl (file routes_text)
                      else if str_eqb p (lit "/src/twice.routes") then inl (file ["/"; "  a"; "    GET show"; "  b"; "    GET show"]%string)
                      else if str_eqb p (lit "/src/bad.routes") then inl (file ["/"; "  people"; "GET"]%string)
                      else inr (lit "No such file or directory (os error 2)");
  wo_create := fun p => if is_prefix (lit "/out/") p then None else Some (lit "Permission denied (os error 13)");
  wo_writer := fun _ => all_writer;
  wo_error := fun _ => lit "disk full";
  wo_keep := false;
  wo_code := N.of_nat;
  wo_errors := map site_message (seq 0 site_count);
  wo_debug_kind := fun e => match e with Builtin k => k | Custom _ => lit "Custom" end;
  wo_debug_context := fun _ => [];
  wo_alnum := fun _ => false
|}.
Definition ex_builder (input output : string) : Builder :=
  output_file (lit output) (input_file (lit input) (mkBuilder true (Some (lit "/src")) None (Some (lit "/out")) None)).
Lemma truncated_output : exists wo b c p,
  input_ok wo b c /\ status (snd (build wo b)) = Some 101 /\
  exists es, fst (build wo b) = es ++ [Create p; Write (ToFile p) []].
Proof.
  exists ex_world, (ex_builder "twice.routes" "routes.rs"), (read ["/"; "  a"; "    GET show"; "  b"; "    GET show"]%string), (lit "/out/routes.rs").
  split; [|split; [vm_compute; reflexivity|]].
  - right. exists (lit "twice.routes"), (lit "/src/twice.routes"). eexists. split; [reflexivity|]. split; [apply placed_iff; vm_compute; reflexivity|].
    split; [vm_compute; reflexivity|]. apply parse_exact. vm_compute. reflexivity.
  - exists [Stdout (lit "cargo:rerun-if-changed=/src/twice.routes" ++ nl); Read (lit "/src/twice.routes")]. vm_compute. reflexivity.
Qed.
