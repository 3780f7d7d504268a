(** * Properties C20-C23 and C54: code generation *)
From Verif Require Import Base Core Flat MiniRust Gen Spec SpecGen GenThms DupThms Examples.

(** C20. *)
Theorem C20_codegen c :
  (generates c /\ snd (codegen c) = ROk tt) \/ (~ generates c /\ exists p, snd (codegen c) = RPanic p).
Proof. exact (codegen_status c). Qed.
Print Assumptions C20_codegen.
(** Which panic. *)
Theorem C20_panics c :
  (~ NoDup (struct_names (c_routes c)) ->
   snd (codegen c) = RPanic PanicUnwrapNone \/ snd (codegen c) = RPanic PanicDuplicateAction) /\
  (NoDup (struct_names (c_routes c)) -> empty_block (c_routes c) -> snd (codegen c) = RPanic PanicSlice) /\
  (NoDup (struct_names (c_routes c)) -> ~ empty_block (c_routes c) ->
   ~ NoDup (block_paths_untyped (c_routes c)) -> snd (codegen c) = RPanic PanicDuplicatePath).
Proof. exact (codegen_panics c). Qed.
Print Assumptions C20_panics.
(** Of the structs declared twice, the one that is met first gives the message, which
    needs the first of its modules: if there is none, the panic is that of [unwrap]. *)
Theorem C20_which c : ~ NoDup (struct_names (c_routes c)) ->
  exists modules name, declared_twice (c_routes c) (modules, name) /\
    snd (codegen c) = RPanic (match modules with [] => PanicUnwrapNone | _ => PanicDuplicateAction end).
Proof. exact (codegen_which c). Qed.
Print Assumptions C20_which.
Definition dup_action : RouteConfig := read [ "/"; "  GET a::b"; "  x"; "    POST a::b" ]%string.
Definition dup_root : RouteConfig := read [ "/"; "  GET b"; "  x"; "    POST b" ]%string.
Definition dup_path : RouteConfig := read
  [ "/"; "  {id: u32}"; "    GET a"; "  {id: String}"; "    GET b" ]%string.
Example C20_example :
  snd (codegen shop) = ROk tt /\
  snd (codegen dup_action) = RPanic PanicDuplicateAction /\ declared_twice (c_routes dup_action) ([lit "a"], lit "b") /\
  snd (codegen dup_root) = RPanic PanicUnwrapNone /\
  snd (codegen dup_path) = RPanic PanicDuplicatePath /\
  snd (codegen (mkConfig [] (mkRoutes [] [] []))) = RPanic PanicSlice.
Proof.
  split; [vm_compute; reflexivity|]. split; [vm_compute; reflexivity|]. split; [exists [], [], []; vm_compute; reflexivity|].
  repeat split; vm_compute; reflexivity.
Qed.

(** C21.  Against any writer: either everything is written and the status is
    that of the generator, or the writer's error is returned and a prefix of the
    text was written. *)
Theorem C21_writer wr c :
  (run_on wr (codegen c) = (w_text (codegen c), snd (codegen c))) \/
  (exists t, run_on wr (codegen c) = (t, RErr WriterError) /\ is_prefix_of t (w_text (codegen c))).
Proof. exact (run_on_spec wr (codegen c)). Qed.
Print Assumptions C21_writer.
(** A writer that takes every chunk it is given gets everything ... *)
Theorem C21_good_writer wr c st :
  accepts wr (wr_init wr) (fst (codegen c)) st ->
  run_on wr (codegen c) = (w_text (codegen c), snd (codegen c)).
Proof. exact (run_on_accepts wr (codegen c) st). Qed.
Print Assumptions C21_good_writer.
(** ... and one that refuses a chunk gets nothing after it: the error is returned. *)
Theorem C21_failing wr c l1 s l2 st n :
  fst (codegen c) = l1 ++ s :: l2 -> accepts wr (wr_init wr) l1 st -> wr_write wr st s = inr n ->
  run_on wr (codegen c) = (concat l1 ++ firstn n s, RErr WriterError).
Proof. exact (run_on_failing wr (codegen c) l1 s l2 st n). Qed.
Print Assumptions C21_failing.
(** A writer that accepts 100 characters. *)
Definition small_writer : Writer :=
  mkWriter nat 100 (fun room s => if length s <=? room then inl (room - length s) else inr room).
Example C21_example :
  snd (run_on small_writer (codegen shop)) = RErr WriterError /\
  length (fst (run_on small_writer (codegen shop))) = 100.
Proof. split; vm_compute; reflexivity. Qed.
Example C21_good_example : accepts (mkWriter unit tt (fun _ _ => inl tt)) tt (fst (codegen shop)) tt.
Proof. induction (fst (codegen shop)); econstructor; [reflexivity|assumption]. Qed.
(** The third chunk does not fit into 30 characters. *)
Definition tiny_writer : Writer :=
  mkWriter nat 30 (fun room s => if length s <=? room then inl (room - length s) else inr room).
Example C21_failing_example : exists l1 s l2 (st : wr_state tiny_writer) n,
  fst (codegen shop) = l1 ++ s :: l2 /\ accepts tiny_writer (wr_init tiny_writer) l1 st /\
  wr_write tiny_writer st s = inr n /\ l1 <> [].
Proof.
  exists (firstn 2 (fst (codegen shop))), (nth 2 (fst (codegen shop)) []), (skipn 3 (fst (codegen shop))), 12, 12.
  split; [vm_compute; reflexivity|]. split; [|split; [vm_compute; reflexivity|vm_compute; discriminate]].
  vm_compute. econstructor; [reflexivity|]. econstructor; [reflexivity|constructor].
Qed.

(** C22, C54.  The text of the generated module: the documentation shows the
    printed configuration, the body of [match_route] is the printed program. *)
Theorem C22_text c :
  snd (codegen c) = ROk tt ->
  exists head body,
    gen_program c = ROk body /\
    w_text (codegen c) = head ++ w_text (w_lines boilerplate) ++ pr_block 2 body
                         ++ unlines [lit "    }"; []; lit "} // mod routes"].
Proof. exact (codegen_program_text c). Qed.
Print Assumptions C22_text.
Example C22_example : exists body, gen_program shop = ROk body /\ length body = 3.
Proof. eexists. split; vm_compute; reflexivity. Qed.

Theorem C54_doc c :
  snd (codegen c) = ROk tt ->
  exists lines rest,
    unlines lines = routes_stringify 1 (c_routes c) /\ Forall (fun x => ~ In c_nl x) lines /\
    w_text (codegen c) =
      w_text (w_lines preamble1) ++ unlines (map (fun x => lit "    //! " ++ x) lines) ++ rest /\
    is_prefix_of (lit "    //! ```" ++ nl) rest.
Proof. exact (codegen_doc c). Qed.
Print Assumptions C54_doc.
Example C54_example :
  unlines (map lit ["  people"; "    GET people::index"; "    new"; "      GET people::make";
    "    {id: String}"; "      GET people::show"; "      DELETE people::remove"])%string =
  routes_stringify 1 (c_routes mixed).
Proof. vm_compute. reflexivity. Qed.

(** C23. *)
Theorem C23_snake s :
  (forall c, In c (to_snake_case s) -> is_upper c = false) /\
  to_snake_case (to_snake_case s) = to_snake_case s /\
  ((forall c, In c s -> is_upper c = false) -> to_snake_case s = s).
Proof. exact (conj (snake_no_upper s) (conj (snake_idem s) (snake_same s))). Qed.
Print Assumptions C23_snake.
Theorem C23_caps s c t : to_caps_case s = c :: t -> is_lower c = false.
Proof. exact (caps_head s c t). Qed.
Print Assumptions C23_caps.
(** Distinct names can give the same struct name, and the module then does not
    compile. *)
Definition collide : RouteConfig := read [ "/"; "  GET update"; "  PUT Update" ]%string.
Theorem C23_injective_refuted :
  lit "update" <> lit "Update" /\ to_caps_case (lit "update") = to_caps_case (lit "Update") /\
  snd (codegen collide) = ROk tt /\ compiles collide = false.
Proof. split; [discriminate|]. split; [reflexivity|]. split; vm_compute; reflexivity. Qed.
Print Assumptions C23_injective_refuted.
Example C23_example :
  to_snake_case (lit "ShoppingCart") = lit "shopping_cart" /\
  to_caps_case (lit "shopping_cart") = lit "ShoppingCart" /\ to_caps_case (lit "__x") = lit "_x".
Proof. repeat split; reflexivity. Qed.
