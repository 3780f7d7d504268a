(** * Property C74: the header

    [ualnum] is the table of C66. *)
From Verif Require Import Base Core Nom Parse Flat MiniRust Gen Items Spec SpecMatch SpecParse SpecGen SpecItems SpecGrammar
  SpecHeader ParseFacts HeaderFacts Examples.

(** ** C74: header code is passed through to every module *)
(** Every module begins with the header lines, and has no other lines of that kind. *)
Theorem C74_modules hs root path l :
  module_at (module_items true hs root) path l -> begins_with hs l.
Proof. exact (fun H => modules_begin hs _ path l H true root eq_refl). Qed.
Print Assumptions C74_modules.
(** The text of the generated module is that of the same routes without a header, with
    the lines added at the beginning of the module for the root and of every module in it. *)
Theorem C74_text hs b root : hs <> [] -> flattened_modules b = ROk root -> snd (codegen (mkConfig hs b)) = ROk tt ->
  exists u t t', w_text (codegen (mkConfig [] b)) = u ++ t /\
    w_text (codegen (mkConfig hs b)) = u ++ copied_lines (lit "    ") hs ++ t' /\ copies hs (modules_in root) t t'.
Proof. exact (headers_text hs b root). Qed.
Print Assumptions C74_text.
(** Whether there is one does not depend on the header. *)
Theorem C74_generates hs b : snd (codegen (mkConfig hs b)) = ROk tt <-> snd (codegen (mkConfig [] b)) = ROk tt.
Proof. exact (headers_generate hs b). Qed.
Print Assumptions C74_generates.
(** Lines that do not begin with a slash can be put before any file without a header. *)
Theorem C74_file ualnum ls b text : Forall plain_line ls ->
  config_text ualnum (mkConfig [] b) text ->
  config_text ualnum (mkConfig (map mkHeader (filter not_empty ls)) b) (unlines ls ++ text).
Proof. exact (prefixed_lines ualnum ls b text). Qed.
Print Assumptions C74_file.
(** Others cannot: a comment is not passed through. *)
Theorem C74_slash ualnum c text : config_text ualnum c text ->
  Forall (fun h => plain_line (h_text h) /\ h_text h <> []) (c_headers c).
Proof. exact (lines_ok ualnum c text). Qed.
Print Assumptions C74_slash.
Theorem C74_any_refuted : exists line text,
  ~ In c_nl line /\ ~ In c_cr line /\
  (exists c, config_text (fun _ => false) c text) /\ ~ exists c, config_text (fun _ => false) c (unlines [line] ++ text).
Proof. exact comment_line. Qed.
Print Assumptions C74_any_refuted.

Example C74_example :
  let ls := map lit ["use web::Page;"; ""; "use std::fmt;  // shown"]%string in
  let c := read ["use web::Page;"; ""; "use std::fmt;  // shown"; "/"; "  people"; "    {id: Id}"; "      GET people::show"]%string in
  Forall plain_line ls /\ c_headers c = map mkHeader (filter not_empty ls) /\ length (c_headers c) = 2%nat /\
  snd (codegen c) = ROk tt /\
  (exists root, flattened_modules (c_routes c) = ROk root /\ modules_in root = 1%nat /\
    exists l, module_at (module_items true (c_headers c) root) [lit "people"] l) /\
  firstn 7 (skipn 23 (lines_of (w_text (codegen c)))) = map lit
    [ "    use web::Page;"; "    use std::fmt;  // shown"; "";
      "    pub mod people {"; "        use web::Page;"; "        use std::fmt;  // shown"; "" ]%string.
Proof.
  cbv zeta. split; [repeat constructor; vm_compute; intros H; decompose [or] H; discriminate || contradiction|].
  split; [vm_compute; reflexivity|]. split; [vm_compute; reflexivity|]. split; [vm_compute; reflexivity|]. split.
  - eexists. split; [vm_compute; reflexivity|]. split; [vm_compute; reflexivity|].
    eexists. eapply module_inside; [|constructor]. cbn. tauto.
  - vm_compute. reflexivity.
Qed.
