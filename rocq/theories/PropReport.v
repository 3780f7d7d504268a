(** * Property C67: the report about a file that does not parse

    [ualnum] is the table of C66; [keep] says what nom's [many1!] does with a failure
    (NomErr.v); [code] are the codes of the [err_str!] sites and [errors] the registered
    messages; [debug_kind] and [debug_context] are the [Debug] texts of nom's types. *)
From Verif Require Import Base Core Nom Parse Errors NomErr ParseErr Examples SpecParse SpecGrammar SpecErrors SpecReport
  ReportFacts Build SpecBuild BuildFacts.

(** ** C67: every rejected file gets a report *)
(** It never panics, and the report is empty exactly for the texts that are route files. *)
Theorem C67_report ualnum keep code debug_kind debug_context errors text prefix :
  exists rep, diagnosis ualnum keep code debug_kind debug_context errors text prefix = Some rep /\
    (rep = [] <-> exists c, config_text ualnum c text).
Proof. exact (diagnosis_some ualnum keep code debug_kind debug_context errors text prefix). Qed.
Print Assumptions C67_report.
(** What is in it: a single report at the start of the file, or a report for each item
    of a list, at its place, from the top of the file downwards, with the messages of
    parse/mod.rs where they are true, the last two of them nom's own and what it
    belongs to ([chain]). *)
Theorem C67_content ualnum keep code debug_kind debug_context errors text prefix :
  let told := diagnosis ualnum keep code debug_kind debug_context errors text prefix in
  (exists c, config_text ualnum c text /\ told = Some []) \/
  (exists i k u line, text = u ++ i /\ why_rejected ualnum u i k /\ first_line text line /\
     told = Some (report prefix (lit "error " ++ debug_kind (Builtin k)) 1 line 1)) \/
  (exists v texts, headed code v /\ Forall2 (reported debug_kind errors text prefix) (rev v) texts /\
     inner_first v /\ Forall (true_item code text) v /\ (exists m, chain code m v) /\ told = Some (concat texts)).
Proof. exact (diagnosis_cases ualnum keep code debug_kind debug_context errors text prefix). Qed.
Print Assumptions C67_content.
(** The messages shown are those of the sites, once these have been used (C52). *)
Theorem C67_messages tr st t s c debug_kind :
  exec site_message site_count tr st -> In (EUse t s c) tr ->
  forall m, message debug_kind (st_errors st) (Custom c) m <-> m = site_message s.
Proof. exact (site_registered tr st t s c debug_kind). Qed.
Print Assumptions C67_messages.
(** A build from a file that does not parse prints the report and exits. *)
Theorem C67_build wo b f p text :
  b_source b = Some (FromFile f) -> b_target b <> None -> placed (b_source_dir b) f p ->
  wo_read wo p = inl text -> (~ exists c, config_text (wo_alnum wo) c text) ->
  exists pre rep, build wo b =
    (pre ++ [Read p; Stderr (lit "Unable to parse route config file " ++ p ++ lit ":" ++ [c_nl]); Stderr rep], Exited 101) /\
    Forall is_stdout pre /\ wo_diagnosis wo text = Some rep /\ rep <> [].
Proof. exact (build_rejected wo b f p text). Qed.
Print Assumptions C67_build.
(** The report is not always at the place of the error: when a complete route file is
    followed by something else, the first line is reported. *)
Theorem C67_place_refuted : exists good bad c, (forall ualnum, config_text ualnum c good) /\
  (forall ualnum c', ~ config_text ualnum c' (good ++ bad)) /\
  located good bad 3 (lit "   GET b") 1 /\
  forall ualnum keep code debug_kind debug_context errors prefix,
    diagnosis ualnum keep code debug_kind debug_context errors (good ++ bad) prefix =
      Some (report prefix (lit "error " ++ debug_kind (Builtin (lit "Eof"))) 1 (lit "/") 1).
Proof. exact eof_misplaced. Qed.
Print Assumptions C67_place_refuted.

Definition kind_name (e : error_kind) : str := match e with Builtin k => k | Custom _ => lit "Custom" end.
Definition tell (keep : bool) (l : list string) : option str :=
  diagnosis (fun _ => false) keep N.of_nat kind_name (fun _ => []) (map site_message (seq 0 site_count)) (file l) [].
Definition no_colon : list string := ["/"; "  people"; "    {id u32}"; "      GET a"]%string.
Example C67_example :
  tell true no_colon = Some (file
    ["   2:  people";   "     ^ Expected resources or child routes";
     "   3:    {id u32}"; "     ^ In routes starting here";
     "   3:    {id u32}"; "     ^ Expected resources or child routes";
     "   3:    {id u32}"; "             ^ Expected "":""";
     "   3:    {id u32}"; "             ^ Tag"]%string) /\
  tell false no_colon = Some (file
    ["   2:  people"; "     ^ Expected resources or child routes"; "   2:  people"; "     ^ Many1"]%string) /\
  tell false ["/"; "  [q: T"; "  GET a"]%string = Some (file
    ["   3:  GET a"; "       ^ Expected a ""]"""; "   3:  GET a"; "       ^ Char"]%string).
Proof. repeat split; vm_compute; reflexivity. Qed.
(** A block without resources and routes. *)
Example C67_empty_block :
  tell true ["/"; "  people"; "  GET a"]%string = Some (file
    ["   2:  people"; "     ^ Expected resources or child routes"; "   3:  GET a"; "     ^ In routes starting here";
     "   3:  GET a"; "     ^ Expected resources or child routes"; "   3:  GET a"; "     ^ Alt"]%string).
Proof. vm_compute. reflexivity. Qed.
