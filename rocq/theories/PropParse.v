(** * Properties C01-C09: the route file parser and printer

    [ualnum] says which characters outside ASCII are alphanumeric
    ([char::is_alphanumeric]); every statement holds for each such table. *)
From Verif Require Import Base Core Nom Parse Spec SpecMatch SpecParse MatchFacts ParseFacts RelineFacts RoundFacts GrammarFacts DeepFacts Examples.

Definition ascii_only (c : char) : bool := false.

(** A file that uses everything: headers, query parameters on
    blocks and resources, redirects, module paths, any letter case. *)
Definition album_lines : list string :=
  [ "use std::path::PathBuf;";
    "#[cfg(test)]";
    "";
    "/";
    "  [lang: String]";
    "  get home::index";
    "    [page: u32]";
    "    [size: u32]";
    "  POST -> users::list";
    "  GeT users::list";
    "";
    "  users";
    "    PUT users :: admin::save";
    "    { id : u32 }";
    "      DELETE users::remove";
    "  about";
    "    GET about" ]%string.
Definition album : RouteConfig := read album_lines.
Example album_accepted : route_config_p ascii_only (file album_lines) = POk [] album /\ file album_lines <> config_stringify album.
Proof. split; [vm_compute; reflexivity|vm_compute; discriminate]. Qed.

(** ** C01: stringify then parse *)
Theorem C01_round_trip ualnum c :
  wf_config ualnum c -> lines_within 7 c -> route_config_p ualnum (config_stringify c) = POk [] c.
Proof. exact (round_trip ualnum c). Qed.
Print Assumptions C01_round_trip.
Example C01_example : wf_config ascii_only album /\ lines_within 7 album.
Proof.
  split; [exact (proj1 (proj2 (parse_reads _ _ _ _ (proj1 album_accepted))))|].
  apply lines_withinb_ok. vm_compute. reflexivity.
Qed.

(** ** C02: what the parser accepts is well-formed *)
Theorem C02_well_formed ualnum text rest c : route_config_p ualnum text = POk rest c -> wf_config ualnum c.
Proof. exact (fun H => proj1 (proj2 (parse_reads ualnum text rest c H))). Qed.
Print Assumptions C02_well_formed.
(** Exactly the well-formed configurations have a text that is accepted. *)
Theorem C02_complete ualnum c : wf_config ualnum c <-> exists text, route_config_p ualnum text = POk [] c.
Proof. exact (config_writable ualnum c). Qed.
Print Assumptions C02_complete.
Example C02_example : exists text rest c, route_config_p ascii_only text = POk rest c.
Proof. exact (ex_intro _ _ (ex_intro _ _ (ex_intro _ _ (proj1 album_accepted)))). Qed.

(** ** C03: accepted files are stable under reformatting *)
Theorem C03_reformat ualnum text c :
  route_config_p ualnum text = POk [] c -> lines_within 7 c -> route_config_p ualnum (config_stringify c) = POk [] c.
Proof. exact (fun H => round_trip ualnum c (proj1 (proj2 (parse_reads ualnum text [] c H)))). Qed.
Print Assumptions C03_reformat.
Example C03_example : route_config_p ascii_only (file album_lines) = POk [] album /\ lines_within 7 album.
Proof. exact (conj (proj1 album_accepted) (proj2 C01_example)). Qed.

(** ** C04: the bound is exact *)
Theorem C04_exact ualnum c :
  wf_config ualnum c -> (route_config_p ualnum (config_stringify c) = POk [] c <-> lines_within 7 c).
Proof. exact (round_trip_iff ualnum c). Qed.
Print Assumptions C04_exact.
Definition deep : RouteConfig := read
  [ "/";
    "  a";
    "    a";
    "      a";
    "        a";
    "          a";
    "            a";
    "              a";
    "                GET x" ]%string.
Theorem C04_refuted :
  wf_config ascii_only deep /\ lines_within 8 deep /\ route_config_p ascii_only (config_stringify deep) = PFail.
Proof.
  exact (conj (proj1 (proj2 (parse_reads _ _ _ deep (eq_refl : route_config_p ascii_only (file
    [ "/"; "  a"; "    a"; "      a"; "        a"; "          a"; "            a"; "              a"; "                GET x" ]%string)
      = POk [] deep))))
    (conj (lines_withinb_ok 8 deep eq_refl) eq_refl)).
Qed.
Print Assumptions C04_refuted.

(** ** C05: termination *)
(** The loops of the model run on fuel; [S (length text)] rounds of each repetition
    and as many nested calls always suffice. *)
Theorem C05_terminates ualnum text : route_config_p ualnum text <> PFuel.
Proof. exact (parse_total ualnum text). Qed.
Print Assumptions C05_terminates.
Example C05_example : route_config_p ascii_only (file ["/"; "  GET x"; ""; "oops"]%string) = PErr.
Proof. vm_compute. reflexivity. Qed.

(** ** C06: nothing in an accepted file is ignored *)
Theorem C06_faithful ualnum text rest c :
  route_config_p ualnum text = POk rest c -> rest = [] /\ told (config_words c) text.
Proof.
  exact (fun H => conj (proj1 (parse_reads ualnum text rest c H)) (proj2 (proj2 (parse_reads ualnum text rest c H)))).
Qed.
Print Assumptions C06_faithful.
Example C06_example : concat (map snd (config_words album)) =
  lit "use std::path::PathBuf;#[cfg(test)]/[lang:String]GEThome::index[page:u32][size:u32]POST->users::listGETusers::listusersPUTusers::admin::save{id:u32}DELETEusers::removeaboutGETabout".
Proof. vm_compute. reflexivity. Qed.

(** ** C07: blank lines *)
Theorem C07_blank_lines ualnum u v e c :
  newlines e ->
  (route_config_p ualnum (u ++ c_nl :: v) = POk [] c <-> route_config_p ualnum (u ++ c_nl :: e ++ v) = POk [] c).
Proof.
  exact (fun He => conj (parse_relined ualnum _ _ c (relined_insert e u v He))
                        (parse_relined ualnum _ _ c (relined_sym _ _ (relined_insert e u v He)))).
Qed.
Print Assumptions C07_blank_lines.
Theorem C07_leading ualnum e text c :
  newlines e -> route_config_p ualnum text = POk [] c -> route_config_p ualnum (e ++ text) = POk [] c.
Proof. exact (parse_leading ualnum e text c). Qed.
Print Assumptions C07_leading.
(** A line of white space is not a blank line. *)
Theorem C07_white_lines_refuted :
  exists u v c, route_config_p ascii_only (u ++ c_nl :: v) = POk [] c /\
    route_config_p ascii_only (u ++ c_nl :: lit "  " ++ c_nl :: v) = PFail.
Proof.
  exact (ex_intro _ (lit "/") (ex_intro _ (file ["  GET x"]%string) (ex_intro _ (read ["/"; "  GET x"]%string) (conj eq_refl eq_refl)))).
Qed.
Print Assumptions C07_white_lines_refuted.
Example C07_example : exists u v, file album_lines = u ++ c_nl :: v /\ newlines [c_nl; c_cr; c_nl].
Proof.
  exists (lit "use std::path::PathBuf;"). eexists. split; [reflexivity|].
  apply (newlines_more [c_nl]); [constructor|]. apply newlines_one. constructor.
Qed.

(** ** C08: CRLF *)
Theorem C08_crlf ualnum text c :
  ~ In c_cr text ->
  (route_config_p ualnum text = POk [] c <-> route_config_p ualnum (to_crlf text) = POk [] c).
Proof.
  exact (fun H => conj (parse_relined ualnum _ _ c (relined_crlf text H))
                       (parse_relined ualnum _ _ c (relined_sym _ _ (relined_crlf text H)))).
Qed.
Print Assumptions C08_crlf.
Example C08_example : ~ In c_cr (file album_lines).
Proof.
  intros H. assert (E : existsb (N.eqb c_cr) (file album_lines) = true) by (apply existsb_exists; exists c_cr; auto).
  vm_compute in E. discriminate.
Qed.

(** ** C09: HTTP verbs *)
Theorem C09_verbs i r m :
  method_p i = POk r m <-> exists w, i = w ++ r /\ map to_lower w = map to_lower (method_display m).
Proof. exact (method_iff i r m). Qed.
Print Assumptions C09_verbs.
Theorem C09_rejects i :
  method_p i = PErr <-> forall w r m, i = w ++ r -> map to_lower w <> map to_lower (method_display m).
Proof. exact (method_rejects i). Qed.
Print Assumptions C09_rejects.
Theorem C09_display m r : method_p (method_display m ++ r) = POk r m.
Proof. exact (proj2 (method_iff (method_display m ++ r) r m) (ex_intro _ (method_display m) (conj eq_refl eq_refl))). Qed.
Print Assumptions C09_display.
Example C09_example :
  method_p (lit "dElEtE x") = POk (lit " x") Delete /\ method_p (lit "PATCH x") = PErr /\
  route_config_p ascii_only (file ["/"; "  PATCH x"]%string) = PFail.
Proof. vm_compute. auto. Qed.
