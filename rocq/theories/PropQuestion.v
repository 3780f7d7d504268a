(** * Property C76: query strings in requests

    [ualnum] is the table of C66. *)
From Verif Require Import Base Core Nom Parse ParseFacts GrammarFacts Flat MiniRust Gen Spec SpecParse SpecGrammar SpecMatch SpecPath
  SpecQuestion MatchFacts RunFacts FlatFacts MatchThms QuestionFacts Examples PropMatch.

(** ** C76: a query string does not change the route *)
(** This is false: it is taken for a part of the last segment. *)
Theorem C76_refuted : exists ualnum c text path query v,
  config_text ualnum c text /\ runnable c /\
  match_route ex_rt c path (lit "GET") = Some (RunResult (MRoute v)) /\
  match_route ex_rt c (path ++ c_question :: query) (lit "GET") = Some (RunResult MNotFound).
Proof. exact question_lost. Qed.
Print Assumptions C76_refuted.
(** What holds, for a question mark as for any other character that names do not contain: a
    segment with such a character is matched only by a parameter, as a whole, ... *)
Theorem C76_param {T E} (rt : runtime T E) ualnum c text path method redirect v x :
  config_text ualnum c text -> runnable c -> special x ->
  match_route rt c path method = Some (RunResult (hit redirect v)) ->
  exists pat q b r segs a,
    block_at (c_routes c) pat q b /\ first_resource_for method b r /\ r_is_redirect r = redirect /\
    spells path segs /\ matches (rt_parse rt) pat segs a /\ v = route_for r q a /\
    forall i seg, nth_error segs i = Some seg -> In x seg ->
      exists p val, nth_error pat i = Some (Dynamic p) /\ rt_parse rt (p_typ p) seg = inl val.
Proof. exact (special_param rt ualnum c text path method redirect v x). Qed.
Print Assumptions C76_param.
(** ... so that without parameters there is no answer but 404. *)
Theorem C76_not_found {T E} (rt : runtime T E) ualnum c text path method x :
  config_text ualnum c text -> runnable c -> every_block no_params (c_routes c) -> special x -> In x path ->
  match_route rt c path method = Some (RunResult MNotFound).
Proof. exact (special_not_found rt ualnum c text path method x). Qed.
Print Assumptions C76_not_found.

Definition pages : RouteConfig := read [ "/"; "  GET home"; "  about"; "    [lang: String]"; "    GET about"; "    team"; "      GET team" ]%string.
Example C76_example :
  special c_question /\ special (hd 0%N (lit ".")) /\ special (hd 0%N (lit "%")) /\ runnable pages /\ every_block no_params (c_routes pages) /\
  config_text (fun _ => false) pages
    (file [ "/"; "  GET home"; "  about"; "    [lang: String]"; "    GET about"; "    team"; "      GET team" ]%string) /\
  match_route ex_rt pages (lit "/about/team") (lit "GET") =
    Some (RunResult (MRoute {| rv_modules := []; rv_name := lit "Team"; rv_fields := [(lit "lang", FvNone)] |})) /\
  match_route ex_rt pages (lit "/about/team?lang=en") (lit "GET") = Some (RunResult MNotFound) /\
  match_route ex_rt shop (lit "/people/42/books/0-19?lang=en") (lit "GET") =
    Some (RunResult (MRoute {| rv_modules := [lit "People"]; rv_name := lit "Book";
      rv_fields := [(lit "id", FvVal (lit "u32") (lit "42")); (lit "isbn", FvVal (lit "String") (lit "0-19?lang=en")); (lit "lang", FvNone)] |})).
Proof.
  split; [vm_compute; intuition congruence|]. split; [vm_compute; intuition congruence|]. split; [vm_compute; intuition congruence|].
  split; [apply runnableb_ok; vm_compute; reflexivity|].
  split; [block_check no_paramsb_ok|].
  split; [apply parse_exact; vm_compute; reflexivity|]. repeat split; vm_compute; reflexivity.
Qed.
