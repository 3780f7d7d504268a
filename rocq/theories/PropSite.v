(** * Properties C90 and C91: repeated slashes, in requests and in printed paths *)
From Verif Require Import Base Core Flat MiniRust Gen Items ToPath Spec SpecMatch SpecPath SpecBack SpecSite MatchFacts SiteThms
  Examples PropMatch PropPath.

(** C90.  A request with two slashes in a row is answered with a route or a redirect only
    if a parameter of its path was parsed from nothing. *)
Theorem C90_empty {T E} (rt : runtime T E) c path method redirect v :
  runnable c -> every_block plain_statics (c_routes c) -> repeated path ->
  match_route rt c path method = Some (RunResult (hit redirect v)) ->
  exists pat q b r segs a p x,
    block_at (c_routes c) pat q b /\ first_resource_for method b r /\ r_is_redirect r = redirect /\
    spells path segs /\ matches (rt_parse rt) pat segs a /\ v = route_for r q a /\
    In (p, x) a /\ rt_parse rt (p_typ p) [] = inl x.
Proof. exact (empty_segment rt c path method redirect v). Qed.
Print Assumptions C90_empty.
Theorem C90_refused {T E} (rt : runtime T E) c path method redirect v :
  runnable c -> every_block plain_statics (c_routes c) -> empty_refused rt -> repeated path ->
  match_route rt c path method <> Some (RunResult (hit redirect v)).
Proof. exact (repeated_refused rt c path method redirect v). Qed.
Print Assumptions C90_refused.
Definition door : RouteConfig := read
  [ "/"; "  {who: String}"; "    {page: String}"; "      GET page";
         "  old"; "    {who: String}"; "      {page: String}"; "        GET -> page" ]%string.
(** [FromStr] of types without empty values. *)
Definition strict_rt : runtime bytes unit :=
  {| rt_parse := fun t text => match text with [] => inr tt | _ => rt_parse ex_rt t text end; rt_usize := ex_usize |}.
Example C90_example : runnable door /\ every_block plain_statics (c_routes door) /\
  repeated (lit "/old//inbox") /\ repeated (lit "//inbox") /\ repeated (lit "/ann/inbox//") /\ ~ repeated (lit "/ann/inbox/") /\
  match_route ex_rt door (lit "/old//inbox") (lit "GET") =
    Some (RunResult (hit true (mkRoute [] (lit "Page")
      [(lit "who", FvVal (lit "String") []); (lit "page", FvVal (lit "String") (lit "inbox"))]))) /\
  empty_refused strict_rt /\
  match_route strict_rt door (lit "/old//inbox") (lit "GET") = Some (RunResult (MError (lit "who") tt)) /\
  match_route strict_rt door (lit "/ann/inbox//") (lit "GET") = Some (RunResult MNotFound).
Proof.
  split; [apply runnableb_ok; vm_compute; reflexivity|]. split; [block_check plain_staticsb_ok|].
  split; [exists (lit "/old"), (lit "inbox"); reflexivity|]. split; [exists [], (lit "inbox"); reflexivity|].
  split; [exists (lit "/ann/inbox"), []; reflexivity|].
  split; [|split; [vm_compute; reflexivity|split; [intros t x; discriminate|split; vm_compute; reflexivity]]].
  intros (u & w & H). do 11 (destruct u as [|? u]; [discriminate H|cbn [app] in H; apply (f_equal (@tl N)) in H; cbn [lit tl] in H]).
  destruct u; discriminate H.
Qed.
(** That repeated slashes count as one is false. *)
Theorem C90_one_refuted : runnable door /\ every_block plain_statics (c_routes door) /\ empty_refused strict_rt /\
  match_route strict_rt door (lit "/ann/inbox") (lit "GET") =
    Some (RunResult (MRoute (mkRoute [] (lit "Page")
      [(lit "who", FvVal (lit "String") (lit "ann")); (lit "page", FvVal (lit "String") (lit "inbox"))]))) /\
  match_route strict_rt door (lit "/ann//inbox") (lit "GET") = Some (RunResult (MError (lit "page") tt)).
Proof.
  split; [apply runnableb_ok; vm_compute; reflexivity|]. split; [block_check plain_staticsb_ok|].
  split; [intros t x; discriminate|]. split; vm_compute; reflexivity.
Qed.
Print Assumptions C90_one_refuted.

(** C91.  The path of a route names a host exactly if its first segment is a parameter
    printed as nothing, with more segments after it, or printed with a slash in front. *)
Theorem C91_exact {T} (show : str -> T -> bytes) c pat q b r vals opts fs u :
  compiles c = true -> every_block plain_statics (c_routes c) ->
  block_at (c_routes c) pat q b -> In r (rt_resources b) -> r_is_redirect r = false ->
  struct_fields pat (q ++ r_query r) vals opts fs ->
  to_path show c (map to_caps_case (r_modules r)) (to_caps_case (r_name r)) fs = Some u ->
  network_path u <->
  exists p rest x vals', pat = Dynamic p :: rest /\ vals = x :: vals' /\
    ((show (p_typ p) x = [] /\ rest <> []) \/ exists t, show (p_typ p) x = c_slash :: t).
Proof. exact (network_exact show c pat q b r vals opts fs u). Qed.
Print Assumptions C91_exact.
(** The path of a redirect stays on the site if no parameter comes first in a path ... *)
Theorem C91_static {T E} (rt : runtime T E) (show : str -> T -> bytes) c path method v :
  runnable c -> every_block plain_statics (c_routes c) -> dynamic_children (rt_routes (c_routes c)) = [] ->
  match_route rt c path method = Some (RunResult (MRedirect v)) ->
  exists fs u, struct_value v fs /\ to_path show c (rv_modules v) (rv_name v) fs = Some u /\ ~ network_path u.
Proof. exact (redirect_static rt show c path method v). Qed.
Print Assumptions C91_static.
(** ... or if types print what they parsed, and have no empty values. *)
Theorem C91_stays {T E} (rt : runtime T E) (show : str -> T -> bytes) c path method v :
  runnable c -> every_block plain_statics (c_routes c) -> printed_back rt show -> empty_refused rt ->
  match_route rt c path method = Some (RunResult (MRedirect v)) ->
  exists fs u, struct_value v fs /\ to_path show c (rv_modules v) (rv_name v) fs = Some u /\ ~ network_path u.
Proof. exact (redirect_stays rt show c path method v). Qed.
Print Assumptions C91_stays.
(** That redirects stay on the site is false: a request can name the host. *)
Theorem C91_refuted : runnable door /\ every_block plain_statics (c_routes door) /\ printed_back ex_rt ex_show /\
  exists v fs,
    match_route ex_rt door (lit "/old//evil.example") (lit "GET") = Some (RunResult (MRedirect v)) /\ struct_value v fs /\
    to_path ex_show door (rv_modules v) (rv_name v) fs = Some (lit "//evil.example") /\
    network_path (lit "//evil.example").
Proof.
  split; [apply runnableb_ok; vm_compute; reflexivity|]. split; [block_check plain_staticsb_ok|].
  split; [exact ex_inverse|].
  exists (mkRoute [] (lit "Page") [(lit "who", FvVal (lit "String") []); (lit "page", FvVal (lit "String") (lit "evil.example"))]),
    [(lit "who", Given []); (lit "page", Given (lit "evil.example"))].
  split; [vm_compute; reflexivity|]. split; [repeat constructor|]. split; [vm_compute; reflexivity|].
  exists (lit "evil.example"). reflexivity.
Qed.
Print Assumptions C91_refuted.
Definition hall : RouteConfig := read
  [ "/"; "  old"; "    {who: String}"; "      {page: String}"; "        GET -> page";
         "  of"; "    {who: String}"; "      {page: String}"; "        GET page" ]%string.
Example C91_example : runnable hall /\ every_block plain_statics (c_routes hall) /\
  dynamic_children (rt_routes (c_routes hall)) = [] /\ printed_back strict_rt ex_show /\
  (exists v fs, match_route ex_rt hall (lit "/old//evil.example") (lit "GET") = Some (RunResult (MRedirect v)) /\ struct_value v fs /\
    to_path ex_show hall (rv_modules v) (rv_name v) fs = Some (lit "/of//evil.example")) /\
  exists v fs, match_route strict_rt door (lit "/old/ann/inbox") (lit "GET") = Some (RunResult (MRedirect v)) /\ struct_value v fs /\
    to_path ex_show door (rv_modules v) (rv_name v) fs = Some (lit "/ann/inbox").
Proof.
  split; [apply runnableb_ok; vm_compute; reflexivity|]. split; [block_check plain_staticsb_ok|].
  split; [reflexivity|].
  split; [intros t text x H; destruct text; [discriminate H|exact (ex_inverse _ _ _ H)]|]. split.
  - exists (mkRoute [] (lit "Page") [(lit "who", FvVal (lit "String") []); (lit "page", FvVal (lit "String") (lit "evil.example"))]),
      [(lit "who", Given []); (lit "page", Given (lit "evil.example"))].
    split; [vm_compute; reflexivity|]. split; [repeat constructor|vm_compute; reflexivity].
  - exists (mkRoute [] (lit "Page") [(lit "who", FvVal (lit "String") (lit "ann")); (lit "page", FvVal (lit "String") (lit "inbox"))]),
      [(lit "who", Given (lit "ann")); (lit "page", Given (lit "inbox"))].
    split; [vm_compute; reflexivity|]. split; [repeat constructor|vm_compute; reflexivity].
Qed.
