(** * Property C98: values are passed on as they are parsed *)
From Verif Require Import Base Core Flat MiniRust Gen Spec SpecMatch SpecPass PassThms MatchThms Examples.

(** Whatever the parameters' types are: if what two sets of types make of each text
    corresponds, so do the answers. Only texts that are UTF-8 are parsed. *)
Theorem C98_related {T E T' E'} (rt : runtime T E) (rt' : runtime T' E')
    (R : str -> T -> T' -> Prop) (S : E -> E' -> Prop) c path method : runnable c ->
  (forall t x, utf8_valid x = true -> parsed_alike R S (rt_parse rt t x) (rt_parse rt' t x) t) ->
  exists r r', match_route rt c path method = Some r /\ match_route rt' c path method = Some r' /\ result_alike R S r r'.
Proof. exact (answers_alike rt rt' R S c path method). Qed.
Print Assumptions C98_related.
(** Unless the answer is that a parameter does not parse, matching is splitting the path
    into texts and parsing these. *)
Theorem C98_split {T E} (rt : runtime T E) c path method :
  runnable c -> ~ is_parse_error (match_route rt c path method) ->
  exists r r', match_route rt c path method = Some r /\ match_route raw c path method = Some r' /\
    result_alike (parses_to rt) (fun _ _ => False) r r'.
Proof. exact (answer_raw rt c path method). Qed.
Print Assumptions C98_split.
(** And if the path can be split such that all texts parse, their values are the answer. *)
Theorem C98_parse {T E} (rt : runtime T E) c path method redirect v :
  runnable c -> match_route raw c path method = Some (RunResult (hit redirect v)) ->
  (forall n t x, In (n, FvVal t x) (rv_fields v) -> exists w, rt_parse rt t (snd x) = inl w) ->
  exists w, match_route rt c path method = Some (RunResult (hit redirect w)) /\ route_alike (parses_to rt) w v.
Proof. exact (raw_answer rt c path method redirect v). Qed.
Print Assumptions C98_parse.

Definition shop : RouteConfig :=
  read ["/"; "  [lang: String]"; "  {shop: String}"; "    {item: u32}"; "      GET buy"; "      PUT -> buy"]%string.
(** Another set of types: values are the number of their bytes, and texts that are no
    number have their own error. *)
Definition counted : runtime nat nat :=
  mkRuntime (fun t x => match rt_parse ex_rt t x with inl v => inl (length v) | inr _ => inr 404 end) (fun _ => 0).
Example C98_example :
  runnable shop /\
  (forall t x, utf8_valid x = true ->
     parsed_alike (fun _ v n => n = length v) (fun _ e => e = 404) (rt_parse ex_rt t x) (rt_parse counted t x) t) /\
  match_route ex_rt shop (lit "/corner/2718") (lit "GET") =
  Some (RunResult (MRoute {| rv_modules := []; rv_name := lit "Buy"; rv_fields :=
    [(lit "shop", FvVal (lit "String") (lit "corner")); (lit "item", FvVal (lit "u32") (lit "2718")); (lit "lang", FvNone)] |})) /\
  match_route counted shop (lit "/corner/2718") (lit "GET") =
  Some (RunResult (MRoute {| rv_modules := []; rv_name := lit "Buy"; rv_fields :=
    [(lit "shop", FvVal (lit "String") 6); (lit "item", FvVal (lit "u32") 4); (lit "lang", FvNone)] |})) /\
  match_route counted shop (lit "/corner/x") (lit "GET") = Some (RunResult (MError (lit "item") 404)) /\
  match_route raw shop (lit "/corner/x") (lit "GET") =
  Some (RunResult (MRoute {| rv_modules := []; rv_name := lit "Buy"; rv_fields :=
    [(lit "shop", FvVal (lit "String") (lit "String", lit "corner")); (lit "item", FvVal (lit "u32") (lit "u32", lit "x"));
     (lit "lang", FvNone)] |})).
Proof.
  split; [apply runnableb_ok; vm_compute; reflexivity|].
  split; [intros t x _; cbn [rt_parse counted]; destruct (rt_parse ex_rt t x); reflexivity|].
  repeat split; vm_compute; reflexivity.
Qed.
(** A path that does not parse may be one that is not served: the first text that does
    not parse is the answer, before the rest of the path is looked at. So not every
    answer is found by splitting first. *)
Theorem C98_split_refuted :
  match_route ex_rt shop (lit "/corner/x/y") (lit "GET") = Some (RunResult (MError (lit "item") tt)) /\
  match_route raw shop (lit "/corner/x/y") (lit "GET") = Some (RunResult MNotFound) /\
  match_route ex_rt shop (lit "/corner/x") (lit "POST") = Some (RunResult (MError (lit "item") tt)) /\
  match_route raw shop (lit "/corner/x") (lit "POST") = Some (RunResult MNotAllowed).
Proof. repeat split; vm_compute; reflexivity. Qed.
Print Assumptions C98_split_refuted.
