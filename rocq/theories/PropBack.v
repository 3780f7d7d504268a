(** * Property C62: a matched route gives back its path *)
From Coq Require Import Permutation.
From Verif Require Import Base Core Flat MiniRust Gen Items ToPath Spec SpecMatch SpecPath SpecBack BackThms PathThms Examples
  PropMatch PropPath.

(** [to_path] of the route that [match_route] found gives the pattern of the
    request, with the values printed. *)
Theorem C62_route {T E} (rt : runtime T E) (show : str -> T -> bytes) c path method v :
  runnable c -> match_route rt c path method = Some (RunResult (MRoute v)) ->
  exists pat segs a fs, spells path segs /\ matches (rt_parse rt) pat segs a /\ struct_value v fs /\
    to_path show c (rv_modules v) (rv_name v) fs = Some (c_slash :: join (path_texts show pat (map snd a))).
Proof. exact (back_route rt show c path method v). Qed.
Print Assumptions C62_route.
(** If printing inverts parsing, this is the path of the request, up to the
    optional slashes at its ends. *)
Theorem C62_same {T E} (rt : runtime T E) (show : str -> T -> bytes) c path method v :
  runnable c -> (forall t text x, rt_parse rt t text = inl x -> show t x = text) ->
  match_route rt c path method = Some (RunResult (MRoute v)) ->
  exists segs fs, spells path segs /\ struct_value v fs /\
    to_path show c (rv_modules v) (rv_name v) fs = Some (c_slash :: join segs).
Proof. exact (back_same rt show c path method v). Qed.
Print Assumptions C62_same.
(** The value of a redirect is one of its target: [to_path] gives the path of
    the target, with the values of the parameters of the same name and type. *)
Theorem C62_redirect {T E} (rt : runtime T E) (show : str -> T -> bytes) c path method v :
  runnable c -> match_route rt c path method = Some (RunResult (MRedirect v)) ->
  exists pat segs a fs pat' q' b' r' vals,
    spells path segs /\ matches (rt_parse rt) pat segs a /\ struct_value v fs /\
    block_at (c_routes c) pat' q' b' /\ In r' (rt_resources b') /\ r_is_redirect r' = false /\
    rv_modules v = map to_caps_case (r_modules r') /\ rv_name v = to_caps_case (r_name r') /\
    Forall2 (fun p' x => exists p, In (p, x) a /\ p_name p = p_name p' /\ p_typ p = p_typ p') (path_params pat') vals /\
    Permutation (rv_fields v)
      (map (fun pv : Param * T => (p_name (fst pv), FvVal (p_typ (fst pv)) (snd pv))) (combine (path_params pat') vals)
       ++ map (fun p => (p_name p, FvNone)) (q' ++ r_query r')) /\
    to_path show c (rv_modules v) (rv_name v) fs = Some (c_slash :: join (path_texts show pat' vals)).
Proof. exact (back_redirect rt show c path method v). Qed.
Print Assumptions C62_redirect.
Definition moved : RouteConfig := read
  [ "/"; "  old"; "    {b: String}"; "      {a: u32}"; "        GET -> item";
         "  new"; "    {a: u32}"; "      x"; "        {b: String}"; "          GET item" ]%string.
Example C62_example : exists v fs,
  runnable moved /\
  match_route ex_rt moved (lit "old/hat/7/") (lit "GET") = Some (RunResult (MRedirect v)) /\
  struct_value v fs /\
  to_path ex_show moved (rv_modules v) (rv_name v) fs = Some (lit "/new/7/x/hat") /\
  match_route ex_rt moved (lit "/new/7/x/hat") (lit "GET") =
    Some (RunResult (MRoute (mkRoute [] (lit "Item")
      [(lit "a", FvVal (lit "u32") (lit "7")); (lit "b", FvVal (lit "String") (lit "hat"))]))).
Proof.
  exists (mkRoute [] (lit "Item") [(lit "b", FvVal (lit "String") (lit "hat")); (lit "a", FvVal (lit "u32") (lit "7"))]),
    [(lit "b", Given (lit "hat")); (lit "a", Given (lit "7"))].
  split; [apply runnableb_ok; vm_compute; reflexivity|]. split; [vm_compute; reflexivity|].
  split; [repeat constructor|]. split; vm_compute; reflexivity.
Qed.
