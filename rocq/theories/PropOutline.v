(** * Property C84: a route file is a list of indented lines *)
From Verif Require Import Base Core Nom Parse Spec SpecMatch SpecParse SpecGrammar SpecOutline ParseFacts GrammarFacts OutlineFacts Examples.

(** ** C84: indentation is nesting, and children come in order *)

(** A text is read as a configuration exactly if it is a list of lines, and these are
    the outline of the configuration, in which no block is empty. *)
Theorem C84_lines ualnum text c : route_config_p ualnum text = POk [] c <->
  every_block filled (c_routes c) /\ lined_text ualnum (c_headers c) (outline 1 (c_routes c)) text.
Proof. exact (lines_exact ualnum text c). Qed.
Print Assumptions C84_lines.
(** A text can be cut into lines in one way only. *)
Theorem C84_unique ualnum text hs l hs' l' : lined_text ualnum hs l text -> lined_text ualnum hs' l' text -> hs = hs' /\ l = l'.
Proof. exact (lined_unique ualnum hs hs' l l' text). Qed.
Print Assumptions C84_unique.
(** The outline says which block it is. *)
Theorem C84_block level b b' : outline level b = outline level b' -> b = b'.
Proof. exact (outline_unique level b b'). Qed.
Print Assumptions C84_block.
(** Among the texts that are lists of lines, those are accepted whose lines are well
    ordered, for which one pass over the lines suffices. *)
Theorem C84_accepted ualnum hs l text : lined_text ualnum hs l text ->
  (exists c, route_config_p ualnum text = POk [] c) <-> well_ordered l = true.
Proof. exact (lined_accepted ualnum hs l text). Qed.
Print Assumptions C84_accepted.
(** Between lines of the same block: query parameters, then resources, then nested
    routes. *)
Theorem C84_order ualnum text c hs l1 l2 l3 k x y : route_config_p ualnum text = POk [] c ->
  lined_text ualnum hs (l1 ++ (k, x) :: l2 ++ (k, y) :: l3) text ->
  Forall (fun z : line => k <= fst z) l2 -> rank x <= rank y.
Proof. exact (children_ordered ualnum text c hs l1 l2 l3 k x y). Qed.
Print Assumptions C84_order.
(** The line after a segment is one level deeper.  The line after a verb is a query
    parameter of it, one level deeper, or another verb or a segment of the same block,
    or a segment further out.  The line after a query parameter is not deeper. *)
Theorem C84_levels ualnum text c hs l1 l2 n x m y : route_config_p ualnum text = POk [] c ->
  lined_text ualnum hs (l1 ++ (n, x) :: (m, y) :: l2) text ->
  match x with
  | ESegment _ => m = S n
  | EVerb _ _ _ _ => m = S n /\ rank y = 0 \/ m = n /\ rank y <> 0 \/ m < n /\ rank y = 2
  | EQuery _ => m <= n
  end.
Proof. exact (levels ualnum text c hs l1 l2 n x m y). Qed.
Print Assumptions C84_levels.

(** The lines of a file, and the same lines in another order. *)
Definition lines84 : list line :=
  [ (1, EQuery (mkParam (lit "q") (lit "T"))); (1, EVerb Get [] (lit "a") false); (2, EQuery (mkParam (lit "p") (lit "U")));
    (1, ESegment (Static (lit "x"))); (2, EVerb Get [] (lit "b") false) ].
Example C84_example :
  outline 1 (c_routes (read ["/"; "  [q: T]"; "  GET a"; "    [p: U]"; "  x"; "    GET b"]%string)) = lines84 /\
  well_ordered lines84 = true.
Proof. split; vm_compute; reflexivity. Qed.
Example C84_swapped : exists hs l, lined_text (fun _ => false) hs l (file ["/"; "  x"; "    GET b"; "  GET a"]%string) /\
  well_ordered l = false.
Proof.
  exists [], [(1, ESegment (Static (lit "x"))); (2, EVerb Get [] (lit "b") false); (1, EVerb Get [] (lit "a") false)].
  split; [|vm_compute; reflexivity].
  apply (lined_text_intro _ _ _ [] [] [c_nl]
    ((margin 1 ++ lit "x" ++ [c_nl]) ++ (margin 2 ++ (lit "GET" ++ lit " " ++ lit "b") ++ [c_nl]) ++
     (margin 1 ++ (lit "GET" ++ lit " " ++ lit "a") ++ [c_nl]) ++ []));
    [left; reflexivity|constructor|repeat constructor|].
  repeat (apply texts_cons || apply texts_nil); constructor; try (repeat constructor; fail).
  - constructor. constructor. apply ident_iff. split; [discriminate|repeat constructor].
  - constructor; [reflexivity|]. constructor. constructor. apply ident_iff. split; [discriminate|repeat constructor].
  - constructor; [reflexivity|]. constructor. constructor. apply ident_iff. split; [discriminate|repeat constructor].
Qed.
Example C84_rejected :
  Forall (fun l => match route_config_p (fun _ => false) (file l) with POk _ _ => False | _ => True end)
    [ ["/"; "  x"; "    GET b"; "  GET a"]; ["/"; "  GET a"; "  [q: T]"]; ["/"; "  x"; "  GET b"]; ["/"; "    GET b"];
      ["/"; "  x"; "    [q: T]"]; ["/"; "  x"; "      GET b"]; ["/"; "GET a"] ]%string.
Proof. repeat constructor; vm_compute; exact I. Qed.
