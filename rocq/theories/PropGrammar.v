(** * Property C66: the route file language

    [ualnum] says which characters outside ASCII are alphanumeric
    ([char::is_alphanumeric]); every statement holds for each such table. *)
From Verif Require Import Base Core Nom Parse Spec SpecMatch SpecParse SpecGrammar ParseFacts GrammarFacts Examples.

(** ** C66: exactly which texts are accepted, and what they mean *)
Theorem C66_grammar ualnum text c : route_config_p ualnum text = POk [] c <-> config_text ualnum c text.
Proof. exact (parse_exact ualnum text c). Qed.
Print Assumptions C66_grammar.
(** Everything else is rejected with an error. *)
Theorem C66_rejected ualnum text :
  (route_config_p ualnum text = PErr \/ route_config_p ualnum text = PFail) <-> ~ exists c, config_text ualnum c text.
Proof. exact (parse_rejects ualnum text). Qed.
Print Assumptions C66_rejected.
(** A text has at most one meaning. *)
Theorem C66_unambiguous ualnum text c c' : config_text ualnum c text -> config_text ualnum c' text -> c = c'.
Proof. exact (text_unique ualnum text c c'). Qed.
Print Assumptions C66_unambiguous.

Definition no_unicode (c : char) : bool := false.
(** A text written out along the grammar.  A path may go on in the next line. *)
Definition odd_lines : list string :=
  [ ""; "use x;"; "/"; "  [ q"; ":T]"; "  gEt"; "    geT a"; "::b"; ""; "      [p :U ]"; "    { x:u32}"; "      PUT  -> c" ]%string.
Definition odd : RouteConfig :=
  mkConfig [mkHeader (lit "use x;")]
    (mkRoutes [] [(Static (lit "gEt"),
       mkRoutes [mkResource Get [lit "a"] (lit "b") false [mkParam (lit "p") (lit "U")]]
         [(Dynamic (mkParam (lit "x") (lit "u32")),
           mkRoutes [mkResource Put [] (lit "c") true []] [] [])] [])]
       [mkParam (lit "q") (lit "T")]).
Ltac word := apply ident_iff; split; [discriminate|repeat constructor].
Ltac breaks := repeat constructor.
Example C66_example : config_text no_unicode odd (file odd_lines).
Proof.
  assert (HT : forall n t a b, ident no_unicode n -> ident no_unicode t -> blanks a -> blanks b ->
            param_text no_unicode (mkParam n t) (n ++ a ++ lit ":" ++ b ++ t)) by (intros; constructor; assumption).
  assert (Hq : texts (query_text no_unicode 1) [mkParam (lit "q") (lit "T")] (lit "  [ q" ++ [c_nl] ++ lit ":T]" ++ [c_nl])).
  { apply (texts_cons _ _ [] (lit "  [ q" ++ [c_nl] ++ lit ":T]" ++ [c_nl]) []); [|constructor].
    apply (query_text_intro no_unicode 1 _ (lit " ") (lit "q" ++ [c_nl] ++ lit ":" ++ [] ++ lit "T") [] [c_nl]); [breaks| |breaks|breaks].
    apply HT; [word|word|breaks|breaks]. }
  assert (Hp : texts (query_text no_unicode 3) [mkParam (lit "p") (lit "U")] (lit "      [p :U ]" ++ [c_nl])).
  { apply (texts_cons _ _ [] (lit "      [p :U ]" ++ [c_nl]) []); [|constructor].
    apply (query_text_intro no_unicode 3 _ [] (lit "p" ++ lit " " ++ lit ":" ++ [] ++ lit "U") (lit " ") [c_nl]); [breaks| |breaks|breaks].
    apply HT; [word|word|breaks|breaks]. }
  assert (Hg : texts (resource_text no_unicode 2) [mkResource Get [lit "a"] (lit "b") false [mkParam (lit "p") (lit "U")]]
            (lit "    geT a" ++ [c_nl] ++ lit "::b" ++ [c_nl; c_nl] ++ lit "      [p :U ]" ++ [c_nl])).
  { apply (texts_cons _ _ [] (lit "    geT a" ++ [c_nl] ++ lit "::b" ++ [c_nl; c_nl] ++ lit "      [p :U ]" ++ [c_nl]) []); [|constructor].
    apply (resource_text_intro no_unicode 2 Get [lit "a"] (lit "b") false _ (lit "geT") (lit "a" ++ [c_nl] ++ lit "::" ++ [] ++ lit "b")
             [c_nl; c_nl] (lit "      [p :U ]" ++ [c_nl])); [reflexivity| | |exact Hp].
    - constructor. constructor; [word|breaks|breaks|]. constructor. word.
    - apply (newlines_more [c_nl] [c_nl]); breaks. }
  assert (Hr : texts (resource_text no_unicode 3) [mkResource Put [] (lit "c") true []] (lit "      PUT  -> c" ++ [c_nl])).
  { apply (texts_cons _ _ [] (lit "      PUT  -> c" ++ [c_nl]) []); [|constructor].
    apply (resource_text_intro no_unicode 3 Put [] (lit "c") true [] (lit "PUT") (lit " " ++ lit "->" ++ lit " " ++ lit "c") [c_nl] []);
      [reflexivity| |breaks|constructor].
    constructor; [breaks|breaks|]. constructor. word. }
  apply (config_text_intro no_unicode _ _ [c_nl] ((lit "use x;" ++ [c_nl]) ++ []) [c_nl]
    ((lit "  [ q" ++ [c_nl] ++ lit ":T]" ++ [c_nl]) ++ [] ++ 
     lit "  " ++ lit "gEt" ++ [c_nl] ++
       ([] ++ (lit "    geT a" ++ [c_nl] ++ lit "::b" ++ [c_nl; c_nl] ++ lit "      [p :U ]" ++ [c_nl]) ++
         lit "    " ++ lit "{ x:u32}" ++ [c_nl] ++ ([] ++ (lit "      PUT  -> c" ++ [c_nl]) ++ []) ++ []) ++ [])).
  - right. breaks.
  - constructor; [|constructor]. apply (header_line_intro (mkHeader (lit "use x;")) [c_nl]); [|breaks].
    split; [discriminate|]. split; [|split; [|discriminate]]; intros H; vm_compute in H; intuition discriminate.
  - breaks.
  - constructor; [right; discriminate|exact Hq|constructor|].
    apply (nested_texts_cons no_unicode 1); [constructor; word|breaks| |constructor].
    constructor; [left; discriminate|constructor|exact Hg|].
    apply (nested_texts_cons no_unicode 2); [|breaks| |constructor].
    + apply (dynamic_text no_unicode _ (lit " ") (lit "x" ++ [] ++ lit ":" ++ [] ++ lit "u32") []); [breaks| |breaks].
      apply HT; [word|word|breaks|breaks].
    + constructor; [left; discriminate|constructor|exact Hr|constructor].
Qed.
(** The characters by number or name are those that are meant. *)
Example C66_characters :
  [c_slash; c_colon; c_lbrack; c_rbrack; c_under; c_lbrace; c_rbrace; c_backslash; c_space] = lit "/:[]_{}\ " /\
  lit """" = [c_quote] /\ [c_nl; c_cr; c_tab] = map N_of_ascii ["010"; "013"; "009"]%char /\
  lit "
" = [c_nl].
Proof. repeat split; reflexivity. Qed.
(** Tabs and line breaks around the words of a parameter. *)
Example C66_blanks_example :
  let text := lit "/" ++ [10]%N ++ lit "  {" ++ [9; 32]%N ++ lit "x" ++ [13; 10; 9]%N ++ lit ":" ++ [9]%N ++ lit "u32" ++ [9]%N ++ lit "}" ++ [10]%N
    ++ lit "    GET a" ++ [10]%N in
  config_text no_unicode (read ["/"; "  {x: u32}"; "    GET a"]%string) text.
Proof. apply parse_exact. vm_compute. reflexivity. Qed.
(** White space at the end of a line, a tab as margin, an odd margin, a missing
    line break at the end: no meaning. *)
Example C66_outside c :
  ~ config_text no_unicode c (file ["/"; "  GET a "]%string) /\
  ~ config_text no_unicode c (lit "/" ++ [c_nl; c_tab] ++ lit "GET a" ++ [c_nl]) /\
  ~ config_text no_unicode c (file ["/"; "  a"; "   GET b"]%string) /\
  ~ config_text no_unicode c (lit "/" ++ [c_nl] ++ lit "  GET a").
Proof.
  assert (H : forall t, match route_config_p no_unicode t with POk _ _ => False | _ => True end -> ~ config_text no_unicode c t).
  { intros t Ht Hc. apply parse_exact in Hc. rewrite Hc in Ht. exact Ht. }
  repeat split; apply H; vm_compute; exact I.
Qed.
