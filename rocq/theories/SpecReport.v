(** * SpecReport: what can be said about a reported parse error *)
From Verif Require Import Base Core SpecParse SpecGrammar Errors ParseErr.

(** The items of a context. *)
Definition items (c : context) : list (str * error_kind) :=
  match c with
  | Code i e => [(i, e)]
  | CList l => l
  end.

(** Every item is at the place of the one after it or further on in the text. *)
Fixpoint inner_first (v : list (str * error_kind)) : Prop :=
  match v with
  | [] => True
  | (i, _) :: v' => Forall (fun je => exists w, fst je = w ++ i) v' /\ inner_first v'
  end.

(** [true_at m u i]: what the message [m] says is so between [u] and [i]. *)
Definition true_at (m u i : str) : Prop :=
  (m = lit "Expected "":""" -> hd_error i <> Some c_colon) /\
  (m = lit "Expected a ""}""" -> hd_error i <> Some c_rbrace) /\
  (m = lit "Expected a ""]""" -> hd_error i <> Some c_rbrack) /\
  (m = lit "Expected a newline" -> ~ exists e r, newline e /\ i = e ++ r) /\
  (m = lit "Expected resources or child routes" \/ m = lit "In routes starting here" -> exists v, u = v ++ [c_nl]).
(** An item of nom itself, or a message of parse/mod.rs that is true. *)
Definition true_item (code : nat -> N) (text : str) (ie : str * error_kind) : Prop :=
  match snd ie with
  | Builtin _ => True
  | Custom n => exists s u, s < site_count /\ n = code s /\ text = u ++ fst ie /\ true_at (site_message s) u (fst ie)
  end.

(** The outermost item, which is reported first, is one of three messages of
    parse/mod.rs. *)
Definition headed (code : nat -> N) (v : list (str * error_kind)) : Prop :=
  exists v' i s, v = v' ++ [(i, Custom (code s))] /\ In (site_message s) [lit "Expected "":"""; lit "Expected a ""]"""; lit "Expected resources or child routes"].

(** [chain m v]: the items of a list, innermost first, with the message [m] last.  The
    innermost one is of nom itself and belongs to the message after it; only the message
    on the content of a block may be elsewhere.  Around them, messages on the content of
    a block and on the routes it belongs to take turns. *)
Definition m_content : str := lit "Expected resources or child routes".
Definition m_routes : str := lit "In routes starting here".
Inductive chain (code : nat -> N) : str -> list (str * error_kind) -> Prop :=
| chain_here i j k s :
    In (site_message s, k)
      [ (lit "Expected "":""", lit "Tag"); (lit "Expected a ""}""", lit "Char"); (lit "Expected a ""]""", lit "Char");
        (lit "Expected a newline", lit "Many1"); (m_content, lit "Alt"); (m_content, lit "Many1") ] ->
    (k <> lit "Many1" \/ site_message s <> m_content -> i = j) ->
    chain code (site_message s) [(i, Builtin k); (j, Custom (code s))]
| chain_content m v i s :
    site_message s = m_content -> chain code m v -> m <> m_content ->
    chain code m_content (v ++ [(i, Custom (code s))])
| chain_routes m v i s :
    site_message s = m_routes -> chain code m v -> In m [lit "Expected "":"""; lit "Expected a ""]"""; m_content] ->
    chain code m_routes (v ++ [(i, Custom (code s))]).

(** The first line of a text. *)
Definition first_line (text line : str) : Prop :=
  exists rest, text = line ++ rest /\ ~ In c_nl line /\ (rest = [] \/ exists r, rest = c_nl :: r).
(** The errors that are not failures: the text before [i] ends the header lines and [i]
    has no slash, or it ends with the slash and [i] has no line break, or it is a complete
    route file and [i] is left over. *)
Definition why_rejected (ualnum : char -> bool) (u i : str) (k : str) : Prop :=
  k = lit "Char" /\ hd_error i <> Some c_slash \/
  k = lit "Many1" /\ (exists u', u = u' ++ [c_slash]) /\ (~ exists e r, newline e /\ i = e ++ r) \/
  k = lit "Eof" /\ i <> [] /\ exists c, config_text ualnum c u.
