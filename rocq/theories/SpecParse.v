(** * SpecParse: specification of the route file parser *)
From Verif Require Import Base Core Spec SpecMatch.

(** ** Well-formed configurations *)
Section Ident.
(** Which characters outside ASCII are alphanumeric. *)
Variable ualnum : char -> bool.

Definition ident_char (c : char) : Prop :=
  (65 <= c <= 90 \/ 97 <= c <= 122 \/ 48 <= c <= 57 \/ c = 95 \/ 128 <= c /\ ualnum c = true)%N.
Definition ident (s : str) : Prop := s <> [] /\ Forall ident_char s.
Definition wf_param (p : Param) : Prop := ident (p_name p) /\ ident (p_typ p).
Definition wf_segment (s : PathSegment) : Prop :=
  match s with
  | Static t => ident t
  | Dynamic p => wf_param p
  end.
Definition wf_resource (r : Resource) : Prop :=
  Forall ident (r_modules r) /\ ident (r_name r) /\ Forall wf_param (r_query r).
Definition wf_block (b : Routes) : Prop :=
  (rt_resources b <> [] \/ rt_routes b <> []) /\
  Forall wf_resource (rt_resources b) /\
  Forall (fun nr : NestedRoutes => wf_segment (fst nr)) (rt_routes b) /\
  Forall wf_param (rt_query b).
Definition wf_header (h : Header) : Prop :=
  h_text h <> [] /\ ~ In c_nl (h_text h) /\ ~ In c_cr (h_text h) /\ hd_error (h_text h) <> Some c_slash.
Definition wf_config (c : RouteConfig) : Prop :=
  Forall wf_header (c_headers c) /\ every_block wf_block (c_routes c).
End Ident.

(** No line is indented more than [n] levels.  The lines of the block below the
    path [p] have one level more than [p] has segments, the parameters of a
    resource two. *)
Definition lines_within (n : nat) (c : RouteConfig) : Prop :=
  forall p q b, block_at (c_routes c) p q b ->
    1 + length p <= n /\
    (forall r, In r (rt_resources b) -> r_query r <> [] -> 2 + length p <= n).

(** ** What a configuration says *)
(** A space, a tab, a carriage return or a line feed. *)
Definition is_space (c : char) : bool :=
  N.eqb c 32 || N.eqb c 9 || N.eqb c 13 || N.eqb c 10.
Definition nonspace (s : str) : str := filter (fun c => negb (is_space c)) s.

(** The pre-order listing as a list of words; the letter case of the marked ones
    is free. *)
Definition word (s : str) : bool * str := (false, s).
Definition verb (m : Method) : bool * str := (true, method_display m).
Definition param_words (p : Param) : list (bool * str) :=
  [word (p_name p); word (lit ":"); word (p_typ p)].
Definition query_words (p : Param) : list (bool * str) :=
  word (lit "[") :: param_words p ++ [word (lit "]")].
Definition resource_words (r : Resource) : list (bool * str) :=
  verb (r_method r) :: (if r_is_redirect r then [word (lit "->")] else [])
    ++ flat_map (fun m => [word m; word (lit "::")]) (r_modules r) ++ [word (r_name r)]
    ++ flat_map query_words (r_query r).
Definition segment_words (s : PathSegment) : list (bool * str) :=
  match s with
  | Static t => [word t]
  | Dynamic p => word (lit "{") :: param_words p ++ [word (lit "}")]
  end.
Fixpoint routes_words (b : Routes) : list (bool * str) :=
  match b with
  | mkRoutes resources routes query =>
      flat_map query_words query ++ flat_map resource_words resources
        ++ flat_map (fun nr : PathSegment * Routes =>
                       match nr with (seg, child) => segment_words seg ++ routes_words child end) routes
  end.
Definition config_words (c : RouteConfig) : list (bool * str) :=
  map (fun h => word (h_text h)) (c_headers c) ++ [word (lit "/")] ++ routes_words (c_routes c).

(** The text consists of the words in this order, up to white space. *)
Definition spells (w : bool * str) (s : str) : Prop :=
  if fst w then map to_lower s = map to_lower (snd w) else s = nonspace (snd w).
Definition told (ws : list (bool * str)) (text : str) : Prop :=
  exists parts, nonspace text = concat parts /\ Forall2 spells ws parts.

(** ** Line breaks *)
Inductive newline : str -> Prop :=
| newline_lf : newline [c_nl]
| newline_crlf : newline [c_cr; c_nl].
Inductive newlines : str -> Prop :=
| newlines_one e : newline e -> newlines e
| newlines_more e es : newline e -> newlines es -> newlines (e ++ es).
(** Two texts that differ only in their line breaks: a run of line breaks may be
    longer or shorter or of the other convention, but not empty. *)
Inductive relined : str -> str -> Prop :=
| relined_nil : relined [] []
| relined_char c s s' : c <> c_nl -> c <> c_cr -> relined s s' -> relined (c :: s) (c :: s')
| relined_cr s s' :
    hd_error s <> Some c_nl -> hd_error s' <> Some c_nl -> relined s s' ->
    relined (c_cr :: s) (c_cr :: s')
| relined_break e e' s s' : newlines e -> newlines e' -> relined s s' -> relined (e ++ s) (e' ++ s').
(** LF to CRLF. *)
Definition to_crlf (s : str) : str := flat_map (fun c => if N.eqb c c_nl then [c_cr; c_nl] else [c]) s.
