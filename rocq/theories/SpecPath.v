(** * SpecPath: what [to_path] should give *)
From Coq Require Import Permutation.
From Verif Require Import Base Core Flat MiniRust Gen Spec SpecMatch ToPath.

Definition ascii_text (s : str) : Prop := Forall (fun c => (c < 128)%N) s.

Section Texts.
Context {T : Type}.
Variable show : str -> T -> bytes.

(** The texts of the segments of a path, given the values of its parameters. *)
Fixpoint path_texts (pat : list PathSegment) (vals : list T) : list bytes :=
  match pat, vals with
  | Static s :: pat', _ => utf8 s :: path_texts pat' vals
  | Dynamic p :: pat', v :: vals' => show (p_typ p) v :: path_texts pat' vals'
  | _, _ => []
  end.
(** A value of the struct of resource [r] of a block with path [pat] and query
    parameters [q] in scope: one value per path parameter, an optional one per
    query parameter; the fields have no order. *)
Definition struct_fields (pat : list PathSegment) (query : list Param) (vals : list T)
    (opts : list (option T)) (fs : fields T) : Prop :=
  length vals = length (path_params pat) /\ length opts = length query /\
  Permutation fs (combine (map p_name (path_params pat)) (map Given vals)
                  ++ combine (map p_name query) (map Query opts)).
End Texts.

(** [uncaptured b pat segs]: on the way of the segments [segs] along the pattern
    [pat], a static segment has no dynamic sibling or is the only static child;
    a dynamic segment is the first one of its siblings, in the order of their
    names, and what matches it does not begin with the name of an only static
    sibling. *)
Inductive uncaptured : Routes -> list PathSegment -> list bytes -> Prop :=
| uncaptured_nil b : uncaptured b [] []
| uncaptured_static b s child pat segs :
    In (Static s, child) (rt_routes b) ->
    (dynamic_children (rt_routes b) <> [] -> length (statics (rt_routes b)) = 1) ->
    uncaptured child pat segs -> uncaptured b (Static s :: pat) (s :: segs)
| uncaptured_dynamic b p child pat seg segs :
    least_dynamic (dynamic_children (rt_routes b)) = Some (p, child) ->
    (forall s child', statics (rt_routes b) = [(s, child')] -> strip s seg = None) ->
    uncaptured child pat segs -> uncaptured b (Dynamic p :: pat) (seg :: segs).

(** [open_end b pat]: the path [pat] ends in a parameter of a block that has no
    resources, and in which an empty rest does not panic. *)
Inductive open_end : Routes -> list PathSegment -> Prop :=
| open_here b p : rt_resources b = [] -> no_short_static b -> open_end b [Dynamic p]
| open_below b seg child pat :
    In (seg, child) (rt_routes b) -> open_end child pat -> open_end b (seg :: pat).
(** [text] is made of the segments [segs], with or without a slash after them;
    an empty segment at its end needs an open end. *)
Definition reads (b : Routes) (text : bytes) (pat : list PathSegment) (segs : list bytes) : Prop :=
  (text = join segs /\ (last segs [c_slash] = [] -> open_end b pat)) \/
  (segs <> [] /\ text = join segs ++ [c_slash]).

(** [read_as b text pat segs p seg]: the segments [segs] of [text] lead, not captured,
    along the path [pat] to a block where the next segment, [seg], is given to the
    parameter [p]; it may be the empty end of the text only if the path has an open
    end. *)
Definition read_as {T E} (parse : str -> bytes -> T + E) (b : Routes) (text : bytes) (pat : list PathSegment)
    (segs : list bytes) (p : Param) (seg : bytes) : Prop :=
  uncaptured b (pat ++ [Dynamic p]) (segs ++ [seg]) /\ (exists a, matches parse pat segs a) /\ ~ In c_slash seg /\
  exists tail, text = join (segs ++ [seg]) ++ tail /\ (tail = [] \/ exists t, tail = c_slash :: t) /\
    (seg = [] -> tail = [] -> open_end b (pat ++ [Dynamic p])).
