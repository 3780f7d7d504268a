(** * SpecCut: the beginning of a configuration *)
From Verif Require Import Base Core Spec SpecParse SpecGrammar.

Definition beginning {A} (l1 l : list A) : Prop := exists l2, l = l1 ++ l2.
(** The modules and the name of a handler. *)
Definition handler (r : Resource) : list str := r_modules r ++ [r_name r].
(** [cut_resource whole r1 r]: [r1] is [r] without its last query parameters, or, if not
    [whole], without query parameters and with the first words of the handler only. *)
Definition cut_resource (whole : bool) (r1 r : Resource) : Prop :=
  r_method r1 = r_method r /\ r_is_redirect r1 = r_is_redirect r /\
  (handler r1 = handler r /\ beginning (r_query r1) (r_query r) \/
   whole = false /\ r_query r1 = [] /\ beginning (handler r1) (handler r)).
(** [cut whole b1 b]: [b1] is [b] without all that comes after some place in one of its
    resources. *)
Inductive cut (whole : bool) : Routes -> Routes -> Prop :=
| cut_at_resource rs r1 r rs' children q : cut_resource whole r1 r ->
    cut whole (mkRoutes (rs ++ [r1]) [] q) (mkRoutes (rs ++ r :: rs') children q)
| cut_in_child rs seg b1 b ch ch' q : cut whole b1 b ->
    cut whole (mkRoutes rs (ch ++ [(seg, b1)]) q) (mkRoutes rs (ch ++ (seg, b) :: ch') q).
(** The rest of a file goes on with a colon. *)
Definition resumes (tail : str) : Prop := exists a t, blanks a /\ tail = a ++ c_colon :: t.
