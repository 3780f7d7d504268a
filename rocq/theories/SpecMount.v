(** * SpecMount: the answer of a mounted configuration *)
From Verif Require Import Base Core Flat MiniRust Gen Spec SpecMatch.

(** A route with further query parameters, all [None], before its own ones. *)
Fixpoint insert_none {T} (names : list str) (fs : list (str * fval T)) : list (str * fval T) :=
  match fs with
  | (x, FvNone) :: _ => map (fun n => (n, FvNone)) names ++ fs
  | f :: fs' => f :: insert_none names fs'
  | [] => map (fun n => (n, FvNone)) names
  end.
Definition with_query {T} (q : list Param) (v : route_value T) : route_value T :=
  mkRoute (rv_modules v) (rv_name v) (insert_none (map p_name q) (rv_fields v)).
Definition answer_with_query {T E} (q : list Param) (r : run_result T E) : run_result T E :=
  match r with
  | RunResult (MRoute v) => RunResult (MRoute (with_query q v))
  | RunResult (MRedirect v) => RunResult (MRedirect (with_query q v))
  | r => r
  end.
(** The first segment of a request path. *)
Definition first_segment (path : bytes) : bytes := fst (segment (no_slash path)).
