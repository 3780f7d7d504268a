(** * SpecErrors: where a position of a text is, and how it is reported *)
From Coq Require Import DecimalString.
From Verif Require Import Base Errors.

(** The position after [u] in [u ++ v]: line [n], whose text is [line], and column
    [col], both counted from 1. *)
Definition located (u v : str) (n : nat) (line : str) (col : nat) : Prop :=
  exists above l1 l2 below,
    u = above ++ l1 /\ v = l2 ++ below /\
    (above = [] \/ exists a, above = a ++ [c_nl]) /\ (below = [] \/ exists b, below = c_nl :: b) /\
    ~ In c_nl l1 /\ ~ In c_nl l2 /\
    n = 1 + count_occ N.eq_dec above c_nl /\ line = l1 ++ l2 /\ col = 1 + length l1.

(** The report: the line with its number, and below it the caret and the message. *)
Definition number (n : nat) : str := lit (NilZero.string_of_uint (Nat.to_uint n)).
Definition spaces (n : nat) : str := repeat c_space n.
Definition report_line (prefix : str) (n : nat) (line : str) : str :=
  prefix ++ spaces (4 - length (number n)) ++ number n ++ lit ":" ++ line.
Definition report_caret (prefix : str) (col : nat) : str :=
  prefix ++ spaces 5 ++ spaces (col - 1).
Definition report (prefix msg : str) (n : nat) (line : str) (col : nat) : str :=
  report_line prefix n line ++ [c_nl] ++ report_caret prefix col ++ lit "^ " ++ msg ++ [c_nl].
(** What is said about an error: the text registered for its code, or nom's own
    name for it. *)
Inductive message (debug_kind : error_kind -> str) (errors : list str) : error_kind -> str -> Prop :=
| message_known n msg : nth_error errors (N.to_nat n) = Some msg -> message debug_kind errors (Custom n) msg
| message_unknown n : length errors <= N.to_nat n ->
    message debug_kind errors (Custom n) (lit "Unknown error #" ++ number (N.to_nat n))
| message_nom name : message debug_kind errors (Builtin name) (debug_kind (Builtin name)).
(** An item of a list of errors, reported at its place. *)
Definition reported (debug_kind : error_kind -> str) (errors : list str) (buf prefix : str)
    (ie : str * error_kind) (text : str) : Prop :=
  exists u n line col msg, buf = u ++ fst ie /\ located u (fst ie) n line col /\ message debug_kind errors (snd ie) msg /\
    text = report prefix msg n line col.
(** What is said when there is no list: about the first line. *)
Inductive unlisted (debug_kind : error_kind -> str) (debug_context : context -> str) : nom_result -> str -> Prop :=
| unlisted_error i e : unlisted debug_kind debug_context (NError (Code i e)) (lit "error " ++ debug_kind e)
| unlisted_failure i e : unlisted debug_kind debug_context (NFailure (Code i e)) (lit "failure " ++ debug_context (Code i e))
| unlisted_incomplete : unlisted debug_kind debug_context NIncomplete (lit "xyzzy").
