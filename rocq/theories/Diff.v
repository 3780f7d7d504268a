(** * Diff: model of wayfinder-tests/src/diff.rs

    The difference itself comes from prettydiff (external): a list of operations
    on lines, [LineChangeset::diff]. *)
From Verif Require Import Base Errors.

Inductive diff_op :=
| DEqual (a : list str)
| DInsert (a : list str)
| DRemove (a : list str)
| DReplace (a b : list str).

(** diff.rs:28-36.  The names are the same for all chunks. *)
Record chunk := mkChunk {
  k_old_line : nat;
  k_old_count : nat;
  k_new_line : nat;
  k_new_count : nat;
  k_diff : list diff_op
}.

(** diff.rs:96-152, [to_chunks]: the loop, from the line counters. *)
Fixpoint to_chunks_from (old_line new_line : nat) (ops : list diff_op) : list chunk :=
  match ops with
  | [] => []
  | DEqual a :: ops' => to_chunks_from (old_line + length a) (new_line + length a) ops'
  | DInsert a :: ops' =>
      mkChunk old_line 0 new_line (length a) [DInsert a]
        :: to_chunks_from old_line (new_line + length a) ops'
  | DRemove a :: ops' =>
      mkChunk old_line (length a) new_line 0 [DRemove a]
        :: to_chunks_from (old_line + length a) new_line ops'
  | DReplace a b :: ops' =>
      mkChunk old_line (length a) new_line (length b) [DReplace a b]
        :: to_chunks_from (old_line + length a) (new_line + length b) ops'
  end.
Definition to_chunks (ops : list diff_op) : list chunk := to_chunks_from 1 1 ops.

(** [Colour::..].bold().paint(..)] of ansi_term, with the number of the colour. *)
Definition bold (colour : string) (s : str) : str :=
  27%N :: lit "[1;" ++ lit colour ++ lit "m" ++ s ++ 27%N :: lit "[0m".
(** [a.join(sep)]. *)
Fixpoint join_with (sep : str) (a : list str) : str :=
  match a with
  | [] => []
  | [x] => x
  | x :: a' => x ++ sep ++ join_with sep a'
  end.
(** diff.rs:39-66. *)
Definition chunk_header (old_name new_name : str) (k : chunk) : str :=
  bold "33" (lit "--- " ++ old_name ++ [c_nl] ++ lit "+++ " ++ new_name ++ [c_nl]
    ++ lit "@@ -" ++ decimal (k_old_line k) ++ lit "," ++ decimal (k_old_count k)
    ++ lit " +" ++ decimal (k_new_line k) ++ lit "," ++ decimal (k_new_count k) ++ lit " @@").
Definition removal (a : list str) : str := bold "31" (lit "-" ++ join_with (c_nl :: lit "-") a).
Definition insertion (a : list str) : str := bold "32" (lit "+" ++ join_with (c_nl :: lit "+") a).
(** diff.rs:69-87, [Display] for [DiffChunk]. *)
Definition op_display (op : diff_op) : str :=
  match op with
  | DEqual _ => []
  | DInsert a => insertion a ++ [c_nl]
  | DRemove a => removal a ++ [c_nl]
  | DReplace a b => removal a ++ [c_nl] ++ insertion b ++ [c_nl]
  end.
Definition chunk_display (old_name new_name : str) (k : chunk) : str :=
  chunk_header old_name new_name k ++ [c_nl] ++ concat (map op_display (k_diff k)).
(** diff.rs:155-163, [Display] for [TestDiff]. *)
Definition diff_display (old_name new_name : str) (ops : list diff_op) : str :=
  concat (map (fun k => chunk_display old_name new_name k ++ [c_nl]) (to_chunks ops)).

(** diff.rs:15-25, [TestResult::assert].  [diff_lines] is prettydiff's.  What is
    printed on standard error, and whether the assertion passes. *)
Definition test_assert (diff_lines : str -> str -> list diff_op) (expected actual : str) : str * bool :=
  if str_eqb expected actual then ([], true)
  else (diff_display (lit "expected") (lit "actual") (diff_lines expected actual) ++ [c_nl], false).
