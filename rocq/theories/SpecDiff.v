(** * SpecDiff: what a printed difference should say *)
From Verif Require Import Base Diff.

(** The two texts that a list of operations relates, line by line. *)
Definition removed (op : diff_op) : list str :=
  match op with DRemove a | DReplace a _ => a | _ => [] end.
Definition inserted (op : diff_op) : list str :=
  match op with DInsert b | DReplace _ b => b | _ => [] end.
Definition kept (op : diff_op) : list str :=
  match op with DEqual a => a | _ => [] end.
Definition old_lines (ops : list diff_op) : list str := flat_map (fun op => kept op ++ removed op) ops.
Definition new_lines (ops : list diff_op) : list str := flat_map (fun op => kept op ++ inserted op) ops.

(** [patches i j old ks new]: from line [i] of the old and line [j] of the new
    text on, the chunks [ks] turn the lines [old] into the lines [new]. *)
Inductive patches : nat -> nat -> list str -> list chunk -> list str -> Prop :=
| patches_rest i j l : patches i j l [] l
| patches_chunk i j same op k ks old new :
    k_diff k = [op] -> kept op = [] ->
    k_old_line k = i + length same -> k_old_count k = length (removed op) ->
    k_new_line k = j + length same -> k_new_count k = length (inserted op) ->
    patches (i + length same + length (removed op)) (j + length same + length (inserted op)) old ks new ->
    patches i j (same ++ removed op ++ old) (k :: ks) (same ++ inserted op ++ new).

(** Lines with a mark in front. *)
Definition marked (mark : char) (a : list str) : str := join_with [c_nl] (map (cons mark) a).
(** Text in bold and in a colour, for a terminal (ECMA-48, select graphic rendition). *)
Definition in_bold (colour : string) (s : str) : str :=
  [27%N] ++ lit "[" ++ lit "1;" ++ lit colour ++ lit "m" ++ s ++ [27%N] ++ lit "[" ++ lit "0m".
