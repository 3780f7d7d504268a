(** * Trie: model of wayfinder/src/gen/trie.rs *)
From Verif Require Import Base.

(** gen/trie.rs:3-11, [struct Trie]. *)
Inductive Trie (K V : Type) :=
  mkTrie (data : option V) (children : list (K * Trie K V)).
Arguments mkTrie {K V} data children.

Definition t_data {K V} (t : Trie K V) : option V := match t with mkTrie d _ => d end.
Definition t_children {K V} (t : Trie K V) : list (K * Trie K V) :=
  match t with mkTrie _ c => c end.

(** gen/trie.rs:24-29, [Trie::new]. *)
Definition trie_new {K V} : Trie K V := mkTrie None [].

(** [Vec::insert]; callers use in-range positions only. *)
Definition vec_insert {A} (i : nat) (x : A) (l : list A) : list A :=
  firstn i l ++ x :: skipn i l.
(** [Vec::remove], result without the element. *)
Definition vec_remove {A} (i : nat) (l : list A) : list A :=
  firstn i l ++ skipn (S i) l.

Section Trie.
Context {K V : Type}.
(** [Ord for K]. *)
Variable cmp : K -> K -> comparison.

(** The loop of [slice::binary_search_by] (core::slice, Rust 1.3x), called
    through [binary_search_by_key] with key [c]: [f] compares an element with
    [c].  [size] bounds the number of rounds. *)
Fixpoint bsearch_loop (fuel : nat) (l : list (K * Trie K V)) (c : K) (base size : nat) : nat :=
  match fuel with
  | O => base
  | S fuel' =>
      if (1 <? size)%nat then
        let half := Nat.div size 2 in
        let mid := base + half in
        let base' :=
          match nth_error l mid with
          | Some (k, _) => match cmp k c with Gt => base | _ => mid end
          | None => base                                  (* not reached: mid < len *)
          end in
        bsearch_loop fuel' l c base' (size - half)
      else base
  end.

(** [inl i] is [Ok(i)], [inr i] is [Err(i)]. *)
Definition binary_search (l : list (K * Trie K V)) (c : K) : nat + nat :=
  match l with
  | [] => inr 0
  | _ =>
      let base := bsearch_loop (length l) l c 0 (length l) in
      match nth_error l base with
      | Some (k, _) =>
          match cmp k c with
          | Eq => inl base
          | Lt => inr (S base)
          | Gt => inr base
          end
      | None => inr base                                  (* not reached: base < len *)
      end
  end.

(** gen/trie.rs:41-81, [Trie::add].  [inl] is [Ok], [inr] is [Err]. *)
Fixpoint trie_add (self : Trie K V) (path : list K) (data : V) {struct path}
    : Trie K V + (Trie K V * V) :=
  match path with
  | [] =>
      match t_data self with
      | Some _ => inr (self, data)
      | None => inl (mkTrie (Some data) (t_children self))
      end
  | c :: path' =>
      match binary_search (t_children self) c with
      | inr i =>
          match trie_add trie_new path' data with
          | inl tr => inl (mkTrie (t_data self) (vec_insert i (c, tr) (t_children self)))
          | inr e => inr e
          end
      | inl i =>
          match nth_error (t_children self) i with
          | Some (_, tr) =>
              let children' := vec_remove i (t_children self) in
              match trie_add tr path' data with
              | inl tr' => inl (mkTrie (t_data self) (vec_insert i (c, tr') children'))
              | inr e => inr e
              end
          | None => inr (self, data)                      (* not reached: i < len *)
          end
      end
  end.

End Trie.

(** Height of a trie, used as fuel by the code generator. *)
Fixpoint trie_height {K V} (t : Trie K V) : nat :=
  match t with
  | mkTrie _ children =>
      S (fold_right Nat.max 0 (map (fun kc => match kc with (_, c) => trie_height c end) children))
  end.
