(** * SpecTrie: what a trie holds, independently of how it is searched *)
From Coq Require Import Sorted.
From Verif Require Import Base Trie.

(** [Ord] as promised by Rust. *)
Record total_order {K} (cmp : K -> K -> comparison) : Prop := {
  ord_eq : forall a b, cmp a b = Eq <-> a = b;
  ord_sym : forall a b, cmp b a = CompOpp (cmp a b);
  ord_trans : forall a b c, cmp a b = Lt -> cmp b c = Lt -> cmp a c = Lt
}.

(** [holds t p v]: the trie maps path [p] to [v].
    [at_path t p s]: [s] is the sub-trie at [p]. *)
Inductive holds {K V} : Trie K V -> list K -> V -> Prop :=
| holds_here t v : t_data t = Some v -> holds t [] v
| holds_step t c t' p v : In (c, t') (t_children t) -> holds t' p v -> holds t (c :: p) v.
Inductive at_path {K V} : Trie K V -> list K -> Trie K V -> Prop :=
| at_here t : at_path t [] t
| at_step t c t' p s : In (c, t') (t_children t) -> at_path t' p s -> at_path t (c :: p) s.

(** The tries that additions can build. *)
Inductive built {K V} (cmp : K -> K -> comparison) : Trie K V -> Prop :=
| built_new : built cmp trie_new
| built_add t p v t' : built cmp t -> trie_add cmp t p v = inl t' -> built cmp t'.

(** Adding a list of entries, one after the other. *)
Fixpoint build {K V} (cmp : K -> K -> comparison) (t : Trie K V) (l : list (list K * V))
    : option (Trie K V) :=
  match l with
  | [] => Some t
  | (p, v) :: l' =>
      match trie_add cmp t p v with
      | inl t' => build cmp t' l'
      | inr _ => None
      end
  end.
