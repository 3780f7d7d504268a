(** * Properties C13-C16: the trie *)
From Coq Require Import Sorted Permutation.
From Verif Require Import Base Core Flat Trie SpecTrie BaseFacts TrieProps.

(** C13.  A trie is a map from paths to data. *)
Theorem C13_add_succeeds_iff {K V} (cmp : K -> K -> comparison) (t : Trie K V) p v :
  total_order cmp -> built cmp t ->
  (exists t', trie_add cmp t p v = inl t') <-> (forall w, ~ holds t p w).
Proof. exact (fun ord => add_ok_iff cmp ord t p v). Qed.
Print Assumptions C13_add_succeeds_iff.

Theorem C13_add_holds {K V} (cmp : K -> K -> comparison) (t : Trie K V) p v t' :
  total_order cmp -> built cmp t -> trie_add cmp t p v = inl t' ->
  forall q w, holds t' q w <-> (q = p /\ w = v) \/ (q <> p /\ holds t q w).
Proof. exact (fun ord => add_ok cmp ord t p v t'). Qed.
Print Assumptions C13_add_holds.

Theorem C13_holds_functional {K V} (cmp : K -> K -> comparison) (t : Trie K V) p v w :
  total_order cmp -> built cmp t -> holds t p v -> holds t p w -> v = w.
Proof. exact (fun ord => holds_fun cmp ord t p v w). Qed.
Print Assumptions C13_holds_functional.

Theorem C13_build_iff {K V} (cmp : K -> K -> comparison) (l : list (list K * V)) :
  total_order cmp -> (exists t, build cmp trie_new l = Some t) <-> NoDup (map fst l).
Proof. exact (fun ord => build_iff cmp ord l). Qed.
Print Assumptions C13_build_iff.

Theorem C13_build_holds {K V} (cmp : K -> K -> comparison) (l : list (list K * V)) t :
  total_order cmp -> build cmp trie_new l = Some t -> forall p v, holds t p v <-> In (p, v) l.
Proof. exact (fun ord => build_holds cmp ord l t). Qed.
Print Assumptions C13_build_holds.

(** The keys of the library satisfy the hypothesis. *)
Example charlike_order : total_order charlike_cmp.
Proof. exact (Build_total_order _ _ charlike_cmp_eq charlike_cmp_sym charlike_cmp_trans). Qed.

Definition ex_entries : list (list Charlike * nat) :=
  [ ([], 0); (map CStatic (lit "ab"), 1); ([CStatic 97%N; CDynamic (lit "x"); CSeparator], 2);
    (map CStatic (lit "ba"), 3); (map CStatic (lit "a"), 4) ].
Example C13_example :
  exists t t', build charlike_cmp trie_new ex_entries = Some t /\ built charlike_cmp t /\
    trie_add charlike_cmp t (map CStatic (lit "b")) 5 = inl t' /\
    exists e, trie_add charlike_cmp t (map CStatic (lit "ba")) 5 = inr e.
Proof.
  eexists; eexists. split; [reflexivity|]. split.
  - apply (build_built charlike_cmp ex_entries trie_new); [constructor|reflexivity].
  - split; [reflexivity|]. eexists; reflexivity.
Qed.

(** C14.  Children are strictly sorted, leaves below the root hold data. *)
Theorem C14_nodes {K V} (cmp : K -> K -> comparison) (t : Trie K V) p s :
  total_order cmp -> built cmp t -> at_path t p s ->
  StronglySorted (fun a b => cmp a b = Lt) (map fst (t_children s)) /\
  (t_children s = [] -> p <> [] -> exists v, t_data s = Some v).
Proof. exact (fun ord => built_nodes cmp ord t p s). Qed.
Print Assumptions C14_nodes.

Example C14_example :
  exists t s : Trie Charlike nat, built charlike_cmp t /\ at_path t [CStatic 97%N] s /\ length (t_children s) = 2.
Proof.
  destruct (build charlike_cmp trie_new ex_entries) as [t|] eqn:E; [|discriminate].
  exists t. eexists. split; [apply (build_built charlike_cmp ex_entries trie_new); [constructor|exact E]|].
  vm_compute in E. injection E as <-.
  split; [eapply at_step; [left; reflexivity|apply at_here]|reflexivity].
Qed.

(** C15.  The documentation (gen/trie.rs:41-42) promises the old trie back when
    an addition fails. *)
Theorem C15_old_trie_refuted :
  exists (t s : Trie Charlike nat) p v,
    built charlike_cmp t /\ trie_add charlike_cmp t p v = inr (s, v) /\ s <> t.
Proof.
  exists (mkTrie None [(CStatic 97%N, mkTrie (Some 1) [])]), (mkTrie (Some 1) []), [CStatic 97%N], 2.
  split; [|split; [reflexivity|discriminate]].
  apply (build_built charlike_cmp [([CStatic 97%N], 1)] trie_new); [constructor|reflexivity].
Qed.
Print Assumptions C15_old_trie_refuted.

(** What holds instead. *)
Theorem C15_failed_add {K V} (cmp : K -> K -> comparison) (t : Trie K V) p v s v' :
  total_order cmp -> built cmp t -> trie_add cmp t p v = inr (s, v') ->
  v' = v /\ at_path t p s /\ exists w, holds t p w.
Proof. exact (fun ord => add_fail cmp ord t p v s v'). Qed.
Print Assumptions C15_failed_add.

(** C16.  The order of additions does not matter. *)
Theorem C16_order {K V} (cmp : K -> K -> comparison) (l1 l2 : list (list K * V)) t :
  total_order cmp -> Permutation l1 l2 ->
  build cmp trie_new l1 = Some t -> build cmp trie_new l2 = Some t.
Proof. exact (fun ord => build_perm cmp ord l1 l2 t). Qed.
Print Assumptions C16_order.

(** Tries that hold the same are equal, however they were built. *)
Theorem C16_canonical {K V} (cmp : K -> K -> comparison) (t1 t2 : Trie K V) :
  total_order cmp -> built cmp t1 -> built cmp t2 ->
  (forall p v, holds t1 p v <-> holds t2 p v) -> t1 = t2.
Proof. exact (fun ord => built_ext cmp ord t1 t2). Qed.
Print Assumptions C16_canonical.

Example C16_example :
  exists t, build charlike_cmp trie_new ex_entries = Some t /\
            build charlike_cmp trie_new (rev ex_entries) = Some t.
Proof. eexists. split; reflexivity. Qed.
