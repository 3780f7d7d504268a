(** * BaseFacts: proofs about Base.v and the keys of the trie *)
From Coq Require Import Sorted.
From Verif Require Import Base Flat.

Lemma str_eqb_eq a b : str_eqb a b = true <-> a = b.
Proof.
  revert b. induction a as [|x a IH]; intros [|y b]; simpl; try (split; congruence).
  rewrite andb_true_iff, N.eqb_eq, IH. split; [intros [-> ->]; auto | intros [= -> ->]; auto].
Qed.
Lemma str_eqb_refl a : str_eqb a a = true.
Proof. apply str_eqb_eq; reflexivity. Qed.
Lemma str_eqb_neq a b : str_eqb a b = false <-> a <> b.
Proof.
  rewrite <- str_eqb_eq. destruct (str_eqb a b); split; congruence.
Qed.
Lemma str_eqb_spec a b : reflect (a = b) (str_eqb a b).
Proof. apply iff_reflect. symmetry. apply str_eqb_eq. Qed.
Lemma str_eqb_sym a b : str_eqb a b = str_eqb b a.
Proof.
  destruct (str_eqb_spec a b) as [->|H]; [rewrite str_eqb_refl; reflexivity|].
  symmetry. apply str_eqb_neq. congruence.
Qed.
Lemma str_eq_dec (a b : str) : {a = b} + {a <> b}.
Proof. apply list_eq_dec, N.eq_dec. Qed.

Lemma str_compare_eq a b : str_compare a b = Eq <-> a = b.
Proof.
  revert b. induction a as [|x a IH]; intros [|y b]; simpl; try (split; congruence).
  destruct (N.compare_spec x y) as [->|H|H].
  - rewrite IH. split; congruence.
  - split; [discriminate|]. intros [= -> ->]. lia.
  - split; [discriminate|]. intros [= -> ->]. lia.
Qed.
Lemma str_compare_sym a b : str_compare b a = CompOpp (str_compare a b).
Proof.
  revert b. induction a as [|x a IH]; intros [|y b]; simpl; auto.
  rewrite (N.compare_antisym x y). destruct (N.compare x y); simpl; auto.
Qed.
Lemma str_compare_trans a b c :
  str_compare a b = Lt -> str_compare b c = Lt -> str_compare a c = Lt.
Proof.
  revert b c. induction a as [|x a IH]; intros [|y b] [|z c]; simpl; try congruence.
  destruct (N.compare_spec x y) as [->|H|H]; try congruence.
  - destruct (N.compare y z); try congruence. apply IH.
  - intros _. destruct (N.compare_spec y z) as [->|H'|H']; try congruence; intros _.
    + apply N.compare_lt_iff in H. rewrite H. reflexivity.
    + assert ((x < z)%N) as Hz by lia. apply N.compare_lt_iff in Hz. rewrite Hz. reflexivity.
Qed.

Lemma charlike_cmp_eq a b : charlike_cmp a b = Eq <-> a = b.
Proof.
  destruct a, b; simpl; try (split; congruence).
  - rewrite N.compare_eq_iff. split; congruence.
  - rewrite str_compare_eq. split; congruence.
Qed.
Lemma charlike_cmp_sym a b : charlike_cmp b a = CompOpp (charlike_cmp a b).
Proof.
  destruct a, b; simpl; auto.
  - apply N.compare_antisym.
  - apply str_compare_sym.
Qed.
Lemma charlike_cmp_trans a b c :
  charlike_cmp a b = Lt -> charlike_cmp b c = Lt -> charlike_cmp a c = Lt.
Proof.
  destruct a, b, c; simpl; try congruence.
  - rewrite !N.compare_lt_iff. lia.
  - apply str_compare_trans.
Qed.

Lemma is_prefix_iff p s : is_prefix p s = true <-> exists t, s = p ++ t.
Proof.
  revert s. induction p as [|x p IH]; intros [|y s]; simpl.
  - split; [exists []; auto | auto].
  - split; [exists (y :: s); auto | auto].
  - split; [discriminate | intros [t [=]]].
  - rewrite andb_true_iff, N.eqb_eq, IH. split.
    + intros [-> [t ->]]. exists t; auto.
    + intros [t [= -> ->]]. split; auto. exists t; auto.
Qed.

(** UTF-8 of ASCII text is the text. *)
Lemma utf8_ascii s : Forall (fun c => (c < 128)%N) s -> utf8 s = s.
Proof.
  induction 1 as [|c s Hc _ IH]; auto.
  unfold utf8 in *. simpl. rewrite IH. unfold utf8_char.
  apply N.ltb_lt in Hc. rewrite Hc. reflexivity.
Qed.
