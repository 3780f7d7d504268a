(** * CallsThms: the last call of each kind counts *)
From Verif Require Import Base Core Gen Build SpecCalls.

Definition over {A} (new old : option A) : option A := match new with Some _ => new | None => old end.

Lemma make_calls_app l l' b : make_calls (l ++ l') b = make_calls l' (make_calls l b).
Proof. apply fold_left_app. Qed.
Lemma calls_kept l b : b_use_cargo (make_calls l b) = b_use_cargo b /\ b_source_dir (make_calls l b) = b_source_dir b /\
  b_target_dir (make_calls l b) = b_target_dir b.
Proof.
  revert b. induction l as [|k l IH]; intros b; [auto|]. unfold make_calls in *. cbn [fold_left].
  destruct (IH (make_call b k)) as (-> & -> & ->). destruct k; auto.
Qed.
Lemma no_input l b : (forall k a, In k l -> ~ is_input k a) -> b_source (make_calls l b) = b_source b.
Proof.
  revert b. induction l as [|k l IH]; intros b H; [reflexivity|]. unfold make_calls in *. cbn [fold_left].
  rewrite IH by (intros k' a' Hk; apply H; right; exact Hk).
  destruct k; try reflexivity; [destruct (H _ _ (or_introl eq_refl) (input_is_file _))|destruct (H _ _ (or_introl eq_refl) (input_is_config _))].
Qed.
Lemma no_output l b : (forall k a, In k l -> ~ is_output k a) -> b_target (make_calls l b) = b_target b.
Proof.
  revert b. induction l as [|k l IH]; intros b H; [reflexivity|]. unfold make_calls in *. cbn [fold_left].
  rewrite IH by (intros k' a' Hk; apply H; right; exact Hk).
  destruct k; try reflexivity; [destruct (H _ _ (or_introl eq_refl) (output_is_file _))|destruct (H _ _ (or_introl eq_refl) output_is_stdout)].
Qed.
Lemma last_input l s b : last_of is_input l s -> b_source (make_calls l b) = over s (b_source b).
Proof.
  intros [l' H|l1 k l2 a Hk H]; [apply no_input; exact H|].
  rewrite make_calls_app. change (k :: l2) with ([k] ++ l2). rewrite make_calls_app, no_input by exact H.
  destruct Hk; reflexivity.
Qed.
Lemma last_output l t b : last_of is_output l t -> b_target (make_calls l b) = over t (b_target b).
Proof.
  intros [l' H|l1 k l2 a Hk H]; [apply no_output; exact H|].
  rewrite make_calls_app. change (k :: l2) with ([k] ++ l2). rewrite make_calls_app, no_output by exact H.
  destruct Hk; reflexivity.
Qed.
Lemma calls_last l b s t : last_of is_input l s -> last_of is_output l t ->
  make_calls l b = mkBuilder (b_use_cargo b) (b_source_dir b) (over s (b_source b)) (b_target_dir b) (over t (b_target b)).
Proof.
  intros Hs Ht. pose proof (last_input l s b Hs) as E1. pose proof (last_output l t b Ht) as E2.
  destruct (calls_kept l b) as (E3 & E4 & E5). destruct (make_calls l b). cbn in *. subst. reflexivity.
Qed.
Lemma calls_fresh l b s t : b_source b = None -> b_target b = None -> last_of is_input l s -> last_of is_output l t ->
  make_calls l b = mkBuilder (b_use_cargo b) (b_source_dir b) s (b_target_dir b) t.
Proof. intros Es Et Hs Ht. rewrite (calls_last l b s t Hs Ht), Es, Et. destruct s, t; reflexivity. Qed.
Lemma calls_same l l' b s t : last_of is_input l s -> last_of is_output l t -> last_of is_input l' s -> last_of is_output l' t ->
  make_calls l b = make_calls l' b.
Proof. intros. rewrite (calls_last l b s t), (calls_last l' b s t) by assumption. reflexivity. Qed.
(** The kind of a call is known. *)
Lemma last_exists {A} (kind : call -> A -> Prop) : (forall k, (exists a, kind k a) \/ forall a, ~ kind k a) ->
  forall l, exists x, last_of kind l x.
Proof.
  intros D l. induction l as [|k l (x & IH)] using rev_ind; [exists None; constructor; intros ? ? []|].
  destruct (D k) as [(a & Ha)|Hn].
  - exists (Some a). apply (last_some kind l k [] a Ha). intros ? ? [].
  - exists x. destruct IH as [l' H|l1 k0 l2 a Hk H].
    + constructor. intros k' a Hin. apply in_app_or in Hin as [Hin|[<-|[]]]; [apply H; exact Hin|apply Hn].
    + rewrite <- app_assoc. cbn [app]. apply last_some; [exact Hk|].
      intros k' a' Hin. apply in_app_or in Hin as [Hin|[<-|[]]]; [apply H; exact Hin|apply Hn].
Qed.
Lemma inputs_known k : (exists a, is_input k a) \/ forall a, ~ is_input k a.
Proof. destruct k; [left; eexists; constructor|left; eexists; constructor|right; intros a H; inversion H|right; intros a H; inversion H]. Qed.
Lemma outputs_known k : (exists a, is_output k a) \/ forall a, ~ is_output k a.
Proof. destruct k; [right; intros a H; inversion H|right; intros a H; inversion H|left; eexists; constructor|left; eexists; constructor]. Qed.
Lemma calls_known l : exists s t, last_of is_input l s /\ last_of is_output l t.
Proof.
  destruct (last_exists is_input inputs_known l) as (s & Hs). destruct (last_exists is_output outputs_known l) as (t & Ht).
  exists s, t. auto.
Qed.
(** Without a call of a kind nothing is read, created or written. *)
Lemma calls_missing wo l b : b_source b = None -> b_target b = None ->
  (forall k a, In k l -> ~ is_input k a) \/ (forall k a, In k l -> ~ is_output k a) ->
  exists msg, build wo (make_calls l b) = ([Stderr msg], Exited 101).
Proof.
  intros Es Et [H|H]; unfold build.
  - rewrite (no_input l b H), Es. eexists. reflexivity.
  - rewrite (no_output l b H), Et. destruct (b_source (make_calls l b)); eexists; reflexivity.
Qed.
