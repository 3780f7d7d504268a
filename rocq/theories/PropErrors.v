(** * Properties C52 and C53: error messages *)
From Verif Require Import Base Errors SpecErrors ErrorFacts.

(** ** C52: the registry *)
(** Once [err_str!] has given a code for a site, every later look-up of the code, by
    any thread, finds the message of that site. *)
Theorem C52_lookup msg sites tr st :
  (N.of_nat sites <= 2 ^ 32)%N -> exec msg sites tr st ->
  forall tr1 t s c tr2 t' r, tr = tr1 ++ EUse t s c :: tr2 -> In (ELook t' c r) tr2 -> r = Some (msg s).
Proof. exact (fun Hs H => match exec_facts msg sites Hs tr st H with ex_intro _ _ (conj _ (conj _ P)) => P end). Qed.
Print Assumptions C52_lookup.
(** The same for the content of the registry. *)
Theorem C52_registered msg sites tr st t s c :
  (N.of_nat sites <= 2 ^ 32)%N -> exec msg sites tr st -> In (EUse t s c) tr ->
  get_error (st_errors st) c = Some (msg s).
Proof. exact (fun Hs => exec_state msg sites Hs tr st t s c). Qed.
Print Assumptions C52_registered.
(** A site always gives the same code, and no two sites share one. *)
Theorem C52_codes msg sites tr st t s c t' s' c' :
  (N.of_nat sites <= 2 ^ 32)%N -> exec msg sites tr st -> In (EUse t s c) tr -> In (EUse t' s' c') tr ->
  (s = s' <-> c = c').
Proof. exact (fun Hs => exec_codes msg sites Hs tr st t s c t' s' c'). Qed.
Print Assumptions C52_codes.
(** Each site registers its message at most once, and only when it is used. *)
Theorem C52_once msg sites tr st :
  (N.of_nat sites <= 2 ^ 32)%N -> exec msg sites tr st ->
  exists order, st_errors st = map msg order /\ NoDup order /\
    (forall s, In s order -> s < sites /\ st_once st s <> Fresh).
Proof. exact (fun Hs => exec_once msg sites Hs tr st). Qed.
Print Assumptions C52_once.
(** No deadlock: when a thread is in the middle of an operation, that thread or the
    one holding the lock can take a step. *)
Theorem C52_progress msg sites tr st t :
  (N.of_nat sites <= 2 ^ 32)%N -> exec msg sites tr st -> st_pc st t <> Idle ->
  exists t' ev st', step msg sites st ev st' /\ st_pc st t' <> Idle /\ st_pc st' t' <> st_pc st t' /\
    (t' = t \/ st_lock st = Some t').
Proof. exact (fun Hs => exec_progress msg sites Hs tr st t). Qed.
Print Assumptions C52_progress.

(** The messages of parse/mod.rs. *)
Definition messages (s : nat) : str :=
  nth s [ lit "Expected "":"""; lit "Expected a ""}"""; lit "Expected a ""]"""; lit "Expected a newline";
          lit "Expected resources or child routes"; lit "In routes starting here" ] [].
Ltac quiet H tac :=
  let H' := fresh in eassert (H' : exec _ _ _ _) by (eapply exec_silent; [exact H|tac; first [lia|reflexivity]]); clear H; rename H' into H;
  unfold init in H; cbn [st_errors st_lock st_once st_pc app length] in H.
Ltac loud H tac :=
  let H' := fresh in eassert (H' : exec _ _ _ _) by (eapply exec_step; [exact H|tac; reflexivity]); clear H; rename H' into H;
  unfold init in H; cbn [st_errors st_lock st_once st_pc app length] in H.
(** Thread 0 is first to use a site, but thread 1 overtakes it and registers first. *)
Example C52_example : exists st,
  exec messages 6 [EUse 1 3 0; EUse 0 5 1; ELook 1 1 (Some (lit "In routes starting here")); EUse 1 5 1] st /\
  st_errors st = [lit "Expected a newline"; lit "In routes starting here"].
Proof.
  pose proof (exec_init messages 6) as H.
  quiet H ltac:(eapply step_first with (t:=0) (s:=5)).
  quiet H ltac:(eapply step_first with (t:=1) (s:=3)).
  quiet H ltac:(eapply step_lock with (t:=1)).
  quiet H ltac:(eapply step_len with (t:=1)).
  quiet H ltac:(eapply step_push with (t:=1)).
  quiet H ltac:(eapply step_unlock with (t:=1)).
  quiet H ltac:(eapply step_lock with (t:=0)).
  loud H ltac:(eapply step_done with (t:=1)).
  quiet H ltac:(eapply step_len with (t:=0)).
  quiet H ltac:(eapply step_push with (t:=0)).
  quiet H ltac:(eapply step_unlock with (t:=0)).
  loud H ltac:(eapply step_done with (t:=0)).
  quiet H ltac:(eapply step_look with (t:=1) (code:=1%N)).
  quiet H ltac:(eapply step_look_lock with (t:=1)).
  loud H ltac:(eapply step_looked with (t:=1)).
  loud H ltac:(eapply step_again with (t:=1) (s:=5)).
  eexists. split; [exact H|reflexivity].
Qed.

(** ** C53: the place of an error *)
Theorem C53_show_error u v msg prefix :
  exists n line col, located u v n line col /\
    show_error (u ++ v) (str_len u) msg prefix = Some (report prefix msg n line col).
Proof. exact (show_error_at u v msg prefix). Qed.
Print Assumptions C53_show_error.
(** The line and the column are determined by the position. *)
Theorem C53_located u v n line col n' line' col' :
  located u v n line col -> located u v n' line' col' -> n = n' /\ line = line' /\ col = col'.
Proof. exact (located_fun u v n line col n' line' col'). Qed.
Print Assumptions C53_located.
(** Up to line 9999 the caret stands under the character at the position: what is
    above and to the right of it is the line from the position on. *)
Theorem C53_caret u v n line col prefix :
  located u v n line col -> length (number n) <= 4 ->
  skipn (length (report_caret prefix col)) (report_line prefix n line) = skipn (col - 1) line.
Proof. exact (caret_aligned u v n line col prefix). Qed.
Print Assumptions C53_caret.
(** From line 10000 on it does not. *)
Theorem C53_caret_late_refuted :
  exists u v n line col prefix, located u v n line col /\
    skipn (length (report_caret prefix col)) (report_line prefix n line) <> skipn (col - 1) line.
Proof. exact caret_late. Qed.
Print Assumptions C53_caret_late_refuted.
(** [show_errors] reports every item of a list of errors at its place, the last
    first, and does not panic. *)
Theorem C53_show_errors debug_kind debug_context errors buf prefix v result :
  result = NError (CList v) \/ result = NFailure (CList v) ->
  Forall (fun ie => exists u, buf = u ++ fst ie) v ->
  exists texts, show_errors debug_kind debug_context errors buf result prefix = Some (concat texts) /\
    Forall2 (reported debug_kind errors buf prefix) (rev v) texts.
Proof. exact (show_errors_ok debug_kind debug_context errors buf prefix v result). Qed.
Print Assumptions C53_show_errors.
Theorem C53_unlisted debug_kind debug_context errors buf prefix result msg :
  unlisted debug_kind debug_context result msg ->
  exists line, located [] buf 1 line 1 /\
    show_errors debug_kind debug_context errors buf result prefix = Some (report prefix msg 1 line 1).
Proof. exact (show_unlisted debug_kind debug_context errors buf prefix result msg). Qed.
Print Assumptions C53_unlisted.
(** There is one message for each error. *)
Theorem C53_message debug_kind errors e : exists m, forall m', message debug_kind errors e m' <-> m' = m.
Proof. exact (message_unique debug_kind errors e). Qed.
Print Assumptions C53_message.
Definition sample : str := lit "/" ++ [c_nl] ++ lit "  GET x" ++ [c_nl] ++ lit "  {" ++ [233%N] ++ lit " u32}" ++ [c_nl].
Example C53_example :
  show_error sample 16 (lit "Expected "":""") [] =
    Some (lit "   3:  {" ++ [233%N] ++ lit " u32}" ++ [c_nl] ++ lit "          ^ Expected "":""" ++ [c_nl]) /\
  (* in the middle of a character *)
  show_error sample 14 (lit "Expected "":""") [] = None.
Proof. vm_compute. split; reflexivity. Qed.
