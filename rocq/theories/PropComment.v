(** * Property C96: comments *)
From Verif Require Import Base Core Nom Parse SpecParse SpecComment CommentThms Examples.

(** An accepted file has one line that begins with a slash.  After it, there are only the
    characters of names, white space, brackets, colons and arrows. *)
Theorem C96_characters ualnum text c : route_config_p ualnum text = POk [] c -> exists before after,
  text = before ++ c_slash :: after /\ line_start before /\ (forall u v, before = u ++ c_slash :: v -> ~ line_start u) /\
  Forall (route_char ualnum) after.
Proof. exact (accepted_shape ualnum text c). Qed.
Print Assumptions C96_characters.
(** So a line that begins with a slash and goes on, such as a comment, makes any file be
    rejected, wherever it is. *)
Theorem C96_lines ualnum before x after : line_start before -> x <> c_nl -> x <> c_cr ->
  ~ exists c, route_config_p ualnum (before ++ c_slash :: x :: after) = POk [] c.
Proof. exact (accepted_comment ualnum before x after). Qed.
Print Assumptions C96_lines.
(** Within a line, a slash is accepted only before the line with the slash, where it
    belongs to the header: a comment is copied to the generated module. *)
Theorem C96_slash ualnum before after c : route_config_p ualnum (before ++ c_slash :: after) = POk [] c -> ~ line_start before ->
  (exists h, In h (c_headers c) /\ In c_slash (h_text h)) /\ exists u v, after = u ++ c_nl :: c_slash :: v.
Proof. exact (accepted_slash ualnum before after c). Qed.
Print Assumptions C96_slash.
(** The same for all other characters that routes do not have. *)
Theorem C96_others ualnum before x after c : ~ route_char ualnum x -> x <> c_slash ->
  route_config_p ualnum (before ++ x :: after) = POk [] c ->
  (exists h, In h (c_headers c) /\ In x (h_text h)) /\ exists u v, after = u ++ c_nl :: c_slash :: v.
Proof. exact (accepted_mark ualnum before x after c). Qed.
Print Assumptions C96_others.

Definition accepted (text : list String.string) : bool :=
  match route_config_p (fun _ => false) (file text) with POk [] _ => true | _ => false end.
Example C96_example :
  accepted ["use a::B; // books"; " // routes"; "/"; "  GET index"]%string = true /\
  accepted ["// routes"; "/"; "  GET index"]%string = false /\
  accepted ["/ // routes"; "  GET index"]%string = false /\
  accepted ["/"; "  GET index // routes"]%string = false /\
  accepted ["/"; "  GET index"; "  // routes"]%string = false /\
  accepted ["/"; "  GET index"; "// routes"]%string = false /\
  accepted ["# routes"; "/"; "  GET index"]%string = true /\
  accepted ["/"; "  # routes"; "  GET index"]%string = false /\
  c_headers (read ["use a::B; // books"; " // routes"; "/"; "  GET index"]%string) =
    [mkHeader (lit "use a::B; // books"); mkHeader (lit " // routes")].
Proof. repeat split; vm_compute; reflexivity. Qed.
Example C96_char_example : ~ route_char (fun _ => false) 35%N /\ route_char (fun _ => false) 62%N /\
  ~ route_char (fun _ => false) 228%N /\ route_char (N.eqb 228) 228%N /\
  line_start (file ["/"; "  GET index"]%string) /\ ~ line_start (lit "  GET index ").
Proof.
  assert (K : forall x, (x = 35 \/ x = 228)%N -> ~ route_char (fun _ => false) x).
  { intros x Hx [H|[H|H]].
    - unfold ident_char in H. destruct Hx; subst x; intuition (try lia; try discriminate).
    - destruct Hx; subst x; discriminate H.
    - destruct Hx; subst x; vm_compute in H; intuition discriminate. }
  split; [apply K; left; reflexivity|]. split; [right; right; vm_compute; tauto|].
  split; [apply K; right; reflexivity|]. split; [left; do 4 right; split; [discriminate|reflexivity]|].
  split; [right; eexists; change (file ["/"; "  GET index"]%string) with (lit "/" ++ [c_nl] ++ lit "  GET index" ++ [c_nl]);
    rewrite !app_assoc; reflexivity|].
  intros [H|[u H]]; [discriminate H|]. apply (f_equal (fun l => last l 0%N)) in H. rewrite last_last in H. discriminate H.
Qed.
