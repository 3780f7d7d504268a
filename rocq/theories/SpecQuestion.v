(** * SpecQuestion: characters that cannot be in a name *)
From Verif Require Import Base Core.

Definition c_question : byte := 63%N.
(** ASCII, but no letter, digit, underscore or slash: [?], [.], [-], [%], [#], and so on. *)
Definition special (x : byte) : Prop :=
  (x < 128)%N /\ x <> 95%N /\ x <> 47%N /\
  ~ (48 <= x <= 57)%N /\ ~ (65 <= x <= 90)%N /\ ~ (97 <= x <= 122)%N.
(** A configuration without path parameters. *)
Definition no_params (b : Routes) : Prop := forall p child, ~ In (Dynamic p, child) (rt_routes b).
