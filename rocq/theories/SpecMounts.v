(** * SpecMounts: configurations that go together *)
From Verif Require Import Base Core Flat MiniRust Gen Spec SpecGen SpecCompile.

(** No struct of one has the module path and the name of a struct of the other. *)
Definition apart (c d : RouteConfig) : Prop :=
  forall x, In x (struct_names (c_routes c)) -> ~ In x (struct_names (c_routes d)).
(** All of a list are apart from each other. *)
Definition all_apart (l : list RouteConfig) : Prop := ForallOrdPairs apart l.
(** Code can be generated for it, or there is nothing in it. *)
Definition alone_fine (c : RouteConfig) : Prop := snd (codegen c) = ROk tt \/ empty_block (c_routes c).
(** Some block at the root has the static segment. *)
Definition occupied (c : RouteConfig) (at_ : str) : Prop := exists b, In (Static at_, b) (rt_routes (c_routes c)).
(** It declares a resource that is no redirect. *)
Definition declares (c : RouteConfig) : Prop :=
  exists p q b r, In (p, q, b) (blocks (c_routes c)) /\ In r (rt_resources b) /\ r_is_redirect r = false.

(** ** Configurations that compile together *)

(** The structs of [d] are all in a module [k] that [c] does not have, and [at_] can
    stand beside the other segments at the root of [c]. *)
Record goes_with (c : RouteConfig) (at_ : str) (d : RouteConfig) (k : str) : Prop := {
  (** the root of the host has no parameters *)
  gw_query : rt_query (c_routes c) = [];
  gw_dynamic : forall p b, ~ In (Dynamic p, b) (rt_routes (c_routes c));
  (** the mount point *)
  gw_text : forall x, In x at_ -> (x < 128)%N /\ ~ In x [c_lbrace; c_rbrace; c_quote; c_backslash; c_cr; c_nl];
  gw_prefix : forall s b, In (Static s, b) (rt_routes (c_routes c)) -> ~ is_prefix_of s at_ /\ ~ is_prefix_of at_ s;
  (** the module *)
  gw_inside : forall ms a, in_module d ms a -> exists rest, ms = k :: rest;
  gw_module : forall k', sub_module c [] k' ->
    to_snake_case k' <> to_snake_case k /\ to_caps_case k' <> to_caps_case k;
  gw_struct : forall a, in_module c [] a ->
    to_caps_case (a_name a) <> to_snake_case k /\ to_caps_case (a_name a) <> to_caps_case k;
  (** structs without fields are constants *)
  gw_none : ~ unit_in c [] (lit "None");
  gw_params : forall p q x y b, block_at (c_routes d) p q x -> In (Dynamic y, b) (rt_routes x) -> ~ unit_in c [] (p_name y)
}.
