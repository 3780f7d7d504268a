(** * SpecMountPoint: requests below a mount point *)
From Verif Require Import Base Core Spec SpecMatch.

(** The path, without a slash in front, begins with the text of the mount point, and
    ends there or goes on with a slash. *)
Definition under (at_ : str) (path : bytes) : Prop :=
  exists tail, no_slash path = at_ ++ tail /\ (tail = [] \/ exists t, tail = c_slash :: t).
(** Nothing but [d] mounted at [at_]. *)
Definition only (at_ : str) (d : RouteConfig) : RouteConfig := mount (mkConfig [] (mkRoutes [] [] [])) at_ d.
