(** * Property C97: any text as a mount point *)
From Verif Require Import Base Core Flat MiniRust Gen Spec SpecMatch SpecMount SpecMountPoint MountPointThms MatchThms Examples.

(** A mount point may be several segments: mounting at [a/b] is mounting at [b] and the
    result at [a], for all requests. *)
Theorem C97_segments {T E} (rt : runtime T E) c a b d path method :
  runnable (mount c (a ++ c_slash :: b) d) -> runnable (mount c a (only b d)) ->
  dynamic_children (rt_routes (c_routes c)) = [] ->
  match_route rt (mount c (a ++ c_slash :: b) d) path method = match_route rt (mount c a (only b d)) path method.
Proof. exact (point_segments rt c a b d path method). Qed.
Print Assumptions C97_segments.
(** Requests that are not below the mount point, whatever text it is, are answered as by
    the host. *)
Theorem C97_elsewhere {T E} (rt : runtime T E) c at_ d path method :
  runnable (mount c at_ d) -> runnable c -> dynamic_children (rt_routes (c_routes c)) = [] -> ~ under at_ path ->
  match_route rt (mount c at_ d) path method = match_route rt c path method.
Proof. exact (point_elsewhere rt c at_ d path method). Qed.
Print Assumptions C97_elsewhere.
(** So a mount point with a slash in front is not what is meant: no request with one
    slash in front is served by the mounted routes. *)
Theorem C97_leading {T E} (rt : runtime T E) c a d x p method :
  runnable (mount c (c_slash :: a) d) -> runnable c -> dynamic_children (rt_routes (c_routes c)) = [] -> x <> c_slash ->
  match_route rt (mount c (c_slash :: a) d) (c_slash :: x :: p) method = match_route rt c (c_slash :: x :: p) method.
Proof. exact (point_leading rt c a d x p method). Qed.
Print Assumptions C97_leading.
(** Nor is one with a slash behind. *)
Theorem C97_trailing {T E} (rt : runtime T E) c a d x p method :
  runnable (mount c (a ++ [c_slash]) d) -> runnable c -> dynamic_children (rt_routes (c_routes c)) = [] -> x <> c_slash ->
  match_route rt (mount c (a ++ [c_slash]) d) (c_slash :: a ++ c_slash :: x :: p) method =
  match_route rt c (c_slash :: a ++ c_slash :: x :: p) method.
Proof. exact (point_trailing rt c a d x p method). Qed.
Print Assumptions C97_trailing.

Definition site : RouteConfig := read ["/"; "  [lang: String]"; "  GET home"; "  about"; "    GET about"]%string.
Definition api : RouteConfig := read ["/"; "  GET index"; "  {id: u32}"; "    GET show"]%string.
Example C97_example :
  runnable (mount site (lit "api/v2") api) /\ runnable (mount site (lit "api") (only (lit "v2") api)) /\ runnable site /\
  dynamic_children (rt_routes (c_routes site)) = [] /\ ~ under (lit "api/v2") (lit "/api/v22") /\
  under (lit "api/v2") (lit "/api/v2/7") /\
  match_route ex_rt (mount site (lit "api/v2") api) (lit "/api/v2/7") (lit "GET") =
  Some (RunResult (MRoute {| rv_modules := []; rv_name := lit "Show";
    rv_fields := [(lit "id", FvVal (lit "u32") (lit "7")); (lit "lang", FvNone)] |})) /\
  match_route ex_rt (mount site (lit "api/v2") api) (lit "/api") (lit "GET") = Some (RunResult MNotFound).
Proof.
  split; [apply runnableb_ok; vm_compute; reflexivity|]. split; [apply runnableb_ok; vm_compute; reflexivity|].
  split; [apply runnableb_ok; vm_compute; reflexivity|]. split; [reflexivity|].
  split; [intros (t & H & Ht); vm_compute in H; injection H as H; destruct Ht as [->|[t' ->]]; discriminate H|].
  split; [exists (lit "/7"); split; [reflexivity|right; eexists; reflexivity]|].
  split; vm_compute; reflexivity.
Qed.
(** With a slash in front, the mounted routes are below two slashes. *)
Theorem C97_leading_refuted :
  runnable (mount site (lit "/api") api) /\ runnable (mount site (lit "api/") api) /\
  match_route ex_rt (mount site (lit "/api") api) (lit "/api/7") (lit "GET") = Some (RunResult MNotFound) /\
  match_route ex_rt (mount site (lit "api/") api) (lit "/api/7") (lit "GET") = Some (RunResult MNotFound) /\
  match_route ex_rt (mount site (lit "api") api) (lit "/api/7") (lit "GET") =
  match_route ex_rt (mount site (lit "/api") api) (lit "//api/7") (lit "GET") /\
  match_route ex_rt (mount site (lit "api") api) (lit "/api/7") (lit "GET") =
  match_route ex_rt (mount site (lit "api/") api) (lit "/api//7") (lit "GET") /\
  match_route ex_rt (mount site (lit "api") api) (lit "/api/7") (lit "GET") =
  Some (RunResult (MRoute {| rv_modules := []; rv_name := lit "Show";
    rv_fields := [(lit "id", FvVal (lit "u32") (lit "7")); (lit "lang", FvNone)] |})).
Proof.
  split; [apply runnableb_ok; vm_compute; reflexivity|]. split; [apply runnableb_ok; vm_compute; reflexivity|].
  repeat split; vm_compute; reflexivity.
Qed.
Print Assumptions C97_leading_refuted.
