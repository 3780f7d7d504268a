(** * Property C78: the size of the generated matcher *)
From Verif Require Import Base Core Flat MiniRust Gen Nom Parse SpecSize SizeFacts Examples.

(** C78.  The matcher of a route file has at most twenty-four statements and
    arms for each character of the file, however the routes share prefixes. *)
Theorem C78_file ualnum text c body :
  route_config_p ualnum text = POk [] c -> gen_program c = ROk body ->
  statements body <= 24 * length text.
Proof. exact (file_size ualnum text c body). Qed.
Print Assumptions C78_file.
(** The bound for a configuration that was not read from a file: twenty-four
    for each character or parameter in the tree of segments, which are counted
    once even if there are many routes below them, and four for each resource. *)
Theorem C78_config c body :
  gen_program c = ROk body ->
  statements body <= 24 * S (places (c_routes c)) + 4 * resources_in (c_routes c).
Proof. exact (program_size c body). Qed.
Print Assumptions C78_config.
Example C78_example : exists body,
  gen_program shop = ROk body /\ statements body = 181 /\
  places (c_routes shop) = 26 /\ resources_in (c_routes shop) = 9.
Proof. eexists. split; [vm_compute; reflexivity|]. repeat split; vm_compute; reflexivity. Qed.
Example C78_file_example : exists c body,
  let text := file ["/"; "  a"; "    GET x"; "  {b: T}"; "    GET y"; "    PUT z"]%string in
  route_config_p (fun _ => false) text = POk [] c /\ gen_program c = ROk body /\
  length text = 45 /\ statements body = 55.
Proof. do 2 eexists. split; [vm_compute; reflexivity|]. split; [vm_compute; reflexivity|]. split; vm_compute; reflexivity. Qed.
