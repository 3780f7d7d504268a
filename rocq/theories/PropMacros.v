(** * Properties C59 and C60: the resource macros and the conversion from http methods *)
From Verif Require Import Base Core Nom Parse Macros SpecMacros SpecParse MacroFacts.

(** ** C59: macros and route files *)
(** Exactly which calls [get!(..)], [post!(..)], [put!(..)] and [delete!(..)]
    accept and what they give: never a panic. *)
Theorem C59_calls m ts out :
  verb_macro m ts = Some out <->
  exists names, names <> [] /\
    ((exists params, ts = plain_call names params /\
        out = ROk (mkResource m (removelast names) (last names []) false params)) \/
     (ts = redirect_call names /\ out = ROk (mkResource m (removelast names) (last names []) true []))).
Proof. exact (verb_iff m ts out). Qed.
Print Assumptions C59_calls.
(** A call and the lines of a route file that say the same give the same
    resource. *)
Theorem C59_file ualnum level m names params :
  names <> [] -> Forall (ident ualnum) names -> Forall (wf_param ualnum) params ->
  exists r, verb_macro m (plain_call names params) = Some (ROk r) /\
    resource_p ualnum level (resource_text level m false names params) = POk [] r.
Proof. exact (macro_and_line ualnum level m names params). Qed.
Print Assumptions C59_file.
Theorem C59_file_redirect ualnum level m names :
  names <> [] -> Forall (ident ualnum) names ->
  exists r, verb_macro m (redirect_call names) = Some (ROk r) /\
    resource_p ualnum level (resource_text level m true names []) = POk [] r.
Proof. exact (macro_and_redirect ualnum level m names). Qed.
Print Assumptions C59_file_redirect.
(** Not every resource of a route file can be written as a call: a redirect with
    a query parameter cannot. *)
Theorem C59_redirect_query_refuted :
  exists text r, resource_p (fun _ => false) 1 text = POk [] r /\
    forall m ts, verb_macro m ts <> Some (ROk r).
Proof. exact redirect_query. Qed.
Print Assumptions C59_redirect_query_refuted.
Example C59_example :
  (* [put!(people::Update, param!(name: String))] *)
  put_macro [TIdent (lit "people"); TColons; TIdent (lit "Update"); TComma; TExpr (param_macro (lit "name") (lit "String"))] =
    Some (ROk (mkResource Put [lit "people"] (lit "Update") false [mkParam (lit "name") (lit "String")])) /\
  put_macro (plain_call [lit "people"; lit "Update"] [param_macro (lit "name") (lit "String")]) =
    Some (ROk (mkResource Put [lit "people"] (lit "Update") false [mkParam (lit "name") (lit "String")])) /\
  resource_text 1 Put false [lit "people"; lit "Update"] [mkParam (lit "name") (lit "String")] =
    lit "  PUT people::Update" ++ [c_nl] ++ lit "    [name: String]" ++ [c_nl] /\
  (* [delete!(-> a, param!(..))] and [get!(a::b,)] *)
  delete_macro [TArrow; TIdent (lit "a"); TComma; TExpr (mkParam (lit "q") (lit "u32"))] = None /\
  get_macro [TIdent (lit "a"); TColons; TIdent (lit "b"); TComma] = None.
Proof. repeat split. Qed.

(** ** C60: [Method::from(&http::Method)] *)
(** The conversion gives the method with the same name. *)
Theorem C60_converts h m : http_ok h -> (method_from_http h = Some m <-> http_as_str h = method_display m).
Proof. exact (http_iff h m). Qed.
Print Assumptions C60_converts.
(** It panics on every method that wayfinder does not know ... *)
Theorem C60_panics h : http_ok h -> (method_from_http h = None <-> forall m, http_as_str h <> method_display m).
Proof. exact (http_none h). Qed.
Print Assumptions C60_panics.
(** ... and these exist, so the conversion of the method of a request is not
    total. *)
Theorem C60_total_refuted : http_ok HHead /\ method_from_http HHead = None /\
  http_ok (HExtension (lit "PROPFIND")) /\ method_from_http (HExtension (lit "PROPFIND")) = None.
Proof. exact (conj I (conj eq_refl (conj propfind_ok eq_refl))). Qed.
Print Assumptions C60_total_refuted.
Example C60_example : method_from_http HDelete = Some Delete /\ http_as_str HDelete = lit "DELETE".
Proof. split; reflexivity. Qed.
(** The names of RFC 9110 and RFC 5789. *)
Example C60_names :
  map http_as_str [HGet; HHead; HPost; HPut; HDelete; HConnect; HOptions; HTrace; HPatch] =
  map lit ["GET"; "HEAD"; "POST"; "PUT"; "DELETE"; "CONNECT"; "OPTIONS"; "TRACE"; "PATCH"]%string.
Proof. reflexivity. Qed.
