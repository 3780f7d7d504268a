(** * Property C79: requests that are texts *)
From Verif Require Import Base Core Flat MiniRust Gen Spec SpecMatch SpecText TextFacts Examples.

(** C79.  What [from_utf8] accepts are the encodings of texts ... *)
Theorem C79_valid b : utf8_valid b = true <-> exists s, encoded s b.
Proof. exact (valid_encoded b). Qed.
Print Assumptions C79_valid.
(** ... each of one text only, ... *)
Theorem C79_unique s s' b : encoded s b -> encoded s' b -> s = s'.
Proof. exact (encoded_unique s s' b). Qed.
Print Assumptions C79_unique.
(** ... and the texts that can be encoded are those of scalar values. *)
Theorem C79_encoded s b : encoded s b <-> Forall (fun c => is_scalar c = true) s /\ b = utf8 s.
Proof. exact (encoded_utf8 s b). Qed.
Print Assumptions C79_encoded.
(** One character for each row of the table: U+24, U+A2, U+20AC, U+10348; no
    overlong form, no surrogate, nothing above U+10FFFF. *)
Example C79_examples :
  encoded [36; 162; 8364; 66376]%N [36; 194; 162; 226; 130; 172; 240; 144; 141; 136]%N /\
  utf8_valid [192; 175]%N = false /\ utf8_valid [237; 160; 128]%N = false /\ utf8_valid [244; 144; 128; 128]%N = false.
Proof.
  split; [apply encoded_utf8; split; [repeat constructor|reflexivity]|]. repeat split; vm_compute; reflexivity.
Qed.

(** The segments of a request are the encodings of the segments of its text. *)
Theorem C79_segments s : request_segments (utf8 s) = map utf8 (request_segments s).
Proof. exact (segments_utf8 s). Qed.
Print Assumptions C79_segments.
Example C79_segments_example :
  request_segments (lit "/a/" ++ [233; 47; 8364]%N) = [lit "a"; [233%N]; [8364%N]] /\
  request_segments (utf8 (lit "/a/" ++ [233; 47; 8364]%N)) = [lit "a"; [195; 169]%N; [226; 130; 172]%N].
Proof. split; vm_compute; reflexivity. Qed.

(** So a request that is a text is matched segment by segment of the text, and
    each parameter is parsed from the text of its segment ... *)
Theorem C79_match {T E} (rt : runtime T E) c s path method redirect v :
  runnable c -> encoded s path ->
  match_route rt c path method = Some (RunResult (hit redirect v)) ->
  exists pat q b r segs a,
    block_at (c_routes c) pat q b /\ first_resource_for method b r /\ r_is_redirect r = redirect /\
    spells s segs /\ matches (rt_parse rt) pat (map utf8 segs) a /\ v = route_for r q a.
Proof. exact (text_sound rt c s path method redirect v). Qed.
Print Assumptions C79_match.
(** ... and does not panic, outside the shape of C38. *)
Theorem C79_no_panic {T E} (rt : runtime T E) c s path method :
  runnable c -> every_block no_short_static (c_routes c) -> encoded s path ->
  match_route rt c path method <> Some RunPanic.
Proof. exact (text_no_panic rt c s path method). Qed.
Print Assumptions C79_no_panic.
Example C79_match_example :
  let s := lit "/people/42/books/" ++ [8364; 66376]%N in
  runnable shop /\ every_block no_short_static (c_routes shop) /\ encoded s (utf8 s) /\
  match_route ex_rt shop (utf8 s) (lit "GET") =
  Some (RunResult (MRoute {| rv_modules := [lit "People"]; rv_name := lit "Book";
    rv_fields := [(lit "id", FvVal (lit "u32") (lit "42"));
                  (lit "isbn", FvVal (lit "String") [226; 130; 172; 240; 144; 141; 136]%N);
                  (lit "lang", FvNone)] |})).
Proof.
  split; [exact shop_runnable|]. split; [exact shop_no_short|]. split; [|vm_compute; reflexivity].
  apply encoded_utf8. split; [|reflexivity]. repeat constructor.
Qed.
