(** * SpecCases: the tests in a text, and when one passes *)
From Verif Require Import Base Core Nom Parse Gen Errors NomErr ParseErr Build Diff Cases SpecGen SpecGrammar SpecBuild.

(** [s] without [a] in front and [b] behind. *)
Definition between (a b s : str) : option str :=
  let n := length a in
  let m := length s - n - length b in
  let x := firstn m (skipn n s) in
  if str_eqb s (a ++ x ++ b) then Some x else None.
(** The tests in the lines of a text: after each line [#[test]] the name of the
    function and the two files that it includes. *)
Fixpoint tests_in (lines : list str) : list (str * (str * str)) :=
  match lines with
  | [] => []
  | l :: lines' =>
      if str_eqb l (lit "    #[test]") then
        match lines' with
        | f :: p :: q :: _ =>
            match between (lit "    fn ") (lit "() {") f,
                  between (lit "        let routes = include_str!(""") (lit """);") p,
                  between (lit "        let rs = include_str!(""") (lit """);") q with
            | Some name, Some p, Some q => (name, (p, q)) :: tests_in lines'
            | _, _, _ => tests_in lines'
            end
        | _ => tests_in lines'
        end
      else tests_in lines'
  end.

(** The files of the case [name] in the directory [dir]. *)
Definition in_case (dir name file p : str) : Prop := exists d, joined dir name d /\ joined d file p.
(** A letter or a digit of ASCII, or an underscore. *)
Definition word_char (c : char) : Prop :=
  (48 <= c <= 57)%N \/ (65 <= c <= 90)%N \/ (97 <= c <= 122)%N \/ c = 95%N.
(** The test for the route file [routes] and the expected code [rs] should pass. *)
Definition case_holds (ualnum : char -> bool) (routes rs : str) : Prop :=
  exists c, config_text ualnum c routes /\ generates c /\ w_text (codegen c) = rs.
(** The test [t] is the one for the case [name] in [dir]. *)
Definition test_for (dir name : str) (t : str * (str * str)) : Prop :=
  fst t = lit "test_" ++ name /\ in_case dir name (lit "routes.routes") (fst (snd t)) /\
  in_case dir name (lit "routes.rs") (snd (snd t)).
(** The file [p] can be named in a string literal, and has the content [text]. *)
Definition included (wo : world) (p text : str) : Prop :=
  (forall c, In c p -> c <> 34%N /\ c <> 92%N /\ c <> 13%N) /\ wo_read wo p = inl text.
(** The build script can do its work: the variables are set, the directory and the
    output file can be opened, every entry has a Unicode name, all can be written. *)
Definition cases_ready (wo : world) (read_dir : str -> option (list (option entry))) (dir p : str) (names : list str) : Prop :=
  exists root out,
    wo_var wo (lit "CARGO_MANIFEST_DIR") = Value root /\ joined root (lit "cases") dir /\
    wo_var wo (lit "OUT_DIR") = Value out /\ joined out (lit "cases.rs") p /\
    wo_create wo p = None /\ read_dir dir = Some (map (fun n => Some (Some n)) names) /\
    run_on (wo_writer wo (ToFile p)) (write_cases dir (map Some names)) = (w_text (write_cases dir (map Some names)), ROk tt).
