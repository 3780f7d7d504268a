(** * Cases: wayfinder-tests/build.rs, and the tests it writes *)
From Verif Require Import Base Core Nom Parse MiniRust Gen Errors NomErr ParseErr Build Diff.

(** An entry of the directory of test cases: its name, [None] if it is not Unicode.
    The path of an entry is the name joined to the path of the directory. *)
Definition entry := option str.

(** build.rs:30-70: the test for one case. *)
Definition write_case (cases_path : str) (e : entry) : W :=
  match e with
  | None => w_fail (RPanic PanicUnwrapNone)
  | Some name =>
      let path := path_join cases_path name in
      wl (lit "    #[test]")
      >> wl (lit "    fn test_" ++ name ++ lit "() {")
      >> wl (lit "        let routes = include_str!(""" ++ path_join path (lit "routes.routes") ++ lit """);")
      >> wl (lit "        let rs = include_str!(""" ++ path_join path (lit "routes.rs") ++ lit """);")
      >> w_lines
           [ "        let mut dest = vec![];";
             "        match wayfinder::parse::route_config(&routes) {";
             "            Ok(config) => wayfinder::gen::codegen(&mut dest, &config.1).unwrap(),";
             "            result => {";
             "                wayfinder::parse::errors::show_errors(&mut std::io::stderr(), &routes, result, """");";
             "                assert!(false);";
             "            }";
             "        }";
             "        let actual = String::from_utf8(dest).expect(""result as utf8"");";
             "        diff::TestResult::new(rs, &actual).assert();";
             "    }" ]%string
  end.
(** build.rs:23-76. *)
Definition write_cases (cases_path : str) (cases : list entry) : W :=
  w_lines [ "#[cfg(test)]"; "mod test_cases {"; "    use super::diff;" ]%string
  >> w_all (map (write_case cases_path) cases)
  >> wl (lit "}").

(** [process_results(.., collect)]: the entries up to the first that cannot be read. *)
Fixpoint collect_entries (l : list (option entry)) : option (list entry) :=
  match l with
  | [] => Some []
  | Some e :: l' => option_map (cons e) (collect_entries l')
  | None :: _ => None
  end.
(** [env::var(..).unwrap()]. *)
Definition var_unwrap (wo : world) (name : str) : run str :=
  match wo_var wo name with
  | Value d => ret d
  | _ => ([], Panicked PanicUnwrapNone)
  end.
(** build.rs:6-21.  [read_dir] gives the entries of a directory in some order, if it
    can be opened; each of them may be an error. *)
Definition cases_main (wo : world) (read_dir : str -> option (list (option entry))) : run unit :=
  let! root := var_unwrap wo (lit "CARGO_MANIFEST_DIR") in
  let cases_path := path_join root (lit "cases") in
  let! out := var_unwrap wo (lit "OUT_DIR") in
  let out_path := path_join out (lit "cases.rs") in
  match wo_create wo out_path with
  | Some _ => ([], Panicked PanicUnwrapNone)
  | None =>
      let! _u := emit (Create out_path) in
      match read_dir cases_path with
      | None => ([], Panicked PanicUnwrapNone)
      | Some l =>
          match collect_entries l with
          | None => ([], Panicked PanicUnwrapNone)
          | Some cases =>
              let (text, status) := run_on (wo_writer wo (ToFile out_path)) (write_cases cases_path cases) in
              let! _u := emit (Write (ToFile out_path) text) in
              match status with
              | ROk _ => ret tt
              | RErr _ => ([], Panicked PanicUnwrapNone)
              | RPanic p => ([], Panicked p)
              | RFuel => ([], Hung)
              end
          end
      end
  end.

(** ** Running a test

    The text between the braces of a test, as written by [write_case]; [routes] and
    [rs] are the texts that [include_str!] puts there.  [diff_lines] as for
    [test_assert]. *)
Definition run_case (wo : world) (diff_lines : str -> str -> list diff_op) (routes rs : str) : run unit :=
  match route_config_p (wo_alnum wo) routes with
  | PFuel => ([], Hung)
  | POk _ c =>
      match codegen c with
      | (chunks, ROk _) =>
          let (printed, equal) := test_assert diff_lines rs (concat chunks) in
          if equal then ret tt
          else let! _u := emit (Stderr printed) in ([], Panicked PanicAssert)
      | (_, RErr _) => ([], Panicked PanicUnwrapNone)
      | (_, RPanic p) => ([], Panicked p)
      | (_, RFuel) => ([], Hung)
      end
  | _ =>
      match wo_diagnosis wo routes with
      | Some report => let! _u := emit (Stderr report) in ([], Panicked PanicAssert)
      | None => ([], Panicked PanicSlice)
      end
  end.

(** What rustc makes of tests with these names that include these two files each: the
    names and the texts, [None] if it does not compile.  Simplification: a path with a
    character that a string literal treats specially is rejected. *)
Definition literal_char (c : char) : bool := negb (N.eqb c c_quote || N.eqb c 92%N || N.eqb c c_cr).
Definition include_str (wo : world) (path : str) : option str :=
  if forallb literal_char path then
    match wo_read wo path with
    | inl text => Some text
    | inr _ => None
    end
  else None.
Fixpoint include_all (wo : world) (tests : list (str * (str * str))) : option (list (str * (str * str))) :=
  match tests with
  | [] => Some []
  | (name, (p, q)) :: tests' =>
      match include_str wo p, include_str wo q, include_all wo tests' with
      | Some routes, Some rs, Some l => Some ((name, (routes, rs)) :: l)
      | _, _, _ => None
      end
  end.
Definition compile_tests (wo : world) (tests : list (str * (str * str))) : option (list (str * (str * str))) :=
  let names := map fst tests in
  if forallb is_ident names && nodup_strs names then include_all wo tests else None.
