(** * Build: the builder used from build scripts and the command line

    Models wayfinder/src/build/mod.rs and wayfinder-cmd/src/main.rs.  What the
    operating system answers is a parameter; what the program does to the outside is
    a list of events. *)
From Verif Require Import Base Core Nom Parse Gen Errors NomErr ParseErr.

(** Simplification: a path is a Unicode string with Unix syntax. *)
Inductive env_result :=
| Value (v : str)
| NotPresent
| NotUnicode.

Inductive target :=
| ToFile (path : str)
| ToStdout.
Inductive source :=
| FromFile (path : str)
| FromConfig (c : RouteConfig).

(** The outside world.  Simplification: the answers do not change while the program
    runs, and [stdout] and [stderr] never fail except as the target of the generated
    code. *)
Record world := mkWorld {
  wo_var : str -> env_result;                 (* std::env::var *)
  wo_read : str -> str + str;                 (* std::fs::read_to_string: content or error text *)
  wo_create : str -> option str;              (* File::create: error text *)
  wo_writer : target -> Writer;               (* writing to an open target *)
  wo_error : io_error -> str;                 (* Display for io::Error *)
  wo_keep : bool;                             (* see [vmany1] *)
  wo_code : nat -> N;                         (* the codes of the sites of [err_str!] *)
  wo_errors : list str;                       (* [ERRORS] when the errors are shown *)
  wo_debug_kind : error_kind -> str;          (* Debug for ErrorKind *)
  wo_debug_context : context -> str;          (* Debug for Context *)
  wo_alnum : char -> bool                     (* char::is_alphanumeric outside ASCII *)
}.

Inductive event :=
| Stdout (s : str)                (* println! *)
| Stderr (s : str)                (* eprintln! and show_errors *)
| Read (path : str)
| Create (path : str)             (* the file is created or truncated *)
| Write (t : target) (s : str).   (* generated code that reaches the target *)
Inductive outcome (A : Type) :=
| Finished (a : A)
| Exited (status : nat)
| Panicked (p : panic)
| Hung.                           (* the model's own fuel *)
Arguments Finished {A} a.
Arguments Exited {A} status.
Arguments Panicked {A} p.
Arguments Hung {A}.

Definition run A := (list event * outcome A)%type.
Definition ret {A} (a : A) : run A := ([], Finished a).
Definition emit (e : event) : run unit := ([e], Finished tt).
Definition bind {A B} (m : run A) (f : A -> run B) : run B :=
  match m with
  | (l, Finished a) => let (l', r) := f a in (l ++ l', r)
  | (l, Exited n) => (l, Exited n)
  | (l, Panicked p) => (l, Panicked p)
  | (l, Hung) => (l, Hung)
  end.
Notation "'let!' x := m 'in' k" := (bind m (fun x => k)) (at level 200, x name, right associativity).

(** build/mod.rs:16-26, [fail!]. *)
Definition exit_101 {A} : run A := ([], Exited 101).
Definition fail {A} (msg : str) : run A := let! _u := emit (Stderr (msg ++ [c_nl])) in exit_101.

(** [PathBuf::join] on Unix. *)
Definition is_absolute (p : str) : bool := is_prefix (lit "/") p.
Definition ends_with_slash (p : str) : bool :=
  match rev p with
  | c :: _ => N.eqb c c_slash
  | [] => true
  end.
Definition path_join (dir name : str) : str :=
  if is_absolute name then name
  else if ends_with_slash dir then dir ++ name
  else dir ++ lit "/" ++ name.

(** build/mod.rs:69-75 *)
Record Builder := mkBuilder {
  b_use_cargo : bool;
  b_source_dir : option str;
  b_source : option source;
  b_target_dir : option str;
  b_target : option target
}.

(** build/mod.rs:79-87 *)
Definition builder_new : Builder := mkBuilder false None None None None.

(** build/mod.rs:91-100: reading one variable. *)
Definition env_dir (wo : world) (name : str) : run str :=
  match wo_var wo name with
  | NotPresent => fail (lit "Env var " ++ name ++ lit " not found.")
  | NotUnicode => fail (lit "Env var " ++ name ++ lit " not valid Unicode.")
  | Value d => ret d
  end.

(** build/mod.rs:90-109 *)
Definition builder_from_env (wo : world) : run Builder :=
  let! source_dir := env_dir wo (lit "CARGO_MANIFEST_DIR") in
  let! target_dir := env_dir wo (lit "OUT_DIR") in
  ret (mkBuilder true (Some source_dir) None (Some target_dir) None).

(** build/mod.rs:114-135 *)
Definition set_source (s : source) (b : Builder) : Builder :=
  mkBuilder (b_use_cargo b) (b_source_dir b) (Some s) (b_target_dir b) (b_target b).
Definition set_target (t : target) (b : Builder) : Builder :=
  mkBuilder (b_use_cargo b) (b_source_dir b) (b_source b) (b_target_dir b) (Some t).
Definition input_file (path : str) := set_source (FromFile path).
Definition input_config (c : RouteConfig) := set_source (FromConfig c).
Definition output_file (path : str) := set_target (ToFile path).
Definition output_stdout := set_target ToStdout.

(** build/mod.rs:156-159 and 183-186 *)
Definition in_dir (dir : option str) (name : str) : str :=
  match dir with
  | None => name
  | Some d => path_join d name
  end.

(** build/mod.rs:172: what [show_errors] prints for a text, [None] if it panics. *)
Definition wo_diagnosis (wo : world) (contents : str) : option str :=
  diagnosis (wo_alnum wo) (wo_keep wo) (wo_code wo) (wo_debug_kind wo) (wo_debug_context wo) (wo_errors wo) contents [].

(** build/mod.rs:153-178 *)
Definition load (wo : world) (b : Builder) (s : source) : run RouteConfig :=
  match s with
  | FromConfig c => ret c
  | FromFile filename =>
      let path := in_dir (b_source_dir b) filename in
      let! _u := (if b_use_cargo b then emit (Stdout (lit "cargo:rerun-if-changed=" ++ path ++ [c_nl])) else ret tt) in
      let! _u := emit (Read path) in
      match wo_read wo path with
      | inr e => fail (lit "Unable to load file " ++ path ++ lit ": " ++ e)
      | inl contents =>
          match route_config_p (wo_alnum wo) contents with
          | POk _ c => ret c
          | PFuel => ([], Hung)
          | _ =>
              let! _u := emit (Stderr (lit "Unable to parse route config file " ++ path ++ lit ":" ++ [c_nl])) in
              match wo_diagnosis wo contents with
              | Some report => let! _u := emit (Stderr report) in exit_101
              | None => ([], Panicked PanicSlice)
              end
          end
      end
  end.

(** build/mod.rs:180-193; the target with the path it is opened at. *)
Definition open_target (wo : world) (b : Builder) (t : target) : run target :=
  match t with
  | ToStdout => ret ToStdout
  | ToFile filename =>
      let path := in_dir (b_target_dir b) filename in
      match wo_create wo path with
      | Some e => fail (lit "Unable to create output file " ++ path ++ lit ": " ++ e)
      | None => let! _u := emit (Create path) in ret (ToFile path)
      end
  end.

(** build/mod.rs:195-200 *)
Definition generate (wo : world) (t : target) (c : RouteConfig) : run unit :=
  let (text, status) := run_on (wo_writer wo t) (codegen c) in
  let! _u := emit (Write t text) in
  match status with
  | ROk _ => ret tt
  | RErr e => fail (lit "Error generating code: " ++ wo_error wo e)
  | RPanic p => ([], Panicked p)
  | RFuel => ([], Hung)
  end.

(** build/mod.rs:143-201, [Builder::build]. *)
Definition build (wo : world) (b : Builder) : run unit :=
  match b_source b with
  | None => fail (lit "Source not configured.  Try builder.input_file(""app.routes"").")
  | Some s =>
      match b_target b with
      | None => fail (lit "Target not configured.  Try builder.output_file(""routes.rs"").")
      | Some t =>
          let! input := load wo b s in
          let! out := open_target wo b t in
          generate wo out input
      end
  end.

(** wayfinder-cmd/src/main.rs:3-16; [args] is not empty. *)
Definition cmd_main (wo : world) (args : list str) : run unit :=
  match args with
  | [] => ([], Panicked PanicSlice)
  | [name] => emit (Stderr (lit "Usage: " ++ name ++ lit " ROUTE_FILE" ++ [c_nl]))
  | _ :: path :: _ => build wo (output_stdout (input_file path builder_new))
  end.

(** The exit status of the process: a panic of the main thread ends it with 101. *)
Definition status {A} (o : outcome A) : option nat :=
  match o with
  | Finished _ => Some 0
  | Exited n => Some n
  | Panicked _ => Some 101
  | Hung => None
  end.
