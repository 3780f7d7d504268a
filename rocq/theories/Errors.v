(** * Errors: the registry of error messages and the display of parse errors

    Models wayfinder/src/parse/errors.rs. *)
From Coq Require Import DecimalString.
From Verif Require Import Base.

(** ** Text *)

(** [str::len]. *)
Definition str_len (s : str) : nat := length (utf8 s).
(** [&s[..n]], [&s[n..]] and [&s[a..b]] with byte offsets; [None] is the panic for
    an offset that is out of range or inside a character. *)
Fixpoint str_to (s : str) (n : nat) : option str :=
  match n, s with
  | 0, _ => Some []
  | _, [] => None
  | _, c :: s' =>
      let k := length (utf8_char c) in
      if (k <=? n)%nat then
        match str_to s' (n - k) with
        | Some r => Some (c :: r)
        | None => None
        end
      else None
  end.
Fixpoint str_from (s : str) (n : nat) : option str :=
  match n, s with
  | 0, _ => Some s
  | _, [] => None
  | _, c :: s' =>
      let k := length (utf8_char c) in
      if (k <=? n)%nat then str_from s' (n - k) else None
  end.
Definition str_range (s : str) (a b : nat) : option str :=
  if (a <=? b)%nat then
    match str_from s a with
    | Some t => str_to t (b - a)
    | None => None
    end
  else None.

(** [s.splitn(2, c).next()]: the text before the first [c]. *)
Fixpoint before_first (c : char) (s : str) : str :=
  match s with
  | [] => []
  | x :: s' => if N.eqb x c then [] else x :: before_first c s'
  end.
(** [s.rsplitn(2, c)], second item: the text before the last [c], if there is one. *)
Fixpoint before_last (c : char) (s : str) : option str :=
  match s with
  | [] => None
  | x :: s' =>
      match before_last c s' with
      | Some r => Some (x :: r)
      | None => if N.eqb x c then Some [] else None
      end
  end.

(** [Display for usize] and the right alignment [{:>n}]. *)
Definition decimal (n : nat) : str := lit (NilZero.string_of_uint (Nat.to_uint n)).
Definition pad_left (n : nat) (s : str) : str := repeat c_space (n - length s) ++ s.

(** ** show_error *)

(** errors.rs:107-109, [what_line]. *)
Definition what_line (buf : str) (pos : nat) : option nat :=
  match str_to buf pos with
  | Some s => Some (1 + length (filter (fun c => N.eqb c c_nl) s))
  | None => None
  end.

(** errors.rs:83-105, [show_error]: the text written to [out].  Simplification: a
    failing write, on which the code panics, is not modelled. *)
Definition show_error (buf : str) (pos : nat) (msg prefix : str) : option str :=
  match str_to buf pos with
  | None => None
  | Some head =>
      let line_start :=
        match before_last c_nl head with
        | Some bytes => str_len bytes + 1
        | None => 0
        end in
      match str_from buf line_start with
      | None => None
      | Some tail =>
          let line := before_first c_nl tail in
          match what_line buf line_start with
          | None => None
          | Some line_no =>
              match str_range buf line_start pos with
              | None => None
              | Some chars =>
                  let pos_in_line := length chars + 1 in
                  Some (prefix ++ pad_left 4 (decimal line_no) ++ lit ":" ++ line ++ [c_nl]
                        ++ prefix ++ lit "     " ++ pad_left pos_in_line (lit "^") ++ lit " " ++ msg
                        ++ [c_nl])
              end
          end
      end
  end.

(** ** The registry *)

(** errors.rs:18-23, [def_error]: the new content of [ERRORS] and the code.  The
    cast [n as u32] keeps the low 32 bits. *)
Definition as_u32 (n : nat) : N := (N.of_nat n mod 2 ^ 32)%N.
Definition def_error (errors : list str) (msg : str) : list str * N :=
  (errors ++ [msg], as_u32 (length errors)).
(** errors.rs:25-30, [get_error].  Simplification: the mutex is never poisoned; no
    code panics while holding it. *)
Definition get_error (errors : list str) (n : N) : option str := nth_error errors (N.to_nat n).

(** ** show_errors *)

(** [nom::ErrorKind]: a custom code or one of nom's own kinds, by its name. *)
Inductive error_kind :=
| Custom (n : N)
| Builtin (name : str).
(** [nom::Context] with verbose errors: the inputs at which the errors happened. *)
Inductive context :=
| Code (i : str) (e : error_kind)
| CList (l : list (str * error_kind)).
(** [nom::IResult], without the parsed value. *)
Inductive nom_result :=
| NOk
| NError (c : context)
| NFailure (c : context)
| NIncomplete.

Section Show.
(** [Debug for ErrorKind] and [Debug for Context]. *)
Variable debug_kind : error_kind -> str.
Variable debug_context : context -> str.

(** errors.rs:73-81, [get_message]. *)
Definition get_message (errors : list str) (e : error_kind) : str :=
  match e with
  | Custom n =>
      match get_error errors n with
      | Some msg => msg
      | None => lit "Unknown error #" ++ decimal (N.to_nat n)
      end
  | Builtin _ => debug_kind e
  end.

(** errors.rs:54-57 and 61-64: one report per item.  The subtraction panics if the
    item is longer than the buffer. *)
Fixpoint show_list (errors : list str) (buf prefix : str) (v : list (str * error_kind)) : option str :=
  match v with
  | [] => Some []
  | (i, e) :: v' =>
      if (str_len i <=? str_len buf)%nat then
        match show_error buf (str_len buf - str_len i) (get_message errors e) prefix with
        | Some a =>
            match show_list errors buf prefix v' with
            | Some b => Some (a ++ b)
            | None => None
            end
        | None => None
        end
      else None
  end.

(** errors.rs:42-71, [show_errors]. *)
Definition show_errors (errors : list str) (buf : str) (result : nom_result) (prefix : str) : option str :=
  match result with
  | NOk => Some []
  | NError (Code _ e) => show_error buf 0 (lit "error " ++ debug_kind e) prefix
  | NError (CList v) => show_list errors buf prefix (rev v)
  | NFailure (CList v) => show_list errors buf prefix (rev v)
  | NFailure c => show_error buf 0 (lit "failure " ++ debug_context c) prefix
  | NIncomplete => show_error buf 0 (lit "xyzzy") prefix
  end.
End Show.

(** ** Concurrent use of the registry

    [err_str!] (errors.rs:7-16) makes one [lazy_static] per place of use, a site.
    A [lazy_static] is a [std::sync::Once] with a value: the first thread to use it
    runs the initialiser, others wait for it.  The transitions below interleave the
    atomic steps of any number of threads that use sites and look codes up. *)
Section Registry.
Variable msg : nat -> str.   (* the message of each site *)
Variable sites : nat.        (* the number of sites *)

Inductive once_state :=
| Fresh
| Running (t : nat)
| Done (code : N).
(** What a thread is doing. *)
Inductive pc_state :=
| Idle
| Want (s : nat)                  (* in the initialiser of [s], before [ERRORS.lock()] *)
| Have (s : nat)                  (* holding the lock *)
| Got (s n : nat)                 (* after [let n = errors.len()] *)
| Pushed (s n : nat)              (* after [errors.push(msg)] *)
| Released (s : nat) (code : N)   (* [def_error] has returned *)
| Look (code : N)                 (* in [get_error], before the lock *)
| Looking (code : N).             (* holding the lock *)
Record state := mkState {
  st_errors : list str;
  st_lock : option nat;
  st_once : nat -> once_state;
  st_pc : nat -> pc_state
}.
Definition init : state := mkState [] None (fun _ => Fresh) (fun _ => Idle).
Definition upd {A} (f : nat -> A) (k : nat) (x : A) : nat -> A := fun n => if Nat.eqb n k then x else f n.

Inductive event :=
| EUse (t s : nat) (code : N)                (* [err_str!] at site [s] gives [code] *)
| ELook (t : nat) (code : N) (r : option str).  (* [get_error(code)] gives [r] *)

Inductive step : state -> list event -> state -> Prop :=
| step_first st t s :
    s < sites -> st_pc st t = Idle -> st_once st s = Fresh ->
    step st [] (mkState (st_errors st) (st_lock st) (upd (st_once st) s (Running t)) (upd (st_pc st) t (Want s)))
| step_again st t s code :
    st_pc st t = Idle -> st_once st s = Done code -> step st [EUse t s code] st
| step_lock st t s :
    st_pc st t = Want s -> st_lock st = None ->
    step st [] (mkState (st_errors st) (Some t) (st_once st) (upd (st_pc st) t (Have s)))
| step_len st t s :
    st_pc st t = Have s ->
    step st [] (mkState (st_errors st) (st_lock st) (st_once st) (upd (st_pc st) t (Got s (length (st_errors st)))))
| step_push st t s n :
    st_pc st t = Got s n ->
    step st [] (mkState (st_errors st ++ [msg s]) (st_lock st) (st_once st) (upd (st_pc st) t (Pushed s n)))
| step_unlock st t s n :
    st_pc st t = Pushed s n ->
    step st [] (mkState (st_errors st) None (st_once st) (upd (st_pc st) t (Released s (as_u32 n))))
| step_done st t s code :
    st_pc st t = Released s code ->
    step st [EUse t s code]
      (mkState (st_errors st) (st_lock st) (upd (st_once st) s (Done code)) (upd (st_pc st) t Idle))
| step_look st t code :
    st_pc st t = Idle ->
    step st [] (mkState (st_errors st) (st_lock st) (st_once st) (upd (st_pc st) t (Look code)))
| step_look_lock st t code :
    st_pc st t = Look code -> st_lock st = None ->
    step st [] (mkState (st_errors st) (Some t) (st_once st) (upd (st_pc st) t (Looking code)))
| step_looked st t code :
    st_pc st t = Looking code ->
    step st [ELook t code (get_error (st_errors st) code)]
      (mkState (st_errors st) None (st_once st) (upd (st_pc st) t Idle)).

(** The executions, with their observable events in order. *)
Inductive exec : list event -> state -> Prop :=
| exec_init : exec [] init
| exec_step tr st ev st' : exec tr st -> step st ev st' -> exec (tr ++ ev) st'.
End Registry.
