(** * Base: characters, strings, UTF-8, result types.

    Nothing here models a function of /repo by itself; these are the Rust
    primitives the other files use. *)
From Coq Require Export Strings.String Strings.Ascii.
From Coq Require Export NArith Arith Lia Bool.
From Coq Require Export List.
Export ListNotations.
Open Scope list_scope.

(** A Rust [char] is a Unicode scalar value; a [u8] is a number below 256.
    Both are [N].  A [String]/[&str] is the list of its chars; a [&[u8]] the
    list of its bytes.  *)
Notation char := N (only parsing).
Notation str := (list N) (only parsing).
Notation byte := N (only parsing).
Notation bytes := (list N) (only parsing).

(** String literals of the source: ASCII only. *)
Fixpoint lit (s : string) : str :=
  match s with
  | EmptyString => []
  | String a s' => N_of_ascii a :: lit s'
  end.

(** Character constants used by the model. *)
Definition c_nl : char := 10%N.       (* '\n' *)
Definition c_cr : char := 13%N.       (* '\r' *)
Definition c_tab : char := 9%N.       (* '\t' *)
Definition c_space : char := 32%N.    (* ' ' *)
Definition c_quote : char := 34%N.    (* double quote *)
Definition c_slash : char := 47%N.    (* '/' *)
Definition c_colon : char := 58%N.    (* ':' *)
Definition c_lbrack : char := 91%N.   (* '[' *)
Definition c_backslash : char := 92%N.
Definition c_rbrack : char := 93%N.   (* ']' *)
Definition c_under : char := 95%N.    (* '_' *)
Definition c_lbrace : char := 123%N.  (* '{' *)
Definition c_rbrace : char := 125%N.  (* '}' *)

(** Equality of strings ([==] on [str], [String], [&[u8]]). *)
Fixpoint str_eqb (a b : str) : bool :=
  match a, b with
  | [], [] => true
  | x :: a', y :: b' => N.eqb x y && str_eqb a' b'
  | _, _ => false
  end.

(** Ordering of strings ([Ord] on [String]): lexicographic.  Rust compares
    UTF-8 bytes; UTF-8 preserves the order of scalar values, so comparing
    scalar values is the same order. *)
Fixpoint str_compare (a b : str) : comparison :=
  match a, b with
  | [], [] => Eq
  | [], _ :: _ => Lt
  | _ :: _, [] => Gt
  | x :: a', y :: b' =>
      match N.compare x y with
      | Eq => str_compare a' b'
      | c => c
      end
  end.

(** [char::is_ascii_uppercase], [is_ascii_lowercase], [is_ascii_digit]. *)
Definition is_upper (c : char) : bool := (65 <=? c)%N && (c <=? 90)%N.
Definition is_lower (c : char) : bool := (97 <=? c)%N && (c <=? 122)%N.
Definition is_digit (c : char) : bool := (48 <=? c)%N && (c <=? 57)%N.
(** [char::to_ascii_uppercase], [to_ascii_lowercase]. *)
Definition to_upper (c : char) : char := if is_lower c then (c - 32)%N else c.
Definition to_lower (c : char) : char := if is_upper c then (c + 32)%N else c.

(** [str::starts_with] / [nom]'s [compare] on a tag. *)
Fixpoint is_prefix (p s : str) : bool :=
  match p, s with
  | [], _ => true
  | x :: p', y :: s' => N.eqb x y && is_prefix p' s'
  | _ :: _, [] => false
  end.

(** Slicing [&x[a..b]]: [None] is Rust's out-of-range panic. *)
Definition slice (l : str) (a b : nat) : option str :=
  if (a <=? b)%nat && (b <=? length l)%nat
  then Some (firstn (b - a) (skipn a l))
  else None.

(** [std::str::from_utf8(..).is_ok()]: core::str::run_utf8_validation. *)
Definition in_range (lo hi b : N) : bool := (lo <=? b)%N && (b <=? hi)%N.
Definition is_cont (b : N) : bool := in_range 128 191 b.
Fixpoint utf8_valid (s : bytes) : bool :=
  match s with
  | [] => true
  | b0 :: s0 =>
      if (b0 <? 128)%N then utf8_valid s0
      else if in_range 194 223 b0 then
        match s0 with
        | b1 :: s1 => is_cont b1 && utf8_valid s1
        | _ => false
        end
      else if in_range 224 239 b0 then
        match s0 with
        | b1 :: b2 :: s2 =>
            ((b0 =? 224)%N && in_range 160 191 b1
             || in_range 225 236 b0 && is_cont b1
             || (b0 =? 237)%N && in_range 128 159 b1
             || in_range 238 239 b0 && is_cont b1)
            && is_cont b2 && utf8_valid s2
        | _ => false
        end
      else if in_range 240 244 b0 then
        match s0 with
        | b1 :: b2 :: b3 :: s3 =>
            ((b0 =? 240)%N && in_range 144 191 b1
             || in_range 241 243 b0 && is_cont b1
             || (b0 =? 244)%N && in_range 128 143 b1)
            && is_cont b2 && is_cont b3 && utf8_valid s3
        | _ => false
        end
      else false
  end.

(** The UTF-8 encoding of a scalar value (what [str::as_bytes] sees). *)
Definition utf8_char (c : char) : bytes :=
  (if c <? 128 then [c]
   else if c <? 2048 then [192 + c / 64; 128 + c mod 64]
   else if c <? 65536 then [224 + c / 4096; 128 + (c / 64) mod 64; 128 + c mod 64]
   else [240 + c / 262144; 128 + (c / 4096) mod 64; 128 + (c / 64) mod 64; 128 + c mod 64])%N.
Definition utf8 (s : str) : bytes := flat_map utf8_char s.
(** Unicode scalar values. *)
Definition is_scalar (c : char) : bool :=
  ((c <? 55296) || (57344 <=? c) && (c <? 1114112))%N.

(** Results of the code generator: success, an [io::Error], a panic, or the
    model's own "out of fuel" (proved never to happen). *)
Inductive panic :=
| PanicDuplicatePath        (* "all paths should be unique!" *)
| PanicDuplicateAction      (* "Duplicate controller action" *)
| PanicUnwrapNone           (* Option::unwrap on None *)
| PanicSlice                (* slice index out of range / subtraction underflow *)
| PanicAssert               (* assert! *)
| PanicUnreachable          (* unreachable!() *)
| PanicRemove.              (* Vec::remove out of range *)

Inductive io_error := InvalidInput | WriterError.

Inductive res (A : Type) :=
| ROk (a : A)
| RErr (e : io_error)
| RPanic (p : panic)
| RFuel.
Arguments ROk {A} a.
Arguments RErr {A} e.
Arguments RPanic {A} p.
Arguments RFuel {A}.

Definition rbind {A B} (r : res A) (f : A -> res B) : res B :=
  match r with
  | ROk a => f a
  | RErr e => RErr e
  | RPanic p => RPanic p
  | RFuel => RFuel
  end.
