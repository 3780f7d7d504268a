(** * MiniRust: the language of generated matchers.

    The body of a generated [match_route] (gen/gen.rs:451-461 and 474-810) uses
    a small part of Rust.  This file defines its syntax, its pretty-printer
    (with the generator's layout), the static check that decides whether rustc
    accepts it, and its semantics, panics included.  rustc itself is not in
    /repo: the static check and the semantics are part of the trusted base. *)
From Verif Require Import Base.

(** ** Syntax *)

(** Integer expressions: [x], [n], [x + n]. *)
Inductive expr :=
| EVar (x : str)
| ENat (n : nat)
| EPlus (x : str) (n : nat).

(** Conditions: [a == b], [a > b], [a <= b], [a < b], [c && d],
    [&x[a..b] != b"t"]. *)
Inductive bexpr :=
| BEq (a b : expr)
| BGt (a b : expr)
| BLe (a b : expr)
| BLt (a b : expr)
| BAnd (c d : bexpr)
| BSliceNe (x : str) (a b : expr) (t : str).

(** What a [match] looks at: a variable or a slice [&x[a..b]]. *)
Inductive scrut :=
| ScVar (x : str)
| ScSlice (x : str) (a b : expr).

(** A field of a struct literal: [x,] or [x: None,]. *)
Inductive field_init := FVar | FNone.

(** Returned values.  [RetRoute redirect mods name fields] is
    [Ok(Match::Route(Route::A(a::Route::B(a::b::Route::Name(a::b::Name { .. })))))]
    with [mods] = [(a, A); (b, B)] (snake-case and caps-case name) . *)
Inductive ret :=
| RetNotFound
| RetNotAllowed
| RetRoute (redirect : bool) (mods : list (str * str)) (name : str)
           (fields : list (str * field_init)).

(** Head of a match arm and the layout of its body.
    [AHBlock t]: [b"t" => { body },]; [AHInline t]: [b"t" => stmt,] without the
    final semicolon; [AHWild]: [_ => stmt,]; [AHWildUnit]: [_ => {},].
    [AHSomeSlash] and [AHStmts] are the two malformed arms the generator can
    emit (gen/gen.rs:692 and 685): [Some('/') => {}] and bare statements. *)
Inductive arm_head :=
| AHBlock (t : str)
| AHInline (t : str)
| AHWild
| AHWildUnit
| AHSomeSlash
| AHStmts.

Inductive stmt :=
| SBlank                                              (* an empty line *)
| SLet (x : str) (e : expr)                           (* let x = e; *)
| SLetUtf8 (x src : str) (a b : expr)                 (* let x = std::str::from_utf8(&src[a..b]).unwrap(); *)
| SLetParse (x src what : str)                        (* let x = src.parse().map_err(|e| Error::fail("what", e))?; *)
| SAdd (x : str) (n : nat)                            (* x += n; *)
| SWhile (c : bexpr) (body : list stmt)
| SIf (c : bexpr) (body : list stmt)
| SMatch (s : scrut) (arms : list (arm_head * list stmt))
| SReturn (r : ret).

(** ** Printer *)

Fixpoint spaces4 (n : nat) : str :=
  match n with O => [] | S n' => lit "    " ++ spaces4 n' end.

(** [{}] of a [usize]. *)
Fixpoint uint_str (d : Decimal.uint) : str :=
  match d with
  | Decimal.Nil => []
  | Decimal.D0 d => 48%N :: uint_str d
  | Decimal.D1 d => 49%N :: uint_str d
  | Decimal.D2 d => 50%N :: uint_str d
  | Decimal.D3 d => 51%N :: uint_str d
  | Decimal.D4 d => 52%N :: uint_str d
  | Decimal.D5 d => 53%N :: uint_str d
  | Decimal.D6 d => 54%N :: uint_str d
  | Decimal.D7 d => 55%N :: uint_str d
  | Decimal.D8 d => 56%N :: uint_str d
  | Decimal.D9 d => 57%N :: uint_str d
  end.
Definition nat_str (n : nat) : str := uint_str (Nat.to_uint n).

Definition nl : str := [c_nl].
Definition quoted (s : str) : str := [c_quote] ++ s ++ [c_quote].
Definition byte_lit (t : str) : str := lit "b" ++ quoted t.

(** [i + 3] in conditions, [i+3] in slices. *)
Definition pr_expr (e : expr) : str :=
  match e with
  | EVar x => x
  | ENat n => nat_str n
  | EPlus x n => x ++ lit " + " ++ nat_str n
  end.
Definition pr_expr_tight (e : expr) : str :=
  match e with
  | EVar x => x
  | ENat n => nat_str n
  | EPlus x n => x ++ lit "+" ++ nat_str n
  end.
Definition pr_slice (x : str) (a b : expr) : str :=
  lit "&" ++ x ++ lit "[" ++ pr_expr_tight a ++ lit ".." ++ pr_expr_tight b ++ lit "]".
Fixpoint pr_bexpr (c : bexpr) : str :=
  match c with
  | BEq a b => pr_expr a ++ lit " == " ++ pr_expr b
  | BGt a b => pr_expr a ++ lit " > " ++ pr_expr b
  | BLe a b => pr_expr a ++ lit " <= " ++ pr_expr b
  | BLt a b => pr_expr a ++ lit " < " ++ pr_expr b
  | BAnd c d => pr_bexpr c ++ lit " && " ++ pr_bexpr d
  | BSliceNe x a b t => pr_slice x a b ++ lit " != " ++ byte_lit t
  end.
Definition pr_scrut (s : scrut) : str :=
  match s with
  | ScVar x => x
  | ScSlice x a b => pr_slice x a b
  end.

(** The nested [Route::A(a::Route::B(..] prefix, the module path, and the
    closing parentheses. *)
Fixpoint pr_nest (path : str) (mods : list (str * str)) : str * str :=
  match mods with
  | [] => (path, [])
  | (snake, caps) :: mods' =>
      let '(p, acc) := pr_nest (path ++ snake ++ lit "::") mods' in
      (p, path ++ lit "Route::" ++ caps ++ lit "(" ++ acc)
  end.
Definition pr_field (f : str * field_init) : str :=
  match f with
  | (x, FVar) => x ++ lit ","
  | (x, FNone) => x ++ lit ": None,"
  end.

(** [return ...] without the final [;] or [,].  [ind] is the indentation of the
    line it starts on; struct literals span several lines. *)
Definition pr_ret (ind : str) (r : ret) : str :=
  match r with
  | RetNotFound => lit "return Ok(Match::NotFound)"
  | RetNotAllowed => lit "return Ok(Match::NotAllowed)"
  | RetRoute redirect mods name fields =>
      let '(path, nest) := pr_nest [] mods in
      lit "return Ok(Match::" ++ (if redirect then lit "Redirect" else lit "Route") ++ lit "("
        ++ nest ++ path ++ lit "Route::" ++ name ++ lit "(" ++ path ++ name ++ lit " {" ++ nl
        ++ concat (map (fun f => ind ++ lit "    " ++ pr_field f ++ nl) fields)
        ++ ind ++ lit "}" ++ repeat 41%N (length mods) ++ lit ")))"
  end.

(** Layout of the compound statements, from the text of their parts. *)
Definition pr_block_of (ind head body : str) : str :=
  ind ++ head ++ lit " {" ++ nl ++ body ++ ind ++ lit "}" ++ nl.
Definition pr_arm_block (ind t body : str) : str :=
  ind ++ byte_lit t ++ lit " => {" ++ nl ++ body ++ ind ++ lit "}," ++ nl.
Definition pr_arm_inline (ind head : str) (body : list stmt) : str :=
  ind ++ head ++ lit " => "
    ++ match body with [SReturn r] => pr_ret ind r | _ => [] end
    ++ lit "," ++ nl.
Definition pr_simple (ind : str) (s : stmt) : str :=
  match s with
  | SBlank => nl
  | SLet x e => ind ++ lit "let " ++ x ++ lit " = " ++ pr_expr e ++ lit ";" ++ nl
  | SLetUtf8 x src a b =>
      ind ++ lit "let " ++ x ++ lit " = std::str::from_utf8(" ++ pr_slice src a b
        ++ lit ").unwrap();" ++ nl
  | SLetParse x src what =>
      ind ++ lit "let " ++ x ++ lit " = " ++ src ++ lit ".parse()" ++ nl
        ++ ind ++ lit "    .map_err(|e| Error::fail(" ++ quoted what ++ lit ", e))?;" ++ nl
  | SAdd x n => ind ++ x ++ lit " += " ++ nat_str n ++ lit ";" ++ nl
  | SReturn r => ind ++ pr_ret ind r ++ lit ";" ++ nl
  | _ => []
  end.

(** Statements at indentation [d] (in units of four spaces). *)
Fixpoint pr_stmt (d : nat) (s : stmt) {struct s} : str :=
  match s with
  | SWhile c body =>
      pr_block_of (spaces4 d) (lit "while " ++ pr_bexpr c) (concat (map (pr_stmt (S d)) body))
  | SIf c body =>
      pr_block_of (spaces4 d) (lit "if " ++ pr_bexpr c) (concat (map (pr_stmt (S d)) body))
  | SMatch sc arms =>
      pr_block_of (spaces4 d) (lit "match " ++ pr_scrut sc)
        (concat (map (fun a : arm_head * list stmt =>
                        let (h, body) := a in
                        match h with
                        | AHBlock t =>
                            pr_arm_block (spaces4 (S d)) t
                              (concat (map (pr_stmt (S (S d))) body))
                        | AHInline t => pr_arm_inline (spaces4 (S d)) (byte_lit t) body
                        | AHWild => pr_arm_inline (spaces4 (S d)) (lit "_") body
                        | AHWildUnit => spaces4 (S d) ++ lit "_ => {}," ++ nl
                        | AHSomeSlash => spaces4 (S d) ++ lit "Some('/') => {}" ++ nl
                        | AHStmts => concat (map (pr_stmt d) body)
                        end) arms))
  | s => pr_simple (spaces4 d) s
  end.
Definition pr_block (d : nat) (l : list stmt) : str := concat (map (pr_stmt d) l).

(** ** Struct environment

    The declared structs of the generated module: the modules on the way, each
    with its name and the variant of the enum [Route] around it that holds the
    [Route] of the module; struct name; and fields, where [fd_opt] marks
    [Option<..>] fields. *)
Record field_decl := mkField { fd_name : str; fd_typ : str; fd_opt : bool }.
Definition struct_decl := (list (str * str) * str * list field_decl)%type.
Definition struct_env := list struct_decl.

Fixpoint mods_eqb (a b : list (str * str)) : bool :=
  match a, b with
  | [], [] => true
  | x :: a', y :: b' => str_eqb (fst x) (fst y) && str_eqb (snd x) (snd y) && mods_eqb a' b'
  | _, _ => false
  end.
Fixpoint lookup_struct (env : struct_env) (mods : list (str * str)) (name : str)
    : option (list field_decl) :=
  match env with
  | [] => None
  | (ms, n, fs) :: env' =>
      if mods_eqb ms mods && str_eqb n name then Some fs else lookup_struct env' mods name
  end.
Fixpoint lookup_field (fs : list field_decl) (x : str) : option field_decl :=
  match fs with
  | [] => None
  | f :: fs' => if str_eqb (fd_name f) x then Some f else lookup_field fs' x
  end.

(** Rust infers the type of [let x = text.parse()..?] from the uses of [x]:
    here, the struct literals in the rest of its scope that mention [x].
    [field_uses senv x l] are the declared types of field [x] in the struct
    literals of [l] that use the variable [x], up to the next [let x]. *)
Definition binds (x : str) (s : stmt) : bool :=
  match s with
  | SLet y _ | SLetUtf8 y _ _ _ | SLetParse y _ _ => str_eqb y x
  | _ => false
  end.
Definition ret_uses (senv : struct_env) (x : str) (r : ret) : list str :=
  match r with
  | RetRoute _ mods name fields =>
      match lookup_struct senv mods name with
      | Some fs =>
          concat (map (fun f : str * field_init =>
                         match f with
                         | (y, FVar) =>
                             if str_eqb y x then
                               match lookup_field fs x with
                               | Some fd => [fd_typ fd]
                               | None => []
                               end
                             else []
                         | _ => []
                         end) fields)
      | None => []
      end
  | _ => []
  end.
Fixpoint stmt_uses (senv : struct_env) (x : str) (s : stmt) : list str :=
  let uses := (fix uses (l : list stmt) : list str :=
                 match l with
                 | [] => []
                 | s :: l' => stmt_uses senv x s ++ (if binds x s then [] else uses l')
                 end) in
  match s with
  | SWhile _ body | SIf _ body => uses body
  | SMatch _ arms =>
      (fix go (l : list (arm_head * list stmt)) : list str :=
         match l with
         | [] => []
         | (_, body) :: l' => uses body ++ go l'
         end) arms
  | SReturn r => ret_uses senv x r
  | _ => []
  end.
Fixpoint block_uses (senv : struct_env) (x : str) (l : list stmt) : list str :=
  match l with
  | [] => []
  | s :: l' => stmt_uses senv x s ++ (if binds x s then [] else block_uses senv x l')
  end.
(** The inferred type: all uses agree, and there is one. *)
Definition infer (senv : struct_env) (x : str) (rest : list stmt) : option str :=
  match block_uses senv x rest with
  | [] => None
  | t :: ts => if forallb (str_eqb t) ts then Some t else None
  end.

(** ** Static check

    [check_block] returns [None] if rustc rejects the block, and otherwise
    whether the block diverges (every path returns), so that it can stand where
    a value of any type is expected. *)
Inductive ty := TUsize | TBytes | TStr | TVal (t : str).
Definition tenv := list (str * (bool * ty)).            (* name, mutable, type *)

Fixpoint lookup {A} (x : str) (env : list (str * A)) : option A :=
  match env with
  | [] => None
  | (y, a) :: env' => if str_eqb y x then Some a else lookup x env'
  end.

(** The text between the quotes of a byte-string literal, when it denotes
    itself: ASCII, no quote, no backslash, no carriage return.  (Escapes are
    conservatively rejected.) *)
Definition plain_byte_char (c : char) : bool :=
  (c <? 128)%N && negb (N.eqb c c_quote) && negb (N.eqb c c_backslash) && negb (N.eqb c c_cr).
Definition plain_lit (t : str) : bool := forallb plain_byte_char t.

Definition s_usize : str := lit "usize".
Definition is_usize (t : ty) : bool :=
  match t with
  | TUsize => true
  | TVal t => str_eqb t s_usize
  | _ => false
  end.
Definition check_expr (env : tenv) (e : expr) : bool :=
  match e with
  | EVar x | EPlus x _ => match lookup x env with Some (_, t) => is_usize t | None => false end
  | ENat _ => true
  end.
Definition check_slice (env : tenv) (x : str) (a b : expr) : bool :=
  match lookup x env with Some (_, TBytes) => true | _ => false end
  && check_expr env a && check_expr env b.
Fixpoint check_bexpr (env : tenv) (c : bexpr) : bool :=
  match c with
  | BEq a b | BGt a b | BLe a b | BLt a b => check_expr env a && check_expr env b
  | BAnd c d => check_bexpr env c && check_bexpr env d
  | BSliceNe x a b t => check_slice env x a b && plain_lit t
  end.
Definition check_scrut (env : tenv) (s : scrut) : bool :=
  match s with
  | ScVar x => match lookup x env with Some (_, TBytes) => true | _ => false end
  | ScSlice x a b => check_slice env x a b
  end.

Fixpoint nodup_strs (l : list str) : bool :=
  match l with
  | [] => true
  | x :: l' => negb (existsb (str_eqb x) l') && nodup_strs l'
  end.
(** Unit structs also live in the namespace of values: one declared in the
    module of [match_route] takes the place of a prelude constructor of the same
    name, and no variable may have its name. *)
Definition unit_struct (senv : struct_env) (x : str) : bool :=
  match lookup_struct senv [] x with Some [] => true | _ => false end.

(** The constructors of the prelude have the same effect on variables:
    [let None = ..] is a pattern for the constant, [let Ok = ..] an error. *)
Definition prelude_ctor (x : str) : bool :=
  existsb (str_eqb x) [lit "None"; lit "Some"; lit "Ok"; lit "Err"].
Definition no_variable (senv : struct_env) (x : str) : bool := unit_struct senv x || prelude_ctor x.

(** In [match_route] the type parameters [P] and [M] hide structs of these
    names declared next to it (gen/gen.rs:451). *)
Definition hidden_type (mods : list (str * str)) (name : str) : bool :=
  match mods with
  | [] => str_eqb name (lit "P") || str_eqb name (lit "M")
  | _ => false
  end.

(** A struct literal [snake::Name { .. }] inside [Route::Caps(snake::Route::Name(..))]:
    the module and the variant belong together; the literal names every declared
    field exactly once and nothing else, with values of the declared types. *)
Definition check_ret (senv : struct_env) (env : tenv) (r : ret) : bool :=
  match r with
  | RetRoute _ mods name fields =>
      match lookup_struct senv mods name with
      | None => false
      | Some fs =>
          negb (hidden_type mods name)
          && nodup_strs (map fst fields)
          && forallb (fun fd => existsb (fun f => str_eqb (fst f) (fd_name fd)) fields) fs
          && forallb (fun f : str * field_init =>
                        match lookup_field fs (fst f) with
                        | None => false
                        | Some fd =>
                            match snd f with
                            | FNone => fd_opt fd && negb (unit_struct senv (lit "None"))
                            | FVar =>
                                negb (fd_opt fd) &&
                                match lookup (fst f) env with
                                | Some (_, TVal t) => str_eqb t (fd_typ fd)
                                | Some (_, TUsize) => str_eqb s_usize (fd_typ fd)
                                | _ => false
                                end
                            end
                        end) fields
      end
  | _ => true
  end.

Definition is_wild (h : arm_head) : bool :=
  match h with AHWild | AHWildUnit => true | _ => false end.

(** [Some d]: accepted, [d] = diverges. *)
Fixpoint check_stmt (senv : struct_env) (env : tenv) (s : stmt) (rest : list stmt)
    : option (tenv * bool) :=
  let block := (fix block (env : tenv) (l : list stmt) (d : bool) : option bool :=
                  match l with
                  | [] => Some d
                  | s :: l' =>
                      match check_stmt senv env s l' with
                      | Some (env', d') => block env' l' (d || d')
                      | None => None
                      end
                  end) in
  match s with
  | SBlank => Some (env, false)
  | SLet x e => if check_expr env e && negb (no_variable senv x) then Some ((x, (false, TUsize)) :: env, false) else None
  | SLetUtf8 x src a b =>
      if check_slice env src a b && negb (no_variable senv x)
      then Some ((x, (false, TStr)) :: env, false) else None
  | SLetParse x src what =>
      match lookup src env with
      | Some (_, TStr) =>
          match infer senv x rest with
          | Some t =>
              if no_variable senv x then None else Some ((x, (false, TVal t)) :: env, false)
          | None => None
          end
      | _ => None
      end
  | SAdd x _ =>
      match lookup x env with Some (true, TUsize) => Some (env, false) | _ => None end
  | SWhile c body =>
      if check_bexpr env c then
        match block env body false with Some _ => Some (env, false) | None => None end
      else None
  | SIf c body =>
      if check_bexpr env c then
        match block env body false with Some _ => Some (env, false) | None => None end
      else None
  | SMatch sc arms =>
      if check_scrut env sc && existsb (fun a => is_wild (fst a)) arms then
        match
          (fix go (l : list (arm_head * list stmt)) : option bool :=
             match l with
             | [] => Some true
             | (h, body) :: l' =>
                 match (match h with
                        | AHBlock t => if plain_lit t then block env body false else None
                        | AHInline t =>
                            if plain_lit t then
                              match body with [SReturn _] => block env body false | _ => None end
                            else None
                        | AHWild =>
                            match body with [SReturn _] => block env body false | _ => None end
                        | AHWildUnit => match body with [] => Some false | _ => None end
                        | AHSomeSlash | AHStmts => None
                        end), go l' with
                 | Some d1, Some d2 => Some (d1 && d2)
                 | _, _ => None
                 end
             end) arms
        with
        | Some d => Some (env, d)
        | None => None
        end
      else None
  | SReturn r => if check_ret senv env r then Some (env, true) else None
  end.
Fixpoint check_block (senv : struct_env) (env : tenv) (l : list stmt) (d : bool) : option bool :=
  match l with
  | [] => Some d
  | s :: l' =>
      match check_stmt senv env s l' with
      | Some (env', d') => check_block senv env' l' (d || d')
      | None => None
      end
  end.

(** ** Semantics *)

Section Sem.
Context {T E : Type}.
(** [FromStr] of the type with the given name, applied to the bytes of the
    text; and the number held by a value of type [usize] (used only when a
    route parameter shadows one of the matcher's own variables). *)
Record runtime := mkRuntime {
  rt_parse : str -> bytes -> T + E;
  rt_usize : T -> nat
}.
Variable rt : runtime.
Variable senv : struct_env.

Inductive val :=
| VUsize (n : nat)
| VBytes (b : bytes)
| VStr (b : bytes)
| VVal (t : str) (v : T).
Definition env := list (str * (bool * val)).             (* name, mutable, value *)

(** Field values of a returned route. *)
Inductive fval := FvVal (t : str) (v : T) | FvUsize (n : nat) | FvNone.
Record route_value := mkRoute {
  rv_modules : list str;                                 (* variant names, outermost first *)
  rv_name : str;
  rv_fields : list (str * fval)
}.
(** [Result<Match<Route>, Error>] as data, with [MError name e] for
    [Err(Error { param: name, what: e })]. *)
Inductive match_result :=
| MNotFound
| MNotAllowed
| MRoute (r : route_value)
| MRedirect (r : route_value)
| MError (name : str) (e : E).

Inductive outcome :=
| ONext (en : env)
| ORet (m : match_result)
| OPanic
| OStuck                                                  (* rejected by rustc *)
| OFuel.

Definition get_usize (en : env) (x : str) : option nat :=
  match lookup x en with
  | Some (_, VUsize n) => Some n
  | Some (_, VVal t v) => if str_eqb t s_usize then Some (rt_usize rt v) else None
  | _ => None
  end.
Definition eval_expr (en : env) (e : expr) : option nat :=
  match e with
  | EVar x => get_usize en x
  | ENat n => Some n
  | EPlus x n => match get_usize en x with Some m => Some (m + n) | None => None end
  end.

(** [None]: rejected; [Some None]: panic. *)
Definition eval_slice (en : env) (x : str) (a b : expr) : option (option bytes) :=
  match lookup x en, eval_expr en a, eval_expr en b with
  | Some (_, VBytes l), Some i, Some j => Some (slice l i j)
  | _, _, _ => None
  end.
Definition cmp_expr (en : env) (f : nat -> nat -> bool) (a b : expr) : option (option bool) :=
  match eval_expr en a, eval_expr en b with
  | Some i, Some j => Some (Some (f i j))
  | _, _ => None
  end.
Fixpoint eval_bexpr (en : env) (c : bexpr) : option (option bool) :=
  match c with
  | BEq a b => cmp_expr en Nat.eqb a b
  | BGt a b => cmp_expr en (fun i j => Nat.ltb j i) a b
  | BLe a b => cmp_expr en Nat.leb a b
  | BLt a b => cmp_expr en Nat.ltb a b
  | BAnd c d =>
      match eval_bexpr en c with
      | Some (Some true) => eval_bexpr en d
      | r => r
      end
  | BSliceNe x a b t =>
      match eval_slice en x a b with
      | Some (Some l) => Some (Some (negb (str_eqb l t)))
      | Some None => Some None
      | None => None
      end
  end.
Definition eval_scrut (en : env) (s : scrut) : option (option bytes) :=
  match s with
  | ScVar x => match lookup x en with Some (_, VBytes l) => Some (Some l) | _ => None end
  | ScSlice x a b => eval_slice en x a b
  end.

Fixpoint eval_fields (en : env) (l : list (str * field_init)) : option (list (str * fval)) :=
  match l with
  | [] => Some []
  | (x, FNone) :: l' =>
      match eval_fields en l' with Some r => Some ((x, FvNone) :: r) | None => None end
  | (x, FVar) :: l' =>
      match (match lookup x en with
             | Some (_, VVal t v) => Some (FvVal t v)
             | Some (_, VUsize n) => Some (FvUsize n)
             | _ => None
             end), eval_fields en l' with
      | Some v, Some r => Some ((x, v) :: r)
      | _, _ => None
      end
  end.
Definition eval_ret (en : env) (r : ret) : outcome :=
  match r with
  | RetNotFound => ORet MNotFound
  | RetNotAllowed => ORet MNotAllowed
  | RetRoute redirect mods name fields =>
      match eval_fields en fields with
      | Some fs =>
          let v := mkRoute (map snd mods) name fs in
          ORet (if redirect then MRedirect v else MRoute v)
      | None => OStuck
      end
  end.

(** [x += n]: the innermost binding of [x], which must be mutable. *)
Fixpoint add_assign (x : str) (n : nat) (en : env) : option env :=
  match en with
  | [] => None
  | (y, (m, v)) :: en' =>
      if str_eqb y x then
        match m, v with
        | true, VUsize k => Some ((y, (m, VUsize (k + n))) :: en')
        | _, _ => None
        end
      else match add_assign x n en' with
           | Some en'' => Some ((y, (m, v)) :: en'')
           | None => None
           end
  end.

(** Leaving a block: drop the bindings made in it. *)
Definition leave (outer : env) (o : outcome) : outcome :=
  match o with
  | ONext en => ONext (skipn (length en - length outer) en)
  | o => o
  end.

(** The arm a value selects; byte-string literals denote their own text
    (checked by [plain_lit]). *)
Definition arm_matches (h : arm_head) (v : bytes) : bool :=
  match h with
  | AHBlock t | AHInline t => str_eqb v t
  | AHWild | AHWildUnit => true
  | AHSomeSlash | AHStmts => false
  end.

(** [fuel] bounds the iterations of each [while] loop. *)
Fixpoint exec_stmt (fuel : nat) (en : env) (s : stmt) (rest : list stmt) : outcome :=
  let block := (fix block (en : env) (l : list stmt) : outcome :=
                  match l with
                  | [] => ONext en
                  | s :: l' =>
                      match exec_stmt fuel en s l' with
                      | ONext en' => block en' l'
                      | o => o
                      end
                  end) in
  match s with
  | SBlank => ONext en
  | SLet x e =>
      match eval_expr en e with
      | Some n => ONext ((x, (false, VUsize n)) :: en)
      | None => OStuck
      end
  | SLetUtf8 x src a b =>
      match eval_slice en src a b with
      | Some (Some l) =>
          if utf8_valid l then ONext ((x, (false, VStr l)) :: en) else OPanic
      | Some None => OPanic
      | None => OStuck
      end
  | SLetParse x src what =>
      match lookup src en with
      | Some (_, VStr l) =>
          match infer senv x rest with
          | Some t =>
              match rt_parse rt t l with
              | inl v => ONext ((x, (false, VVal t v)) :: en)
              | inr e => ORet (MError what e)
              end
          | None => OStuck
          end
      | _ => OStuck
      end
  | SAdd x n =>
      match add_assign x n en with
      | Some en' => ONext en'
      | None => OStuck
      end
  | SWhile c body =>
      (fix loop (k : nat) (en : env) : outcome :=
         match k with
         | O => OFuel
         | S k' =>
             match eval_bexpr en c with
             | None => OStuck
             | Some None => OPanic
             | Some (Some false) => ONext en
             | Some (Some true) =>
                 match leave en (block en body) with
                 | ONext en' => loop k' en'
                 | o => o
                 end
             end
         end) fuel en
  | SIf c body =>
      match eval_bexpr en c with
      | None => OStuck
      | Some None => OPanic
      | Some (Some false) => ONext en
      | Some (Some true) => leave en (block en body)
      end
  | SMatch sc arms =>
      match eval_scrut en sc with
      | None => OStuck
      | Some None => OPanic
      | Some (Some v) =>
          (fix go (l : list (arm_head * list stmt)) : outcome :=
             match l with
             | [] => OStuck
             | (h, body) :: l' =>
                 if arm_matches h v then leave en (block en body) else go l'
             end) arms
      end
  | SReturn r => eval_ret en r
  end.
Fixpoint exec_block (fuel : nat) (en : env) (l : list stmt) : outcome :=
  match l with
  | [] => ONext en
  | s :: l' =>
      match exec_stmt fuel en s l' with
      | ONext en' => exec_block fuel en' l'
      | o => o
      end
  end.

End Sem.
Arguments runtime T E : clear implicits.
Arguments val T : clear implicits.
Arguments env T : clear implicits.
Arguments fval T : clear implicits.
Arguments route_value T : clear implicits.
Arguments match_result T E : clear implicits.
Arguments outcome T E : clear implicits.
