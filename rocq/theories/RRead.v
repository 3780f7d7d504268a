(** * RRead: reading Rust text

    The part of the grammar of Rust (the Reference, "Items", "Statements",
    "Expressions", "Patterns") that generated modules are written in, as a parser of
    the tokens of RLex.v.  It knows nothing of routes or of the generator.  What is
    not in this part of the language is not read ([None]), or, for items, kept as
    tokens ([Other]).  The result is in the syntax of MiniRust.v, Items.v and
    Fixed.v. *)
From Verif Require Import Base Core MiniRust Gen Items Fixed RLex.

Definition reader (A : Type) := list tok -> option (A * list tok).
Definition done {A} (a : A) : reader A := fun ts => Some (a, ts).
Definition then_ {A B} (p : reader A) (f : A -> reader B) : reader B :=
  fun ts => match p ts with Some (a, ts') => f a ts' | None => None end.
Notation "'get' x <- p ; q" := (then_ p (fun x => q))
  (at level 200, x name, p at level 100, q at level 200, right associativity).
Notation "p ;- q" := (then_ p (fun _ => q)) (at level 100, q at level 200, right associativity).
Definition or_ {A} (p q : reader A) : reader A :=
  fun ts => match p ts with Some r => Some r | None => q ts end.

Definition tok_eqb (a b : tok) : bool :=
  match a, b with
  | Word x, Word y | Num x, Num y | Text x, Text y | Bytes x, Bytes y | Op x, Op y | Life x, Life y => str_eqb x y
  | _, _ => false
  end.
Definition eat (t : tok) : reader unit :=
  fun ts => match ts with t' :: ts' => if tok_eqb t t' then Some (tt, ts') else None | [] => None end.
Definition op (o : string) : reader unit := eat (Op (lit o)).
Definition key (w : string) : reader unit := eat (Word (lit w)).
(** An identifier that is not a keyword. *)
Definition name : reader str :=
  fun ts => match ts with Word x :: ts' => if is_ident x then Some (x, ts') else None | _ => None end.
Definition text : reader str := fun ts => match ts with Text s :: ts' => Some (s, ts') | _ => None end.
Definition bytes_lit : reader str := fun ts => match ts with Bytes s :: ts' => Some (s, ts') | _ => None end.

Fixpoint decimal (s : str) : option Decimal.uint :=
  match s with
  | [] => Some Decimal.Nil
  | c :: s' =>
      match decimal s' with
      | None => None
      | Some d =>
          match c with
          | 48%N => Some (Decimal.D0 d)
          | 49%N => Some (Decimal.D1 d)
          | 50%N => Some (Decimal.D2 d)
          | 51%N => Some (Decimal.D3 d)
          | 52%N => Some (Decimal.D4 d)
          | 53%N => Some (Decimal.D5 d)
          | 54%N => Some (Decimal.D6 d)
          | 55%N => Some (Decimal.D7 d)
          | 56%N => Some (Decimal.D8 d)
          | 57%N => Some (Decimal.D9 d)
          | _ => None
          end
      end
  end.
Definition number : reader nat :=
  fun ts => match ts with
            | Num s :: ts' => match decimal s with Some d => Some (Nat.of_uint d, ts') | None => None end
            | _ => None
            end.

(** [p] zero or more times, as long as it reads something. *)
Fixpoint many {A} (fuel : nat) (p : reader A) : reader (list A) :=
  fun ts =>
    match fuel with
    | O => None
    | S fuel' =>
        match p ts with
        | Some (a, ts') => (get l <- many fuel' p; done (a :: l)) ts'
        | None => Some ([], ts)
        end
    end.
Definition many_ {A} (p : reader A) : reader (list A) := fun ts => many (S (length ts)) p ts.
(** A list with commas, the last one optional, and what stands after it. *)
Definition comma_or (close : string) : reader unit :=
  or_ (op ",") (fun ts => match op close ts with Some _ => Some (tt, ts) | None => None end).
Definition list_to {A} (close : string) (p : reader A) : reader (list A) :=
  get l <- many_ (get a <- p; comma_or close ;- done a); op close ;- done l.

(** ** Expressions *)

Definition r_expr : reader expr :=
  or_ (get n <- number; done (ENat n))
      (get x <- name; or_ (op "+" ;- get n <- number; done (EPlus x n)) (done (EVar x))).
(** [&x[a..b]] *)
Definition r_slice : reader (str * expr * expr) :=
  op "&" ;- get x <- name; op "[" ;- get a <- r_expr; op ".." ;- get b <- r_expr; op "]" ;- done (x, a, b).
Definition r_scrut : reader scrut :=
  or_ (get s <- r_slice; done (ScSlice (fst (fst s)) (snd (fst s)) (snd s))) (get x <- name; done (ScVar x)).

(** Comparisons joined by [&&]. *)
Definition r_comparison : reader pcond :=
  or_ (get s <- r_slice;
       let '(x, a, b) := s in
       or_ (op "!=" ;- get t <- bytes_lit; done (PcCmp (BSliceNe x a b t)))
           (op "==" ;- get t <- bytes_lit; done (PcSliceEq x a b t)))
      (get a <- r_expr;
       or_ (op "==" ;- get b <- r_expr; done (PcCmp (BEq a b)))
      (or_ (op ">" ;- get b <- r_expr; done (PcCmp (BGt a b)))
      (or_ (op "<=" ;- get b <- r_expr; done (PcCmp (BLe a b)))
           (op "<" ;- get b <- r_expr; done (PcCmp (BLt a b)))))).
Definition r_pcond : reader pcond :=
  get c <- r_comparison; get l <- many_ (op "&&" ;- r_comparison); done (fold_left PcAnd l c).
Fixpoint as_bexpr (c : pcond) : option bexpr :=
  match c with
  | PcCmp c => Some c
  | PcSliceEq _ _ _ _ => None
  | PcAnd c d =>
      match as_bexpr c, as_bexpr d with
      | Some c', Some d' => Some (BAnd c' d')
      | _, _ => None
      end
  end.
Definition r_bexpr : reader bexpr :=
  fun ts => match r_pcond ts with
            | Some (c, ts') => match as_bexpr c with Some c' => Some (c', ts') | None => None end
            | None => None
            end.

(** Values: paths, alone, applied to a value, or with fields. *)
Inductive value :=
| VPath (p : list str)
| VCall (p : list str) (v : value)
| VStruct (p : list str) (fields : list (str * field_init)).
Definition r_path : reader (list str) :=
  get x <- name; get l <- many_ (op "::" ;- name); done (x :: l).
Definition r_field : reader (str * field_init) :=
  get x <- name; or_ (op ":" ;- key "None" ;- done (x, FNone)) (done (x, FVar)).
Fixpoint r_value (fuel : nat) : reader value :=
  fun ts =>
    match fuel with
    | O => None
    | S fuel' =>
        (get p <- r_path;
         or_ (op "(" ;- get v <- r_value fuel'; comma_or ")" ;- op ")" ;- done (VCall p v))
        (or_ (op "{" ;- get l <- list_to "}" r_field; done (VStruct p l))
             (done (VPath p)))) ts
    end.
(** [path::Route::A(path::a::Route::B(..))], where [path] leads to the module
    whose [Route] it is. *)
Fixpoint strs_eqb (a b : list str) : bool :=
  match a, b with
  | [], [] => true
  | x :: a', y :: b' => str_eqb x y && strs_eqb a' b'
  | _, _ => false
  end.
Fixpoint as_route (path : list str) (v : value) : option (list (str * str) * str * list (str * field_init)) :=
  match v with
  | VCall p w =>
      if strs_eqb (removelast p) (path ++ [lit "Route"]) then
        let variant := last p [] in
        match w with
        | VStruct q fs => if strs_eqb q (path ++ [variant]) then Some ([], variant, fs) else None
        | VCall q _ =>
            let m := nth (length path) q [] in
            match as_route (path ++ [m]) w with
            | Some (mods, n, fs) => Some ((m, variant) :: mods, n, fs)
            | None => None
            end
        | VPath _ => None
        end
      else None
  | _ => None
  end.
Definition as_ret (v : value) : option ret :=
  match v with
  | VCall p w =>
      if strs_eqb p [lit "Ok"] then
        match w with
        | VPath q =>
            if strs_eqb q [lit "Match"; lit "NotFound"] then Some RetNotFound
            else if strs_eqb q [lit "Match"; lit "NotAllowed"] then Some RetNotAllowed
            else None
        | VCall q u =>
            match as_route [] u with
            | Some (mods, n, fs) =>
                if strs_eqb q [lit "Match"; lit "Route"] then Some (RetRoute false mods n fs)
                else if strs_eqb q [lit "Match"; lit "Redirect"] then Some (RetRoute true mods n fs)
                else None
            | None => None
            end
        | VStruct _ _ => None
        end
      else None
  | _ => None
  end.
(** [return v] *)
Definition r_return : reader ret :=
  key "return" ;-
  fun ts => match r_value (S (length ts)) ts with
            | Some (v, ts') => match as_ret v with Some r => Some (r, ts') | None => None end
            | None => None
            end.

(** ** Statements *)

Definition r_let : reader stmt :=
  key "let" ;- get x <- name; op "=" ;-
  or_ (key "std" ;- op "::" ;- key "str" ;- op "::" ;- key "from_utf8" ;- op "(" ;- get s <- r_slice; op ")" ;-
       op "." ;- key "unwrap" ;- op "(" ;- op ")" ;- op ";" ;-
       done (SLetUtf8 x (fst (fst s)) (snd (fst s)) (snd s)))
 (or_ (get src <- name; op "." ;- key "parse" ;- op "(" ;- op ")" ;-
       op "." ;- key "map_err" ;- op "(" ;- op "|" ;- get e <- name; op "|" ;-
       key "Error" ;- op "::" ;- key "fail" ;- op "(" ;- get what <- text; op "," ;- key "e" ;- op ")" ;- op ")" ;-
       op "?" ;- op ";" ;-
       (if str_eqb e (lit "e") then done (SLetParse x src what) else fun _ => None))
      (get e <- r_expr; op ";" ;- done (SLet x e))).
Definition r_add : reader stmt :=
  get x <- name; op "+=" ;- get n <- number; op ";" ;- done (SAdd x n).
(** The semicolon may be left out at the end of a block. *)
Definition r_return_stmt : reader stmt :=
  get r <- r_return;
  or_ (op ";") (fun ts => match op "}" ts with Some _ => Some (tt, ts) | None => None end) ;- done (SReturn r).

Section Block.
Variable block : reader (list stmt).   (* the statements between braces *)
(** An arm; the comma may be left out after a block. *)
Definition r_body : reader (list stmt) :=
  or_ (op "{" ;- get l <- block; op "}" ;- or_ (op ",") (done tt) ;- done l)
      (get r <- r_return; comma_or "}" ;- done [SReturn r]).
Definition r_arm : reader (arm_head * list stmt) :=
  or_ (get t <- bytes_lit; op "=>" ;- get l <- r_body; done (AHBlock t, l))
      (key "_" ;- op "=>" ;- get l <- r_body; done (match l with [] => AHWildUnit | _ => AHWild end, l)).
Definition r_stmt : reader stmt :=
  or_ r_let
 (or_ r_return_stmt
 (or_ (key "while" ;- get c <- r_bexpr; op "{" ;- get l <- block; op "}" ;- done (SWhile c l))
 (or_ (key "if" ;- get c <- r_bexpr; op "{" ;- get l <- block; op "}" ;- done (SIf c l))
 (or_ (key "match" ;- get s <- r_scrut; op "{" ;- get arms <- many_ r_arm; op "}" ;- done (SMatch s arms))
      r_add)))).
End Block.
Fixpoint r_block (fuel : nat) : reader (list stmt) :=
  fun ts => match fuel with O => None | S fuel' => many_ (r_stmt (r_block fuel')) ts end.

(** The first statements of a function. *)
Definition r_pstmt : reader pstmt :=
  key "let" ;-
  or_ (key "mut" ;- get x <- name; op "=" ;- key "if" ;- get c <- r_pcond; op "{" ;- get a <- number; op "}" ;-
       key "else" ;- op "{" ;- get b <- number; op "}" ;- op ";" ;- done (PLetMutIf x c a b))
      (get x <- name; op "=" ;- get y <- name; op "." ;-
       or_ (key "as_ref" ;- op "(" ;- op ")" ;- op ";" ;- done (PAsRef x y))
           (key "len" ;- op "(" ;- op ")" ;- op ";" ;- done (PLen x y))).

(** ** Items *)

Fixpoint eat_all (l : list tok) : reader unit :=
  match l with [] => done tt | t :: l' => eat t ;- eat_all l' end.
(** The tokens of an item: up to a semicolon or the end of a block in braces. *)
Fixpoint item_tokens (depth : nat) (ts : list tok) : option (list tok * list tok) :=
  match ts with
  | [] => None
  | t :: ts' =>
      let is l := existsb (fun o => tok_eqb t (Op (lit o))) l in
      if is ["("; "["; "{"]%string then
        match item_tokens (S depth) ts' with Some (a, b) => Some (t :: a, b) | None => None end
      else if is [")"; "]"; "}"]%string then
        match depth with
        | O => None
        | 1 => if is ["}"]%string then Some ([t], ts')
               else match item_tokens 0 ts' with Some (a, b) => Some (t :: a, b) | None => None end
        | S d => match item_tokens d ts' with Some (a, b) => Some (t :: a, b) | None => None end
        end
      else if is [";"]%string && (depth =? 0)%nat then Some ([t], ts')
      else match item_tokens depth ts' with Some (a, b) => Some (t :: a, b) | None => None end
  end.

Inductive decl :=
| DUse (ts : list tok)                          (* a use declaration *)
| DItem (it : item)
| DFn (prologue : list pstmt) (body : list stmt) (* match_route *)
| DOther (ts : list tok).

Definition r_use : reader decl :=
  fun ts => match key "use" ts with
            | Some _ => match item_tokens 0 ts with Some (l, ts') => Some (DUse l, ts') | None => None end
            | None => None
            end.
(** The types of fields: a name, or [Option] of one. *)
Definition r_type : reader ty :=
  or_ (key "Option" ;- op "<" ;- get t <- name; op ">" ;- done (TyOption t))
      (get t <- name; done (TyUser t)).
Definition r_derive : reader unit :=
  op "#" ;- op "[" ;- key "derive" ;- op "(" ;- key "Debug" ;- op "," ;- key "PartialEq" ;- op "," ;- key "Eq" ;-
  op ")" ;- op "]".
Definition r_struct : reader item :=
  r_derive ;- key "pub" ;- key "struct" ;- get n <- name;
  or_ (op ";" ;- done (ItStruct [] n []))
      (op "{" ;-
       get l <- list_to "}" (key "pub" ;- get x <- name; op ":" ;- get t <- r_type; done (x, t));
       done (ItStruct [] n l)).
Definition r_enum : reader item :=
  r_derive ;- key "pub" ;- key "enum" ;- get n <- name; op "{" ;-
  get l <- list_to "}" (get v <- name; op "(" ;- get p <- r_path; op ")" ;-
                        done (v, TyItem (removelast p) (last p [])));
  done (ItEnum [] n l).
(** [let name { ref x, .. } = self;], and its variables *)
Definition r_binds (n : str) : reader (list str) :=
  key "let" ;- eat (Word n) ;- op "{" ;- get l <- list_to "}" (key "ref" ;- name); op "=" ;- key "self" ;- op ";" ;-
  done l.
Definition r_format (n : str) : reader item :=
  get binds <- or_ (r_binds n) (done []);
  key "format" ;- op "!" ;- op "(" ;- get t <- text; get args <- many_ (op "," ;- name); op ")" ;-
  done (ItStructPath n binds t args).
Definition r_select (n : str) : reader item :=
  key "match" ;- key "self" ;- op "{" ;-
  get l <- list_to "}" (eat (Word n) ;- op "::" ;- get v <- name; op "(" ;- key "ref" ;- key "route" ;- op ")" ;-
                        op "=>" ;- key "route" ;- op "." ;- key "to_path" ;- op "(" ;- op ")" ;- done v);
  done (ItEnumPath n l).
Definition r_impl : reader item :=
  key "impl" ;- get n <- name; op "{" ;- key "pub" ;- key "fn" ;- key "to_path" ;- op "(" ;- op "&" ;- key "self" ;-
  op ")" ;- op "->" ;- key "String" ;- op "{" ;- get it <- or_ (r_format n) (r_select n); op "}" ;- op "}" ;- done it.

(** [pub fn match_route<P: AsRef<[u8]>, M: AsRef<[u8]>>(path: P, method: M) -> Result<Match<Route>, Error>] *)
Definition fn_head : list tok :=
  [ Word (lit "pub"); Word (lit "fn"); Word (lit "match_route"); Op (lit "<");
    Word (lit "P"); Op (lit ":"); Word (lit "AsRef"); Op (lit "<"); Op (lit "["); Word (lit "u8"); Op (lit "]"); Op (lit ">");
    Op (lit ",");
    Word (lit "M"); Op (lit ":"); Word (lit "AsRef"); Op (lit "<"); Op (lit "["); Word (lit "u8"); Op (lit "]"); Op (lit ">>");
    Op (lit "("); Word (lit "path"); Op (lit ":"); Word (lit "P"); Op (lit ","); Word (lit "method"); Op (lit ":"); Word (lit "M") ].
Definition fn_result : list tok :=
  [ Op (lit "->"); Word (lit "Result"); Op (lit "<"); Word (lit "Match"); Op (lit "<"); Word (lit "Route"); Op (lit ">");
    Op (lit ","); Word (lit "Error"); Op (lit ">"); Op (lit "{") ].
Definition r_fn : reader decl :=
  eat_all fn_head ;- or_ (op ",") (done tt) ;- op ")" ;- eat_all fn_result ;-
  get p <- many_ r_pstmt;
  fun ts => (get l <- r_block (S (length ts)); op "}" ;- done (DFn p l)) ts.

Fixpoint all_items (l : list decl) : option (list item) :=
  match l with
  | [] => Some []
  | DUse _ :: l' => all_items l'
  | DItem it :: l' => option_map (cons it) (all_items l')
  | _ => None
  end.
Fixpoint r_decl (fuel : nat) : reader decl :=
  fun ts =>
    match fuel with
    | O => None
    | S fuel' =>
        (or_ r_use
        (or_ (get it <- r_struct; done (DItem it))
        (or_ (get it <- r_enum; done (DItem it))
        (or_ (get it <- r_impl; done (DItem it))
        (or_ (key "pub" ;- key "mod" ;- get n <- name; op "{" ;- get l <- many_ (r_decl fuel'); op "}" ;-
              match all_items l with Some items => done (DItem (ItMod n items)) | None => fun _ => None end)
        (or_ r_fn
             (fun ts => match item_tokens 0 ts with Some (l, ts') => Some (DOther l, ts') | None => None end))))))) ts
    end.
(** [#![allow(x)]] *)
Definition r_allow : reader unit :=
  op "#" ;- op "!" ;- op "[" ;- key "allow" ;- op "(" ;- get _x <- name; op ")" ;- op "]".
(** A whole file with one module, of the given name. *)
Definition r_file (n : str) (ts : list tok) : option (list decl) :=
  match (key "pub" ;- key "mod" ;- eat (Word n) ;- op "{" ;- get _a <- many_ r_allow;
         get l <- many_ (r_decl (length ts)); op "}" ;- done l) ts with
  | Some (l, []) => Some l
  | _ => None
  end.

(** A generated module: its items, the code that is not read, and [match_route]. *)
Record reading := mkReading {
  rd_items : list item;
  rd_others : list (list tok);
  rd_fns : list (list pstmt * list stmt)
}.
Definition sort_decls (l : list decl) : reading :=
  mkReading
    (flat_map (fun d => match d with DItem it => [it] | _ => [] end) l)
    (flat_map (fun d => match d with DOther ts => [ts] | _ => [] end) l)
    (flat_map (fun d => match d with DFn p b => [(p, b)] | _ => [] end) l).
Definition read_module (n : str) (text : str) : option reading :=
  match lex text with
  | Some ts => option_map sort_decls (r_file n ts)
  | None => None
  end.
