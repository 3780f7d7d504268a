(** * Fixed: the code that every generated module contains

    wayfinder/src/gen/gen.rs:319-463 prints, for every configuration, the types
    [Match] and [Error] with their implementations and the first statements of
    [match_route].  Gen.v has this text as [boilerplate].  Here is the code as
    data, with a printer, the check of the variables, and what it does.  What
    [write!], [debug_struct] and [derive] do is from the documentation of
    std. *)
From Verif Require Import Base Core MiniRust Gen Items Cli.

(** ** Syntax *)

(** The argument of [write!]: a variable, or a field of [self]. *)
Inductive warg := WVar (x : str) | WField (x : str).
(** [x.as_ref().to_string()] and [Box::new(x)]. *)
Inductive init := IText (x : str) | IBox (x : str).
Inductive fixed_item :=
| FxBlank
| FxText (line : str)                                       (* use declarations *)
| FxEnum (derives : list str) (name param : str) (variants : list (str * bool))
    (* pub enum name<param> { variant, variant(param), .. } *)
| FxEnumDebug (name param : str) (arms : list (str * option str * str))
    (* impl<param: fmt::Debug> fmt::Debug for name<param>: for each variant the
       variable of its pattern, and the template *)
| FxStruct (name : str) (fields : list (str * str))         (* pub struct, private fields *)
| FxStructDebug (name shown : str) (fields : list (str * str))
    (* f.debug_struct(shown).field(label, &self.field)...finish() *)
| FxStructDisplay (name template : str) (args : list warg)
| FxEmptyImpl (trait name : str)                            (* impl trait for name {} *)
| FxMaker (name fn : str) (head : str) (fields : list (str * init)).
    (* impl name { pub fn fn head -> name { name { field: init, .. } } } *)

(** The statements before the matcher: [let x = y.as_ref();], [let x = y.len();],
    [let mut x = if c { a } else { b };]. *)
Inductive pcond :=
| PcCmp (c : bexpr)
| PcSliceEq (x : str) (a b : expr) (t : str)
| PcAnd (c d : pcond).
Inductive pstmt :=
| PAsRef (x y : str)
| PLen (x y : str)
| PLetMutIf (x : str) (c : pcond) (a b : nat).

(** ** Printing *)

Definition pr_warg (a : warg) : str :=
  match a with WVar x => x | WField x => lit "self." ++ x end.
Definition pr_init (i : init) : str :=
  match i with
  | IText x => x ++ lit ".as_ref().to_string()"
  | IBox x => lit "Box::new(" ++ x ++ lit ")"
  end.
Fixpoint commas (l : list str) : str :=
  match l with
  | [] => []
  | [x] => x
  | x :: l' => x ++ lit ", " ++ commas l'
  end.
Definition fmt_head : str := lit "        fn fmt(&self, f: &mut fmt::Formatter) -> fmt::Result {".
Definition pr_fixed (it : fixed_item) : list str :=
  match it with
  | FxBlank => [[]]
  | FxText line => [lit "    " ++ line]
  | FxEnum derives name param variants =>
      [ lit "    #[derive(" ++ commas derives ++ lit ")]"; lit "    pub enum " ++ name ++ lit "<" ++ param ++ lit "> {" ]
      ++ map (fun v : str * bool => lit "        " ++ fst v ++ (if snd v then lit "(" ++ param ++ lit ")" else []) ++ lit ",")
             variants
      ++ [ lit "    }" ]
  | FxEnumDebug name param arms =>
      [ lit "    impl<" ++ param ++ lit ": fmt::Debug> fmt::Debug for " ++ name ++ lit "<" ++ param ++ lit "> {"; fmt_head;
        lit "            match self {" ]
      ++ map (fun a : str * option str * str =>
                let '(v, x, t) := a in
                lit "                " ++ name ++ lit "::" ++ v
                ++ match x with Some x => lit "(" ++ x ++ lit ")" | None => [] end
                ++ lit " => write!(f, " ++ quoted t ++ match x with Some x => lit ", " ++ x | None => [] end ++ lit "),") arms
      ++ [ lit "            }"; lit "        }"; lit "    }" ]
  | FxStruct name fields =>
      [ lit "    pub struct " ++ name ++ lit " {" ]
      ++ map (fun f => lit "        " ++ fst f ++ lit ": " ++ snd f ++ lit ",") fields
      ++ [ lit "    }" ]
  | FxStructDebug name shown fields =>
      [ lit "    impl fmt::Debug for " ++ name ++ lit " {"; fmt_head;
        lit "            f.debug_struct(" ++ quoted shown ++ lit ")" ]
      ++ map (fun f => lit "                .field(" ++ quoted (fst f) ++ lit ", &self." ++ snd f ++ lit ")") fields
      ++ [ lit "                .finish()"; lit "        }"; lit "    }" ]
  | FxStructDisplay name template args =>
      [ lit "    impl fmt::Display for " ++ name ++ lit " {"; fmt_head;
        lit "            write!("; lit "                f,"; lit "                " ++ quoted template ++ lit ",";
        lit "                " ++ commas (map pr_warg args); lit "            )"; lit "        }"; lit "    }" ]
  | FxEmptyImpl trait name => [ lit "    impl " ++ trait ++ lit " for " ++ name ++ lit " {}" ]
  | FxMaker name fn head fields =>
      [ lit "    impl " ++ name ++ lit " {"; lit "        pub fn " ++ fn ++ head ++ lit " -> " ++ name ++ lit " {";
        lit "            " ++ name ++ lit " {" ]
      ++ map (fun f => lit "                " ++ fst f ++ lit ": " ++ pr_init (snd f) ++ lit ",") fields
      ++ [ lit "            }"; lit "        }"; lit "    }" ]
  end.

Fixpoint pr_pcond (c : pcond) : str :=
  match c with
  | PcCmp c => pr_bexpr c
  | PcSliceEq x a b t => pr_slice x a b ++ lit " == " ++ byte_lit t
  | PcAnd c d => pr_pcond c ++ lit " && " ++ pr_pcond d
  end.
Definition pr_pstmt (s : pstmt) : str :=
  match s with
  | PAsRef x y => lit "        let " ++ x ++ lit " = " ++ y ++ lit ".as_ref();"
  | PLen x y => lit "        let " ++ x ++ lit " = " ++ y ++ lit ".len();"
  | PLetMutIf x c a b =>
      lit "        let mut " ++ x ++ lit " = if " ++ pr_pcond c ++ lit " { " ++ nat_str a ++ lit " } else { " ++ nat_str b
        ++ lit " };"
  end.

(** ** The statements of the prologue

    [params] are the parameters of the function, each of a type with
    [AsRef<[u8]>]; so is [&[u8]] itself.  A [let] hides them. *)

(** Is [x] something with [as_ref] that gives bytes? *)
Definition has_as_ref (params : list str) (env : tenv) (x : str) : bool :=
  match lookup x env with
  | Some (_, TBytes) => true
  | Some _ => false
  | None => mem x params
  end.
Fixpoint check_pcond (env : tenv) (c : pcond) : bool :=
  match c with
  | PcCmp c => check_bexpr env c
  | PcSliceEq x a b t => check_slice env x a b && plain_lit t
  | PcAnd c d => check_pcond env c && check_pcond env d
  end.
Definition check_pstmt (senv : struct_env) (params : list str) (env : tenv) (s : pstmt) : option tenv :=
  match s with
  | PAsRef x y => if has_as_ref params env y && negb (no_variable senv x) then Some ((x, (false, TBytes)) :: env) else None
  | PLen x y =>
      match lookup y env with
      | Some (_, TBytes) => if no_variable senv x then None else Some ((x, (false, TUsize)) :: env)
      | _ => None
      end
  | PLetMutIf x c _ _ =>
      if check_pcond env c && negb (no_variable senv x) then Some ((x, (true, TUsize)) :: env) else None
  end.
Fixpoint check_prologue (senv : struct_env) (params : list str) (env : tenv) (l : list pstmt) : option tenv :=
  match l with
  | [] => Some env
  | s :: l' => match check_pstmt senv params env s with Some env' => check_prologue senv params env' l' | None => None end
  end.

(** The head of the function and these statements: the types of the variables
    for the rest of the body. *)
Definition check_head (senv : struct_env) (params : list str) (l : list pstmt) : option tenv :=
  if forallb (fun x => negb (no_variable senv x)) params && nodup_strs params then check_prologue senv params [] l else None.

Section Run.
Context {T E : Type}.
Variable rt : runtime T E.

Fixpoint eval_pcond (en : env T) (c : pcond) : option (option bool) :=
  match c with
  | PcCmp c => eval_bexpr rt en c
  | PcSliceEq x a b t =>
      match eval_slice rt en x a b with
      | Some (Some l) => Some (Some (str_eqb l t))
      | Some None => Some None
      | None => None
      end
  | PcAnd c d =>
      match eval_pcond en c with
      | Some (Some true) => eval_pcond en d
      | r => r
      end
  end.
Definition exec_pstmt (params : list (str * bytes)) (en : env T) (s : pstmt) : outcome T E :=
  match s with
  | PAsRef x y =>
      match lookup y en with
      | Some (_, VBytes l) => ONext ((x, (false, VBytes l)) :: en)
      | Some _ => OStuck
      | None =>
          match lookup y params with
          | Some l => ONext ((x, (false, VBytes l)) :: en)
          | None => OStuck
          end
      end
  | PLen x y =>
      match lookup y en with
      | Some (_, VBytes l) => ONext ((x, (false, VUsize (length l))) :: en)
      | _ => OStuck
      end
  | PLetMutIf x c a b =>
      match eval_pcond en c with
      | Some (Some r) => ONext ((x, (true, VUsize (if r then a else b))) :: en)
      | Some None => OPanic
      | None => OStuck
      end
  end.
Fixpoint exec_prologue (params : list (str * bytes)) (en : env T) (l : list pstmt) : outcome T E :=
  match l with
  | [] => ONext en
  | s :: l' =>
      match exec_pstmt params en s with
      | ONext en' => exec_prologue params en' l'
      | o => o
      end
  end.

(** ** [write!] with [{}] and [{:?}]: what an argument displays as, if it does,
    and what [Debug] gives. *)
Fixpoint write_text (template : str) (args : list (option bytes * option bytes)) : option bytes :=
  match template with
  | [] => match args with [] => Some [] | _ => None end
  | c :: t =>
      if N.eqb c c_lbrace then
        match t, args with
        | d :: t', (shown, _) :: args' =>
            if N.eqb d c_rbrace then
              match shown, write_text t' args' with
              | Some s, Some rest => Some (s ++ rest)
              | _, _ => None
              end
            else
              match t', args with
              | q :: e :: t'', (_, dbg) :: args' =>
                  if N.eqb d c_colon && N.eqb q 63%N && N.eqb e c_rbrace then
                    match dbg, write_text t'' args' with
                    | Some s, Some rest => Some (s ++ rest)
                    | _, _ => None
                    end
                  else None
              | _, _ => None
              end
        | _, _ => None
        end
      else if N.eqb c c_rbrace then None
      else option_map (app (utf8_char c)) (write_text t args)
  end.

(** The names of the variants of the values of [match_result], with what they
    hold. *)
Definition enum_of (items : list fixed_item) (name : str) : option (list str * list (str * bool)) :=
  match flat_map (fun it => match it with
                            | FxEnum d n _ vs => if str_eqb n name then [(d, vs)] else []
                            | _ => []
                            end) items with
  | [e] => Some e
  | _ => None
  end.
(** [Debug] of a value of the enum: a variant, and what [Debug] gives for the
    value it holds, if it holds one. *)
Definition enum_debug (items : list fixed_item) (name variant : str) (held : option bytes) : option bytes :=
  match enum_of items name,
        flat_map (fun it => match it with FxEnumDebug n _ arms => if str_eqb n name then [arms] else [] | _ => [] end) items with
  | Some (_, variants), [arms] =>
      match lookup variant variants, lookup variant (map (fun a : str * option str * str => (fst (fst a), (snd (fst a), snd a))) arms)
      with
      | Some true, Some (Some _, t) => match held with Some s => write_text t [(None, Some s)] | None => None end
      | Some false, Some (None, t) => match held with Some _ => None | None => write_text t [] end
      | _, _ => None
      end
  | _, _ => None
  end.
(** [==] of two values of the enum, if it is derived. *)
Definition enum_eq {A} (items : list fixed_item) (name : str) (eqa : A -> A -> bool) (x y : str * option A) : option bool :=
  match enum_of items name with
  | Some (derives, variants) =>
      if mem (lit "PartialEq") derives && mem (fst x) (map fst variants) && mem (fst y) (map fst variants) then
        Some (str_eqb (fst x) (fst y)
              && match snd x, snd y with
                 | Some a, Some b => eqa a b
                 | None, None => true
                 | _, _ => false
                 end)
      else None
  | None => None
  end.

(** The struct: fields with [Display] and [Debug] of their values. *)
Definition struct_value := list (str * (option bytes * option bytes)).
Definition struct_debug (items : list fixed_item) (name : str) (v : struct_value) : option bytes :=
  match flat_map (fun it => match it with FxStructDebug n s fs => if str_eqb n name then [(s, fs)] else [] | _ => [] end) items with
  | [(shown, fs)] =>
      let field f := match lookup (snd f) v with Some (_, Some s) => Some (utf8 (fst f) ++ lit ": " ++ s) | _ => None end in
      match (fix all (l : list (str * str)) : option (list bytes) :=
               match l with
               | [] => Some []
               | f :: l' => match field f, all l' with Some x, Some r => Some (x :: r) | _, _ => None end
               end) fs
      with
      | Some [] => Some (utf8 shown)
      | Some l => Some (utf8 shown ++ lit " { " ++ commas l ++ lit " }")
      | None => None
      end
  | _ => None
  end.
Definition struct_display (items : list fixed_item) (name : str) (v : struct_value) : option bytes :=
  match flat_map (fun it => match it with FxStructDisplay n t a => if str_eqb n name then [(t, a)] else [] | _ => [] end) items with
  | [(t, args)] =>
      match (fix all (l : list warg) : option (list (option bytes * option bytes)) :=
               match l with
               | [] => Some []
               | WField x :: l' => match lookup x v, all l' with Some a, Some r => Some (a :: r) | _, _ => None end
               | WVar _ :: _ => None
               end) args
      with
      | Some l => write_text t l
      | None => None
      end
  | _ => None
  end.
(** [name::fn(x, y)]: the text [x] is copied, the value [y] is boxed; a box has
    the [Debug] of what is in it, and no [Display] here ([Box<dyn fmt::Debug>]). *)
Definition make (items : list fixed_item) (name fn : str) (params : list str) (text : str) (debug_error : E -> bytes) (e : E)
    : option struct_value :=
  match flat_map (fun it => match it with FxMaker n f _ fs => if str_eqb n name && str_eqb f fn then [fs] else [] | _ => [] end) items,
        flat_map (fun it => match it with FxStruct n fs => if str_eqb n name then [fs] else [] | _ => [] end) items,
        params with
  | [inits], [decl], [x; y] =>
      (fix all (l : list (str * str)) : option struct_value :=
         match l with
         | [] => Some []
         | (f, t) :: l' =>
             match lookup f inits, all l' with
             | Some (IText z), Some r =>
                 if str_eqb z x && str_eqb t (lit "String") then Some ((f, (Some (utf8 text), Some (debug_string text))) :: r)
                 else None
             | Some (IBox z), Some r =>
                 if str_eqb z y && str_eqb t (lit "Box<dyn fmt::Debug>") then Some ((f, (None, Some (debug_error e))) :: r)
                 else None
             | _, _ => None
             end
         end) decl
  | _, _, _ => None
  end.
End Run.

(** ** The code of the generator (gen/gen.rs:319-410 and 451-461) *)

Definition s_match : str := lit "Match".
Definition s_error : str := lit "Error".
Definition fixed_code : list fixed_item :=
  [ FxEnum [lit "PartialEq"; lit "Eq"] s_match (lit "T")
      [(lit "NotFound", false); (lit "NotAllowed", false); (lit "Route", true); (lit "Redirect", true)];
    FxBlank; FxText (lit "use std::fmt;");
    FxEnumDebug s_match (lit "T")
      [ (lit "NotFound", None, lit "Match::NotFound"); (lit "NotAllowed", None, lit "Match::NotAllowed");
        (lit "Route", Some (lit "t"), lit "Match::Route({:?})"); (lit "Redirect", Some (lit "t"), lit "Match::Redirect({:?})") ];
    FxBlank;
    FxStruct s_error [(lit "param", lit "String"); (lit "what", lit "Box<dyn fmt::Debug>")]; FxBlank;
    FxStructDebug s_error (lit "wayfinder::Error") [(lit "param", lit "param"); (lit "what", lit "what")]; FxBlank;
    FxStructDisplay s_error (lit "Error parsing '{}' parameter {:?}") [WField (lit "param"); WField (lit "what")]; FxBlank;
    FxEmptyImpl (lit "std::error::Error") s_error; FxBlank;
    FxMaker s_error (lit "fail") (lit "<S: AsRef<str>, T: fmt::Debug + 'static>(param: S, what: T)")
      [(lit "param", IText (lit "param")); (lit "what", IBox (lit "what"))] ].
Definition match_route_head : list str :=
  [ lit "    pub fn match_route<P: AsRef<[u8]>, M: AsRef<[u8]>>("; lit "        path: P,"; lit "        method: M,";
    lit "    ) -> Result<Match<Route>, Error> {" ].
Definition prologue : list pstmt :=
  [ PAsRef s_method s_method; PAsRef s_path s_path; PLen s_len s_path;
    PLetMutIf s_i (PcAnd (PcCmp (BGt (EVar s_len) (ENat 0))) (PcSliceEq s_path (ENat 0) (ENat 1) (lit "/"))) 1 0 ].
