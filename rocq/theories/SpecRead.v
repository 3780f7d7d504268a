(** * SpecRead: compiling and running Rust text

    What rustc does with the text of a generated module: read it, check it, and
    run [match_route] of it.  The text is all there is: the configuration is not
    looked at. *)
From Verif Require Import Base Core MiniRust Gen Spec SpecCompile SpecItems Items Fixed RLex RRead.

Fixpoint toks_eqb (a b : list tok) : bool :=
  match a, b with
  | [], [] => true
  | x :: a', y :: b' => tok_eqb x y && toks_eqb a' b'
  | _, _ => false
  end.
Fixpoint tokss_eqb (a b : list (list tok)) : bool :=
  match a, b with
  | [], [] => true
  | x :: a', y :: b' => toks_eqb x y && tokss_eqb a' b'
  | _, _ => false
  end.
(** The tokens of the types [Match] and [Error] and their implementations, whose
    meaning is in Fixed.v. *)
Definition tokens (text : str) : list tok := match lex text with Some ts => ts | None => [] end.
Definition fixed_tokens : list (list tok) :=
  flat_map (fun it => match it with
                      | FxBlank | FxText _ => []
                      | _ => [tokens (concat (map (fun l => l ++ nl) (pr_fixed it)))]
                      end) fixed_code.

Definition parameters : list str := [lit "path"; lit "method"].
(** The compiled program: its structs, and the body of [match_route]. *)
Definition compile_text (text : str) : option (struct_env * list pstmt * list stmt) :=
  match read_module (lit "routes") text with
  | Some r =>
      let env := items_env (rd_items r) in
      match rd_fns r with
      | [(head, body)] =>
          if tokss_eqb (rd_others r) fixed_tokens && items_ok true (rd_items r) then
            match check_head env parameters head with
            | Some te =>
                match check_block env te body false with
                | Some true => Some (env, head, body)
                | _ => None
                end
            | None => None
            end
          else None
      | _ => None
      end
  | None => None
  end.
(** [None]: there is no program, or it does not come to an end. *)
Definition run_text {T E} (rt : runtime T E) (text : str) (path method : bytes) : option (run_result T E) :=
  match compile_text text with
  | Some (senv, head, body) =>
      match exec_prologue rt [(lit "path", path); (lit "method", method)] [] head with
      | ONext en =>
          match exec_block rt senv (S (length path)) en body with
          | ORet m => Some (RunResult m)
          | OPanic => Some RunPanic
          | _ => None
          end
      | ORet m => Some (RunResult m)
      | OPanic => Some RunPanic
      | _ => None
      end
  | None => None
  end.

(** ** What is not in the tokens *)

(** Empty lines, and whether a [return] that is an arm stands in braces. *)
Fixpoint canon (s : stmt) : list stmt :=
  match s with
  | SBlank => []
  | SWhile c body => [SWhile c (flat_map canon body)]
  | SIf c body => [SIf c (flat_map canon body)]
  | SMatch sc arms =>
      [SMatch sc (map (fun a : arm_head * list stmt =>
                         let (h, body) := a in
                         (match h with AHInline t => AHBlock t | h => h end, flat_map canon body)) arms)]
  | s => [s]
  end.
Definition canon_block (l : list stmt) : list stmt := flat_map canon l.
(** Documentation, empty lines and [use] declarations. *)
Fixpoint bare (it : item) : list item :=
  match it with
  | ItLine _ | ItBlank => []
  | ItStruct _ n fs => [ItStruct [] n fs]
  | ItEnum _ n vs => [ItEnum [] n vs]
  | ItMod n l => [ItMod n (flat_map bare l)]
  | it => [it]
  end.
Definition bare_items (l : list item) : list item := flat_map bare l.

(** A header with [use] declarations, any number of them. *)
Definition use_decl (ts : list tok) : Prop :=
  exists ts', ts = Word (lit "use") :: ts' /\ item_tokens 0 ts = Some (ts, []).
Definition use_line (text : str) : Prop :=
  exists uses, lex text = Some (concat uses) /\ Forall use_decl uses.
Definition use_headers (c : RouteConfig) : Prop := forall h, In h (c_headers c) -> use_line (h_text h).
(** The types of all parameters are names. *)
Definition ident_types (c : RouteConfig) : Prop := forall mods n fs f,
  In (mods, n, fs) (config_structs (c_routes c)) -> In f fs -> is_ident (fd_typ f) = true.

(** A configuration of names and plain text: printed in Rust code, everything in
    it is a token. *)
Definition plain_char (c : char) : bool := (c <? 128)%N && negb (existsb (N.eqb c) [c_quote; c_backslash; c_cr; c_nl]).
Definition plain_param (p : Param) : Prop := is_ident (p_name p) = true /\ is_ident (p_typ p) = true.
Definition plain_segment (s : PathSegment) : Prop :=
  match s with Static t => forallb plain_char t = true | Dynamic p => plain_param p end.
Definition plain_resource (r : Resource) : Prop :=
  is_ident (to_caps_case (r_name r)) = true /\
  Forall (fun m => is_ident (to_snake_case m) = true /\ is_ident (to_caps_case m) = true) (r_modules r) /\
  Forall plain_param (r_query r).
Definition plain_config (c : RouteConfig) : Prop :=
  no_returns c /\
  forall p q b, block_at (c_routes c) p q b ->
    Forall plain_segment p /\ Forall plain_param q /\ Forall plain_resource (rt_resources b).
