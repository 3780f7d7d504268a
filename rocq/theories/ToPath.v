(** * ToPath: the generated [to_path] methods (wayfinder/src/gen/gen.rs)

    Running [to_path] of the [Route] enum of the generated module, whose items
    (Items.v) are what [codegen_module] prints (ItemText.v). *)
From Verif Require Export Items.
From Verif Require Import Base Core Trie Flat MiniRust Gen.

(** The value is the struct with fields [fs] inside the variants [mods] and
    [name], outermost first.  [None]: no such module or route, or nothing is
    generated. *)
Definition to_path {T} (show : str -> T -> bytes) (c : RouteConfig) (mods : list str) (name : str) (fs : fields T)
    : option bytes :=
  match flattened_modules (c_routes c) with
  | ROk root =>
      if compiles c then run_enum show (module_items true (c_headers c) root) (lit "Route") (mods ++ [name]) fs
      else None
  | _ => None
  end.
