(** * RLex: the tokens of Rust text

    The Rust Reference, "Tokens": the longest token is taken; white space and line
    comments (documentation included) stand between tokens.  What generated text
    does not contain (characters, escapes, raw strings, suffixes,
    floating-point numbers, block comments, carriage returns in comments, identifiers
    outside ASCII) is rejected:
    [None]. *)
From Verif Require Import Base Core MiniRust Gen.

Inductive tok :=
| Word (w : str)          (* identifiers, keywords and the underscore *)
| Num (digits : str)
| Text (s : str)          (* "s" *)
| Bytes (s : str)         (* b"s" *)
| Life (w : str)          (* 'w *)
| Op (o : str).           (* operators and punctuation *)

(** Longer ones before their beginnings. *)
Definition operators : list str := map lit
  [ "..="; "..."; "<<="; ">>=";
    "::"; "->"; "=>"; "=="; "!="; "<="; ">="; "&&"; "||"; "+="; "-="; "*="; "/="; "%="; "^="; "&="; "|="; "<<"; ">>"; "..";
    "("; ")"; "{"; "}"; "["; "]"; ","; ";"; ":"; "."; "="; "<"; ">"; "&"; "|"; "+"; "-"; "*"; "/"; "!"; "?"; "#"; "@"; "$";
    "%"; "^"; "~" ]%string.
Definition operator_at (s : str) : option str := find (fun o => is_prefix o s) operators.

Definition is_space (c : char) : bool := existsb (N.eqb c) [32; 9; 10; 13]%N.
Definition begins (f : char -> bool) (s : str) : bool := match s with c :: _ => f c | [] => false end.

(** Where the lexer is: this many characters of a token before the next one;
    inside a word, a number, a string, a lifetime, before the quote of a byte string, or
    inside a comment. *)
Inductive place :=
| Skip (n : nat)
| InWord (w : str)
| InNum (w : str)
| InText (bytes : bool) (s : str)
| InLife (w : str)
| BeforeQuote
| InComment.

Fixpoint lex_from (at_ : place) (s : str) {struct s} : option (list tok) :=
  match s with
  | [] =>
      match at_ with
      | Skip _ | InComment => Some []
      | InWord w => Some [Word w]
      | InNum w => Some [Num w]
      | InLife w => Some [Life w]
      | InText _ _ | BeforeQuote => None
      end
  | c :: s' =>
      let next := (* the character is the first of a token *)
        if is_space c then lex_from (Skip 0) s'
        else if ident_start c then
          if N.eqb c 98%N && begins (N.eqb c_quote) s' then lex_from BeforeQuote s' else lex_from (InWord [c]) s'
        else if is_digit c then lex_from (InNum [c]) s'
        else if N.eqb c c_quote then lex_from (InText false []) s'
        else if N.eqb c 39%N then if begins ident_start s' then lex_from (InLife []) s' else None
        else if is_prefix (lit "//") s then lex_from InComment s'
        else if is_prefix (lit "/*") s then None
        else
          match operator_at s with
          | Some o => option_map (cons (Op o)) (lex_from (Skip (pred (length o))) s')
          | None => None
          end in
      match at_ with
      | Skip 0 => next
      | Skip (S n) => lex_from (Skip n) s'
      | InWord w =>
          if ident_char c then lex_from (InWord (w ++ [c])) s'
          else if N.eqb c c_quote then None
          else option_map (cons (Word w)) next
      | InNum w =>
          if is_digit c then lex_from (InNum (w ++ [c])) s'
          else if ident_char c then None
          else if N.eqb c 46%N && negb (begins (N.eqb 46%N) s') then None
          else option_map (cons (Num w)) next
      | InLife w =>
          if ident_char c then lex_from (InLife (w ++ [c])) s'
          else if N.eqb c 39%N then None
          else option_map (cons (Life w)) next
      | InText bytes t =>
          if N.eqb c c_quote then
            if begins ident_char s' then None
            else option_map (cons (if bytes then Bytes t else Text t)) (lex_from (Skip 0) s')
          else if N.eqb c c_backslash || N.eqb c c_cr || bytes && (128 <=? c)%N then None
          else lex_from (InText bytes (t ++ [c])) s'
      | BeforeQuote => lex_from (InText true []) s'
      | InComment =>
          if N.eqb c c_nl then lex_from (Skip 0) s' else if N.eqb c c_cr then None else lex_from InComment s'
      end
  end.
Definition lex (s : str) : option (list tok) := lex_from (Skip 0) s.
