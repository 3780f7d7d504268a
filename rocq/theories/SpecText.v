(** * SpecText: texts as bytes *)
From Verif Require Import Base.

(** RFC 3629, section 3: the bytes of a character, and the bits of the
    character in them, as digits to the base of sixty-four. *)
Inductive encodes : char -> bytes -> Prop :=
| encodes_1 c : (c < 128)%N -> encodes c [c]
| encodes_2 x y c : c = (64 * x + y)%N -> (128 <= c < 2048)%N -> (y < 64)%N ->
    encodes c [(192 + x)%N; (128 + y)%N]
| encodes_3 x y z c : c = (64 * (64 * x + y) + z)%N -> (2048 <= c < 65536)%N -> ~ (55296 <= c <= 57343)%N ->
    (y < 64)%N -> (z < 64)%N ->
    encodes c [(224 + x)%N; (128 + y)%N; (128 + z)%N]
| encodes_4 x y z w c : c = (64 * (64 * (64 * x + y) + z) + w)%N -> (65536 <= c <= 1114111)%N ->
    (y < 64)%N -> (z < 64)%N -> (w < 64)%N ->
    encodes c [(240 + x)%N; (128 + y)%N; (128 + z)%N; (128 + w)%N].
Inductive encoded : str -> bytes -> Prop :=
| encoded_nil : encoded [] []
| encoded_cons c s b rest : encodes c b -> encoded s rest -> encoded (c :: s) (b ++ rest).
