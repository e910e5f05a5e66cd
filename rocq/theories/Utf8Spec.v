(** The encoding of characters as bytes (RFC 3629), and what a sequence of bytes reads as. *)
From Verif Require Import Base.
Local Open Scope N_scope.

(** A Unicode scalar value: a code point that is not a surrogate. *)
Definition scalar_value (c : N) : Prop := c < 55296 \/ 57344 <= c < 1114112.

(** The bytes of a character: the shortest form that its number of bits needs. *)
Inductive utf8_char : N -> list N -> Prop :=
| u8_one c : c < 128 -> utf8_char c [c]
| u8_two a b : a < 32 -> b < 64 -> 128 <= a * 64 + b -> utf8_char (a * 64 + b) [192 + a; 128 + b]
| u8_three a b c : a < 16 -> b < 64 -> c < 64 -> 2048 <= a * 4096 + b * 64 + c -> scalar_value (a * 4096 + b * 64 + c) ->
    utf8_char (a * 4096 + b * 64 + c) [224 + a; 128 + b; 128 + c]
| u8_four a b c d : a < 8 -> b < 64 -> c < 64 -> d < 64 -> 65536 <= a * 262144 + b * 4096 + c * 64 + d ->
    scalar_value (a * 262144 + b * 4096 + c * 64 + d) ->
    utf8_char (a * 262144 + b * 4096 + c * 64 + d) [240 + a; 128 + b; 128 + c; 128 + d].

Inductive utf8_text : list N -> list N -> Prop :=
| u8_nil : utf8_text [] []
| u8_cons c e s b : utf8_char c e -> utf8_text s b -> utf8_text (c :: s) (e ++ b).

(** [reads_as b s]: the bytes read as the text, where a byte at which no character starts reads as the
    replacement character U+FFFD. *)
Inductive reads_as : list N -> list N -> Prop :=
| ra_end : reads_as [] []
| ra_char c e b s : utf8_char c e -> reads_as b s -> reads_as (e ++ b) (c :: s)
| ra_bad x b s : (forall c e r, utf8_char c e -> x :: b <> e ++ r) -> reads_as b s -> reads_as (x :: b) (65533 :: s).
