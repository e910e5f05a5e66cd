(** Base64 as RFC 4648 has it: three bytes are four characters of six bits each, one or two bytes at
    the end are filled up with equals signs. *)
From Verif Require Import Base.
Local Open Scope N_scope.

Definition b64 (n : N) : rune :=
  if n <? 26 then 65 + n else if n <? 52 then 71 + n else if n <? 62 then n - 4 else if n =? 62 then 43 else 47.

Fixpoint encode64 (bytes : list N) : text :=
  match bytes with
  | [] => []
  | [a] => [b64 (a / 4); b64 (a mod 4 * 16); 61; 61]
  | [a; b] => [b64 (a / 4); b64 (a mod 4 * 16 + b / 16); b64 (b mod 16 * 4); 61]
  | a :: b :: c :: l =>
      b64 (a / 4) :: b64 (a mod 4 * 16 + b / 16) :: b64 (b mod 16 * 4 + c / 64) :: b64 (c mod 64) :: encode64 l
  end.

(** The bytes of a text; what a padded group has behind its last byte does not count. *)
Inductive decodes : text -> list N -> Prop :=
| de_nil : decodes [] []
| de_one w x : w < 64 -> x < 64 -> decodes [b64 w; b64 x; 61; 61] [w * 4 + x / 16]
| de_two w x y : w < 64 -> x < 64 -> y < 64 ->
    decodes [b64 w; b64 x; b64 y; 61] [w * 4 + x / 16; x mod 16 * 16 + y / 4]
| de_group w x y z s l : w < 64 -> x < 64 -> y < 64 -> z < 64 -> decodes s l ->
    decodes (b64 w :: b64 x :: b64 y :: b64 z :: s)
            (w * 4 + x / 16 :: x mod 16 * 16 + y / 4 :: y mod 4 * 64 + z :: l).

(** Blanks and line breaks *)
Definition white (r : rune) : Prop := r = 32 \/ r = 9 \/ r = 10 \/ r = 13.

(** [spaced s t]: [t] is [s] with white space between groups of four characters, before and after them *)
Inductive spaced : text -> text -> Prop :=
| sp_nil : spaced [] []
| sp_white r s t : white r -> spaced s t -> spaced s (r :: t)
| sp_group a b c d s t : spaced s t -> spaced (a :: b :: c :: d :: s) (a :: b :: c :: d :: t).

(** [unspaced s t]: [s] is what is left of [t] without its white space *)
Inductive unspaced : text -> text -> Prop :=
| un_nil : unspaced [] []
| un_white r s t : white r -> unspaced s t -> unspaced s (r :: t)
| un_char r s t : ~ white r -> unspaced s t -> unspaced (r :: s) (r :: t).
