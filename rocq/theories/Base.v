(** Common conventions of the model: runes, texts, small list helpers. *)
From Coq Require Export List NArith ZArith Bool Arith Lia.
From Coq Require Import Ascii String.
Export ListNotations.

(** A rune is a Unicode code point; Go's [rune] type restricted to non-negative values
    (every rune the code handles comes from decoding UTF-8 or from character literals). *)
Definition rune := N.
(** A Go string seen through [for _, r := range s] or [[]rune(s)]. *)
Definition text := list rune.

Fixpoint string_to_text (s : string) : text :=
  match s with
  | EmptyString => []
  | String a s' => N_of_ascii a :: string_to_text s'
  end.

(** [t"..."] writes an ASCII text literal. *)
Notation "'t'' s" := (string_to_text s%string) (at level 8, s at level 0, only parsing).

Fixpoint text_eqb (a b : text) : bool :=
  match a, b with
  | [], [] => true
  | x :: a', y :: b' => N.eqb x y && text_eqb a' b'
  | _, _ => false
  end.

Lemma text_eqb_eq a b : text_eqb a b = true <-> a = b.
Proof.
  revert b; induction a as [|x a IH]; intros [|y b]; cbn; split; intro H;
    try discriminate; try reflexivity.
  - apply andb_prop in H as [H1 H2]. apply N.eqb_eq in H1. apply IH in H2. congruence.
  - inversion H; subst. rewrite N.eqb_refl. cbn. apply IH. reflexivity.
Qed.

Lemma text_eqb_refl a : text_eqb a a = true.
Proof. apply text_eqb_eq; reflexivity. Qed.

Definition rune_in (r : rune) (s : text) : bool := existsb (N.eqb r) s.

(** [last_opt l]: last element of a list, if any. *)
Definition last_opt {A} (l : list A) : option A :=
  match rev l with [] => None | x :: _ => Some x end.
