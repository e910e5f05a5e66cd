(** Words of names, and files of a directory. *)
From Verif Require Import Base.
Local Open Scope N_scope.

Section Words.
  Context (is_upper is_lower : rune -> bool).
  (** A word of a name begins with an upper case letter after a lower case one, or with the last of several upper case
      letters if it is followed by a lower case one. *)
  Definition word_break (before after : text) : Prop :=
    exists l p c r, before = l ++ [p] /\ after = c :: r /\ is_upper c = true /\
      (is_lower p = true \/ (is_upper p = true /\ exists d r', r = d :: r' /\ is_lower d = true)).
  Definition words_of (s : text) (ws : list text) : Prop :=
    concat ws = s /\ Forall (fun w => w <> []) ws /\
    forall before after, before <> [] -> after <> [] -> before ++ after = s ->
      ((exists ws1 ws2, ws = ws1 ++ ws2 /\ concat ws1 = before) <-> word_break before after).
End Words.
Fixpoint joined (sep : rune) (ws : list text) : text :=
  match ws with [] => [] | [w] => w | w :: ws' => w ++ sep :: joined sep ws' end.

(** Directories in which the same files have the same texts, but for some names. *)
Definition same_but (names : list text) (d d' : text -> option text) : Prop := forall n, ~ In n names -> d' n = d n.
