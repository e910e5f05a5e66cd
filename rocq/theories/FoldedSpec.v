(** What the lines of a folded scalar stand for, by YAML's rules (chapters 6.5 and 8.1.3): the break between
    two lines is a space, or as many line feeds as there are empty lines between them; next to a line that
    starts with a blank all breaks are kept. *)
From Verif Require Import Base RoundTripSpec TextSpec.
Local Open Scope N_scope.

Definition indented (l : text) : bool := match l with c :: _ => (c =? 32) || (c =? 9) | [] => false end.
Definition yaml_break (a : text) (k : nat) (b : text) : text :=
  if indented a || indented b then repeat 10 (S k) else match k with O => [32] | _ => repeat 10 k end.
(** lines, each with the number of empty lines before it *)
Fixpoint yaml_fold (l : text) (ls : list (nat * text)) : text :=
  match ls with [] => l ++ [10] | (k, x) :: ls => l ++ yaml_break l k x ++ yaml_fold x ls end.
Fixpoint fold_source (v : nat) (l : text) (ls : list (nat * text)) : text :=
  spaces v ++ l ++ 10 :: match ls with [] => [] | (k, x) :: ls => repeat 10 k ++ fold_source v x ls end.
