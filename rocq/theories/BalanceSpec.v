(** Specification of bracket balance: the Dyck language of the two kinds of flow brackets, all
    other tokens being transparent; and of repeated failures at a position. *)
From Verif Require Import Base Token.

Inductive bracket_pair : ttype -> ttype -> Prop :=
| bp_seq : bracket_pair TSequenceStart TSequenceEnd
| bp_map : bracket_pair TMappingStart TMappingEnd.

Definition is_bracket (x : ttype) : Prop :=
  exists y, bracket_pair x y \/ bracket_pair y x.

Inductive balanced : list ttype -> Prop :=
| bal_nil : balanced []
| bal_skip x s : ~ is_bracket x -> balanced s -> balanced (x :: s)
| bal_pair o c s1 s2 : bracket_pair o c -> balanced s1 -> balanced s2 ->
                       balanced (o :: s1 ++ c :: s2).

Definition completable (s : list ttype) : Prop := exists s', balanced (s ++ s').

(** [innermost_open s o]: [o] is the innermost bracket of [s] that is still open. *)
Definition innermost_open (s : list ttype) (o : ttype) : Prop :=
  exists s1 s2, s = s1 ++ o :: s2 /\ (exists c, bracket_pair o c) /\ completable s1 /\ balanced s2.

(** How many elements of a list equal a given position. *)
Definition occurrences (p : position) (ps : list position) : nat :=
  length (filter (fun q => (N.eqb (row p) (row q) && N.eqb (column p) (column q))%bool) ps).
