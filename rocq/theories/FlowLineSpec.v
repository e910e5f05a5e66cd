(** JSON values and their indented texts, one element on each line, as Go's json.MarshalIndent writes them. *)
From Coq Require Import String.
From Verif Require Import Base Ast RoundTripSpec TextSpec.
Local Open Scope N_scope.

Inductive json : Type :=
| JText (s : text)
| JWord (w : text)
| JArray (l : list json)
| JObject (l : list (text * json)).

(** The tree a value stands for. *)
Fixpoint tree (v : json) : node :=
  match v with
  | JText s => NText s DoubleQuoting
  | JWord w => NText w UnknownQuoting
  | JArray l => NSequence (map tree l)
  | JObject l => NMapping (map (fun m => NEntry (NText (fst m) DoubleQuoting) (tree (snd m))) l)
  end.

(** Numbers, [true], [false] and [null] are words; strings need no escapes. *)
Fixpoint simple (v : json) : Prop :=
  match v with
  | JText s => Forall double_char s
  | JWord w => plain_word w /\ hd 0 w <> 58
  | JArray l => fold_right (fun v p => simple v /\ p) True l
  | JObject l => fold_right (fun m p => (Forall double_char (fst m) /\ simple (snd m)) /\ p) True l
  end.
(** How deep arrays are nested. *)
Fixpoint arrays (v : json) : nat :=
  match v with
  | JText _ | JWord _ => 0
  | JArray l => S (fold_right (fun v n => Nat.max (arrays v) n) 0%nat l)
  | JObject l => fold_right (fun m n => Nat.max (arrays (snd m)) n) 0%nat l
  end.

(** The lines are indented by [step] more for each level; the first line is at level [d]. *)
Section Indented.
  Context (step : nat).
  Definition line (d : nat) : text := 10 :: spaces (step * d).
  (** The elements, each on its own line at level [d]. *)
  Fixpoint listed (d : nat) (l : list text) : text :=
    match l with
    | [] => []
    | [s] => line d ++ s
    | s :: r => line d ++ s ++ 44 :: listed d r
    end.
  Definition around (open close : rune) (d : nat) (l : list text) : text :=
    match l with [] => [open; close] | _ => open :: listed (S d) l ++ line d ++ [close] end.
  Fixpoint indented (d : nat) (v : json) : text :=
    match v with
    | JText s => 34 :: s ++ [34]
    | JWord w => w
    | JArray l => around 91 93 d (map (indented (S d)) l)
    | JObject l => around 123 125 d (map (fun m => (34 :: fst m ++ [34]) ++ 58 :: 32 :: indented (S d) (snd m)) l)
    end.
End Indented.
