(** Reading values of a document as text. *)
From Coq Require Import String.
From Verif Require Import Base Ast Schema Values Writer Encoder WriterSpec Reader.
Local Open Scope nat_scope.

(** A value without alias, tag or anchor of its own (there may be some inside). *)
Definition own_value (t : node) : Prop :=
  match t with NText _ _ | NNull | NSequence _ | NMapping _ => True | _ => False end.
(** [s] is the text of the document that consists of [t]. *)
Definition alone (t : node) (s : text) : Prop := serialized t = OutText s.

(** Open a sequence and read its [n] entries as text; then ask whether there are more, and for errors. *)
Definition ask_items (n : nat) : list request := QCall DSequence :: repeat (QCall DRaw) n ++ [QMore 0; QCall DError].
Definition raw (s : text) : reply node := PAnswer (ABytes (Some s)).
Definition told_items (n : nat) (ss : list text) : list (reply node) :=
  PAnswer (AColl (CollState n 0)) :: map raw ss ++ [PMore false; PAnswer (AErrors [])].

(** Open a mapping and read its keys as strings and its values as text. *)
Definition ask_pairs (n : nat) : list request := QCall DMapping :: concat (repeat [QCall DString; QCall DRaw] n) ++ [QMore 0; QCall DError].
Definition told_pairs (n : nat) (ps : list (text * text)) : list (reply node) :=
  PAnswer (AColl (CollState n 0)) :: concat (map (fun p => [PAnswer (AText (fst p)); raw (snd p)]) ps) ++ [PMore false; PAnswer (AErrors [])].
(** An entry of a mapping whose key is a text other than null, and what is read from it. *)
Inductive pair_alone : node -> text * text -> Prop :=
| pa_pair k q v s : sc_is_null k = false \/ q = SingleQuoting \/ q = DoubleQuoting -> own_value v -> alone v s ->
    pair_alone (NEntry (NText k q) v) (k, s).
