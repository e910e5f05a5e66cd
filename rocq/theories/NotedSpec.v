(** Trees with aliases, tags and anchors that can be written and read back. *)
From Coq Require Import String.
From Verif Require Import Base Ast RoundTripSpec TextSpec.
Local Open Scope N_scope.

(** A tag, an anchor, or both. *)
Inductive note : node -> Prop :=
| nt_tag w : w <> [] -> Forall tag_char w -> note (NProperties (NTag w) NInvalid)
| nt_anchor a : plain_word a -> note (NProperties NInvalid (NAnchor a))
| nt_both w a : w <> [] -> Forall tag_char w -> plain_word a -> note (NProperties (NTag w) (NAnchor a)).

(** Texts of several lines that the writer writes as literal scalars: a first line, lines that may be indented more,
    any number of empty lines between them, and [k] line breaks at the end. *)
Inductive more_lines : text -> Prop :=
| ml_none : more_lines []
| ml_line j s w : further_text s -> more_lines w -> more_lines (10 :: repeat 10 j ++ s ++ w).
Inductive many_lines : text -> Prop :=
| my_lines a w k : line_text a -> more_lines w -> w <> [] \/ k <> 0%nat -> many_lines (a ++ w ++ repeat 10 k).

(** Aliases may be anywhere; values of mappings may have tags and anchors, and so may scalars in sequences (a
    collection in a sequence may not, and neither may the whole document: C21_anchor_refuted).  Texts of several
    lines may be values of mappings and entries of sequences. *)
Inductive noted : node -> Prop :=
| noted_scalar t : simple_scalar t -> noted t
| noted_alias a : plain_word a -> noted (NAlias a)
| noted_sequence es : es <> [] -> Forall noted_item es -> noted (NSequence es)
| noted_mapping es : es <> [] -> Forall noted_entry es -> noted (NMapping es)
with noted_item : node -> Prop :=
| item_bare t : noted t -> noted_item t
| item_marked p t : note p -> simple_scalar t -> noted_item (NContent p t)
| item_lines s : many_lines s -> noted_item (NText s AbsentQuoting)
| item_marked_lines p s : note p -> many_lines s -> noted_item (NContent p (NText s AbsentQuoting))
with noted_entry : node -> Prop :=
| entry_value k v : simple_scalar k -> noted_value v -> noted_entry (NEntry k v)
with noted_value : node -> Prop :=
| value_bare t : noted t -> noted_value t
| value_marked p t : note p -> noted t -> (forall a, t <> NAlias a) -> noted_value (NContent p t)
| value_lines s : many_lines s -> noted_value (NText s AbsentQuoting)
| value_marked_lines p s : note p -> many_lines s -> noted_value (NContent p (NText s AbsentQuoting)).
