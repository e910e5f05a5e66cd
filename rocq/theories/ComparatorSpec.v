(** When two trees count as equal for the comparator. *)
From Verif Require Import Base Ast.

(** nil only as an absent part, not in lists *)
Inductive no_nil_elements : node -> Prop :=
| nn_nil : no_nil_elements NNil
| nn_basic ty : no_nil_elements (NBasic ty)
| nn_header c i : no_nil_elements (NBlockHeader c i)
| nn_indent i : no_nil_elements (NIndent i)
| nn_null : no_nil_elements NNull
| nn_text s q : no_nil_elements (NText s q)
| nn_tag s : no_nil_elements (NTag s)
| nn_anchor s : no_nil_elements (NAnchor s)
| nn_alias s : no_nil_elements (NAlias s)
| nn_stream l : Forall (fun n => n <> NNil /\ no_nil_elements n) l -> no_nil_elements (NStream l)
| nn_seq l : Forall (fun n => n <> NNil /\ no_nil_elements n) l -> no_nil_elements (NSequence l)
| nn_map l : Forall (fun n => n <> NNil /\ no_nil_elements n) l -> no_nil_elements (NMapping l)
| nn_props a b : no_nil_elements a -> no_nil_elements b -> no_nil_elements (NProperties a b)
| nn_content a b : no_nil_elements a -> no_nil_elements b -> no_nil_elements (NContent a b)
| nn_entry a b : no_nil_elements a -> no_nil_elements b -> no_nil_elements (NEntry a b).

(** a tree written down without brackets: kinds and texts of its nodes, parents before children *)
Inductive word := Kind (k : ntype) | Named (k : ntype) (s : text).
Fixpoint words (n : node) : list word :=
  match n with
  | NNil | NBasic _ | NBlockHeader _ _ | NIndent _ => []
  | NNull => [Kind NullType]
  | NText s _ => [Named TextType s]
  | NTag s => [Named TagType s]
  | NAnchor s => [Named AnchorType s]
  | NAlias s => [Named AliasType s]
  | NStream l => Kind StreamType :: flat_map words l
  | NSequence l => Kind SequenceType :: flat_map words l
  | NMapping l => Kind MappingType :: flat_map words l
  | NContent a b => Kind ContentType :: words a ++ words b
  | NEntry a b => Kind MappingEntryType :: words a ++ words b
  | NProperties tag anchor => Kind PropertiesType :: words anchor ++ words tag
  end.

(** the same tree up to how texts are quoted *)
Inductive alike : node -> node -> Prop :=
| al_nil : alike NNil NNil
| al_null : alike NNull NNull
| al_text s q q' : alike (NText s q) (NText s q')
| al_tag s : alike (NTag s) (NTag s)
| al_anchor s : alike (NAnchor s) (NAnchor s)
| al_alias s : alike (NAlias s) (NAlias s)
| al_stream l l' : Forall2 alike l l' -> alike (NStream l) (NStream l')
| al_seq l l' : Forall2 alike l l' -> alike (NSequence l) (NSequence l')
| al_map l l' : Forall2 alike l l' -> alike (NMapping l) (NMapping l')
| al_content a b a' b' : alike a a' -> alike b b' -> alike (NContent a b) (NContent a' b')
| al_entry a b a' b' : alike a a' -> alike b b' -> alike (NEntry a b) (NEntry a' b')
| al_props a b a' b' : alike a a' -> alike b b' -> alike (NProperties a b) (NProperties a' b').

(** the same kinds of nodes in the same places, whatever the texts *)
Inductive same_form : node -> node -> Prop :=
| sf_nil : same_form NNil NNil
| sf_null : same_form NNull NNull
| sf_text s q s' q' : same_form (NText s q) (NText s' q')
| sf_tag s s' : same_form (NTag s) (NTag s')
| sf_anchor s s' : same_form (NAnchor s) (NAnchor s')
| sf_alias s s' : same_form (NAlias s) (NAlias s')
| sf_stream l l' : Forall2 same_form l l' -> same_form (NStream l) (NStream l')
| sf_seq l l' : Forall2 same_form l l' -> same_form (NSequence l) (NSequence l')
| sf_map l l' : Forall2 same_form l l' -> same_form (NMapping l) (NMapping l')
| sf_content a b a' b' : same_form a a' -> same_form b b' -> same_form (NContent a b) (NContent a' b')
| sf_entry a b a' b' : same_form a a' -> same_form b b' -> same_form (NEntry a b) (NEntry a' b')
| sf_props a b a' b' : same_form a a' -> same_form b b' -> same_form (NProperties a b) (NProperties a' b').
