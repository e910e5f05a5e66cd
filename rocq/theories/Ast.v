(** Model of engines/yayamls/ast/node.go. *)
From Verif Require Import Base.

(* node.go 11-50 *)
Inductive ntype :=
| InvalidType | DocumentType | ContentType | MappingType | MappingEntryType | SequenceType
| CommentType | DirectiveType | TagType | AnchorType | AliasType | StreamType
| DocumentPrefixType | DocumentSuffixType | IndentType | PropertiesType | BlockHeaderType
| TextType | NullType.

(* node.go 96-108 *)
Inductive chomping := UnknownChomping | ClipChomping | StripChomping | KeepChomping.
(* node.go 124-132 *)
Inductive quoting := UnknownQuoting | AbsentQuoting | SingleQuoting | DoubleQuoting.

(** Nodes as immutable trees.  [NNil] is Go's nil interface value (an entry whose value has not
    been set, an absent tag or anchor, a missing root); [NBasic ty] is a BasicNode (node.go
    160-180; [NBasic InvalidType] is the invalid node). *)
Inductive node :=
| NNil
| NBasic (ty : ntype)
| NStream (documents : list node)          (* node.go 182-202 *)
| NProperties (tag anchor : node)          (* node.go 204-230 *)
| NTag (txt : text)                        (* node.go 232-252 *)
| NAnchor (txt : text)                     (* node.go 254-274 *)
| NAlias (txt : text)                      (* node.go 276-296 *)
| NBlockHeader (c : chomping) (indent : Z) (* node.go 298-324 *)
| NText (txt : text) (q : quoting)         (* node.go 344-373 *)
| NContent (properties content : node)     (* node.go 375-401 *)
| NIndent (indent : Z)                     (* node.go 403-421 *)
| NSequence (entries : list node)          (* node.go 423-445 *)
| NMapping (entries : list node)           (* node.go 447-469 *)
| NEntry (key value : node)                (* node.go 471-501 *)
| NNull.                                   (* node.go 503-517 *)

(** [Type()] of each node; nil has none *)
Definition node_type (n : node) : option ntype :=
  match n with
  | NNil => None
  | NBasic ty => Some ty
  | NStream _ => Some StreamType
  | NProperties _ _ => Some PropertiesType
  | NTag _ => Some TagType
  | NAnchor _ => Some AnchorType
  | NAlias _ => Some AliasType
  | NBlockHeader _ _ => Some BlockHeaderType
  | NText _ _ => Some TextType
  | NContent _ _ => Some ContentType
  | NIndent _ => Some IndentType
  | NSequence _ => Some SequenceType
  | NMapping _ => Some MappingType
  | NEntry _ _ => Some MappingEntryType
  | NNull => Some NullType
  end.

(* node.go 154-157 *)
Definition valid_node (n : node) : bool :=
  match node_type n with None | Some InvalidType => false | _ => true end.

Definition NInvalid : node := NBasic InvalidType.

(** Induction principle for the nested lists. *)
Section NodeInd.
  Variable P : node -> Prop.
  Hypothesis Hnil : P NNil.
  Hypothesis Hbasic : forall ty, P (NBasic ty).
  Hypothesis Hstream : forall l, Forall P l -> P (NStream l).
  Hypothesis Hprops : forall a b, P a -> P b -> P (NProperties a b).
  Hypothesis Htag : forall s, P (NTag s).
  Hypothesis Hanchor : forall s, P (NAnchor s).
  Hypothesis Halias : forall s, P (NAlias s).
  Hypothesis Hheader : forall c i, P (NBlockHeader c i).
  Hypothesis Htext : forall s q, P (NText s q).
  Hypothesis Hcontent : forall a b, P a -> P b -> P (NContent a b).
  Hypothesis Hindent : forall i, P (NIndent i).
  Hypothesis Hseq : forall l, Forall P l -> P (NSequence l).
  Hypothesis Hmap : forall l, Forall P l -> P (NMapping l).
  Hypothesis Hentry : forall a b, P a -> P b -> P (NEntry a b).
  Hypothesis Hnull : P NNull.
  Fixpoint node_ind' (n : node) : P n :=
    let list_case := fix go (l : list node) : Forall P l :=
      match l with
      | [] => Forall_nil P
      | x :: l' => Forall_cons x (node_ind' x) (go l')
      end in
    match n with
    | NNil => Hnil
    | NBasic ty => Hbasic ty
    | NStream l => Hstream l (list_case l)
    | NProperties a b => Hprops a b (node_ind' a) (node_ind' b)
    | NTag s => Htag s
    | NAnchor s => Hanchor s
    | NAlias s => Halias s
    | NBlockHeader c i => Hheader c i
    | NText s q => Htext s q
    | NContent a b => Hcontent a b (node_ind' a) (node_ind' b)
    | NIndent i => Hindent i
    | NSequence l => Hseq l (list_case l)
    | NMapping l => Hmap l (list_case l)
    | NEntry a b => Hentry a b (node_ind' a) (node_ind' b)
    | NNull => Hnull
    end.
End NodeInd.
