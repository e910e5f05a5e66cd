(** Specification of printed trees: the usual drawing of a tree with lines. *)
From Coq Require Import String.
From Verif Require Import Base Ast ParsedSpec.
Local Open Scope N_scope.

(** Trees with labels. *)
Inductive rose := Rose (label : text) (children : list rose).

(** The drawing of the children of a node: each child is on a line of its own, followed by its own children.  In front
    of it there is, for every node above it except the root, a vertical line if that node has a sibling below,
    and the branch itself. *)
Definition bar (more : bool) : text := if more then [9474; 32; 32; 32] else [32; 32; 32; 32].
Definition branch (more : bool) : text := if more then [9500; 9472; 9472; 32] else [9492; 9472; 9472; 32].
Definition followed {A} (l : list A) : bool := match l with [] => false | _ => true end.
Fixpoint draw (above : list bool) (t : rose) (more : bool) : text :=
  match t with
  | Rose l ts =>
    concat (map bar above) ++ branch more ++ l ++ 10 ::
      (fix each (ts : list rose) : text := match ts with [] => [] | t :: r => draw (above ++ [more]) t (followed r) ++ each r end) ts
  end.
Fixpoint draw_all (above : list bool) (ts : list rose) : text :=
  match ts with [] => [] | t :: r => draw above t (followed r) ++ draw_all above r end.
Definition drawing (t : rose) : text := match t with Rose l ts => l ++ 10 :: draw_all [] ts end.

(** The number of nodes. *)
Fixpoint nodes (t : rose) : nat := match t with Rose _ ts => S (fold_right (fun t n => nodes t + n)%nat O ts) end.
Definition lines (s : text) : nat := count_occ N.eq_dec s 10.

(** What is drawn of a tree: the kinds of the nodes in brackets, the texts on one line with line feeds written [\n], and
    the parts that are there. *)
Definition one_line (s : text) : text := flat_map (fun c => if c =? 10 then t' "\n" else [c]) s.
Definition there (n : node) (t : rose) : list rose := match n with NNil => [] | _ => [t] end.
Definition basic_label (ty : ntype) : text :=
  match ty with
  | InvalidType => t' "[invalid] " | DocumentType => t' "[document] " | ContentType => t' "[content] "
  | MappingType => t' "[mapping] " | MappingEntryType => t' "[mapping_entry] " | SequenceType => t' "[sequence] "
  | CommentType => t' "[comment] " | DirectiveType => t' "[directive] " | TagType => t' "[tag] " | AnchorType => t' "[anchor] "
  | AliasType => t' "[alias] " | StreamType => t' "[stream] " | DocumentPrefixType => t' "[document_prefix] "
  | DocumentSuffixType => t' "[document_suffix] " | IndentType => t' "[indent] " | PropertiesType => t' "[properties] "
  | BlockHeaderType => t' "[block_header] " | TextType => t' "[text] " | NullType => t' "[null] "
  end.
Fixpoint shape (n : node) : rose :=
  match n with
  | NNil => Rose [] []
  | NBasic ty => Rose (basic_label ty) []
  | NStream l => Rose (t' "[stream] ") (map shape l)
  | NSequence l => Rose (t' "[sequence] ") (map shape l)
  | NMapping l => Rose (t' "[mapping] ") (map shape l)
  | NEntry k v => Rose (t' "[mapping_entry] ") (there k (shape k) ++ there v (shape v))
  | NContent p c => Rose (t' "[content] ") (there p (shape p) ++ there c (shape c))
  | NProperties a b => Rose (t' "[properties] ") (there a (shape a) ++ there b (shape b))
  | NText s _ => Rose (t' "[text] " ++ one_line s) []
  | NTag s => Rose (t' "[tag] " ++ one_line s) []
  | NAnchor s => Rose (t' "[anchor] " ++ one_line s) []
  | NAlias s => Rose (t' "[alias] " ++ one_line s) []
  | NNull => Rose (t' "[null] ") []
  | NBlockHeader _ _ => Rose (t' "[block_header] ") []
  | NIndent _ => Rose (t' "[indent] ") []
  end.
(** Nodes whose whole content is a text. *)
Definition own_text (n : node) : option text := match n with NTag s | NAnchor s | NAlias s | NText s _ => Some s | _ => None end.

(** Trees without nil entries and elements. *)
Fixpoint whole (n : node) : Prop :=
  match n with
  | NNil => False
  | NStream l | NSequence l | NMapping l => (fix all l := match l with [] => True | x :: r => whole x /\ all r end) l
  | NContent a b | NEntry a b | NProperties a b => (a = NNil \/ whole a) /\ (b = NNil \/ whole b)
  | _ => True
  end.

(** The trees of documents: entries have a key and a value, and what has properties has a tag or an anchor. *)
Inductive proper : node -> Prop :=
| pr_stream l : Forall proper l -> proper (NStream l)
| pr_text s q : proper (NText s q)
| pr_alias s : proper (NAlias s)
| pr_null : proper NNull
| pr_seq l : Forall proper l -> proper (NSequence l)
| pr_map l : Forall proper l -> proper (NMapping l)
| pr_entry k v : proper k -> proper v -> proper (NEntry k v)
| pr_content p c : properties p -> proper c -> proper (NContent p c).

(** Quotation marks are not printed. *)
Fixpoint unquoted (n : node) : node :=
  match n with
  | NText s _ => NText s UnknownQuoting
  | NStream l => NStream (map unquoted l)
  | NSequence l => NSequence (map unquoted l)
  | NMapping l => NMapping (map unquoted l)
  | NEntry k v => NEntry (unquoted k) (unquoted v)
  | NContent p c => NContent p (unquoted c)
  | n => n
  end.
(** All texts of a tree. *)
Fixpoint texts (n : node) : list text :=
  match n with
  | NText s _ | NTag s | NAnchor s | NAlias s => [s]
  | NStream l | NSequence l | NMapping l => flat_map texts l
  | NEntry a b | NContent a b | NProperties a b => texts a ++ texts b
  | _ => []
  end.
