(** The documents (with anchors and aliases) that nodes of the two engines stand for. *)
From Verif Require Import Base Schema Values Ast Writer ReadSpec ReaderSpec DocSpec GBuilder GReader.
Local Open Scope nat_scope.

(** the anchor a properties node defines: [Some None] if there is none *)
Definition anchor_name (p : node) : option (option text) :=
  match p with
  | NProperties t (NAnchor a) => if leaf_ok t then Some (Some a) else None
  | _ => if props_ok p then Some None else None
  end.

(** yayamls; keys must be texts without properties *)
Fixpoint y_doc (n : node) : option doc :=
  match n with
  | NNull => Some DNull
  | NText s q => Some (if plain_quoting q && sc_is_null s then DNull else DText s)
  | NAlias a => Some (DAlias a)
  | NContent p c =>
      match anchor_name p, y_doc c with
      | Some (Some a), Some d => Some (DAnchor a d)
      | Some None, Some d => Some d
      | _, _ => None
      end
  | NSequence l =>
      option_map DSeq ((fix go (l : list node) : option (list doc) :=
        match l with
        | [] => Some []
        | x :: l' => match y_doc x, go l' with Some t, Some ts => Some (t :: ts) | _, _ => None end
        end) l)
  | NMapping l =>
      option_map DMap ((fix go (l : list node) : option (list (doc * doc)) :=
        match l with
        | [] => Some []
        | NEntry k v :: l' =>
            match y_doc k, y_doc v, go l' with
            | Some tk, Some tv, Some ts => Some ((tk, tv) :: ts)
            | _, _, _ => None
            end
        | _ :: _ => None
        end) l)
  | _ => None
  end.

(** goyaml: aliases are links, a node stands for its finite unfolding, if there is one *)
Inductive g_doc (g : graph) : gref -> doc -> Prop :=
| gd_null i c : nth_error g i = Some c -> x_kind c = KScalar -> g_is_null c = true -> g_doc g (Some i) DNull
| gd_text i c : nth_error g i = Some c -> x_kind c = KScalar -> g_is_null c = false -> g_doc g (Some i) (DText (x_value c))
| gd_seq i c l : nth_error g i = Some c -> x_kind c = KSequence -> g_docs g (x_content c) l -> g_doc g (Some i) (DSeq l)
| gd_map i c l : nth_error g i = Some c -> x_kind c = KMapping -> g_dents g (x_content c) l -> g_doc g (Some i) (DMap l)
| gd_alias i c d : nth_error g i = Some c -> x_kind c = KAlias -> g_doc g (x_alias c) d -> g_doc g (Some i) d
with g_docs (g : graph) : list gref -> list doc -> Prop :=
| gds_nil : g_docs g [] []
| gds_cons n ns d l : g_doc g n d -> g_docs g ns l -> g_docs g (n :: ns) (d :: l)
with g_dents (g : graph) : list gref -> list (doc * doc) -> Prop :=
| gde_nil : g_dents g [] []
| gde_cons k v ns kd vd l : g_doc g k kd -> g_doc g v vd -> g_dents g ns l ->
    g_dents g (k :: v :: ns) ((kd, vd) :: l).

(** a node holds an alias [a] where a value is expected *)
Inductive holds_alias (a : text) : node -> Prop :=
| ha_here : holds_alias a (NAlias a)
| ha_seq l n : In n l -> holds_alias a n -> holds_alias a (NSequence l)
| ha_map l n : In n l -> holds_alias a n -> holds_alias a (NMapping l)
| ha_key k v : holds_alias a k -> holds_alias a (NEntry k v)
| ha_value k v : holds_alias a v -> holds_alias a (NEntry k v)
| ha_content p c : holds_alias a c -> holds_alias a (NContent p c).

(** no anchor [a] in a node *)
Inductive no_anchor (a : text) : node -> Prop :=
| na_nil : no_anchor a NNil
| na_basic ty : no_anchor a (NBasic ty)
| na_header c i : no_anchor a (NBlockHeader c i)
| na_indent i : no_anchor a (NIndent i)
| na_null : no_anchor a NNull
| na_text s q : no_anchor a (NText s q)
| na_tag s : no_anchor a (NTag s)
| na_alias s : no_anchor a (NAlias s)
| na_anchor b : b <> a -> no_anchor a (NAnchor b)
| na_stream l : Forall (no_anchor a) l -> no_anchor a (NStream l)
| na_seq l : Forall (no_anchor a) l -> no_anchor a (NSequence l)
| na_map l : Forall (no_anchor a) l -> no_anchor a (NMapping l)
| na_entry k v : no_anchor a k -> no_anchor a v -> no_anchor a (NEntry k v)
| na_props t n : no_anchor a t -> no_anchor a n -> no_anchor a (NProperties t n)
| na_content p c : no_anchor a p -> no_anchor a c -> no_anchor a (NContent p c).
