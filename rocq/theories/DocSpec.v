(** What the generic value of a document is: documents with anchors and aliases, and their values.
    Independent of engines, nodes and builders. *)
From Coq Require Import String.
From Verif Require Import Base Schema Values ReadSpec.
Local Open Scope nat_scope.

Inductive doc :=
| DNull | DText (s : text) | DSeq (l : list doc) | DMap (l : list (doc * doc))
| DAnchor (a : text) (d : doc) | DAlias (a : text).

(** induction on documents *)
Section DocInd.
  Context (P : doc -> Prop) (Hn : P DNull) (Ht : forall s, P (DText s))
    (Hs : forall l, Forall P l -> P (DSeq l)) (Hm : forall l, Forall (fun kv => P (fst kv) /\ P (snd kv)) l -> P (DMap l))
    (Ha : forall a d, P d -> P (DAnchor a d)) (Hl : forall a, P (DAlias a)).
  Fixpoint doc_deep (d : doc) : P d :=
    match d with
    | DNull => Hn
    | DText s => Ht s
    | DSeq l => Hs l ((fix go l : Forall P l := match l with [] => Forall_nil _ | x :: l' => Forall_cons x (doc_deep x) (go l') end) l)
    | DMap l => Hm l ((fix go l : Forall (fun kv => P (fst kv) /\ P (snd kv)) l :=
        match l with [] => Forall_nil _ | kv :: l' => Forall_cons kv (conj (doc_deep (fst kv)) (doc_deep (snd kv))) (go l') end) l)
    | DAnchor a d => Ha a d (doc_deep d)
    | DAlias a => Hl a
    end.
End DocInd.

(** a tree is a document without anchors and aliases *)
Fixpoint doc_of (x : tree) : doc :=
  match x with
  | TNull => DNull
  | TText s => DText s
  | TSeq l => DSeq (map doc_of l)
  | TMap l => DMap (map (fun kv => (doc_of (fst kv), doc_of (snd kv))) l)
  end.

Definition merge_text : text := t' "<<".

Section Values.
  Context (o : oracle).

  (** the value of a scalar: the first type that accepts its text *)
  Definition scalar_value (s : text) : option value :=
    match o_time o s with
    | Some x => Some (VTime x)
    | None =>
        if sc_is_unsigned s then option_map VUint (sc_to_unsigned s 64)
        else if sc_is_integer s then option_map VInt (sc_to_integer s 64)
        else if sc_is_float s then option_map VFloat (o_float o s 64%N)
        else match sc_to_boolean s with Some b => Some (VBool b) | None => Some (VStr s) end
    end.

  (** a tree without merge keys *)
  Inductive value_of : tree -> value -> Prop :=
  | val_null : value_of TNull VNil
  | val_text s v : scalar_value s = Some v -> value_of (TText s) v
  | val_seq l vs : values_of l vs -> value_of (TSeq l) (VSeq vs)
  | val_map l m : entries_of [] l m -> value_of (TMap l) (VMap m)
  with values_of : list tree -> list value -> Prop :=
  | vals_nil : values_of [] []
  | vals_cons x l v vs : value_of x v -> values_of l vs -> values_of (x :: l) (v :: vs)
  with entries_of : list (text * value) -> list (tree * tree) -> list (text * value) -> Prop :=
  | ents_nil m : entries_of m [] m
  | ents_cons m k x v l m' : k <> merge_text -> value_of x v -> entries_of (map_set k v m) l m' ->
      entries_of m ((TText k, x) :: l) m'.

  (** ** documents with anchors, aliases and merge keys *)
  Definition env := list (text * value).

  Section Doc.
    (** which mappings may be merged into another one *)
    Context (mergeable : list (text * value) -> Prop).

    (** [dval e d v e']: with the anchors [e] defined so far, [d] has value [v], and then the anchors are
        [e'].  An alias has the value its anchor had where it was defined last. *)
    Inductive dval : env -> doc -> value -> env -> Prop :=
    | dv_null e : dval e DNull VNil e
    | dv_text e s v : scalar_value s = Some v -> dval e (DText s) v e
    | dv_seq e l vs e' : dvals e l vs e' -> dval e (DSeq l) (VSeq vs) e'
    | dv_map e l m e' : dents e [] l m e' -> dval e (DMap l) (VMap m) e'
    | dv_anchor e a d v e' : dval e d v e' -> dval e (DAnchor a d) v ((a, v) :: e')
    | dv_alias e a v : map_get a e = Some v -> dval e (DAlias a) v e
    with dvals : env -> list doc -> list value -> env -> Prop :=
    | dvs_nil e : dvals e [] [] e
    | dvs_cons e d v e1 l vs e2 : dval e d v e1 -> dvals e1 l vs e2 -> dvals e (d :: l) (v :: vs) e2
    with dents : env -> list (text * value) -> list (doc * doc) -> list (text * value) -> env -> Prop :=
    | de_nil e m : dents e m [] m e
    | de_cons e m k d v e1 l m' e2 : k <> merge_text -> dval e d v e1 -> dents e1 (map_set k v m) l m' e2 ->
        dents e m ((DText k, d) :: l) m' e2
    | de_merge e m d mm e1 l m' e2 : dval e d (VMap mm) e1 -> mergeable mm ->
        dents e1 (merge_maps m mm) l m' e2 ->
        dents e m ((DText merge_text, d) :: l) m' e2.
  End Doc.
End Values.

Scheme dval_mut := Induction for dval Sort Prop
  with dvals_mut := Induction for dvals Sort Prop
  with dents_mut := Induction for dents Sort Prop.
Combined Scheme dval_all from dval_mut, dvals_mut, dents_mut.
Scheme value_of_mut := Induction for value_of Sort Prop
  with values_of_mut := Induction for values_of Sort Prop
  with entries_of_mut := Induction for entries_of Sort Prop.
Combined Scheme value_of_all from value_of_mut, values_of_mut, entries_of_mut.

(** ** conditions on documents *)

(** no mapping anywhere in the value *)
Fixpoint mapless (v : value) : bool :=
  match v with VMap _ => false | VSeq l => forallb mapless l | _ => true end.
Definition flat (m : list (text * value)) : Prop := Forall (fun kv => mapless (snd kv) = true) m.

(** the names of anchors and aliases in a document *)
Fixpoint names (d : doc) : list text :=
  match d with
  | DSeq l => concat (map names l)
  | DMap l => concat (map (fun kv => names (fst kv) ++ names (snd kv)) l)
  | DAnchor a d => a :: names d
  | DAlias a => [a]
  | _ => []
  end.

(** the keys a mapping sets itself *)
Definition own_keys (l : list (doc * doc)) : list text :=
  concat (map (fun kv => match fst kv with DText k => if text_eqb k merge_text then [] else [k] | _ => [] end) l).

(** [all P d]: [P] holds for [d] and everything in it *)
Inductive all (P : doc -> Prop) : doc -> Prop :=
| all_null : P DNull -> all P DNull
| all_text s : P (DText s) -> all P (DText s)
| all_seq l : P (DSeq l) -> Forall (all P) l -> all P (DSeq l)
| all_map l : P (DMap l) -> Forall (fun kv => all P (fst kv) /\ all P (snd kv)) l -> all P (DMap l)
| all_anchor a d : P (DAnchor a d) -> all P d -> all P (DAnchor a d)
| all_alias a : P (DAlias a) -> all P (DAlias a).

(** no mapping sets a key twice *)
Definition keys_once : doc -> Prop :=
  all (fun d => match d with DMap l => NoDup (own_keys l) | _ => True end).

(** Names used inside anchored content are not redefined: [inner] are those names, [content] is what
    each of them stands for in the whole document. *)
Definition stable (inner : text -> bool) (content : text -> doc) : doc -> Prop :=
  all (fun d => match d with
                | DAnchor a c => (forall b, In b (names c) -> inner b = true) /\ (inner a = true -> c = content a)
                | _ => True
                end).

(** ** mappings with merge keys, entry by entry *)
Inductive item := Own (k : text) (v : value) | Merged (m : list (text * value)).
(** the value of a key: what the mapping sets itself (last), or else what the first merged mapping with
    that key says *)
Fixpoint own (k : text) (l : list item) : option value :=
  match l with
  | [] => None
  | Own k' v :: l' => match own k l' with Some w => Some w | None => if text_eqb k k' then Some v else None end
  | Merged _ :: l' => own k l'
  end.
Fixpoint merged (k : text) (l : list item) : option value :=
  match l with
  | [] => None
  | Own _ _ :: l' => merged k l'
  | Merged m :: l' => match map_get k m with Some v => Some v | None => merged k l' end
  end.
Definition looked_up (k : text) (l : list item) : option value :=
  match own k l with Some v => Some v | None => merged k l end.

(** what the entries of a mapping evaluate to, in order *)
Inductive items_of (o : oracle) (mergeable : list (text * value) -> Prop) : env -> list (doc * doc) -> list item -> env -> Prop :=
| io_nil e : items_of o mergeable e [] [] e
| io_own e k d v e1 l its e2 : k <> merge_text -> dval o mergeable e d v e1 -> items_of o mergeable e1 l its e2 ->
    items_of o mergeable e ((DText k, d) :: l) (Own k v :: its) e2
| io_merge e d mm e1 l its e2 : dval o mergeable e d (VMap mm) e1 -> mergeable mm -> items_of o mergeable e1 l its e2 ->
    items_of o mergeable e ((DText merge_text, d) :: l) (Merged mm :: its) e2.
