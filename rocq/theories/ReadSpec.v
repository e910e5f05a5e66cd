(** What reading a document means, independently of engines and of the reader's state: documents as
    plain trees, and which sequences of calls with which answers read a tree completely and in order. *)
From Verif Require Import Base Schema Values Reader.
Local Open Scope nat_scope.

Inductive tree := TNull | TText (s : text) | TSeq (l : list tree) | TMap (l : list (tree * tree)).

(** replies without the identity of collection states *)
Definition mask {Nd} (p : reply Nd) : reply Nd :=
  match p with PAnswer (AColl _) => PAnswer (AColl CollNoop) | _ => p end.

Section Reads.
  Context {Nd : Type} (o : oracle).
  (** what Size reports for a mapping with [n] entries *)
  Context (map_size : nat -> nat).
  (** the generic value of a tree *)
  Context (val : tree -> value -> Prop).

  Definition asks (c : call) : request := QCall c.
  Definition gets (a : answer Nd) : reply Nd := PAnswer a.

  (** A mapping key must not be skipped by its first call. *)
  Definition not_skip (qs : list request) : Prop :=
    match qs with QCall DSkip :: _ => False | _ => True end.

  (** [reads h t qs ps h']: with [h] collections opened before, the requests [qs] answered by [ps] read
      the tree [t], and then [h'] collections have been opened. *)
  Inductive reads : nat -> tree -> list request -> list (reply Nd) -> nat -> Prop :=
  | R_null h : reads h TNull [asks DTryNull] [gets (ABool true)] h
  | R_try h t qs ps h' : t <> TNull -> reads h t qs ps h' ->
      reads h t (asks DTryNull :: qs) (gets (ABool false) :: ps) h'
  | R_string h s : reads h (TText s) [asks DString] [gets (AText s)] h
  | R_integer h s bits z : sc_is_integer s = true -> sc_to_integer s bits = Some z ->
      reads h (TText s) [asks (DInteger bits)] [gets (AInt z)] h
  | R_unsigned h s bits n : sc_is_integer s = true -> sc_to_unsigned s bits = Some n ->
      reads h (TText s) [asks (DUnsigned bits)] [gets (AUint n)] h
  | R_boolean h s b : sc_to_boolean s = Some b ->
      reads h (TText s) [asks DBoolean] [gets (ABool b)] h
  | R_float h s bits x : sc_is_float s = true -> o_float o s bits = Some x ->
      reads h (TText s) [asks (DFloat bits)] [gets (AFloat x)] h
  | R_timestamp h s x : o_time o s = Some x ->
      reads h (TText s) [asks DTimestamp] [gets (ATime x)] h
  | R_skip h t : reads h t [asks DSkip] [gets AUnit] h
  | R_any h t v : val t v -> reads h t [asks DAny] [gets (AAny v)] h
  | R_seq h l qs ps h' : reads_items h (S h) l qs ps h' ->
      reads h (TSeq l) (asks DSequence :: QSize h :: qs) (gets (AColl CollNoop) :: PSize (length l) :: ps) h'
  | R_map h l qs ps h' : reads_entries h (S h) l qs ps h' ->
      reads h (TMap l) (asks DMapping :: QSize h :: qs) (gets (AColl CollNoop) :: PSize (map_size (length l)) :: ps) h'
  with reads_items : nat -> nat -> list tree -> list request -> list (reply Nd) -> nat -> Prop :=
  | RI_nil c h : reads_items c h [] [QMore c] [PMore false] h
  | RI_cons c h t l qs ps h1 qs' ps' h2 :
      reads h t qs ps h1 -> reads_items c h1 l qs' ps' h2 ->
      reads_items c h (t :: l) (QMore c :: qs ++ qs') (PMore true :: ps ++ ps') h2
  with reads_entries : nat -> nat -> list (tree * tree) -> list request -> list (reply Nd) -> nat -> Prop :=
  | RE_nil c h : reads_entries c h [] [QMore c] [PMore false] h
  | RE_cons c h k v l qs ps h1 qs' ps' h2 qs'' ps'' h3 :
      reads h k qs ps h1 -> not_skip qs -> reads h1 v qs' ps' h2 -> reads_entries c h2 l qs'' ps'' h3 ->
      reads_entries c h ((k, v) :: l) (QMore c :: qs ++ qs' ++ qs'') (PMore true :: ps ++ ps' ++ ps'') h3.

  (** one document after the other *)
  Inductive reads_docs : nat -> list tree -> list request -> list (reply Nd) -> nat -> Prop :=
  | RD_nil h : reads_docs h [] [] [] h
  | RD_cons h t l qs ps h1 qs' ps' h2 : reads h t qs ps h1 -> reads_docs h1 l qs' ps' h2 ->
      reads_docs h (t :: l) (qs ++ qs') (ps ++ ps') h2.
End Reads.

(** [c] reads something *)
Definition reading (c : call) : bool := match c with DError | DAddError _ => false | _ => true end.

(** ** reading everything as strings *)

(** the scalars of a tree in document order; [None] for a null *)
Fixpoint scalars (t : tree) : list (option text) :=
  match t with
  | TNull => [None]
  | TText s => [Some s]
  | TSeq l => concat (map scalars l)
  | TMap l => concat (map (fun kv => scalars (fst kv) ++ scalars (snd kv)) l)
  end.

(** the scalars a client was told *)
Definition heard {Nd} (p : reply Nd) : list (option text) :=
  match p with
  | PAnswer (AText s) => [Some s]
  | PAnswer (ABool true) => [None]
  | _ => []
  end.
Definition told {Nd} (ps : list (reply Nd)) : list (option text) := concat (map heard ps).

(** the calls of such a reading *)
Definition as_strings (q : request) : Prop :=
  match q with
  | QCall (DTryNull | DString | DSequence | DMapping) | QSize _ | QMore _ => True
  | _ => False
  end.
