(** What happens to a read that does not fit the document, independently of engines and of the
    reader's state: which calls do not fit which trees, readings that stop at such a call, and readings
    that go on after such calls. *)
From Verif Require Import Base Schema Values Writer Reader ReadSpec.
Local Open Scope nat_scope.

Section Deny.
  Context {Nd : Type} (o : oracle) (map_size : nat -> nat) (val : tree -> value -> Prop).
  (** the kinds of calls that do not fit a null *)
  Context (nulls : expecter -> bool).

  (** [c] asks for something else than what [t] is *)
  Definition unfit (c : call) (t : tree) : bool :=
    match c, t with
    | (DInteger _ | DUnsigned _), TText s => negb (sc_is_integer s)
    | DBoolean, TText s => negb (sc_is_boolean s)
    | DFloat _, TText s => negb (sc_is_float s)
    | DTimestamp, TText s => negb (sc_is_timestamp o s)
    | DString, TText _ | DSequence, TSeq _ | DMapping, TMap _ => false
    | (DInteger _ | DUnsigned _ | DBoolean | DFloat _ | DTimestamp | DString | DSequence | DMapping), TNull =>
        nulls (expecter_of c)
    | (DInteger _ | DUnsigned _ | DBoolean | DFloat _ | DTimestamp | DString | DSequence | DMapping), _ => true
    | _, _ => false
    end.

  (** [c] asks for what [t] is, but the value does not exist or is out of range *)
  Definition unconvertible (c : call) (s : text) : bool :=
    match c with
    | DInteger bits => sc_is_integer s && match sc_to_integer s bits with None => true | _ => false end
    | DUnsigned bits => sc_is_integer s && match sc_to_unsigned s bits with None => true | _ => false end
    | DFloat bits => sc_is_float s && match o_float o s bits with None => true | _ => false end
    | _ => false
    end.

  (** the error a call that cannot be answered reports *)
  Inductive misfit : call -> tree -> rerr -> Prop :=
  | M_deny c t : unfit c t = true -> misfit c t (RDeny (expecter_of c))
  | M_convert c s : unconvertible c s = true -> misfit c (TText s) (RConvert (expecter_of c) s).

  (** [until h t qs ps c x]: the requests [qs] answered by [ps] read [t] up to a place where the call
      [c] cannot be answered because of [x]. *)
  Inductive until : nat -> tree -> list request -> list (reply Nd) -> call -> rerr -> Prop :=
  | U_here h t c x : misfit c t x -> until h t [] [] c x
  | U_try h t qs ps c x : t <> TNull -> until h t qs ps c x ->
      until h t (asks DTryNull :: qs) (gets (ABool false) :: ps) c x
  | U_seq h l qs ps c x : until_items h (S h) l qs ps c x ->
      until h (TSeq l) (asks DSequence :: QSize h :: qs) (gets (AColl CollNoop) :: PSize (length l) :: ps) c x
  | U_map h l qs ps c x : until_entries h (S h) l qs ps c x ->
      until h (TMap l) (asks DMapping :: QSize h :: qs) (gets (AColl CollNoop) :: PSize (map_size (length l)) :: ps) c x
  with until_items : nat -> nat -> list tree -> list request -> list (reply Nd) -> call -> rerr -> Prop :=
  | UI_here i h t l qs ps c x : until h t qs ps c x ->
      until_items i h (t :: l) (QMore i :: qs) (PMore true :: ps) c x
  | UI_later i h t l qs ps h1 qs' ps' c x :
      reads o map_size val h t qs ps h1 -> until_items i h1 l qs' ps' c x ->
      until_items i h (t :: l) (QMore i :: qs ++ qs') (PMore true :: ps ++ ps') c x
  with until_entries : nat -> nat -> list (tree * tree) -> list request -> list (reply Nd) -> call -> rerr -> Prop :=
  | UE_key i h k v l qs ps c x : until h k qs ps c x ->
      until_entries i h ((k, v) :: l) (QMore i :: qs) (PMore true :: ps) c x
  | UE_value i h k v l qs ps h1 qs' ps' c x :
      reads o map_size val h k qs ps h1 -> not_skip qs -> until h1 v qs' ps' c x ->
      until_entries i h ((k, v) :: l) (QMore i :: qs ++ qs') (PMore true :: ps ++ ps') c x
  | UE_later i h k v l qs ps h1 qs' ps' h2 qs'' ps'' c x :
      reads o map_size val h k qs ps h1 -> not_skip qs -> reads o map_size val h1 v qs' ps' h2 ->
      until_entries i h2 l qs'' ps'' c x ->
      until_entries i h ((k, v) :: l) (QMore i :: qs ++ qs' ++ qs'') (PMore true :: ps ++ ps' ++ ps'') c x.

  (** [tries h t qs ps h' es]: as [reads], but before anything that is read there may be calls that do
      not fit.  They get the zero value of their type; [es] are the denials, in order. *)
  Inductive tries : nat -> tree -> list request -> list (reply Nd) -> nat -> list rerr -> Prop :=
  | T_reads h t qs ps h' : reads o map_size val h t qs ps h' -> tries h t qs ps h' []
  | T_unfit h t c qs ps h' es : unfit c t = true ->
      tries (length (colls_of (Nd := Nd) (zero_answer o c)) + h) t qs ps h' es ->
      tries h t (asks c :: qs) (mask (gets (zero_answer o c)) :: ps) h' (RDeny (expecter_of c) :: es)
  | T_try h t qs ps h' es : t <> TNull -> tries h t qs ps h' es ->
      tries h t (asks DTryNull :: qs) (gets (ABool false) :: ps) h' es
  | T_seq h l qs ps h' es : tries_items h (S h) l qs ps h' es ->
      tries h (TSeq l) (asks DSequence :: QSize h :: qs) (gets (AColl CollNoop) :: PSize (length l) :: ps) h' es
  | T_map h l qs ps h' es : tries_entries h (S h) l qs ps h' es ->
      tries h (TMap l) (asks DMapping :: QSize h :: qs) (gets (AColl CollNoop) :: PSize (map_size (length l)) :: ps) h' es
  with tries_items : nat -> nat -> list tree -> list request -> list (reply Nd) -> nat -> list rerr -> Prop :=
  | TI_nil i h : tries_items i h [] [QMore i] [PMore false] h []
  | TI_cons i h t l qs ps h1 es qs' ps' h2 es' :
      tries h t qs ps h1 es -> tries_items i h1 l qs' ps' h2 es' ->
      tries_items i h (t :: l) (QMore i :: qs ++ qs') (PMore true :: ps ++ ps') h2 (es ++ es')
  with tries_entries : nat -> nat -> list (tree * tree) -> list request -> list (reply Nd) -> nat -> list rerr -> Prop :=
  | TE_nil i h : tries_entries i h [] [QMore i] [PMore false] h []
  | TE_cons i h k v l qs ps h1 es qs' ps' h2 es' qs'' ps'' h3 es'' :
      tries h k qs ps h1 es -> not_skip qs -> tries h1 v qs' ps' h2 es' -> tries_entries i h2 l qs'' ps'' h3 es'' ->
      tries_entries i h ((k, v) :: l) (QMore i :: qs ++ qs' ++ qs'') (PMore true :: ps ++ ps' ++ ps'') h3 (es ++ es' ++ es'').
End Deny.

(** The requests [qs] are answered by [ps]; then the call [c] returns the zero value of its type and
    Error reports exactly [x]. *)
Definition stops_reading {Nd K} (en : engine Nd K) (o : oracle) (r : rstate Nd K)
    (qs : list request) (ps : list (reply Nd)) (c : call) (x : rerr) : Prop :=
  exists rs hs F, map mask rs = ps /\ forall f, F <= f -> exists r' r'',
    do_requests en o f qs (r, []) = Done (rs, (r', hs))
    /\ do_call en o f DError r' = Done (AErrors [], r')
    /\ do_call en o f c r' = Done (zero_answer o c, r'')
    /\ do_call en o f DError r'' = Done (AErrors [x], r'').

(** The requests [qs] are answered by [ps]; afterwards Error reports the denials [es] and nothing is
    left to read. *)
Definition done_trying {Nd K} (en : engine Nd K) (o : oracle) (r : rstate Nd K)
    (qs : list request) (ps : list (reply Nd)) (h : nat) (es : list rerr) : Prop :=
  exists rs hs F, map mask rs = ps /\ length hs = h /\ forall f, F <= f -> exists r',
    do_requests en o f qs (r, []) = Done (rs, (r', hs))
    /\ do_call en o f DError r' = Done (AErrors es, r')
    /\ forall c, reading c = true -> exists F', forall f', F' <= f' -> exists r'',
         do_call en o f' c r' = Done (zero_answer o c, r'')
         /\ do_call en o f' DError r'' = Done (AErrors (REnd :: es), r'').
