(** A document as a cursor: what a Decoder answers to any sequence of requests, as a small machine that
    knows nothing of routes, iterators, expecters and conclusions. *)
From Verif Require Import Base Schema Values Writer AnyBuilder Reader GBuilder GReader ReadSpec.
Local Open Scope nat_scope.

(** A document without anchors and aliases.  A null keeps its text (tagged, it can be any text); the
    keys and values of a mapping alternate. *)
Inductive ytree := YNull (s : text) | YText (s : text) | YSeq (l : list ytree) | YMap (l : list ytree).

Section Ind.
  Context (P : ytree -> Prop) (Hn : forall s, P (YNull s)) (Ht : forall s, P (YText s))
    (Hs : forall l, Forall P l -> P (YSeq l)) (Hm : forall l, Forall P l -> P (YMap l)).
  Fixpoint ytree_deep (d : ytree) : P d :=
    let all := fix all l : Forall P l := match l with [] => Forall_nil _ | x :: l' => Forall_cons x (ytree_deep x) (all l') end in
    match d with
    | YNull s => Hn s | YText s => Ht s | YSeq l => Hs l (all l) | YMap l => Hm l (all l)
    end.
End Ind.

Fixpoint pairs {A} (l : list A) : list (aentry A) :=
  match l with
  | [] => []
  | [k] => [APair k None]
  | k :: v :: l' => APair k (Some v) :: pairs l'
  end.
Definition tree_access : aaccess ytree unit :=
  mkAccess (fun _ d => match d with
                       | YNull s => AVScalar s true | YText s => AVScalar s false
                       | YSeq l => AVSeq l | YMap l => AVMap (pairs l)
                       end) (fun _ k => k) (fun _ k => k).
Fixpoint depth (d : ytree) : nat :=
  match d with
  | YNull _ | YText _ => 1
  | YSeq l | YMap l => S (fold_right (fun x m => max (depth x) m) 0 l)
  end.

Section Cursor.
  Context {Nd : Type} (o : oracle).

  (** the generic value of a document, or the errors: the value builder on the document itself *)
  Definition any_value (d : ytree) : value + list rerr :=
    match extract_any tree_access o (depth d) tt d with Done (v, _) => v | _ => inr [] end.

  (** [cu_held]: a node that is to be read before everything else; [cu_open]: the open collections,
      innermost first, each with the number of its state and its unread items; [cu_sizes]: the sizes
      of all collections opened so far. *)
  Record cursor := mkCursor {
    cu_held : option ytree;
    cu_open : list (nat * list ytree);
    cu_sizes : list nat;
    cu_multi : bool;
    cu_fatal : option rerr;
    cu_denies : list rerr
  }.
  Definition cursor_start (multi : bool) (d : ytree) : cursor := mkCursor (Some d) [] [] multi None [].

  Definition at_place (h : option ytree) (fs : list (nat * list ytree)) (u : cursor) : cursor :=
    mkCursor h fs (cu_sizes u) (cu_multi u) (cu_fatal u) (cu_denies u).
  (** a fatal error: nothing is left to read *)
  Definition failed (e : rerr) (u : cursor) : cursor :=
    mkCursor None [] (cu_sizes u) (cu_multi u) (Some e) (cu_denies u).

  (** the next node, and the open collections after it is taken *)
  Fixpoint next_item (fs : list (nat * list ytree)) : option (ytree * list (nat * list ytree)) :=
    match fs with
    | [] => None
    | (_, []) :: fs' => next_item fs'
    | (h, d :: l) :: fs' => Some (d, (h, l) :: fs')
    end.
  Definition next (u : cursor) : option (ytree * list (nat * list ytree)) :=
    match cu_held u with Some d => Some (d, cu_open u) | None => next_item (cu_open u) end.

  (** the value of a text as the type that the call asks for; [None]: not of the type;
      [Some None]: of the type but without a value *)
  Definition reads_text (c : call) (null : bool) (s : text) : option (option (answer Nd)) :=
    match c with
    | DString => if null then None else Some (Some (AText s))
    | DInteger b => if sc_is_integer s then Some (option_map AInt (sc_to_integer s b)) else None
    | DUnsigned b => if sc_is_integer s then Some (option_map AUint (sc_to_unsigned s b)) else None
    | DBoolean => if sc_is_boolean s then Some (option_map ABool (sc_to_boolean s)) else None
    | DFloat b => if sc_is_float s then Some (option_map AFloat (o_float o s b)) else None
    | DTimestamp => if sc_is_timestamp o s then Some (option_map ATime (o_time o s)) else None
    | _ => None
    end.

  Definition no_coll : answer Nd := AColl CollNoop.
  Definition opening (c : call) : bool := match c with DSequence | DMapping => true | _ => false end.

  (** the collection states that an answer hands out have numbers, too *)
  Definition numbered (c : call) (n : nat) (u : cursor) : cursor :=
    if opening c then mkCursor (cu_held u) (cu_open u) (cu_sizes u ++ [n]) (cu_multi u) (cu_fatal u) (cu_denies u) else u.

  (** the node is of another kind: it stays where it is, the error is collected or fatal *)
  Definition deny (c : call) (d : ytree) (fs : list (nat * list ytree)) (u : cursor) : cursor :=
    if cu_multi u
    then mkCursor (Some d) fs (cu_sizes u) true (cu_fatal u) (cu_denies u ++ [RDeny (expecter_of c)])
    else failed (RDeny (expecter_of c)) u.

  Definition text_call (c : call) (null : bool) (s : text) (d : ytree) (fs : list (nat * list ytree)) (u : cursor)
    : answer Nd * cursor :=
    match reads_text c null s with
    | Some (Some a) => (a, at_place None fs u)
    | Some None => (zero_answer o c, failed (RConvert (expecter_of c) s) u)
    | None => (zero_answer o c, deny c d fs u)
    end.

  Definition cursor_call (c : call) (u : cursor) : answer Nd * cursor :=
    match c with
    | DError => (AErrors (match cu_fatal u with Some e => [e] | None => [] end ++ cu_denies u), u)
    | DAddError e => (AUnit, match cu_fatal u with Some _ => u | None => failed e u end)
    | _ =>
        match cu_fatal u with
        | Some _ => (zero_answer o c, numbered c 0 u)
        | None =>
            match next u with
            | None => (zero_answer o c, numbered c 0 (failed REnd u))
            | Some (d, fs) =>
                match c with
                | DSkip => (AUnit, at_place None fs u)
                | DAny => match any_value d with
                          | inl v => (AAny v, at_place None fs u)
                          | inr es => (AAny VNil, failed (RAny es) u)
                          end
                | DTryNull => match d with
                              | YNull _ => (ABool true, at_place None fs u)
                              | _ => (ABool false, at_place (Some d) fs u)
                              end
                | _ =>
                    match d with
                    | YNull s => let (a, u) := text_call c true s d fs u in (a, numbered c 0 u)
                    | YText s => let (a, u) := text_call c false s d fs u in (a, numbered c 0 u)
                    | YSeq l =>
                        match c with
                        | DSequence => (no_coll, numbered c (length l) (at_place None ((length (cu_sizes u), l) :: fs) u))
                        | _ => (zero_answer o c, numbered c 0 (deny c d fs u))
                        end
                    | YMap l =>
                        match c with
                        | DMapping => (no_coll, numbered c (length l) (at_place None ((length (cu_sizes u), l) :: fs) u))
                        | _ => (zero_answer o c, numbered c 0 (deny c d fs u))
                        end
                    end
                end
            end
        end
    end.

  Definition cursor_more (h : nat) (u : cursor) : bool :=
    existsb (fun f => (fst f =? h) && match snd f with [] => false | _ => true end) (cu_open u).

  (** a request on a state that was never handed out has no answer *)
  Definition cursor_request (q : request) (u : cursor) : outcome (reply Nd * cursor) :=
    match q with
    | QCall c => let (a, u') := cursor_call c u in Done (PAnswer a, u')
    | QSize h => match nth_error (cu_sizes u) h with Some n => Done (PSize n, u) | None => Panics end
    | QMore h => match nth_error (cu_sizes u) h with Some _ => Done (PMore (cursor_more h u), u) | None => Panics end
    end.
  Fixpoint cursor_requests (qs : list request) (u : cursor) : outcome (list (reply Nd) * cursor) :=
    match qs with
    | [] => Done ([], u)
    | q :: qs' =>
        obind (cursor_request q u) (fun x =>
        obind (cursor_requests qs' (snd x)) (fun y => Done (fst x :: fst y, snd y)))
    end.

  (** all requests but Raw (its text comes from yaml.v3) and Node (nodes are not told apart here) *)
  Definition usual (q : request) : bool := match q with QCall (DRaw | DNode) => false | _ => true end.
End Cursor.

(** the document that hangs from a node of a yaml.v3 graph: no aliases, no document nodes *)
Inductive unfolds (g : graph) : gref -> ytree -> Prop :=
| un_null i c : nth_error g i = Some c -> x_kind c = KScalar -> g_is_null c = true -> unfolds g (Some i) (YNull (x_value c))
| un_text i c : nth_error g i = Some c -> x_kind c = KScalar -> g_is_null c = false -> unfolds g (Some i) (YText (x_value c))
| un_seq i c l : nth_error g i = Some c -> x_kind c = KSequence -> Forall2 (unfolds g) (x_content c) l ->
    unfolds g (Some i) (YSeq l)
| un_map i c l : nth_error g i = Some c -> x_kind c = KMapping -> Forall2 (unfolds g) (x_content c) l ->
    unfolds g (Some i) (YMap l).
(** the same below a document node *)
Definition rooted (g : graph) (i : nat) (d : ytree) : Prop :=
  unfolds g (Some i) d
  \/ exists c n rest, nth_error g i = Some c /\ x_kind c = KDocument /\ x_content c = n :: rest /\ unfolds g n d.

(** what the client sees: the replies, without the identity of collection states *)
Definition replies {Nd S} (x : outcome (list (reply Nd) * S)) : outcome (list (reply Nd)) :=
  obind x (fun y => Done (map mask (fst y))).
