(** Model of the yayamls decoder: engines/yayamls/decode (anchors.go, expected.go, iterator.go, the node
    access of reader.go and any.go) and the node predicates of engines/yayamls/schema.  The reading
    itself is Reader.v and AnyBuilder.v. *)
From Verif Require Import Base Schema Values Ast Writer AnyBuilder Reader.
Local Open Scope nat_scope.

(** ** anchors.go *)
Record anchors := mkAnchors { an_map : list (text * node); an_met : bool; an_name : text }.
(* anchors.go 13-17, 39-43 *)
Definition an_new : anchors := mkAnchors [] false [].
(* anchors.go 19-22 *)
Definition an_store (a : text) (k : anchors) : anchors := mkAnchors (an_map k) true a.
(* anchors.go 24-29; the newest binding of a name is the first in the list *)
Definition an_bind (n : node) (k : anchors) : anchors :=
  if an_met k then mkAnchors ((an_name k, n) :: an_map k) false (an_name k) else k.
Fixpoint an_find (a : text) (m : list (text * node)) : option node :=
  match m with
  | [] => None
  | (b, n) :: m' => if text_eqb a b then Some n else an_find a m'
  end.
(* anchors.go 31-37 *)
Definition an_deref (a : text) (k : anchors) : node + text :=
  match an_find a (an_map k) with Some n => inl n | None => inr a end.

(** ** schema/schema.go: predicates on nodes *)
(* schema.go 15-29 *)
Definition y_is_null (n : node) : bool :=
  match n with
  | NNull => true
  | NBasic NullType => true
  | NText s (UnknownQuoting | AbsentQuoting) => sc_is_null s
  | _ => false
  end.
Definition y_text_is (p : text -> bool) (n : node) : bool :=
  match n with NText s _ => p s | _ => false end.

(** ** expected.go *)
Definition y_is (o : oracle) (e : expecter) (n : node) : bool :=
  match e with
  | EInteger => y_text_is sc_is_integer n
  | EBoolean => y_text_is sc_is_boolean n
  | EFloat => y_text_is sc_is_float n
  | EString => negb (y_is_null n) && y_text_is (fun _ => true) n   (* 89-96, checkForNull is always set *)
  | ETimestamp => y_text_is (sc_is_timestamp o) n
  | _ => false
  end.

(** the types all expecters but the last ones pass through *)
Definition y_inner_type (t : ntype) : bool :=
  match t with
  | ContentType | PropertiesType | AnchorType | TagType | StreamType | MappingEntryType => true
  | _ => false
  end.
(* expected.go 108-147 *)
Definition y_terminal (o : oracle) (e : expecter) (n : node) (t : ntype) (prev : concl) : concl * bool :=
  match t with
  | TextType =>
      if y_is o e n then after prev [CUnknown; CContinue; CDeny] (CConsume, true) pass else no
  | MappingType | SequenceType => after prev [CMatch; CConsume; CContinue] pass no
  | _ => if y_inner_type t then pass else no
  end.

Definition y_process (o : oracle) (e : expecter) (n : node) (prev : concl) : concl * bool :=
  match node_type n with
  | None => no                                     (* nil: never reached *)
  | Some t =>
      match e with
      | ENull =>                                   (* expected.go 14-45 *)
          if y_is_null n then after prev [CUnknown; CContinue; CDeny] (CConsume, false) pass
          else if y_inner_type t then pass
          else after prev [CMatch; CContinue] pass no
      | EInteger | EBoolean | EFloat | EString | ETimestamp => y_terminal o e n t prev
      | ESequence =>                               (* expected.go 155-189 *)
          match t with
          | SequenceType => after prev [CUnknown; CDeny] (CMatch, true) pass
          | MappingType | TextType => after prev [CMatch; CConsume; CContinue] pass no
          | _ => if y_inner_type t then pass else no
          end
      | EMapping =>                                (* expected.go 197-231 *)
          match t with
          | MappingType => after prev [CUnknown; CDeny] (CMatch, true) pass
          | SequenceType | TextType => after prev [CMatch; CConsume; CContinue] pass no
          | _ => if y_inner_type t then pass else no
          end
      | EAny =>                                    (* expected.go 239-257 *)
          match t with
          | MappingType | SequenceType | TextType | NullType =>
              after prev [CMatch; CConsume; CContinue] pass (CMatch, false)
          | _ => pass
          end
      | ERaw =>                                    (* expected.go 265-283 *)
          match t with
          | ContentType | PropertiesType | TagType | AnchorType => pass
          | _ => after prev [CMatch; CConsume; CContinue] pass (CMatch, false)
          end
      | ESkip =>                                   (* expected.go 293-311 *)
          match t with
          | ContentType | PropertiesType | TagType | AnchorType => pass
          | _ => after prev [CMatch; CConsume; CContinue] pass (CConsume, false)
          end
      end
  end.

(** ** reader.go 370-475 with iterator.go 25-65: how a node is visited *)
Definition y_visit (k : anchors) (n : node) : visit node :=
  match n with
  | NNil => VPanic
  | NBasic _ | NBlockHeader _ _ | NIndent _ => VNothing
  | NStream l => VComplex l (length l) false
  | NTag s => VTexter s None
  | NAnchor a => VTexter a (Some a)
  | NAlias a => VAlias (an_deref a k)
  | NText s _ => VTexter s None
  | NSequence l => VComplex l (length l) false
  | NMapping l => VComplex l (length l) false
  | NEntry a b => VComplex [a; b] 2 false
  | NNull => VNullNode
  | NProperties tag anchor => VComplex [anchor; tag] 2 false
  | NContent a b => VComplex [a; b] 2 true
  end.

(** ** any.go: how the value builder sees a node *)
Definition y_view (k : anchors) (n : node) : aview node :=
  if valid_node n then
    match n with
    | NStream _ => AVStream
    | NAnchor a => AVAnchor a
    | NAlias a => AVAlias (an_deref a k)
    | NText s _ => AVScalar s (y_is_null n)
    | NSequence l => AVSeq l
    | NMapping l => AVMap (map AWhole l)
    | NEntry a b => AVEntry a b
    | NNull => AVNullNode
    | NProperties _ anchor => AVProps anchor
    | NContent a b => AVContent a b
    | _ => AVSkip
    end
  else AVSkip.

Definition y_access : aaccess node anchors := mkAccess y_view an_store an_bind.

(* reader.go 332-333: a new writer without a keeper; its fuel is never used *)
Definition y_raw (n : node) : outcome (text + list N) :=
  obind (visit_with None (fun _ _ => NoFuel) n (mkWS [] [] 0 [] [] [] tt)) (fun w =>
  Done (match ws_errors w with [] => inl (ws_buf w) | es => inr es end)).

Definition y_engine (o : oracle) : engine node anchors :=
  mkEngine y_visit (fun _ => y_process o)
    (fun n => match n with NNil => true | _ => false end) valid_node an_store an_bind false
    (extract_any y_access o)
    (fun _ k n => obind (y_raw n) (fun x => Done (x, k))).

(** NewASTReader(tree) *)
Definition y_reader (multi : bool) (tree : node) : rstate node anchors := r_new an_new multi tree.
