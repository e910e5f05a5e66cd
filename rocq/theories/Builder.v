(** Model of engines/yayamls/encode/builder.go (ASTBuilder).

    The Go builder mutates nodes through pointers kept on a route.  The model keeps a heap of
    mutable cells; a cell refers to its children either by address (nodes that were pushed on the
    route and may still change) or by value (nodes that are never put on the route). *)
From Verif Require Import Base Schema Ast.
Local Open Scope nat_scope.

(** ** the Inserter interface: encode.go 22-68 *)

(** Scalars.  Floats and timestamps are represented by the text that FromFloat / FromTimestamp
    produce (schema.go 114-125, 178-180), which is not modelled further here. *)
Inductive scalar :=
| SInt (z : Z) | SUint (n : N) | SBool (b : bool) | SFloat (t : text) | SString (t : text)
| STime (t : text).

(** Errors: those of the builder itself, and foreign ones (identified by a number). *)
Inductive berr :=
| EEndSeqInvalid | EEndSeqAt (t : option ntype)
| EEndMapInvalid | EEndMapAt (t : option ntype)
| EInsertAt (t : option ntype) | ERawStream | EForeign (n : N).

(** InsertRaw(data, err): [RawErr] if [err] is not nil or parsing the data fails, otherwise the
    parsed tree (the parser itself is an oracle here). *)
Inductive raw_input := RawErr (e : N) | RawTree (n : node).

Inductive bop :=
| OScalar (s : scalar) | ONull
| OStartSeq | OEndSeq | OStartMap | OEndMap
| ORaw (r : raw_input)
| ORawText (t : text) (err : option N).

(** ** cells *)
Inductive hval := VNode (n : node) | VRef (i : nat).
Inductive cell :=
| CSeq (es : list hval)
| CMap (es : list hval)
| CEntry (k v : hval)
| CLeaf (n : node).

Definition cell_of_node (n : node) : cell :=
  match n with
  | NSequence l => CSeq (map VNode l)
  | NMapping l => CMap (map VNode l)
  | NEntry k v => CEntry (VNode k) (VNode v)
  | _ => CLeaf n
  end.

Definition cell_type (c : cell) : option ntype :=
  match c with
  | CSeq _ => Some SequenceType
  | CMap _ => Some MappingType
  | CEntry _ _ => Some MappingEntryType
  | CLeaf n => node_type n
  end.

(** ast.ValidNode on a cell *)
Definition cell_valid (c : cell) : bool :=
  match cell_type c with None | Some InvalidType => false | _ => true end.

Fixpoint upd {A} (l : list A) (i : nat) (x : A) : list A :=
  match l, i with
  | [], _ => []
  | _ :: l', O => x :: l'
  | y :: l', S i' => y :: upd l' i' x
  end.

(* builder.go 16-23; the route's last element comes first *)
Record builder := mkB {
  b_heap : list cell;
  b_root : option nat;
  b_route : list nat;
  b_unquote : bool;          (* builderOpts.unquoteOneliners *)
  b_fatal : option berr
}.

(* builder.go 40-47 *)
Definition new_builder (unquote : bool) : builder := mkB [] None [] unquote None.

Definition with_fatal (b : builder) (e : berr) : builder :=
  mkB (b_heap b) (b_root b) (b_route b) (b_unquote b) (Some e).

(* builder.go 206-211 *)
Definition current (b : builder) : option (nat * cell) :=
  match b_route b with
  | [] => None
  | i :: _ => match nth_error (b_heap b) i with Some c => Some (i, c) | None => None end
  end.

(* builder.go 217-222 *)
Definition pop_node (b : builder) : builder :=
  mkB (b_heap b) (b_root b) (tl (b_route b)) (b_unquote b) (b_fatal b).

(** the new node as a child: by address if it is going to be pushed, else by value *)
Definition child (next : nat) (n : node) (push : bool) : hval * list cell * list nat :=
  if push then (VRef next, [cell_of_node n], [next]) else (VNode n, [], []).

(* builder.go 171-204.  In the mapping case the new entry is given an address before its key
   (addresses are not observable). *)
Definition insert_node (b : builder) (n : node) (push : bool) : builder :=
  match b_fatal b with
  | Some _ => b
  | None =>
      let h := b_heap b in
      let next := length h in
      let at_root :=
        mkB (h ++ [cell_of_node n]) (Some next) (next :: b_route b) (b_unquote b) None in
      match current b with
      | None => at_root
      | Some (i, c) =>
          if negb (cell_valid c) then at_root else
          match c with
          | CMap es =>
              let '(v, cells, pushed) := child (S next) n push in
              mkB (upd h i (CMap (es ++ [VRef next])) ++ CEntry v (VNode NNil) :: cells)
                  (b_root b) (pushed ++ next :: b_route b) (b_unquote b) None
          | CEntry k _ =>
              let '(v, cells, pushed) := child next n push in
              mkB (upd h i (CEntry k v) ++ cells)
                  (b_root b) (pushed ++ tl (b_route b)) (b_unquote b) None
          | CSeq es =>
              let '(v, cells, pushed) := child next n push in
              mkB (upd h i (CSeq (es ++ [v])) ++ cells)
                  (b_root b) (pushed ++ b_route b) (b_unquote b) None
          | CLeaf m =>
              let '(v, cells, pushed) := child next n push in
              mkB (h ++ cells) (b_root b) (pushed ++ b_route b) (b_unquote b)
                  (Some (EInsertAt (node_type m)))
          end
      end
  end.

(* writer.go 376-378 *)
Definition is_multiline (s : text) : bool := rune_in 10%N s.

(* builder.go 65-71: the quoting chosen for strings *)
Definition string_quoting (unquote : bool) (s : text) : quoting :=
  if unquote && negb (is_multiline s) then AbsentQuoting else DoubleQuoting.

(* builder.go 49-75, 161-169 *)
Definition scalar_node (unquote : bool) (s : scalar) : node :=
  match s with
  | SInt z => NText (sc_from_integer z) AbsentQuoting
  | SUint n => NText (sc_from_unsigned n) AbsentQuoting
  | SBool x => NText (sc_from_boolean x) AbsentQuoting
  | SFloat t => NText t AbsentQuoting
  | SString t => NText t (string_quoting unquote t)
  | STime t => NText t DoubleQuoting
  end.

(* builder.go 86-99 *)
Definition end_sequence (b : builder) : builder :=
  match b_fatal b with
  | Some _ => b
  | None =>
      match current b with
      | None => with_fatal b EEndSeqInvalid
      | Some (_, c) =>
          if negb (cell_valid c) then with_fatal b EEndSeqInvalid
          else match c with
               | CSeq _ => pop_node b
               | _ => with_fatal b (EEndSeqAt (cell_type c))
               end
      end
  end.

(* builder.go 106-119 *)
Definition end_mapping (b : builder) : builder :=
  match b_fatal b with
  | Some _ => b
  | None =>
      match current b with
      | None => with_fatal b EEndMapInvalid
      | Some (_, c) =>
          if negb (cell_valid c) then with_fatal b EEndMapInvalid
          else match c with
               | CMap _ => pop_node b
               | _ => with_fatal b (EEndMapAt (cell_type c))
               end
      end
  end.

(* builder.go 121-139 *)
Definition insert_raw (b : builder) (r : raw_input) : builder :=
  match b_fatal b with
  | Some _ => b
  | None =>
      match r with
      | RawErr e => with_fatal b (EForeign e)
      | RawTree (NStream _) => with_fatal b ERawStream
      | RawTree n => insert_node b n false
      end
  end.

(* builder.go 141-150 *)
Definition insert_raw_text (b : builder) (t : text) (err : option N) : builder :=
  match b_fatal b with
  | Some _ => b
  | None =>
      match err with
      | Some e => with_fatal b (EForeign e)
      | None => insert_node b (scalar_node (b_unquote b) (SString t)) false
      end
  end.

Definition bstep (b : builder) (o : bop) : builder :=
  match o with
  | OScalar s => insert_node b (scalar_node (b_unquote b) s) false
  | ONull => insert_node b NNull false                      (* builder.go 77-79 *)
  | OStartSeq => insert_node b (NSequence []) true          (* builder.go 81-84 *)
  | OEndSeq => end_sequence b
  | OStartMap => insert_node b (NMapping []) true           (* builder.go 101-104 *)
  | OEndMap => end_mapping b
  | ORaw r => insert_raw b r
  | ORawText t err => insert_raw_text b t err
  end.

Definition bsteps (b : builder) (ops : list bop) : builder := fold_left bstep ops b.

(** ** reading a tree back from the heap.  Children always have larger addresses than their
    parents, so the size of the heap is enough fuel; running out gives an invalid node. *)
Fixpoint read_val (fuel : nat) (h : list cell) (v : hval) : node :=
  match v with
  | VNode n => n
  | VRef i =>
      match fuel with
      | O => NInvalid
      | S f =>
          match nth_error h i with
          | None => NInvalid
          | Some (CSeq es) => NSequence (map (read_val f h) es)
          | Some (CMap es) => NMapping (map (read_val f h) es)
          | Some (CEntry k x) => NEntry (read_val f h k) (read_val f h x)
          | Some (CLeaf n) => n
          end
      end
  end.

(** The tree some root points to, in a given heap; nil if there is none. *)
Definition read_root (h : list cell) (root : option nat) : node :=
  match root with
  | None => NNil
  | Some i => read_val (S (length h)) h (VRef i)
  end.

(* builder.go 152-159: the error, the root (an address in the heap), and the builder after it *)
Definition result (b : builder) : option berr * option nat * builder :=
  (b_fatal b, b_root b, mkB (b_heap b) None [] (b_unquote b) None).

(** what the caller of Result sees: the error and the tree *)
Definition observe (b : builder) : option berr * node :=
  (b_fatal b, read_root (b_heap b) (b_root b)).
