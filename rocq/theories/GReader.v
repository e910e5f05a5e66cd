(** Model of the goyaml decoder: engines/goyaml/decode (expected.go, iterator.go, raw.go, the node
    access of reader.go and any.go) and the node predicates of engines/goyaml/schema.  The reading
    itself is Reader.v and AnyBuilder.v.

    A yaml.v3 document is a graph: aliases point to nodes, possibly to one that contains them.  It is a
    list of cells; a node is the number of its cell, [None] is a nil pointer. *)
From Coq Require Import String.
From Verif Require Import Base Schema Values Writer AnyBuilder Reader GBuilder.
Local Open Scope nat_scope.

(** [x_short] is what yaml.v3's Node.ShortTag returns for the node (an oracle given with the graph).
    Style, Tag, comments and positions are only looked at by yaml.v3 and are left out. *)
Record gxcell := mkX {
  x_kind : gkind; x_short : text; x_value : text; x_anchor : text;
  x_content : list (option nat); x_alias : option nat
}.
Definition graph := list gxcell.
Definition gref := option nat.
Definition g_at (g : graph) (n : gref) : option gxcell :=
  match n with Some i => nth_error g i | None => None end.

(** ** schema/schema.go *)
Definition is_scalar_kind (k : gkind) : bool := match k with KScalar => true | _ => false end.
(* schema.go 14-19 *)
Definition g_is_null (c : gxcell) : bool := is_scalar_kind (x_kind c) && text_eqb (x_short c) (t' "!!null").
Definition g_text_is (p : text -> bool) (c : gxcell) : bool := is_scalar_kind (x_kind c) && p (x_value c).

(** ** expected.go *)
Definition g_is (o : oracle) (e : expecter) (c : gxcell) : bool :=
  match e with
  | EInteger => g_text_is sc_is_integer c
  | EBoolean => g_text_is sc_is_boolean c
  | EFloat => g_text_is sc_is_float c
  | EString => negb (g_is_null c) && is_scalar_kind (x_kind c)    (* 82-89 *)
  | ETimestamp => g_text_is (sc_is_timestamp o) c
  | _ => false
  end.

(* expected.go 101-136 *)
Definition g_terminal (o : oracle) (e : expecter) (c : gxcell) (prev : concl) : concl * bool :=
  match x_kind c with
  | KScalar => if g_is o e c then after prev [CUnknown; CContinue; CDeny] (CConsume, true) pass else no
  | KSequence | KMapping => after prev [CMatch; CConsume; CContinue] pass no
  | _ => no
  end.

Definition g_process_cell (o : oracle) (e : expecter) (c : gxcell) (prev : concl) : concl * bool :=
  match e with
  | ENull =>                                       (* expected.go 14-38 *)
      if g_is_null c then after prev [CUnknown; CContinue; CDeny] (CConsume, false) pass
      else after prev [CMatch; CContinue] pass no
  | EInteger | EBoolean | EFloat | EString | ETimestamp => g_terminal o e c prev
  | ESequence =>                                   (* expected.go 144-170 *)
      match x_kind c with
      | KSequence => after prev [CUnknown; CDeny] (CMatch, true) pass
      | _ => after prev [CMatch; CConsume; CContinue] pass no
      end
  | EMapping =>                                    (* expected.go 178-204 *)
      match x_kind c with
      | KMapping => after prev [CUnknown; CDeny] (CMatch, true) pass
      | _ => after prev [CMatch; CConsume; CContinue] pass no
      end
  | EAny | ERaw => after prev [CMatch; CConsume; CContinue] pass (CMatch, false)    (* 212-242 *)
  | ESkip => after prev [CMatch; CConsume; CContinue] pass (CConsume, false)        (* 252-263 *)
  end.

Definition g_process (o : oracle) (g : graph) (e : expecter) (n : gref) (prev : concl) : concl * bool :=
  match g_at g n with Some c => g_process_cell o e c prev | None => no end.

(** ** reader.go 375-393 with iterator.go 25-30 *)
Definition g_visit (g : graph) (n : gref) : visit gref :=
  match g_at g n with
  | None => VPanic
  | Some c =>
      match x_kind c with
      | KZero => VNothing
      | KDocument => match x_content c with m :: _ => VInto m | [] => VPanic end
      | KSequence | KMapping => VComplex (x_content c) (length (x_content c)) false
      | KScalar => VTexter (x_value c) None
      | KAlias => VAlias (inl (x_alias c))
      end
  end.

(** ** any.go 31-48, 72-108: how the value builder sees a node *)
Fixpoint g_pairs (l : list gref) : list (aentry gref) :=
  match l with
  | [] => []
  | [k] => [APair k None]
  | k :: v :: l' => APair k (Some v) :: g_pairs l'
  end.
Definition g_view (g : graph) (n : gref) : aview gref :=
  match n with
  | None => AVSkip
  | Some _ =>
      match g_at g n with
      | None => AVPanic
      | Some c =>
          match x_kind c with
          | KZero => AVSkip
          | KDocument => match x_content c with m :: _ => AVInto m | [] => AVPanic end
          | KSequence => AVSeq (x_content c)
          | KMapping => AVMap (g_pairs (x_content c))
          | KScalar => AVScalar (x_value c) (g_is_null c)
          | KAlias => AVAlias (inl (x_alias c))
          end
      end
  end.
Definition g_access : aaccess gref graph := mkAccess g_view (fun _ g => g) (fun _ g => g).

(** ** raw.go *)
Definition x_set_content (i : nat) (x : gref) (c : gxcell) : gxcell :=
  mkX (x_kind c) (x_short c) (x_value c) (x_anchor c)
      (match skipn i (x_content c) with [] => x_content c | _ :: r => firstn i (x_content c) ++ x :: r end)
      (x_alias c).
Definition x_set_anchor (a : text) (c : gxcell) : gxcell :=
  mkX (x_kind c) (x_short c) (x_value c) a (x_content c) (x_alias c).
Definition g_update (g : graph) (i : nat) (f : gxcell -> gxcell) : graph :=
  match skipn i g with [] => g | c :: r => firstn i g ++ f c :: r end.

(* raw.go 33-37 *)
Record deref_info := mkDeref { d_parent : nat; d_alias : gref; d_idx : nat }.
(* raw.go 20-25 with the graph it works on *)
Record rawt := mkRawT { rt_graph : graph; rt_met : list text; rt_derefs : list deref_info }.

Definition kind_at (g : graph) (n : gref) : option gkind :=
  match g_at g n with Some c => Some (x_kind c) | None => None end.

(* raw.go 49-71; a graph may contain itself, so the recursion takes fuel *)
Fixpoint rt_visit (fuel : nat) (n : gref) (t : rawt) {struct fuel} : outcome rawt :=
  match fuel with
  | O => NoFuel
  | S f =>
      match n, g_at (rt_graph t) n with
      | Some i, Some c =>
          let t := match x_anchor c with
                   | [] => t
                   | a => mkRawT (rt_graph t) (a :: rt_met t) (rt_derefs t)
                   end in
          match x_kind c with
          | KAlias => rt_visit f (x_alias c) t
          | KDocument | KMapping | KSequence =>
              (* the slice is fixed when the loop starts, its elements are read one by one *)
              (fix loop (left : nat) (j : nat) (t : rawt) : outcome rawt :=
                 match left with
                 | O => Done t
                 | S left' =>
                     match g_at (rt_graph t) (Some i) with
                     | None => Panics
                     | Some c' =>
                         let child := nth j (x_content c') None in
                         match g_at (rt_graph t) child with
                         | None => Panics
                         | Some cc =>
                             let t :=
                               match x_kind cc with
                               | KAlias =>
                                   if existsb (text_eqb (x_value cc)) (rt_met t) then t
                                   else mkRawT (g_update (rt_graph t) i (x_set_content j (x_alias cc))) (rt_met t)
                                               (rt_derefs t ++ [mkDeref i child j])
                               | _ => t
                               end in
                             obind (rt_visit f child t) (loop left' (S j))
                         end
                     end
                 end) (length (x_content c)) 0 t
          | _ => Done t
          end
      | _, _ => Panics
      end
  end.

(* raw.go 39-47: the root to serialise and the transformer; n.Anchor is cleared first *)
Definition rt_transform (fuel : nat) (g : graph) (n : nat) : outcome (gref * text * rawt) :=
  match nth_error g n with
  | None => Panics
  | Some c =>
      obind (rt_visit fuel (Some n) (mkRawT (g_update g n (x_set_anchor [])) [] [])) (fun t =>
      Done (match x_kind c with KAlias => x_alias c | _ => Some n end, x_anchor c, t))
  end.

(* raw.go 73-78 *)
Definition rt_restore (n : nat) (anchor : text) (t : rawt) : graph :=
  fold_left (fun g d => g_update g (d_parent d) (x_set_content (d_idx d) (d_alias d)))
            (rt_derefs t) (g_update (rt_graph t) n (x_set_anchor anchor)).

Section Engine.
  (** yaml.Marshal of a node of a graph: an oracle that does not change the graph *)
  Context (marshal : graph -> gref -> text + list N).

  (* reader.go 312-333: Raw *)
  Definition g_raw (fuel : nat) (g : graph) (n : gref) : outcome ((text + list N) * graph) :=
    match n with
    | None => Panics
    | Some i =>
        obind (rt_transform fuel g i) (fun x =>
        let '(root, anchor, t) := x in
        Done (marshal (rt_graph t) root, rt_restore i anchor t))
    end.

  Definition is_nil_ref (n : gref) : bool := match n with None => true | Some _ => false end.

  Definition g_engine (o : oracle) : engine gref graph :=
    mkEngine g_visit (fun g e n => g_process o g e n) is_nil_ref (fun n => negb (is_nil_ref n))
      (fun _ g => g) (fun _ g => g) true (extract_any g_access o) g_raw.

  (* reader.go 117-136: a document node is replaced by its content *)
  Definition g_reader (multi : bool) (g : graph) (tree : nat) : outcome (rstate gref graph) :=
    match nth_error g tree with
    | None => Panics
    | Some c =>
        match x_kind c with
        | KDocument => match x_content c with n :: _ => Done (r_new g multi n) | [] => Panics end
        | _ => Done (r_new g multi (Some tree))
        end
    end.
End Engine.
