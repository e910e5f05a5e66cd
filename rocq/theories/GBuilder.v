(** Model of engines/goyaml/encode/builder.go (ASTBuilder over gopkg.in/yaml.v3 nodes).

    As in Builder.v, nodes reachable from the route are heap cells and all others are values. *)
From Coq Require Import String.
From Verif Require Import Base Schema Builder.
Local Open Scope nat_scope.

(** yaml.v3 node kinds; [KZero] is the zero value of Kind *)
Inductive gkind := KZero | KDocument | KSequence | KMapping | KScalar | KAlias.

(** yaml.v3 Node, as far as the builder touches it.  The Alias pointer, comments and positions are
    left out (only InsertRaw can bring them in, and the builder never looks at them). *)
Inductive gnode := G (kind : gkind) (style : N) (tag value anchor : text) (content : list gnode).

Definition g_kind (n : gnode) : gkind := match n with G k _ _ _ _ _ => k end.

(** yaml.DoubleQuotedStyle = 1 << 1 *)
Definition double_quoted_style : N := 2%N.

Inductive gerr :=
| GEndSeqInvalid | GEndSeqAt (k : gkind) | GEndMapInvalid | GEndMapAt (k : gkind)
| GInsertAt (k : gkind) | GForeign (n : N).

(** InsertRaw(data, err): an error, or the node yaml.Unmarshal produced (an oracle): the content of
    the document node, or a zero node for empty input (goyaml builder.go 139-159) *)
Inductive graw := GRawErr (e : N) | GRawTree (n : gnode).

Inductive gop :=
| GScalar (s : scalar) | GNull
| GStartSeq | GEndSeq | GStartMap | GEndMap
| GRaw (r : graw)
| GRawText (t : text) (err : option N).

Inductive gval := GNodeV (n : gnode) | GRef (i : nat).
Record gcell := mkCell {
  c_kind : gkind; c_style : N; c_tag : text; c_value : text; c_anchor : text;
  c_content : list gval
}.

Definition gcell_of_node (n : gnode) : gcell :=
  match n with G k s t v a c => mkCell k s t v a (map GNodeV c) end.

(* builder.go 15-22 *)
Record gbuilder := mkG {
  g_heap : list gcell;
  g_root : option nat;
  g_route : list nat;
  g_unquote : bool;
  g_fatal : option gerr
}.

(* builder.go 36-44 *)
Definition g_new (unquote : bool) : gbuilder := mkG [] None [] unquote None.

Definition g_with_fatal (b : gbuilder) (e : gerr) : gbuilder :=
  mkG (g_heap b) (g_root b) (g_route b) (g_unquote b) (Some e).

(* builder.go 217-222 *)
Definition g_current (b : gbuilder) : option (nat * gcell) :=
  match g_route b with
  | [] => None
  | i :: _ => match nth_error (g_heap b) i with Some c => Some (i, c) | None => None end
  end.

(* builder.go 228-233 *)
Definition g_pop (b : gbuilder) : gbuilder :=
  mkG (g_heap b) (g_root b) (tl (g_route b)) (g_unquote b) (g_fatal b).

Definition g_child (next : nat) (n : gnode) (push : bool) : gval * list gcell * list nat :=
  if push then (GRef next, [gcell_of_node n], [next]) else (GNodeV n, [], []).

Definition is_collection (k : gkind) : bool :=
  match k with KMapping | KSequence => true | _ => false end.

(* builder.go 192-215 *)
Definition g_insert (b : gbuilder) (n : gnode) (push : bool) : gbuilder :=
  match g_fatal b with
  | Some _ => b
  | None =>
      let h := g_heap b in
      let next := length h in
      match g_current b with
      | None => mkG (h ++ [gcell_of_node n]) (Some next) (next :: g_route b) (g_unquote b) None
      | Some (i, c) =>
          let '(v, cells, pushed) := g_child next n push in
          if is_collection (c_kind c) then
            mkG (upd h i (mkCell (c_kind c) (c_style c) (c_tag c) (c_value c) (c_anchor c)
                                 (c_content c ++ [v])) ++ cells)
                (g_root b) (pushed ++ g_route b) (g_unquote b) None
          else
            mkG (h ++ cells) (g_root b) (pushed ++ g_route b) (g_unquote b)
                (Some (GInsertAt (c_kind c)))
      end
  end.

(* builder.go 181-190 *)
Definition g_text (style : N) (v : text) : gnode := G KScalar style [] v [] [].

(* builder.go 62-68 *)
Definition g_string_style (unquote : bool) (s : text) : N :=
  if unquote && negb (is_multiline s) then 0%N else double_quoted_style.

(* builder.go 46-72 *)
Definition g_scalar_node (unquote : bool) (s : scalar) : gnode :=
  match s with
  | SInt z => g_text 0 (sc_from_integer z)
  | SUint n => g_text 0 (sc_from_unsigned n)
  | SBool x => g_text 0 (sc_from_boolean x)
  | SFloat t => g_text 0 t
  | SString t => g_text (g_string_style unquote t) t
  | STime t => g_text double_quoted_style t
  end.

(* builder.go 74-83 *)
Definition g_null_node : gnode := G KScalar 0 (t' "!!null") (t' "null") [] [].
Definition g_seq_node : gnode := G KSequence 0 [] [] [] [].   (* builder.go 85-92 *)
Definition g_map_node : gnode := G KMapping 0 [] [] [] [].    (* builder.go 112-119 *)

(* builder.go 94-110 *)
Definition g_end_sequence (b : gbuilder) : gbuilder :=
  match g_fatal b with
  | Some _ => b
  | None =>
      match g_current b with
      | None => g_with_fatal b GEndSeqInvalid
      | Some (_, c) =>
          match c_kind c with
          | KSequence => g_pop b
          | k => g_with_fatal b (GEndSeqAt k)
          end
      end
  end.

(* builder.go 121-137 *)
Definition g_end_mapping (b : gbuilder) : gbuilder :=
  match g_fatal b with
  | Some _ => b
  | None =>
      match g_current b with
      | None => g_with_fatal b GEndMapInvalid
      | Some (_, c) =>
          match c_kind c with
          | KMapping => g_pop b
          | k => g_with_fatal b (GEndMapAt k)
          end
      end
  end.

(* builder.go 139-159 *)
Definition g_insert_raw (b : gbuilder) (r : graw) : gbuilder :=
  match g_fatal b with
  | Some _ => b
  | None =>
      match r with
      | GRawErr e => g_with_fatal b (GForeign e)
      | GRawTree n => g_insert b n false
      end
  end.

(* builder.go 161-170 *)
Definition g_insert_raw_text (b : gbuilder) (t : text) (err : option N) : gbuilder :=
  match g_fatal b with
  | Some _ => b
  | None =>
      match err with
      | Some e => g_with_fatal b (GForeign e)
      | None => g_insert b (g_scalar_node (g_unquote b) (SString t)) false
      end
  end.

Definition gstep (b : gbuilder) (o : gop) : gbuilder :=
  match o with
  | GScalar s => g_insert b (g_scalar_node (g_unquote b) s) false
  | GNull => g_insert b g_null_node false
  | GStartSeq => g_insert b g_seq_node true
  | GEndSeq => g_end_sequence b
  | GStartMap => g_insert b g_map_node true
  | GEndMap => g_end_mapping b
  | GRaw r => g_insert_raw b r
  | GRawText t err => g_insert_raw_text b t err
  end.
Definition gsteps (b : gbuilder) (ops : list gop) : gbuilder := fold_left gstep ops b.

(** reading a tree back, as in Builder.v *)
Fixpoint g_read (fuel : nat) (h : list gcell) (v : gval) : gnode :=
  match v with
  | GNodeV n => n
  | GRef i =>
      match fuel with
      | O => G KZero 0 [] [] [] []
      | S f =>
          match nth_error h i with
          | None => G KZero 0 [] [] [] []
          | Some c => G (c_kind c) (c_style c) (c_tag c) (c_value c) (c_anchor c)
                        (map (g_read f h) (c_content c))
          end
      end
  end.

(** nil root: no node *)
Definition g_read_root (h : list gcell) (root : option nat) : option gnode :=
  match root with None => None | Some i => Some (g_read (S (length h)) h (GRef i)) end.

(* builder.go 172-179 *)
Definition g_result (b : gbuilder) : option gerr * option nat * gbuilder :=
  (g_fatal b, g_root b, mkG (g_heap b) None [] (g_unquote b) None).

Definition g_observe (b : gbuilder) : option gerr * option gnode :=
  (g_fatal b, g_read_root (g_heap b) (g_root b)).
