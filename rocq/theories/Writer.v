(** Model of engines/yayamls/encode/writer.go (ASTWriter) and of the encoder wrapper of encode.go.

    Bytes are runes: the buffer holds the text as a list of runes. *)
From Coq Require Import String.
From Verif Require Import Base YamlChar Ast.
Local Open Scope nat_scope.

(** How a visit can end: with a value, with a nil dereference, or (only when the anchors keeper
    hands out trees that contain unknown aliases for ever) not at all within the fuel. *)
Inductive outcome (A : Type) := Done (a : A) | Panics | NoFuel.
Arguments Done {A}. Arguments Panics {A}. Arguments NoFuel {A}.
Definition obind {A B} (x : outcome A) (f : A -> outcome B) : outcome B :=
  match x with Done a => f a | Panics => Panics | NoFuel => NoFuel end.

(* writer.go 55-65; an arbitrary implementation with its own state *)
Record keeper (K : Type) := mkKeeper {
  k_store : text -> K -> K;
  k_bind : node -> K -> K;
  k_deref : text -> K -> (node + N) * K    (* node, or an error *)
}.
Arguments mkKeeper {K}. Arguments k_store {K}. Arguments k_bind {K}. Arguments k_deref {K}.

Section Writer.
  Context {K : Type} (kp : option (keeper K)).   (* writer.go 67-80 *)

  (** writer.go 24-36 without the buffer's identity: what a write works on.  Indentation is never
      decreased below its value at the matching increase, so it is a natural number.  [ws_keeper]
      is the state of the keeper, which outlives the writes. *)
  Record wstate := mkWS {
    ws_buf : text;
    ws_errors : list N;
    ws_indent : nat;
    ws_complex : text;
    ws_simple : text;
    ws_met : list text;
    ws_keeper : K
  }.

  Definition put (s : text) (w : wstate) : wstate :=
    mkWS (ws_buf w ++ s) (ws_errors w) (ws_indent w) (ws_complex w) (ws_simple w) (ws_met w) (ws_keeper w).
  (* writer.go 121-123 *)
  Definition append_error (e : N) (w : wstate) : wstate :=
    mkWS (ws_buf w) (ws_errors w ++ [e]) (ws_indent w) (ws_complex w) (ws_simple w) (ws_met w) (ws_keeper w).
  Definition with_indent (n : nat) (w : wstate) : wstate :=
    mkWS (ws_buf w) (ws_errors w) n (ws_complex w) (ws_simple w) (ws_met w) (ws_keeper w).
  (* writer.go 277-283 *)
  Definition prepare (complex simple : text) (w : wstate) : wstate :=
    mkWS (ws_buf w) (ws_errors w) (ws_indent w) complex simple (ws_met w) (ws_keeper w).
  Definition with_keeper (k : K) (w : wstate) : wstate :=
    mkWS (ws_buf w) (ws_errors w) (ws_indent w) (ws_complex w) (ws_simple w) (ws_met w) k.
  Definition meet (a : text) (w : wstate) : wstate :=
    mkWS (ws_buf w) (ws_errors w) (ws_indent w) (ws_complex w) (ws_simple w) (a :: ws_met w) (ws_keeper w).

  (* writer.go 298-304, with defaultIndendationDelta = 2 (writer.go 16) *)
  Definition increase (w : wstate) : wstate := with_indent (ws_indent w + 2) w.
  Definition decrease (w : wstate) : wstate := with_indent (ws_indent w - 2) w.

  (* writer.go 306-311 *)
  Definition write_indentation (w : wstate) : wstate := put (repeat 32%N (ws_indent w)) w.
  (* writer.go 313-316 *)
  Definition has_line_break (w : wstate) : bool :=
    match last_opt (ws_buf w) with Some c => N.eqb c 10 | None => false end.
  (* writer.go 318-322 *)
  Definition maybe_indentation (w : wstate) : wstate :=
    if has_line_break w then write_indentation w else w.
  (* writer.go 324-328 *)
  Definition maybe_line_break (w : wstate) : wstate :=
    if has_line_break w then w else put [10%N] w.

  (* writer.go 285-296 *)
  Definition write_prepared (n : node) (w : wstate) : wstate :=
    match n with
    | NSequence _ | NMapping _ => prepare [] [] (put (ws_complex w) w)
    | NContent _ _ => w
    | _ => prepare [] [] (put (ws_simple w) w)
    end.

  (** strings.Split(txt, "\n") *)
  Fixpoint split_lines (s : text) : list text :=
    match s with
    | [] => [[]]
    | c :: s' =>
        if N.eqb c 10 then [] :: split_lines s'
        else match split_lines s' with l :: ls => (c :: l) :: ls | [] => [[c]] end
    end.

  (* writer.go 330-345 *)
  Definition write_literal (txt : text) (w : wstate) : wstate :=
    let lines := split_lines txt in
    let chomp := match last lines [] with [] => 43%N | _ => 45%N end in
    fold_left (fun w l =>
                 let w := put [10%N] w in
                 match l with [] => w | _ => put l (write_indentation w) end)
              lines (put [124%N; chomp] w).

  (* writer.go 347-365; the conversions never fail (transformations.go 43-45, 82-93) *)
  Definition write_single (txt : text) (w : wstate) : wstate :=
    put ([39%N] ++ to_single_quoted txt ++ [39%N]) w.
  Definition write_double (txt : text) (w : wstate) : wstate :=
    put ([34%N] ++ to_double_quoted txt ++ [34%N]) w.

  (* writer.go 376-378 *)
  Definition w_multiline (s : text) : bool := rune_in 10%N s.

  (* writer.go 380-389; a nil content dereferences nil *)
  Fixpoint is_complex (n : node) : outcome bool :=
    match n with
    | NSequence _ | NMapping _ => Done true
    | NContent _ c => is_complex c
    | NNil => Panics
    | _ => Done false
    end.

  (* writer.go 175-195, after the prepared data *)
  Definition write_text (txt : text) (q : quoting) (w : wstate) : wstate :=
    match q with
    | AbsentQuoting => if w_multiline txt then write_literal txt w else put txt w
    | SingleQuoting => write_single txt w
    | DoubleQuoting => write_double txt w
    | UnknownQuoting => if w_multiline txt then write_double txt w else put txt w
    end.

  (** One visit.  [deref] is what visiting a tree obtained from the keeper does. *)
  Section Visit.
    Variable deref : node -> wstate -> outcome wstate.

    (* writer.go 133-275; node.go: Accept of a BasicNode, BlockHeaderNode or IndentNode does
       nothing, Accept on nil panics *)
    Fixpoint visit_with (n : node) (w : wstate) {struct n} : outcome wstate :=
      let all (each : wstate -> (wstate -> outcome wstate) -> outcome wstate) :=
        fix all (l : list node) (w : wstate) : outcome wstate :=
          match l with
          | [] => Done w
          | x :: l' => obind (each w (visit_with x)) (all l')
          end in
      match n with
      | NNil => Panics
      | NBasic _ | NBlockHeader _ _ | NIndent _ => Done w
      | NStream docs =>                                                   (* 133-139 *)
          all (fun w accept =>
                 obind (accept (put (t' "---" ++ [10%N]) w)) (fun w => Done (put (t' "..." ++ [10%N]) w)))
              docs w
      | NTag t => Done (put (t' "!!" ++ t) w)                              (* 141-144 *)
      | NAnchor a =>                                                       (* 146-155 *)
          let w := put (t' "&" ++ a) w in
          match kp with
          | None => Done w
          | Some k => Done (with_keeper (k_store k a (ws_keeper w)) (meet a w))
          end
      | NAlias a =>                                                        (* 157-173 *)
          let direct := Done (put (t' "*" ++ a) (write_prepared n w)) in
          match kp with
          | None => direct
          | Some k =>
              if existsb (text_eqb a) (ws_met w) then direct
              else match k_deref k a (ws_keeper w) with
                   | (inr e, ks) => Done (append_error e (with_keeper ks w))
                   | (inl m, ks) =>
                       if valid_node m then deref m (with_keeper ks w) else Done (with_keeper ks w)
                   end
          end
      | NText t q => Done (write_text t q (write_prepared n w))            (* 175-195 *)
      | NSequence es =>                                                    (* 197-209 *)
          all (fun w accept =>
                 let w := increase (put [45%N] (maybe_indentation w)) in
                 obind (accept (prepare [32%N] [32%N] w)) (fun w => Done (maybe_line_break (decrease w))))
              es (write_prepared n w)
      | NMapping es =>                                                     (* 211-218 *)
          all (fun w accept =>
                 obind (accept (maybe_indentation w)) (fun w => Done (maybe_line_break w)))
              es (write_prepared n w)
      | NEntry k v =>                                                      (* 220-242 *)
          obind (is_complex k) (fun complex =>
          obind (visit_with k (if complex then increase (put (t' "? ") w) else w)) (fun w =>
          let w := if complex then decrease w else w in
          let w := prepare [10%N] [32%N] (put (t' ":") w) in
          obind (visit_with v (increase w)) (fun w => Done (decrease w))))
      | NNull => Done (put (t' "null") (write_prepared n w))               (* 244-247 *)
      | NProperties tag anchor =>                                          (* 249-261 *)
          obind (if valid_node tag then visit_with tag w else Done w) (fun w =>
          if valid_node anchor then
            visit_with anchor (if valid_node tag then put [32%N] w else w)
          else Done w)
      | NContent props content =>                                          (* 263-275 *)
          let w := write_prepared n w in
          obind (if valid_node props then
                   obind (visit_with props (put [32%N] w)) (fun w =>
                   match kp with
                   | None => Done w
                   | Some k => Done (with_keeper (k_bind k n (ws_keeper w)) w)
                   end)
                 else Done w)
                (visit_with content)
      end.
  End Visit.

  (** the fuel bounds the nesting of dereferences *)
  Fixpoint visit (fuel : nat) : node -> wstate -> outcome wstate :=
    match fuel with
    | O => visit_with (fun _ _ => NoFuel)
    | S f => visit_with (visit f)
    end.

  (** ** the writer object.  The buffers created so far are cells; [wr_cur] is the current one.
      A byte slice obtained from Bytes() is the number of its cell. *)
  Record writer := mkWriter { wr_cells : list text; wr_cur : nat; wr_state : wstate }.
  (* [ws_buf (wr_state w)] is not used: the buffer is the current cell *)

  (* writer.go 38-52 *)
  Definition new_writer (k : K) : writer := mkWriter [[]] 0 (mkWS [] [] 0 [] [] [] k).

  Definition cell_set (cells : list text) (i : nat) (s : text) : list text :=
    firstn i cells ++ s :: skipn (S i) cells.

  (* writer.go 367-374 *)
  Definition w_reset (w : writer) : wstate := mkWS [] [] 0 [] [] [] (ws_keeper (wr_state w)).

  (* writer.go 111-119 *)
  Definition w_write (fuel : nat) (w : writer) (n : node) : outcome (list N * writer) :=
    obind (visit fuel n (w_reset w)) (fun s =>
    Done (ws_errors s, mkWriter (cell_set (wr_cells w) (wr_cur w) (ws_buf s)) (wr_cur w) s)).

  (** A destination (io.Writer): taking a non-empty chunk changes it and may fail. *)
  Context {D : Type} (dst_write : D -> text -> option N * D).

  (** Results: the joined errors of the tree, an error of the destination, or success. *)
  Inductive written (A : Type) := WOk (a : A) | WErr (es : list N) | WDst (e : N).
  Arguments WOk {A}. Arguments WErr {A}. Arguments WDst {A}.

  (* writer.go 82-92.  io.Copy uses Buffer.WriteTo: nothing is written for an empty buffer,
     otherwise one Write with all of it; the buffer is emptied by it and by Reset. *)
  Definition w_write_to (fuel : nat) (w : writer) (n : node) (d : D) : outcome (written D * D * writer) :=
    obind (w_write fuel w n) (fun r =>
    let '(es, w) := r in
    match es with
    | _ :: _ => Done (WErr es, d, w)
    | [] =>
        let data := nth (wr_cur w) (wr_cells w) [] in
        let emptied := mkWriter (cell_set (wr_cells w) (wr_cur w) []) (wr_cur w) (wr_state w) in
        match data with
        | [] => Done (WOk d, d, emptied)
        | _ => match dst_write d data with
               | (None, d') => Done (WOk d', d', emptied)
               | (Some e, d') => Done (WDst e, d', emptied)
               end
        end
    end).

  (* writer.go 94-100; strings.Builder takes everything *)
  Definition w_write_string (fuel : nat) (w : writer) (n : node) : outcome (written text * writer) :=
    obind (w_write fuel w n) (fun r =>
    let '(es, w) := r in
    match es with
    | _ :: _ => Done (WErr es, w)
    | [] => Done (WOk (nth (wr_cur w) (wr_cells w) []),
                  mkWriter (cell_set (wr_cells w) (wr_cur w) []) (wr_cur w) (wr_state w))
    end).

  (* writer.go 102-109: the slice of the current buffer is returned and a new buffer taken *)
  Definition w_write_bytes (fuel : nat) (w : writer) (n : node) : outcome (written nat * writer) :=
    obind (w_write fuel w n) (fun r =>
    let '(es, w) := r in
    match es with
    | _ :: _ => Done (WErr es, w)
    | [] => Done (WOk (wr_cur w), mkWriter (wr_cells w ++ [[]]) (length (wr_cells w)) (wr_state w))
    end).

  (** the bytes of a slice handed out earlier *)
  Definition slice (w : writer) (i : nat) : text := nth i (wr_cells w) [].
End Writer.
Arguments WOk {A}. Arguments WErr {A}. Arguments WDst {A}.
