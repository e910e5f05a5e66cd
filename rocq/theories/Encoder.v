(** Model of the encoder wrapper (encode.go 102-190) over arbitrary builders and writers, of
    engines/goyaml/encode/writer.go, and the two engines as instances. *)
From Verif Require Import Base Ast Schema Builder GBuilder Writer.
Local Open Scope nat_scope.

Section Encoder.
  (** [Op]: calls of the Inserter interface; [T]: trees; [D]: destinations; [BE]: errors of the
      builder; [Out], [OutTo]: what the writer's methods return. *)
  Context {B Op T BE W D Out OutTo : Type}.
  Context (step : B -> Op -> B) (res : B -> option BE * T * B).
  Context (wstring wbytes : W -> T -> Out * W) (wto : W -> T -> D -> OutTo * D * W).

  Record encoder := mkEnc { e_builder : B; e_writer : W }.   (* encode.go 103-106 *)

  Inductive answer := AErr (e : BE) | AText (o : Out) | AErrTo (e : BE) (d : D) | ATo (o : OutTo) (d : D).

  (* encode.go 116-166 *)
  Definition enc_insert (e : encoder) (o : Op) : encoder := mkEnc (step (e_builder e) o) (e_writer e).

  (* encode.go 168-174 *)
  Definition encode_to_string (e : encoder) : answer * encoder :=
    let '(err, tree, b) := res (e_builder e) in
    match err with
    | Some x => (AErr x, mkEnc b (e_writer e))
    | None => let '(o, w) := wstring (e_writer e) tree in (AText o, mkEnc b w)
    end.

  (* encode.go 176-182 *)
  Definition encode_to_bytes (e : encoder) : answer * encoder :=
    let '(err, tree, b) := res (e_builder e) in
    match err with
    | Some x => (AErr x, mkEnc b (e_writer e))
    | None => let '(o, w) := wbytes (e_writer e) tree in (AText o, mkEnc b w)
    end.

  (* encode.go 184-190 *)
  Definition encode_to (e : encoder) (d : D) : answer * encoder :=
    let '(err, tree, b) := res (e_builder e) in
    match err with
    | Some x => (AErrTo x d, mkEnc b (e_writer e))
    | None => let '(o, d', w) := wto (e_writer e) tree d in (ATo o d', mkEnc b w)
    end.

  (** requests a client can make, and the answers along a history *)
  Inductive request := RInsert (o : Op) | RString | RBytes | RTo (d : D).
  Fixpoint enc_run (e : encoder) (rs : list request) : list answer :=
    match rs with
    | [] => []
    | RInsert o :: rs' => enc_run (enc_insert e o) rs'
    | RString :: rs' => let '(a, e') := encode_to_string e in a :: enc_run e' rs'
    | RBytes :: rs' => let '(a, e') := encode_to_bytes e in a :: enc_run e' rs'
    | RTo d :: rs' => let '(a, e') := encode_to e d in a :: enc_run e' rs'
    end.
End Encoder.
Arguments encoder : clear implicits.
Arguments answer : clear implicits.
Arguments request : clear implicits.

(** ** the yayamls engine *)
(** the tree is read when it is handed to the writer *)
Definition yb_result (b : builder) : option berr * node * builder :=
  (fst (observe b), snd (observe b), snd (result b)).

(** What writing gives.  After a nil dereference the writer is kept as it was: what the aborted
    write left in it does not matter, since every write starts with a reset (C20). *)
Inductive wout := OutText (s : text) | OutErr (es : list N) | OutPanic.
Definition yw_string (w : writer) (t : node) : wout * @writer unit :=
  match w_write_string None 0 w t with
  | Done (WOk s, w') => (OutText s, w')
  | Done (WErr es, w') => (OutErr es, w')
  | _ => (OutPanic, w)
  end.
(** the content of the returned slice *)
Definition yw_bytes (w : writer) (t : node) : wout * @writer unit :=
  match w_write_bytes None 0 w t with
  | Done (WOk i, w') => (OutText (slice w' i), w')
  | Done (WErr es, w') => (OutErr es, w')
  | _ => (OutPanic, w)
  end.
Inductive wto_out := ToOk | ToErr (es : list N) | ToDst (e : N) | ToPanic.
Definition yw_to {D} (dst_write : D -> text -> option N * D) (w : writer) (t : node) (d : D)
  : wto_out * D * @writer unit :=
  match w_write_to None dst_write 0 w t d with
  | Done (WOk _, d', w') => (ToOk, d', w')
  | Done (WErr es, d', w') => (ToErr es, d', w')
  | Done (WDst e, d', w') => (ToDst e, d', w')
  | _ => (ToPanic, d, w)
  end.

Definition yayamls_run {D} (dst_write : D -> text -> option N * D) (q : bool)
  (rs : list (request bop D)) : list (answer berr D wout wto_out) :=
  enc_run bstep yb_result yw_string yw_bytes (yw_to dst_write)
    (mkEnc (new_builder q) (new_writer tt)) rs.

(** ** the goyaml engine: the writer has no state (goyaml/encode/writer.go 14-34) and yaml.v3's
    encoder is an oracle giving the text or an error *)
Section Goyaml.
  Context (yaml_encode : option gnode -> text + N).
  Context {D : Type} (dst_write : D -> text -> option N * D).

  (* goyaml/encode/writer.go 16-18; the encoder writes the text as one chunk *)
  Definition gw_to (w : unit) (t : option gnode) (d : D) : (option N) * D * unit :=
    match yaml_encode t with
    | inr e => (Some e, d, w)
    | inl s => let '(e, d') := dst_write d s in (e, d', w)
    end.
  (* goyaml/encode/writer.go 20-26 and 28-34: writers into memory take everything *)
  Definition gw_string (w : unit) (t : option gnode) : (text + N) * unit := (yaml_encode t, w).
  Definition gw_bytes (w : unit) (t : option gnode) : (text + N) * unit := (yaml_encode t, w).

  Definition gb_result (b : gbuilder) : option gerr * option gnode * gbuilder :=
    (fst (g_observe b), snd (g_observe b), snd (g_result b)).

  Definition goyaml_run (q : bool) (rs : list (request gop D))
    : list (answer gerr D (text + N) (option N)) :=
    enc_run gstep gb_result gw_string gw_bytes gw_to (mkEnc (g_new q) tt) rs.
End Goyaml.
