(** Specification of serialization and encoding over time: which states a writer can be in, and
    what a client of an encoder may expect from its history of requests. *)
From Verif Require Import Base Ast Writer Encoder.
Local Open Scope nat_scope.

(** ** writers *)
Section Histories.
  Context {K D : Type} (kp : option (keeper K)) (dst_write : D -> text -> option N * D).

  (** One use of a writer.  A write that is aborted by a panic (or interrupted) leaves an arbitrary
      text in the current buffer and arbitrary other fields. *)
  Inductive used : writer -> writer -> Prop :=
  | used_string fuel w n r w' : w_write_string kp fuel w n = Done (r, w') -> used w w'
  | used_bytes fuel w n r w' : w_write_bytes kp fuel w n = Done (r, w') -> used w w'
  | used_to fuel w n d r d' w' : w_write_to kp dst_write fuel w n d = Done (r, d', w') -> used w w'
  | used_aborted w s st :
      used w (mkWriter (firstn (wr_cur w) (wr_cells w) ++ s :: skipn (S (wr_cur w)) (wr_cells w))
                       (wr_cur w) st).

  Inductive used_many : writer -> writer -> Prop :=
  | um_nil w : used_many w w
  | um_step w1 w2 w3 : used w1 w2 -> used_many w2 w3 -> used_many w1 w3.

  (** a writer after any history *)
  Definition some_history (w : writer) : Prop := exists k, used_many (new_writer k) w.
End Histories.

(** Two outcomes agree: the same kind, and related results. *)
Definition outcomes_agree {A B} (R : A -> B -> Prop) (x : outcome A) (y : outcome B) : Prop :=
  match x, y with
  | Done a, Done b => R a b
  | Panics, Panics => True
  | NoFuel, NoFuel => True
  | _, _ => False
  end.

(** ** encoders: the answer to an encoding request depends only on the insertions since the previous
    one *)
Section EncoderSpec.
  Context {Op T BE D Out OutTo : Type}.
  Context (build : list Op -> option BE * T) (text_of : T -> Out) (deliver : T -> D -> OutTo * D).

  Definition expected_text (ops : list Op) : answer BE D Out OutTo :=
    match build ops with (Some e, _) => AErr e | (None, t) => AText (text_of t) end.
  Definition expected_to (ops : list Op) (d : D) : answer BE D Out OutTo :=
    match build ops with
    | (Some e, _) => AErrTo e d
    | (None, t) => ATo (fst (deliver t d)) (snd (deliver t d))
    end.

  Fixpoint expected (pending : list Op) (rs : list (request Op D)) : list (answer BE D Out OutTo) :=
    match rs with
    | [] => []
    | RInsert o :: rs' => expected (pending ++ [o]) rs'
    | RString :: rs' | RBytes :: rs' => expected_text pending :: expected [] rs'
    | RTo d :: rs' => expected_to pending d :: expected [] rs'
    end.
End EncoderSpec.

(** ** the yayamls engine: what a new writer gives for a tree, and its delivery to a destination *)
Definition serialized (t : node) : wout := fst (yw_string (new_writer tt) t).
Definition delivered {D} (dst_write : D -> text -> option N * D) (t : node) (d : D) : wto_out * D :=
  match serialized t with
  | OutText [] => (ToOk, d)
  | OutText s => match dst_write d s with (None, d') => (ToOk, d') | (Some e, d') => (ToDst e, d') end
  | OutErr es => (ToErr es, d)
  | OutPanic => (ToPanic, d)
  end.
