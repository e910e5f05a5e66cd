(** Specification of a checkpointing stream: a cursor over the sequence of elements the
    underlying stream has produced, and a stack of saved cursor positions. *)
From Verif Require Import Base CPAccessor.

Section Spec.
  Variables (S T : Type).
  Variable stream_next : S -> T * S.
  Variable zero : T.

  Record cursor := mkCur {
    cur_stream : S;            (* state of the producer *)
    cur_hist : list T;         (* everything it has produced so far, in order *)
    cur_pos : nat;             (* how many of these have been read at this point *)
    cur_stack : list nat       (* saved positions, latest first *)
  }.

  Definition cur_init (s : S) : cursor := mkCur s [] 0 [].

  (** The element read last: the one just before the cursor. *)
  Definition cur_last (c : cursor) : T :=
    match cur_pos c with
    | O => zero
    | Datatypes.S p => nth p (cur_hist c) zero
    end.

  Definition cur_next (c : cursor) : T * cursor :=
    match nth_error (cur_hist c) (cur_pos c) with
    | Some v => (v, mkCur (cur_stream c) (cur_hist c) (cur_pos c + 1) (cur_stack c))
    | None =>
        let '(v, s') := stream_next (cur_stream c) in
        (v, mkCur s' (cur_hist c ++ [v]) (cur_pos c + 1) (cur_stack c))
    end.

  Definition cur_step (c : cursor) (o : acc_op S) : acc_out T * cursor :=
    match o with
    | OpNext => let '(v, c') := cur_next c in (OutNext v, c')
    | OpSetCheckpoint =>
        (OutNone, mkCur (cur_stream c) (cur_hist c) (cur_pos c) (cur_pos c :: cur_stack c))
    | OpRollback =>
        match cur_stack c with
        | [] => (OutRollback (cur_last c), c)
        | p :: st =>
            let c' := mkCur (cur_stream c) (cur_hist c) p st in
            (OutRollback (cur_last c'), c')
        end
    | OpCommit =>
        (OutNone, mkCur (cur_stream c) (cur_hist c) (cur_pos c) (tl (cur_stack c)))
    | OpTouch f =>
        (OutNone, mkCur (f (cur_stream c)) (cur_hist c) (cur_pos c) (cur_stack c))
    end.

  Fixpoint cur_run (c : cursor) (os : list (acc_op S)) : list (acc_out T) :=
    match os with
    | [] => []
    | o :: os' => let '(out, c') := cur_step c o in out :: cur_run c' os'
    end.

  (** Hide the values returned by Rollback. *)
  Definition mask_rollback (o : acc_out T) : acc_out T :=
    match o with OutRollback _ => OutNone | _ => o end.

  (** A history in which a checkpoint is never set right after the replayed elements were
      read to their end outside of any checkpoint, and Rollback is called only with a
      matching checkpoint.  [dr] says that the last read happened outside of any checkpoint
      and returned the last one of the elements that had been produced before. *)
  Fixpoint tame (c : cursor) (dr : bool) (os : list (acc_op S)) : bool :=
    match os with
    | [] => true
    | o :: os' =>
        let c' := snd (cur_step c o) in
        match o with
        | OpNext =>
            match cur_stack c with
            | [] => tame c' (Nat.eqb (cur_pos c + 1) (length (cur_hist c))) os'
            | _ => tame c' dr os'
            end
        | OpSetCheckpoint => negb dr && tame c' dr os'
        | OpRollback => negb (Nat.eqb (length (cur_stack c)) 0) && tame c' dr os'
        | _ => tame c' dr os'
        end
    end.
End Spec.

Arguments mkCur {S T}.
Arguments cur_stream {S T}.
Arguments cur_hist {S T}.
Arguments cur_pos {S T}.
Arguments cur_stack {S T}.
Arguments cur_init {S T}.
Arguments cur_last {S T}.
Arguments cur_next {S T}.
Arguments cur_step {S T}.
Arguments cur_run {S T}.
Arguments mask_rollback {T}.
Arguments tame {S T}.

(** For a pure stream [f 0, f 1, ...]: the whole specification is a position and a stack of
    positions; a read at position [p] returns [f p]. *)
Definition is_touch {S} (o : acc_op S) : bool :=
  match o with OpTouch _ => true | _ => false end.

Definition read_value {T} (o : acc_out T) : option T :=
  match o with OutNext v => Some v | _ => None end.

Fixpoint pos_run {T} (f : nat -> T) (pos : nat) (stk : list nat) (os : list (acc_op nat))
  : list (option T) :=
  match os with
  | [] => []
  | o :: os' =>
      match o with
      | OpNext => Some (f pos) :: pos_run f (pos + 1) stk os'
      | OpSetCheckpoint => None :: pos_run f pos (pos :: stk) os'
      | OpRollback =>
          None :: match stk with
                  | [] => pos_run f pos [] os'
                  | p :: st => pos_run f p st os'
                  end
      | OpCommit => None :: pos_run f pos (tl stk) os'
      | OpTouch _ => None :: pos_run f pos stk os'
      end
  end.
