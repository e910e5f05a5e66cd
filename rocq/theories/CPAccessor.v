(** Model of engines/yayamls/pkg/cpaccessor/accessor.go (whole file). *)
From Verif Require Import Base.

Section Accessor.
  (** [S] is the state of the underlying [ResourceStream[T]] (accessor.go 5-7), [stream_next]
      its [Next] method: any stateful producer. *)
  Variables (S T : Type).
  Variable stream_next : S -> T * S.
  (** Go's zero value of [T] (initial content of field [saved]). *)
  Variable zero : T.

  (** accessor.go 10-16, struct CheckpointingAccessor.  [bufIndicator] and the entries of
      [checkpointsStack] are Go ints where -1 ([withoutBuffer]) is represented by [None].
      The checkpoints stack is kept with its top first. *)
  Record accessor := mkAcc {
    acc_stream : S;
    acc_buf : list T;
    acc_saved : T;
    acc_ind : option nat;
    acc_cps : list (option nat)
  }.

  (** accessor.go 25-43, NewCheckpointingAccessor + SetStream. *)
  Definition acc_init (s : S) : accessor :=
    mkAcc s [] zero None [].

  (** Go int -> model: [n-1] where 0-1 is [withoutBuffer]. *)
  Definition pred_ind (n : nat) : option nat :=
    match n with O => None | Datatypes.S k => Some k end.

  (** accessor.go 46-71, Next.  [None] = index out of range panic. *)
  Definition acc_next (a : accessor) : option (T * accessor) :=
    match acc_ind a with
    | None =>
        let '(v, s') := stream_next (acc_stream a) in
        match acc_cps a with
        | [] => Some (v, mkAcc s' (acc_buf a) v None [])
        | cps => Some (v, mkAcc s' (acc_buf a ++ [v]) (acc_saved a) None cps)
        end
    | Some i =>
        match nth_error (acc_buf a) i with
        | None => None
        | Some v =>
            let i' := i + 1 in
            if Nat.eqb i' (length (acc_buf a)) then
              let buf' := match acc_cps a with [] => [] | _ => acc_buf a end in
              Some (v, mkAcc (acc_stream a) buf' (acc_saved a) None (acc_cps a))
            else
              Some (v, mkAcc (acc_stream a) (acc_buf a) (acc_saved a) (Some i') (acc_cps a))
        end
    end.

  (** accessor.go 74-81, SetCheckpoint. *)
  Definition acc_set_checkpoint (a : accessor) : accessor :=
    let c := match acc_ind a with
             | None => pred_ind (length (acc_buf a))
             | Some i => pred_ind i
             end in
    mkAcc (acc_stream a) (acc_buf a) (acc_saved a) (acc_ind a) (c :: acc_cps a).

  (** accessor.go 85-116, Rollback.  [None] = index out of range panic.  Lines 106-108
      (clearing the buffer) are dead code: the stack is not empty there; kept as in the code. *)
  Definition acc_rollback (a : accessor) : option (T * accessor) :=
    match acc_cps a with
    | [] => Some (acc_saved a, a)
    | c :: cps' =>
        match c with
        | None =>
            let ind := match acc_buf a with [] => None | _ => Some 0 end in
            Some (acc_saved a, mkAcc (acc_stream a) (acc_buf a) (acc_saved a) ind cps')
        | Some i =>
            match nth_error (acc_buf a) i with
            | None => None
            | Some v =>
                let i' := i + 1 in
                if Nat.eqb i' (length (acc_buf a)) then
                  let buf' := match acc_cps a with [] => [] | _ => acc_buf a end in
                  Some (v, mkAcc (acc_stream a) buf' (acc_saved a) None cps')
                else
                  Some (v, mkAcc (acc_stream a) (acc_buf a) (acc_saved a) (Some i') cps')
            end
        end
    end.

  (** accessor.go 120-134, Commit. *)
  Definition acc_commit (a : accessor) : accessor :=
    match acc_cps a with
    | [] => a
    | [_] =>
        match acc_ind a, last_opt (acc_buf a) with
        | None, Some v => mkAcc (acc_stream a) [] v None []
        | _, _ => mkAcc (acc_stream a) (acc_buf a) (acc_saved a) (acc_ind a) []
        end
    | _ :: cps' => mkAcc (acc_stream a) (acc_buf a) (acc_saved a) (acc_ind a) cps'
    end.

  (** Operations a client performs.  [OpTouch f] is a change of the underlying stream's own
      state made by the client between calls (the parser switches the tokenizer to raw mode,
      parser/token_source.go 10-22). *)
  Inductive acc_op :=
  | OpNext | OpSetCheckpoint | OpRollback | OpCommit
  | OpTouch (f : S -> S).

  (** What the client observes: the value of Next or of Rollback. *)
  Inductive acc_out :=
  | OutNext (v : T) | OutRollback (v : T) | OutNone | OutPanic.

  Definition acc_step (a : accessor) (o : acc_op) : acc_out * accessor :=
    match o with
    | OpNext => match acc_next a with
                | Some (v, a') => (OutNext v, a')
                | None => (OutPanic, a)
                end
    | OpSetCheckpoint => (OutNone, acc_set_checkpoint a)
    | OpRollback => match acc_rollback a with
                    | Some (v, a') => (OutRollback v, a')
                    | None => (OutPanic, a)
                    end
    | OpCommit => (OutNone, acc_commit a)
    | OpTouch f => (OutNone, mkAcc (f (acc_stream a)) (acc_buf a) (acc_saved a)
                                   (acc_ind a) (acc_cps a))
    end.

  Fixpoint acc_run (a : accessor) (os : list acc_op) : list acc_out :=
    match os with
    | [] => []
    | o :: os' => let '(out, a') := acc_step a o in out :: acc_run a' os'
    end.
End Accessor.

Arguments mkAcc {S T}.
Arguments acc_stream {S T}.
Arguments acc_buf {S T}.
Arguments acc_saved {S T}.
Arguments acc_ind {S T}.
Arguments acc_cps {S T}.
Arguments acc_init {S T}.
Arguments acc_next {S T}.
Arguments acc_set_checkpoint {S T}.
Arguments acc_rollback {S T}.
Arguments acc_commit {S T}.
Arguments acc_step {S T}.
Arguments acc_run {S T}.
Arguments OpNext {S}.
Arguments OpSetCheckpoint {S}.
Arguments OpRollback {S}.
Arguments OpCommit {S}.
Arguments OpTouch {S}.
Arguments OutNext {T}.
Arguments OutRollback {T}.
Arguments OutNone {T}.
Arguments OutPanic {T}.
