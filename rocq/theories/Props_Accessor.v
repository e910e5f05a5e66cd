(** Property theorems C01 and C02. *)
From Verif Require Import Base CPAccessor CPAccessorSpec CPAccessorProofs.

(** C01: for a pure stream, every read returns the element at the current logical position. *)
Theorem C01_reads_return_current_position :
  forall (T : Type) (zero : T) (f : nat -> T) (os : list (acc_op nat)),
    forallb (fun o => negb (is_touch o)) os = true ->
    map read_value (acc_run (fun n => (f n, S n)) (acc_init zero 0) os) = pos_run f 0 [] os.
Proof. exact acc_pos_run. Qed.
Print Assumptions C01_reads_return_current_position.

(** C01, for arbitrary stateful producers that the client may also reconfigure between calls:
    all reads agree with the cursor over the produced elements. *)
Theorem C01_reads_follow_cursor :
  forall (S T : Type) (nx : S -> T * S) (zero : T) (s : S) (os : list (acc_op S)),
    map mask_rollback (acc_run nx (acc_init zero s) os) =
    map mask_rollback (cur_run nx zero (cur_init s) os).
Proof.
  exact (fun S T nx zero s os =>
           run_masked S T nx zero os 0 (cur_init s) (acc_init zero s) (rel_init S T zero s)).
Qed.
Print Assumptions C01_reads_follow_cursor.

(** C01: no history indexes the buffer out of range. *)
Theorem C01_no_panic :
  forall (S T : Type) (nx : S -> T * S) (zero : T) (os : list (acc_op S)) (s : S),
    ~ In OutPanic (acc_run nx (acc_init zero s) os).
Proof. exact run_no_panic. Qed.
Print Assumptions C01_no_panic.

Example C01_case :
  map read_value
      (acc_run (fun n => (n * 10, S n)) (acc_init 99 0)
         [OpNext; OpSetCheckpoint; OpNext; OpSetCheckpoint; OpNext; OpCommit; OpNext;
          OpRollback; OpNext; OpSetCheckpoint; OpNext; OpRollback; OpNext; OpNext; OpNext])
  = [Some 0; None; Some 10; None; Some 20; None; Some 30; None; Some 10; None; Some 20; None;
     Some 20; Some 30; Some 40].
Proof. reflexivity. Qed.

(** C02, full statement: for every history in which Rollback is only called with a matching
    checkpoint, the whole observable trace, including the values returned by Rollback, is the
    one of the cursor.  This is false. *)
Definition rollbacks_matched {S} (os : list (acc_op S)) : bool :=
  fst (fold_left (fun '(ok, n) o =>
    match o with
    | OpSetCheckpoint => (ok, n + 1)
    | OpRollback => (ok && negb (Nat.eqb n 0), n - 1)
    | OpCommit => (ok, n - 1)
    | _ => (ok, n)
    end) os (true, 0)).

Theorem C02_rollback_value_refuted :
  exists (os : list (acc_op nat)),
    rollbacks_matched os = true /\
    acc_run (fun n => (n, S n)) (acc_init 99 0) os <>
    cur_run (fun n => (n, S n)) 99 (cur_init 0) os.
Proof.
  exists [OpNext; OpSetCheckpoint; OpNext; OpRollback; OpNext;
          OpSetCheckpoint; OpNext; OpRollback].
  split; [reflexivity|]. vm_compute. congruence.
Qed.
Print Assumptions C02_rollback_value_refuted.

(** The witness, read out: elements 0,1,2; the second Rollback must return 1 (the element read
    last before its checkpoint) and returns 0. *)
Example C02_witness_reads :
  last (acc_run (fun n => (n, S n)) (acc_init 99 0)
    [OpNext; OpSetCheckpoint; OpNext; OpRollback; OpNext;
     OpSetCheckpoint; OpNext; OpRollback]) OutNone = OutRollback 0
  /\
  last (cur_run (fun n => (n, S n)) 99 (cur_init 0)
    [OpNext; OpSetCheckpoint; OpNext; OpRollback; OpNext;
     OpSetCheckpoint; OpNext; OpRollback]) OutNone = OutRollback 1.
Proof. split; reflexivity. Qed.

(** C02, proved part: the trace is exactly the cursor's for every history that does not set a
    checkpoint right after draining the replayed elements outside of any checkpoint. *)
Theorem C02_rollback_value_partial :
  forall (S T : Type) (nx : S -> T * S) (zero : T) (s : S) (os : list (acc_op S)),
    tame nx zero (cur_init s) false os = true ->
    acc_run nx (acc_init zero s) os = cur_run nx zero (cur_init s) os.
Proof.
  exact (fun S T nx zero s os H =>
           run_tame S T nx zero os 0 false (cur_init s) (acc_init zero s)
                    (rel_init S T zero s) eq_refl H).
Qed.
Print Assumptions C02_rollback_value_partial.

Example C02_partial_case :
  tame (fun n => (n, S n)) 99 (cur_init 0) false
    [OpNext; OpSetCheckpoint; OpNext; OpSetCheckpoint; OpNext; OpRollback; OpNext; OpRollback;
     OpSetCheckpoint; OpNext; OpNext; OpNext; OpRollback] = true.
Proof. reflexivity. Qed.
