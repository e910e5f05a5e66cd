(** Property theorems C09, C10, C40. *)
From Verif Require Import Base Token Balance BalanceSpec BalanceProofs.

(** C09: 'balanced' is reported exactly for the Dyck language, ... *)
Theorem C09_balanced_iff_dyck :
  forall ts, bc_is_balanced (bc_adds (bc_new flow_pairs) ts) = true <-> balanced ts.
Proof. exact is_balanced_iff. Qed.
Print Assumptions C09_balanced_iff_dyck.

(** ... a token is refused exactly when the sequence up to it cannot be completed any more, ... *)
Theorem C09_add_accepts_iff_completable :
  forall ts x, fst (bc_add (bc_adds (bc_new flow_pairs) ts) x) = true <-> completable (ts ++ [x]).
Proof. exact add_result_iff. Qed.
Print Assumptions C09_add_accepts_iff_completable.

(** ... and the innermost open bracket is reported. *)
Theorem C09_peek_is_innermost :
  forall ts o, completable ts ->
    (bc_peek (bc_adds (bc_new flow_pairs) ts) = Some o <-> innermost_open ts o).
Proof. exact peek_iff. Qed.
Print Assumptions C09_peek_is_innermost.

(** With a pair whose opener and closer are the same token, such as a quote, occurrences open and
    close in turn. *)
Theorem C09_same_symbol_pair :
  forall x ts, bc_is_balanced (bc_adds (bc_new [(x, x)]) ts) = true <->
               Nat.even (length (filter (ttype_eqb x) ts)) = true.
Proof. exact same_symbol_iff. Qed.
Print Assumptions C09_same_symbol_pair.

Example C09_case :
  let good := [TSequenceStart; TString; TMappingStart; TMappingEnd; TCollectEntry;
               TSequenceStart; TSequenceEnd; TSequenceEnd] in
  bc_is_balanced (bc_adds (bc_new flow_pairs) good) = true /\ balanced good /\
  bc_is_balanced (bc_adds (bc_new flow_pairs) [TSequenceStart; TMappingStart; TSequenceEnd]) = false /\
  bc_peek (bc_adds (bc_new flow_pairs) [TSequenceStart; TMappingStart; TString]) = Some TMappingStart.
Proof. repeat split; try reflexivity. apply is_balanced_iff. reflexivity. Qed.

(** C10, full statement: restoring a saved state makes all further answers those that the saved
    checker would have given.  False: the saved state is only the size of the stack. *)
Theorem C10_restore_refuted :
  exists ts0 ts1 more,
    let b := bc_adds (bc_new flow_pairs) ts0 in
    bc_observe (bc_set_memento (bc_adds b ts1) (bc_memento b)) more <> bc_observe b more.
Proof.
  exists [TSequenceStart], [TSequenceEnd; TMappingStart], [TSequenceEnd].
  vm_compute. congruence.
Qed.
Print Assumptions C10_restore_refuted.

(** C10, proved part: it holds when the tokens read since the save first keep all brackets open
    at the save, and from then on open no bracket (this is what reading ahead within a bracketed
    part does).  Missing: histories that close a saved bracket and then open another one. *)
Theorem C10_restore_partial :
  forall ts0 ts1 ts2,
    completable ts1 -> forallb (fun x => negb (is_opener x)) ts2 = true ->
    let b := bc_adds (bc_new flow_pairs) ts0 in
    forall more,
      bc_observe (bc_set_memento (bc_adds b (ts1 ++ ts2)) (bc_memento b)) more = bc_observe b more.
Proof. exact restore_same. Qed.
Print Assumptions C10_restore_partial.

Example C10_partial_case :
  let b := bc_adds (bc_new flow_pairs) [TSequenceStart; TMappingStart] in
  let later := [TSequenceStart; TString; TSequenceEnd; TMappingStart] ++ [TMappingEnd; TMappingEnd; TSequenceEnd] in
  completable [TSequenceStart; TString; TSequenceEnd; TMappingStart] /\
  bc_stack (bc_adds b later) = [] /\
  bc_stack (bc_set_memento (bc_adds b later) (bc_memento b)) = [TSequenceStart; TMappingStart].
Proof.
  split; [|split; reflexivity].
  exists [TMappingEnd]. apply is_balanced_iff. reflexivity.
Qed.

(** C40: as long as no dead end has been reported yet, the next failure at a position is
    reported as a dead end exactly when that position failed 64 times before (the counters have
    not wrapped). *)
Theorem C40_dead_end_exact :
  forall ps p,
    ~ In true (df_marks df_new ps) ->
    (last (df_marks df_new (ps ++ [p])) false = true <-> occurrences p ps >= 64).
Proof. exact df_exact. Qed.
Print Assumptions C40_dead_end_exact.

Example C40_case :
  let p := mkPos 3 7 in
  (~ In true (df_marks df_new (repeat p 64))) /\
  last (df_marks df_new (repeat p 64 ++ [p])) false = true /\
  last (df_marks df_new (repeat p 64 ++ [mkPos 3 8])) false = false.
Proof.
  cbn zeta. split; [|split; reflexivity].
  vm_compute. intuition congruence.
Qed.

(** Were the report ignored, the 8-bit counter would wrap and the report be withdrawn. *)
Theorem C40_unstopped_client_refuted :
  exists ps p, occurrences p ps >= 64 /\ last (df_marks df_new (ps ++ [p])) false = false.
Proof.
  exists (repeat (mkPos 1 1) 127), (mkPos 1 1). split; [vm_compute; lia | reflexivity].
Qed.
Print Assumptions C40_unstopped_client_refuted.
