(** Property theorems C27 and C28 (partly refuted): comparing trees. *)
From Coq Require Import String.
From Verif Require Import Base Ast Comparator ComparatorSpec ComparatorProofs.
Local Open Scope nat_scope.

(** C27: under every schedule the comparison can go on until it has returned, and when it has, both
    walking goroutines have ended. *)
Theorem C27_never_blocked :
  forall first second n s,
    no_nil_elements first -> no_nil_elements second -> csteps n (c_start first second) s ->
    (exists s', cstep s s') \/ (exists b, s = mkC (Returned b) Ended Ended).
Proof. exact comparison_progress. Qed.
Print Assumptions C27_never_blocked.

(** The number of steps is bounded, whatever the schedule. *)
Theorem C27_finite :
  forall first second, exists bound, forall n s, csteps n (c_start first second) s -> n <= bound.
Proof. exact comparison_bounded. Qed.
Print Assumptions C27_finite.

(** All schedules give the same answer. *)
Theorem C27_same_answer :
  forall first second n1 s1 b1 n2 s2 b2,
    no_nil_elements first -> no_nil_elements second ->
    csteps n1 (c_start first second) s1 -> c_main s1 = Returned b1 ->
    csteps n2 (c_start first second) s2 -> c_main s2 = Returned b2 -> b1 = b2.
Proof.
  intros first second n1 s1 b1 n2 s2 b2 H1 H2 G1 R1 G2 R2.
  destruct (comparison_answer _ _ _ _ _ H1 H2 G1 R1) as (_ & _ & A1).
  destruct (comparison_answer _ _ _ _ _ H1 H2 G2 R2) as (_ & _ & A2).
  destruct b1, b2; try reflexivity; [symmetry; apply A2, A1; reflexivity|apply A1, A2; reflexivity].
Qed.
Print Assumptions C27_same_answer.

(** a whole run that finds a difference *)
Example C27_case : exists n, csteps n (c_start NNull (NTag (t' "a"))) (mkC (Returned false) Ended Ended).
Proof.
  eexists.
  eapply cs_step; [apply c_recv1; econstructor; reflexivity|].
  eapply cs_step; [apply c_recv2; econstructor; reflexivity|]. cbn.
  eapply cs_step; [apply c_walk2; apply w_close|].
  eapply cs_step; [apply c_walk1; apply w_close|].
  eapply cs_step; [apply c_drained1; constructor|].
  eapply cs_step; [apply c_drained2; constructor|]. constructor.
Qed.

(** C28.  Full statement: the answer is true exactly for equal trees.  What holds: the answer is true
    exactly if the listings of kinds and texts agree; so it is true for trees that differ in quoting at
    most, and exactly for those among trees of one form. *)
Theorem C28_answer_partial :
  forall first second n s b,
    no_nil_elements first -> no_nil_elements second -> first <> NNil -> second <> NNil ->
    csteps n (c_start first second) s -> c_main s = Returned b ->
    (b = true <-> words first = words second).
Proof.
  intros first second n s b H1 H2 N1 N2 G R. destruct (comparison_answer _ _ _ _ _ H1 H2 G R) as (_ & _ & A).
  rewrite A. unfold agree. intuition.
Qed.
Print Assumptions C28_answer_partial.
Theorem C28_equal_trees_partial : forall a b, alike a b -> words a = words b.
Proof. exact alike_words. Qed.
Print Assumptions C28_equal_trees_partial.
Theorem C28_same_form_partial : forall a b, same_form a b -> words a = words b -> alike a b.
Proof. exact same_form_alike. Qed.
Print Assumptions C28_same_form_partial.
Example C28_case :
  alike (NSequence [NText (t' "a") AbsentQuoting; NNull]) (NSequence [NText (t' "a") DoubleQuoting; NNull])
  /\ words (NSequence [NText (t' "a") AbsentQuoting]) <> words (NSequence [NText (t' "b") AbsentQuoting]).
Proof. split; [repeat constructor|discriminate]. Qed.

(** [[[a], b]] and [[[a, b]]] are different but compare as equal, under every schedule. *)
Definition plain (s : text) : node := NText s AbsentQuoting.
Definition inner_one : node := NSequence [NSequence [plain (t' "a")]; plain (t' "b")].
Definition inner_two : node := NSequence [NSequence [plain (t' "a"); plain (t' "b")]].
Theorem C28_structure_refuted :
  inner_one <> inner_two /\
  forall n s b, csteps n (c_start inner_one inner_two) s -> c_main s = Returned b -> b = true.
Proof.
  split; [discriminate|]. intros n s b H R.
  assert (N1 : no_nil_elements inner_one) by (repeat (constructor; try discriminate)).
  assert (N2 : no_nil_elements inner_two) by (repeat (constructor; try discriminate)).
  apply (comparison_answer _ _ _ _ _ N1 N2 H R). right. repeat split; try discriminate.
Qed.
Print Assumptions C28_structure_refuted.
(** So are the text 5 and the number 5 (quoting is not compared). *)
Theorem C28_quoting_refuted :
  forall n s b, csteps n (c_start (NText (t' "5") DoubleQuoting) (NText (t' "5") AbsentQuoting)) s ->
  c_main s = Returned b -> b = true.
Proof.
  intros n s b H R.
  apply (comparison_answer (NText (t' "5") DoubleQuoting) (NText (t' "5") AbsentQuoting) n s b
    ltac:(constructor) ltac:(constructor) H R).
  right. repeat split; discriminate.
Qed.
Print Assumptions C28_quoting_refuted.
