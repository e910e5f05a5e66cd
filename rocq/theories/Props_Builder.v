(** Property theorems C15 - C19, for both engines' builders. *)
From Coq Require Import String.
From Verif Require Import Base Schema Ast Builder BuilderSpec BuilderProofs GBuilder GBuilderSpec GBuilderProofs.
Local Open Scope nat_scope.

(** C15: the calls describing a value build exactly that value. *)
Theorem C15_yayamls_builds_value :
  forall q v, single_docs v -> observe (bsteps (new_builder q) (calls v)) = (None, tree q v).
Proof. exact observe_build. Qed.
Print Assumptions C15_yayamls_builds_value.

Theorem C15_goyaml_builds_value :
  forall q v, g_observe (gsteps (g_new q) (gcalls v)) = (None, Some (gtree q v)).
Proof. exact g_observe_build. Qed.
Print Assumptions C15_goyaml_builds_value.

Example C15_case :
  let v := VaMap [(VaSeq [VaScalar (SInt (-5)); VaNull], VaMap []);
                  (VaScalar (SString (t' "k")), VaRaw (NText (t' "r") SingleQuoting))] in
  calls v = [OStartMap; OStartSeq; OScalar (SInt (-5)); ONull; OEndSeq; OStartMap; OEndMap;
             OScalar (SString (t' "k")); ORaw (RawTree (NText (t' "r") SingleQuoting)); OEndMap] /\
  snd (observe (bsteps (new_builder false) (calls v))) =
  NMapping [NEntry (NSequence [NText (t' "-5") AbsentQuoting; NNull]) (NMapping []);
            NEntry (NText (t' "k") DoubleQuoting) (NText (t' "r") SingleQuoting)].
Proof. split; reflexivity. Qed.
Example C15_goyaml_case :
  g_observe (gsteps (g_new true) [GStartSeq; GScalar (SString (t' "a")); GStartMap; GNull; GScalar (SBool true);
                                  GEndMap; GEndSeq]) =
  (None, Some (G KSequence 0 [] [] [] [G KScalar 0 [] (t' "a") [] [];
     G KMapping 0 [] [] [] [G KScalar 0 (t' "!!null") (t' "null") [] []; G KScalar 0 [] (t' "true") [] []]])).
Proof. reflexivity. Qed.

(** C16: after an error nothing changes, so the error reported is the first one. *)
Theorem C16_yayamls_first_error_kept :
  forall q ops later e, fst (observe (bsteps (new_builder q) ops)) = Some e ->
    observe (bsteps (new_builder q) (ops ++ later)) = observe (bsteps (new_builder q) ops).
Proof.
  exact (fun q ops later e H =>
    eq_trans (f_equal observe (fold_left_app bstep ops later (new_builder q)))
      (f_equal observe (bsteps_fatal later _ e H))).
Qed.
Print Assumptions C16_yayamls_first_error_kept.

Theorem C16_goyaml_first_error_kept :
  forall q ops later e, fst (g_observe (gsteps (g_new q) ops)) = Some e ->
    g_observe (gsteps (g_new q) (ops ++ later)) = g_observe (gsteps (g_new q) ops).
Proof.
  exact (fun q ops later e H =>
    eq_trans (f_equal g_observe (fold_left_app gstep ops later (g_new q)))
      (f_equal g_observe (gsteps_fatal later _ e H))).
Qed.
Print Assumptions C16_goyaml_first_error_kept.

Example C16_case :
  fst (observe (bsteps (new_builder false) [OStartSeq; OEndMap; ORaw (RawErr 3); OStartSeq])) =
  fst (observe (bsteps (new_builder false) [OStartSeq; OEndMap])) /\
  fst (observe (bsteps (new_builder false) [OStartSeq; OEndMap])) <> None /\
  fst (g_observe (gsteps (g_new false) [GRaw (GRawErr 7); GEndSeq])) =
  fst (g_observe (gsteps (g_new false) [GRaw (GRawErr 7)])) /\
  fst (g_observe (gsteps (g_new false) [GRaw (GRawErr 7)])) <> None.
Proof. repeat split; discriminate. Qed.

(** C17: once the result is taken the builder answers like a new one, and the tree already handed
    out is not modified by later calls. *)
Theorem C17_yayamls_reuse :
  forall q ops1 ops2,
    let b1 := bsteps (new_builder q) ops1 in
    let b2 := bsteps (snd (result b1)) ops2 in
    observe b2 = observe (bsteps (new_builder q) ops2) /\
    read_root (b_heap b2) (b_root b1) = read_root (b_heap b1) (b_root b1).
Proof. exact reuse. Qed.
Print Assumptions C17_yayamls_reuse.

Theorem C17_goyaml_reuse :
  forall q ops1 ops2,
    let b1 := gsteps (g_new q) ops1 in
    let b2 := gsteps (snd (g_result b1)) ops2 in
    g_observe b2 = g_observe (gsteps (g_new q) ops2) /\
    g_read_root (g_heap b2) (g_root b1) = g_read_root (g_heap b1) (g_root b1).
Proof. exact g_reuse. Qed.
Print Assumptions C17_goyaml_reuse.

Example C17_case :
  let b1 := bsteps (new_builder false) [OStartSeq; ONull; OEndMap] in
  fst (observe b1) <> None /\
  observe (bsteps (snd (result b1)) [OStartSeq; OScalar (SBool true); OEndSeq]) =
  (None, NSequence [NText (t' "true") AbsentQuoting]).
Proof. split; [discriminate|reflexivity]. Qed.

(** C18: an end call is accepted exactly when it closes the innermost open collection.  Partial:
    raw YAML must not be the whole document (see the refutation below). *)
Theorem C18_yayamls_ends_partial :
  forall q ops,
    raw_inside [] ops = true -> fst (observe (bsteps (new_builder q) ops)) = None ->
    exists st, open_after [] ops = Some st /\
      (fst (observe (bsteps (new_builder q) (ops ++ [OEndSeq]))) = None <-> exists st', st = OpSeq :: st') /\
      (fst (observe (bsteps (new_builder q) (ops ++ [OEndMap]))) = None <-> exists st', st = OpMap false :: st').
Proof. exact ends_exact. Qed.
Print Assumptions C18_yayamls_ends_partial.

(** For yaml.v3 a mapping may also end after a key. *)
Theorem C18_goyaml_ends_partial :
  forall q ops,
    g_raw_inside [] ops = true -> fst (g_observe (gsteps (g_new q) ops)) = None ->
    exists st, g_open_after_lax [] ops = Some st /\
      (fst (g_observe (gsteps (g_new q) (ops ++ [GEndSeq]))) = None <-> exists st', st = OpSeq :: st') /\
      (fst (g_observe (gsteps (g_new q) (ops ++ [GEndMap]))) = None <-> exists k st', st = OpMap k :: st').
Proof. exact g_ends_exact. Qed.
Print Assumptions C18_goyaml_ends_partial.

Example C18_case :
  open_after [] [OStartMap; ONull; OStartSeq] = Some [OpSeq; OpMap false] /\
  raw_inside [] [OStartMap; ONull; OStartSeq] = true /\
  fst (observe (bsteps (new_builder false) [OStartMap; ONull; OStartSeq; OEndSeq])) = None /\
  fst (observe (bsteps (new_builder false) [OStartMap; ONull; OStartSeq; OEndMap])) <> None /\
  fst (observe (bsteps (new_builder false) [OStartMap; ONull; OEndMap])) <> None.
Proof. repeat split; discriminate. Qed.

(** C18 fails: raw YAML inserted as the whole document stays open, so an end call with nothing
    open is accepted. *)
Theorem C18_yayamls_refuted :
  ~ (forall q ops, fst (observe (bsteps (new_builder q) ops)) = None ->
       exists st, open_after [] ops = Some st /\
         (fst (observe (bsteps (new_builder q) (ops ++ [OEndSeq]))) = None -> exists st', st = OpSeq :: st')).
Proof.
  intro H. destruct (H false [ORaw (RawTree (NSequence []))] eq_refl) as (st & Ho & He).
  cbn in Ho. injection Ho as <-. destruct (He eq_refl) as (st' & E). discriminate.
Qed.
Print Assumptions C18_yayamls_refuted.

(** C18 fails for yaml.v3: a mapping with a key and no value is closed without an error. *)
Theorem C18_goyaml_refuted :
  ~ (forall q ops st, g_open_after_lax [] ops = Some (OpMap true :: st) ->
       fst (g_observe (gsteps (g_new q) (ops ++ [GEndMap]))) <> None).
Proof. intro H. exact (H false [GStartMap; GNull] [] eq_refl eq_refl). Qed.
Print Assumptions C18_goyaml_refuted.

(** C19 fails: an empty history, an unclosed collection, two documents and an entry without a value
    are all returned without an error. *)
Theorem C19_yayamls_refuted :
  ~ (forall q ops, (forall v, ops <> calls v) -> fst (observe (bsteps (new_builder q) ops)) <> None).
Proof.
  intro H. apply (H false []); [|reflexivity].
  intros v E. destruct v; discriminate.
Qed.
Print Assumptions C19_yayamls_refuted.

Theorem C19_goyaml_refuted :
  ~ (forall q ops, (forall v, ops <> gcalls v) -> fst (g_observe (gsteps (g_new q) ops)) <> None).
Proof.
  intro H. apply (H false []); [|reflexivity].
  intros v E. destruct v; discriminate.
Qed.
Print Assumptions C19_goyaml_refuted.

Example C19_more_witnesses :
  fst (observe (bsteps (new_builder false) [OStartSeq])) = None /\
  observe (bsteps (new_builder false) [OStartSeq; OEndSeq; ONull]) = (None, NNull) /\
  observe (bsteps (new_builder false) [OStartMap; ONull]) = (None, NMapping [NEntry NNull NNil]) /\
  fst (g_observe (gsteps (g_new false) [GStartSeq])) = None /\
  fst (g_observe (gsteps (g_new false) [GStartSeq; GEndSeq; GNull])) = None.
Proof. repeat split. Qed.

(** What does hold: without raw YAML, an accepted history is an initial part of a series of complete
    values ... *)
Theorem C19_yayamls_prefix_partial :
  forall q ops, forallb no_raw ops = true -> fst (observe (bsteps (new_builder q) ops)) = None ->
    exists vs rest, ops ++ rest = flat_map calls vs.
Proof. exact no_error_prefix. Qed.
Print Assumptions C19_yayamls_prefix_partial.

(** ... and after a scalar document every further insertion is an error. *)
Theorem C19_yayamls_scalar_partial :
  forall q s o ops, match o with OEndSeq | OEndMap => False | _ => True end ->
    fst (observe (bsteps (new_builder q) (OScalar s :: o :: ops))) <> None.
Proof. exact scalar_then_error. Qed.
Print Assumptions C19_yayamls_scalar_partial.
