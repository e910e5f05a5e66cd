(** Property theorems C22, C23, C24 (refuted) and C30: reading documents call by call. *)
From Coq Require Import String.
From Verif Require Import Base Schema Values Ast Writer AnyBuilder Reader YReader GBuilder GReader
  ReadSpec ReaderSpec DocSpec ReaderProofs YReaderProofs GReaderProofs ReaderCases.
Local Open Scope nat_scope.

(** C22: once Error has reported errors, every later call returns the zero value of its type and Error
    reports the same errors, whatever is called.  (Default mode; the errors may come from anywhere,
    also from AddError.) *)
Theorem C22_yayamls_errors_are_kept :
  forall o fuel tree qs1 qs2 ps1 es ps2 s',
    do_requests (y_engine o) o fuel (qs1 ++ QCall DError :: qs2) (y_reader false tree, [])
      = Done (ps1 ++ PAnswer (AErrors es) :: ps2, s') ->
    length ps1 = length qs1 -> es <> [] ->
    Forall2 (stuck_reply o es) qs2 ps2.
Proof. intros o fuel tree. exact (errors_stick (y_engine o) o fuel an_new tree). Qed.
Print Assumptions C22_yayamls_errors_are_kept.

Theorem C22_goyaml_errors_are_kept :
  forall marshal o fuel g tree qs1 qs2 ps1 es ps2 s',
    do_requests (g_engine marshal o) o fuel (qs1 ++ QCall DError :: qs2) (r_new g false tree, [])
      = Done (ps1 ++ PAnswer (AErrors es) :: ps2, s') ->
    length ps1 = length qs1 -> es <> [] ->
    Forall2 (stuck_reply o es) qs2 ps2.
Proof. intros marshal o fuel g tree. exact (errors_stick (g_engine marshal o) o fuel g tree). Qed.
Print Assumptions C22_goyaml_errors_are_kept.

(** In either mode of either engine nothing changes any more after the fatal error. *)
Theorem C22_fatal_error_is_final :
  forall Nd K (en : engine Nd K) o fuel qs s x ps s',
    r_fatal (fst s) = Some x -> do_requests en o fuel qs s = Done (ps, s') ->
    fst s' = fst s /\ Forall2 (stuck_reply o (x :: r_denies (fst s))) qs ps.
Proof. exact @fatal_sticks. Qed.
Print Assumptions C22_fatal_error_is_final.

Example C22_case : exists ps s',
  do_requests (y_engine o_none) o_none 40 [QCall DSequence; read_int; QCall DError; QCall DString; QCall DError] (y_reader false y_bad, [])
  = Done (ps ++ [PAnswer (AErrors [RDeny EInteger]); PAnswer (AText []); PAnswer (AErrors [RDeny EInteger])], s').
Proof. eexists [_; _], _. cbv. reflexivity. Qed.

(** C23 for yayamls: every way of reading a tree that matches its shape gives the values the tree
    holds, in order, with the right sizes, ends without an error and leaves nothing to read. *)
Theorem C23_yayamls_reads_the_tree :
  forall o multi n t qs ps h,
    y_tree n = Some t -> reads o (fun n => n) (value_of o) 0 t qs ps h ->
    done_reading (y_engine o) o (y_reader multi n) qs ps h.
Proof. exact y_reads. Qed.
Print Assumptions C23_yayamls_reads_the_tree.

(** ... also for a stream of documents, read one after the other, *)
Theorem C23_yayamls_reads_the_stream :
  forall o multi docs l t qs ps h1 qs' ps' h,
    Forall2 (fun n t => y_tree n = Some t) docs (t :: l) ->
    reads o (fun n => n) (value_of o) 0 t qs ps h1 -> not_skip qs ->
    reads_docs o (fun n => n) (value_of o) h1 l qs' ps' h ->
    done_reading (y_engine o) o (y_reader multi (NStream docs)) (qs ++ qs') (ps ++ ps') h.
Proof. exact y_reads_stream. Qed.
Print Assumptions C23_yayamls_reads_the_stream.

(** ... and every tree can be read as strings: each scalar is told exactly once, in document order. *)
Theorem C23_yayamls_every_scalar_once :
  forall multi o n t, y_tree n = Some t -> exists qs ps h,
    Forall as_strings qs /\ told ps = scalars t /\ done_reading (y_engine o) o (y_reader multi n) qs ps h.
Proof. exact y_reads_all. Qed.
Print Assumptions C23_yayamls_every_scalar_once.

(** The hypothesis is not a restriction on trees. *)
Theorem C23_yayamls_every_tree : forall t, y_tree (y_of t) = Some t.
Proof. exact y_of_tree. Qed.
Print Assumptions C23_yayamls_every_tree.

(** C23 for goyaml: the same; a mapping says that it has twice the number of its entries, see C30. *)
Theorem C23_goyaml_reads_the_tree :
  forall o marshal g multi n t qs ps h,
    g_tree g n t -> reads o double (value_of o) 0 t qs ps h ->
    done_reading (g_engine marshal o) o (r_new g multi n) qs ps h.
Proof. exact g_reads. Qed.
Print Assumptions C23_goyaml_reads_the_tree.

Theorem C23_goyaml_reads_the_document :
  forall o marshal g multi i c n t qs ps h,
    nth_error g i = Some c -> x_kind c = KDocument ->
    hd_error (x_content c) = Some n -> g_tree g n t ->
    reads o double (value_of o) 0 t qs ps h ->
    exists r, g_reader multi g i = Done r /\ done_reading (g_engine marshal o) o r qs ps h.
Proof. exact g_reads_document. Qed.
Print Assumptions C23_goyaml_reads_the_document.

Theorem C23_goyaml_every_scalar_once :
  forall marshal g multi o n t, g_tree g n t -> exists qs ps h,
    Forall as_strings qs /\ told ps = scalars t /\ done_reading (g_engine marshal o) o (r_new g multi n) qs ps h.
Proof. exact g_reads_all. Qed.
Print Assumptions C23_goyaml_every_scalar_once.

(** A reading that uses most kinds of calls: key k with [1, null], then key m with a mapping *)
Example C23_case : exists h,
  reads (Nd := node) o_none (fun n => n) (fun _ _ => False) 0
    (TMap [(TText (t' "k"), TSeq [TText (t' "1"); TNull]); (TText (t' "m"), TMap [])])
    ([QCall DMapping; QSize 0; QMore 0; QCall DString; QCall DTryNull; QCall DSequence; QSize 1; QMore 1; read_int; QMore 1; QCall DTryNull; QMore 1;
      QMore 0; QCall DString; QCall DSkip; QMore 0])
    ([PAnswer (AColl CollNoop); PSize 2; PMore true; PAnswer (AText (t' "k")); PAnswer (ABool false); PAnswer (AColl CollNoop); PSize 2;
      PMore true; PAnswer (AInt 1); PMore true; PAnswer (ABool true); PMore false;
      PMore true; PAnswer (AText (t' "m")); PAnswer AUnit; PMore false]) h.
Proof.
  eexists. apply R_map.
  eapply (RE_cons _ _ _ _ _ _ _ _ [_] [_] _ [_;_;_;_;_;_;_;_] [_;_;_;_;_;_;_;_]); [constructor|exact I| |].
  - apply R_try; [discriminate|]. apply R_seq.
    eapply (RI_cons _ _ _ _ _ _ _ [_] [_]); [apply R_integer; reflexivity|].
    eapply (RI_cons _ _ _ _ _ _ _ [_] [_] _ [_] [_]); constructor.
  - eapply (RE_cons _ _ _ _ _ _ _ _ [_] [_] _ [_] [_] _ [_] [_]); [constructor|exact I|apply R_skip|constructor].
Qed.

(** C24 is false.  yayamls, default mode: after the element x could not be read as an integer, the
    collection reports unprocessed items for ever, however often the loop body is run. *)
Theorem C24_yayamls_loop_after_error_refuted :
  forall o n, exists s',
    do_requests (y_engine o) o 40 ([QCall DSequence; QMore 0] ++ concat (repeat loop_int n)) (y_reader false y_bad, [])
    = Done ([PAnswer (AColl (CollState 2 0)); PMore true] ++ concat (repeat [PAnswer (AInt 0); PMore true] n), s').
Proof. exact y_bad_forever. Qed.
Print Assumptions C24_yayamls_loop_after_error_refuted.

(** The same with the option that collects denials, in both engines. *)
Theorem C24_yayamls_denied_loop_refuted :
  forall o n, exists s',
    do_requests (y_engine o) o 40 ([QCall DSequence; QMore 0] ++ concat (repeat loop_int n)) (y_reader true y_bad, [])
    = Done ([PAnswer (AColl (CollState 2 0)); PMore true] ++ concat (repeat [PAnswer (AInt 0); PMore true] n), s').
Proof. exact y_bad_multi_forever. Qed.
Print Assumptions C24_yayamls_denied_loop_refuted.
Theorem C24_goyaml_denied_loop_refuted :
  forall marshal o n, exists s',
    do_requests (g_engine marshal o) o 40 ([QCall DSequence; QMore 0] ++ concat (repeat loop_int n)) (r_new g_bad true (Some 0), [])
    = Done ([PAnswer (AColl (CollState 2 0)); PMore true] ++ concat (repeat [PAnswer (AInt 0); PMore true] n), s').
Proof. exact g_bad_multi_forever. Qed.
Print Assumptions C24_goyaml_denied_loop_refuted.

(** Without any error: an alias is read again and again, the loop over [[&a 1, *a, 2]] never ends and
    never reaches 2.  Both engines, both modes. *)
Theorem C24_yayamls_alias_loop_refuted :
  forall multi o n, exists s',
    do_requests (y_engine o) o 40 ([QCall DSequence; QMore 0] ++ concat (repeat loop_int n)) (y_reader multi y_alias, [])
    = Done ([PAnswer (AColl (CollState 3 0)); PMore true] ++ concat (repeat [PAnswer (AInt 1); PMore true] n), s').
Proof. exact y_alias_forever. Qed.
Print Assumptions C24_yayamls_alias_loop_refuted.
Theorem C24_goyaml_alias_loop_refuted :
  forall multi marshal o n, exists s',
    do_requests (g_engine marshal o) o 40 ([QCall DSequence; QMore 0] ++ concat (repeat loop_int n)) (r_new g_alias multi (Some 0), [])
    = Done ([PAnswer (AColl (CollState 3 0)); PMore true] ++ concat (repeat [PAnswer (AInt 1); PMore true] n), s').
Proof. exact g_alias_forever. Qed.
Print Assumptions C24_goyaml_alias_loop_refuted.

(** C30 for yayamls: the size is the number of elements (entries) that can be read, one by one, until
    the collection reports that there are no more.  (C23 has this for every way of reading.) *)
Theorem C30_yayamls_sizes :
  forall multi o n,
    (forall l, y_tree n = Some (TSeq l) -> done_reading (y_engine o) o (y_reader multi n)
       (QCall DSequence :: QSize 0 :: concat (map (fun _ => [QMore 0; QCall DSkip]) l) ++ [QMore 0])
       (PAnswer (AColl CollNoop) :: PSize (length l) :: concat (map (fun _ => [PMore true; PAnswer AUnit]) l) ++ [PMore false]) 1)
    /\ (forall l, y_tree n = Some (TMap l) -> forall ks, map fst l = map TText ks -> done_reading (y_engine o) o (y_reader multi n)
       (QCall DMapping :: QSize 0 :: concat (map (fun _ => [QMore 0; QCall DString; QCall DSkip]) l) ++ [QMore 0])
       (PAnswer (AColl CollNoop) :: PSize (length l) :: concat (map (fun k => [PMore true; PAnswer (AText k); PAnswer AUnit]) ks) ++ [PMore false]) 1).
Proof. exact y_sizes. Qed.
Print Assumptions C30_yayamls_sizes.

(** C30 is false for goyaml: a mapping with the single entry k: 1 reports size 2. *)
Theorem C30_goyaml_mapping_size_refuted :
  forall marshal o, exists s,
    do_requests (g_engine marshal o) o 40 [QCall DMapping; QSize 0; QMore 0; QCall DString; read_int; QMore 0] (r_new g_one false (Some 0), [])
    = Done ([PAnswer (AColl (CollState 2 0)); PSize 2; PMore true; PAnswer (AText (t' "k")); PAnswer (AInt 1); PMore false], s).
Proof. exact g_size_twice. Qed.
Print Assumptions C30_goyaml_mapping_size_refuted.
