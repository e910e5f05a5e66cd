(** Property theorems C45: a read that does not fit the document is denied, and consumes nothing. *)
From Coq Require Import String.
From Verif Require Import Base Schema Values Ast Writer AnyBuilder Reader YReader GBuilder GReader
  ReadSpec ReaderSpec DocSpec DenySpec YReaderProofs GReaderProofs DenyEngines ReaderCases.
Local Open Scope nat_scope.

(** C45, default mode: a reading that fits up to some place and then asks for something else than what
    is there (or for a number that is out of range) gets the zero value there, and Error reports exactly
    that.  (What follows is C22.) *)
Theorem C45_yayamls_misfit_stops :
  forall o n t qs ps c x,
    y_tree n = Some t -> until o (fun n => n) (value_of o) y_nulls 0 t qs ps c x ->
    stops_reading (y_engine o) o (y_reader false n) qs ps c x.
Proof. exact y_stops. Qed.
Print Assumptions C45_yayamls_misfit_stops.

Theorem C45_goyaml_misfit_stops :
  forall o marshal g n t qs ps c x,
    g_tree g n t -> until o double (value_of o) g_nulls 0 t qs ps c x ->
    stops_reading (g_engine marshal o) o (r_new g false n) qs ps c x.
Proof. exact g_stops. Qed.
Print Assumptions C45_goyaml_misfit_stops.

(** C45 with the option that collects denials: calls that do not fit get zero values and consume
    nothing, so the reading can go on at the same place with another call; at the end everything has
    been read and Error reports the denials in order. *)
Theorem C45_goyaml_denials_are_collected :
  forall o marshal g n t qs ps h es,
    g_tree g n t -> tries o double (value_of o) g_nulls 0 t qs ps h es ->
    done_trying (g_engine marshal o) o (r_new g true n) qs ps h es.
Proof. exact g_tries. Qed.
Print Assumptions C45_goyaml_denials_are_collected.

(** yayamls: only for calls that do not fit texts, sequences and mappings; *)
Theorem C45_yayamls_denials_are_collected_partial :
  forall o n t qs ps h es,
    y_tree n = Some t -> tries o (fun n => n) (value_of o) no_nulls 0 t qs ps h es ->
    done_trying (y_engine o) o (y_reader true n) qs ps h es.
Proof. exact y_tries. Qed.
Print Assumptions C45_yayamls_denials_are_collected_partial.

(** for null nodes it is false: an integer read at the null of the sequence with the elements 5 and
    nothing is answered by 5, the value that was read before, *)
Theorem C45_yayamls_null_stale_refuted :
  forall o, exists s',
    do_requests (y_engine o) o 40 [QCall DSequence; read_int; read_int; QCall DError] (y_reader true y_five_null, [])
    = Done ([PAnswer (AColl (CollState 2 0)); PAnswer (AInt 5); PAnswer (AInt 5); PAnswer (AErrors [RDeny EInteger])], s').
Proof. exact y_null_stale. Qed.
Print Assumptions C45_yayamls_null_stale_refuted.

(** and a sequence asked for at a null document is a nil interface: asking it for more crashes. *)
Theorem C45_yayamls_null_crash_refuted :
  forall o, exists s',
    do_requests (y_engine o) o 40 [QCall DSequence] (y_reader true NNull, []) = Done ([PAnswer (AColl CollNil)], s')
    /\ do_request (y_engine o) o 40 (QMore 0) s' = Panics.
Proof. exact y_null_nil. Qed.
Print Assumptions C45_yayamls_null_crash_refuted.

(** readings that stop: at the value of the second entry, which is a mapping; at 300 read as 8 bits;
    at a key that is not a number *)
Example C45_case_stops :
  until (Nd := node) o_none (fun n => n) (fun _ _ => False) y_nulls 0
    (TMap [(TText (t' "k"), TSeq [TText (t' "1"); TNull]); (TText (t' "m"), TMap [])])
    [QCall DMapping; QSize 0; QMore 0; QCall DString; QCall DSkip; QMore 0; QCall DString; QCall DTryNull]
    [PAnswer (AColl CollNoop); PSize 2; PMore true; PAnswer (AText (t' "k")); PAnswer AUnit; PMore true; PAnswer (AText (t' "m")); PAnswer (ABool false)]
    DSequence (RDeny ESequence)
  /\ until (Nd := node) o_none (fun n => n) (fun _ _ => False) y_nulls 0 (TText (t' "300")) [] []
       (DInteger 8) (RConvert EInteger (t' "300"))
  /\ until (Nd := node) o_none (fun n => n) (fun _ _ => False) y_nulls 0 (TMap [(TText (t' "k"), TNull)])
       [QCall DMapping; QSize 0; QMore 0] [PAnswer (AColl CollNoop); PSize 1; PMore true] (DUnsigned 8) (RDeny EInteger).
Proof.
  split; [|split].
  - apply U_map.
    eapply (UE_later _ _ _ _ _ _ _ _ _ [_] [_] _ [_] [_]); [constructor|exact I|apply R_skip|].
    eapply (UE_value _ _ _ _ _ _ _ _ _ [_] [_]); [constructor|exact I|].
    apply U_try; [discriminate|]. apply U_here. apply (M_deny o_none y_nulls DSequence). reflexivity.
  - apply U_here. apply (M_convert o_none y_nulls (DInteger 8)). reflexivity.
  - apply U_map. apply UE_key. apply U_here. apply (M_deny o_none y_nulls (DUnsigned 8)). reflexivity.
Qed.

(** a reading that goes on: a sequence is asked for a number and a mapping first, its element as well *)
Example C45_case_tries :
  tries (Nd := gref) o_none double (fun _ _ => False) g_nulls 0 (TSeq [TText (t' "x"); TNull])
    [QCall (DInteger 8); QCall DMapping; QCall DSequence; QSize 1; QMore 1; read_int; QCall DString; QMore 1; QCall DString; QCall DTryNull; QMore 1]
    [PAnswer (AInt 0); PAnswer (AColl CollNoop); PAnswer (AColl CollNoop); PSize 2; PMore true; PAnswer (AInt 0); PAnswer (AText (t' "x"));
     PMore true; PAnswer (AText []); PAnswer (ABool true); PMore false] 2
    [RDeny EInteger; RDeny EMapping; RDeny EInteger; RDeny EString].
Proof.
  apply (T_unfit o_none double _ g_nulls 0 _ (DInteger 8)); [reflexivity|].
  apply (T_unfit o_none double _ g_nulls 0 _ DMapping); [reflexivity|].
  apply T_seq. cbn [length colls_of zero_answer Nat.add].
  apply (TI_cons o_none double _ g_nulls 1 2 _ _ [_; _] [_; _] 2 [_]).
  - apply (T_unfit o_none double _ g_nulls 2 _ (DInteger 64)); [reflexivity|]. apply T_reads. constructor.
  - apply (TI_cons o_none double _ g_nulls 1 2 _ _ [_; _] [_; _] 2 [_] [_] [_] _ []).
    + apply (T_unfit o_none double _ g_nulls 2 _ DString); [reflexivity|]. apply T_reads. constructor.
    + constructor.
Qed.
