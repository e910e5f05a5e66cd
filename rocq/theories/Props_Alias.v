(** Property theorems C25, C26 (both for documents under stated conditions, refuted without them) and C29. *)
From Coq Require Import String.
From Verif Require Import Base Schema Values Ast Writer AnyBuilder Reader YReader GBuilder GReader
  ReadSpec ReaderSpec DocSpec AliasSpec ReaderProofs DocProofs AliasProofs AliasCases RawProofs ReaderCases.
Local Open Scope nat_scope.

(** C25: in the generic value of a mapping every key has the value the mapping sets itself, or else the
    value the first merged mapping with that key gives it, wherever the merge keys are ([looked_up]).
    Full statement: for all mappings.  Missing (and false): merged mappings that contain mappings, and
    lists of mappings as merge values.  [stable] is the condition of C26. *)
Theorem C25_yayamls_merge_partial :
  forall o multi inner content n l its e',
    is_collection n = true -> y_doc n = Some (DMap l) ->
    stable inner content (DMap l) -> keys_once (DMap l) -> items_of o flat [] l its e' ->
    exists m F, (forall k, map_get k m = looked_up k its)
      /\ forall f, F <= f -> exists r', do_call (y_engine o) o f DAny (y_reader multi n) = Done (AAny (VMap m), r').
Proof. exact y_mapping_lookup. Qed.
Print Assumptions C25_yayamls_merge_partial.

Theorem C25_goyaml_merge_partial :
  forall marshal o multi g i c l its e',
    nth_error g i = Some c -> x_kind c = KMapping ->
    g_doc g (Some i) (DMap l) -> keys_once (DMap l) -> items_of o flat [] l its e' ->
    exists m F, (forall k, map_get k m = looked_up k its)
      /\ forall f, F <= f -> exists r', do_call (g_engine marshal o) o f DAny (r_new g multi (Some i)) = Done (AAny (VMap m), r').
Proof. exact g_mapping_lookup. Qed.
Print Assumptions C25_goyaml_merge_partial.

Example C25_case : exists d e m1 m2, y_doc y_merge = Some d
  /\ stable (fun _ => false) (fun _ => DNull) d /\ keys_once d
  /\ dval o_none flat [] d (VMap [(t' "base", VMap m1); (t' "it", VMap m2)]) e
  /\ map_get (t' "k") m2 = Some (VStr (t' "own")) /\ map_get (t' "q") m2 = Some (VStr (t' "y")).
Proof. exact merge_ok. Qed.

(** Merging a mapping that contains a mapping: the inner mapping is merged as well, its key is lost.
    [<<: {k: {m: x}}] gives [{m: x}] instead of [{k: {m: x}}]. *)
Theorem C25_nested_mappings_refuted :
  exists d, y_doc y_nested = Some d /\ g_doc g_nested (Some 0) d
    /\ dval o_none any_map [] d (VMap [(t' "k", VMap [(t' "m", VStr (t' "x"))])]) []
    /\ (exists r', do_call (y_engine o_none) o_none 20 DAny (y_reader false y_nested) = Done (AAny (VMap [(t' "m", VStr (t' "x"))]), r'))
    /\ (forall marshal, exists r', do_call (g_engine marshal o_none) o_none 20 DAny (r_new g_nested false (Some 0))
          = Done (AAny (VMap [(t' "m", VStr (t' "x"))]), r')).
Proof.
  destruct nested_meaning as (d & H1 & H2 & H3). exists d. split; [exact H1|]. split; [exact H2|]. split; [exact H3|].
  split; [eexists; vm_compute; reflexivity|]. intros marshal. eexists. vm_compute. reflexivity.
Qed.
Print Assumptions C25_nested_mappings_refuted.

(** A list of mappings as merge value: [<<: [{k: x}, {m: y}]] has no key [m]. *)
Theorem C25_merge_lists_refuted :
  exists m r', do_call (y_engine o_none) o_none 20 DAny (y_reader false y_list) = Done (AAny (VMap m), r')
    /\ map_get (t' "k") m = Some (VStr (t' "x")) /\ map_get (t' "m") m = None.
Proof. eexists _, _. split; [vm_compute; reflexivity|]. split; reflexivity. Qed.
Print Assumptions C25_merge_lists_refuted.

(** C26: generic reading of a document with aliases gives the value in which every alias stands for the
    closest earlier definition of its anchor ([dval]).  Full statement: for all documents.  Missing (and
    false): documents in which a name that occurs inside anchored content is anchored to something else
    as well ([stable] excludes them). *)
Theorem C26_yayamls_aliases_partial :
  forall o multi inner content n d v e',
    is_collection n = true -> y_doc n = Some d ->
    stable inner content d -> keys_once d -> dval o flat [] d v e' ->
    exists F, forall f, F <= f -> exists r', do_call (y_engine o) o f DAny (y_reader multi n) = Done (AAny v, r').
Proof. exact y_reads_any. Qed.
Print Assumptions C26_yayamls_aliases_partial.

(** goyaml gets aliases as links; reading follows them. *)
Theorem C26_goyaml_aliases :
  forall o marshal g multi i c d v e',
    nth_error g i = Some c -> (x_kind c = KSequence \/ x_kind c = KMapping) ->
    g_doc g (Some i) d -> keys_once d -> dval o flat [] d v e' ->
    exists F, forall f, F <= f -> exists r',
      do_call (g_engine marshal o) o f DAny (r_new g multi (Some i)) = Done (AAny v, r').
Proof. exact g_reads_any. Qed.
Print Assumptions C26_goyaml_aliases.

Example C26_case : exists d e, y_doc y_fine = Some d
  /\ stable fine_inner (fun _ => DText (t' "x")) d /\ keys_once d
  /\ dval o_none flat [] d (VSeq [VSeq [VStr (t' "x")]; VStr (t' "y"); VSeq [VStr (t' "x")]; VStr (t' "x"); VStr (t' "z"); VStr (t' "z")]) e.
Proof. exact fine_ok. Qed.

(** An alias whose anchor occurs nowhere is an error: in generic reading, *)
Theorem C26_unknown_alias_generic :
  forall o a n f x k',
    holds_alias a n -> no_anchor a n -> extract_any y_access o f an_new n = Done (x, k') ->
    exists e es, x = inr (e :: es).
Proof. exact y_unknown_alias. Qed.
Print Assumptions C26_unknown_alias_generic.

(** and in every single reading call. *)
Theorem C26_unknown_alias_call :
  forall o c a f (r : rstate node anchors) p,
    reading c = true -> r_fatal r = None ->
    hd_error (r_route r) = Some p -> pt_node p = NAlias a -> an_find a (an_map (r_keep r)) = None ->
    exists r', do_call (y_engine o) o (S (S f)) c r = Done (zero_answer o c, r') /\ r_fatal r' = Some (RAlias a).
Proof. exact y_unknown_call. Qed.
Print Assumptions C26_unknown_alias_call.

Example C26_unknown_case : exists s,
  do_requests (y_engine o_none) o_none 40 [QCall DSequence; QCall DString; QCall DError]
    (y_reader false (NSequence [NAlias (t' "q")]), [])
  = Done ([PAnswer (AColl (CollState 1 0)); PAnswer (AText []); PAnswer (AErrors [RAlias (t' "q")])], s).
Proof. eexists. vm_compute. reflexivity. Qed.

(** [[&a [&b x], &b y, *a, *b]]: reading [*a] defines [b] again, [*b] gives x instead of y. *)
Theorem C26_rebinding_refuted :
  exists d e r', y_doc y_rebind = Some d
    /\ dval o_none any_map [] d (VSeq [VSeq [VStr (t' "x")]; VStr (t' "y"); VSeq [VStr (t' "x")]; VStr (t' "y")]) e
    /\ do_call (y_engine o_none) o_none 20 DAny (y_reader false y_rebind)
         = Done (AAny (VSeq [VSeq [VStr (t' "x")]; VStr (t' "y"); VSeq [VStr (t' "x")]; VStr (t' "x")]), r').
Proof.
  destruct rebind_meaning as (d & e & H1 & H2). eexists d, e, _. split; [exact H1|]. split; [exact H2|].
  vm_compute. reflexivity.
Qed.
Print Assumptions C26_rebinding_refuted.

(** [[&x u, &a [*x], &x v, *a]]: the alias inside of [*a] follows the later definition. *)
Theorem C26_capture_refuted :
  exists d e r', y_doc y_capture = Some d
    /\ dval o_none any_map [] d (VSeq [VStr (t' "u"); VSeq [VStr (t' "u")]; VStr (t' "v"); VSeq [VStr (t' "u")]]) e
    /\ do_call (y_engine o_none) o_none 20 DAny (y_reader false y_capture)
         = Done (AAny (VSeq [VStr (t' "u"); VSeq [VStr (t' "u")]; VStr (t' "v"); VSeq [VStr (t' "v")]]), r').
Proof.
  destruct capture_meaning as (d & e & H1 & H2). eexists d, e, _. split; [exact H1|]. split; [exact H2|].
  vm_compute. reflexivity.
Qed.
Print Assumptions C26_capture_refuted.

(** Anchors inside of skipped content are not known afterwards: [[[&a x], *a]], skip, read. *)
Theorem C26_skipped_anchor_refuted : exists s,
  do_requests (y_engine o_none) o_none 40 [QCall DSequence; QCall DSkip; QCall DString; QCall DError]
    (y_reader false (NSequence [NSequence [anchored (t' "a") (plain_text (t' "x"))]; NAlias (t' "a")]), [])
  = Done ([PAnswer (AColl (CollState 2 0)); PAnswer AUnit; PAnswer (AText []); PAnswer (AErrors [RAlias (t' "a")])], s).
Proof. exact skipped_anchor. Qed.
Print Assumptions C26_skipped_anchor_refuted.

(** [&a [*a]]: generic reading never returns, in either engine. *)
Theorem C26_self_alias_refuted : forall f,
  extract_any y_access o_none f an_new y_self = NoFuel /\ extract_any g_access o_none f g_self (Some 0) = NoFuel.
Proof. intros f. exact (conj (self_forever_y f) (self_forever_g f)). Qed.
Print Assumptions C26_self_alias_refuted.

(** C29: whatever is called on a goyaml reader, Raw included, the document is the same afterwards.
    [direct]: aliases do not point at aliases; yaml.v3's parser makes no such graphs. *)
Theorem C29_document_unchanged :
  forall marshal o g, direct g -> forall f qs (s s' : client gref graph) ps,
    r_keep (fst s) = g -> do_requests (g_engine marshal o) o f qs s = Done (ps, s') -> r_keep (fst s') = g.
Proof. exact graph_unchanged. Qed.
Print Assumptions C29_document_unchanged.

Theorem C29_raw_restores :
  forall marshal fuel g n x g', direct g -> g_raw marshal fuel g n = Done (x, g') -> g' = g.
Proof. exact raw_unchanged. Qed.
Print Assumptions C29_raw_restores.

(** the graph does change while it is being serialised *)
Example C29_case : direct g_shared /\
  exists root anchor t, rt_transform 20 g_shared 2 = Done (root, anchor, t) /\ rt_graph t <> g_shared
  /\ nth_error (map x_content (rt_graph t)) 2 = Some [Some 1; Some 4; Some 5]
  /\ nth_error (map x_content (rt_graph t)) 4 = Some [Some 3].
Proof. exact (conj shared_direct shared_between). Qed.

(** Without [direct] it is false, *)
Theorem C29_directness_is_needed :
  exists x g', g_raw (fun _ _ => inl []) 20 g_chain (Some 0) = Done (x, g') /\ g' <> g_chain.
Proof. exact chain_changes. Qed.
Print Assumptions C29_directness_is_needed.

(** and of a node that contains itself Raw never returns. *)
Theorem C29_raw_of_a_cycle : forall marshal f, g_raw marshal f g_loop (Some 0) = NoFuel.
Proof. exact raw_loop_forever. Qed.
Print Assumptions C29_raw_of_a_cycle.
