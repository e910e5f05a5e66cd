(** Property C51: what the generated decoders make of a document. *)
From Coq Require Import String.
From Verif Require Import Base Schema SchemaSpec Values Ast Writer AnyBuilder Builder BuilderSpec GBuilder Reader YReader GReader
  ReadSpec ReaderSpec ReaderCases GenCode GenSpec CursorSpec CursorCases MeaningSpec MeaningProofs MeaningReads Props_Cursor.
Local Open Scope nat_scope.

(** C51.  Full statement: the generated decoder makes of every document the value that the document means
    in the type, or reports the error that it means.  [meaning_of] says what a document means by recursion
    on the document and the type, without a reader.

    On goyaml it holds in the default error mode for all types without text methods, all documents
    without aliases, right or wrong, whatever the destination holds before: where the document is wrong,
    exactly the first error is reported.  Missing: text methods (refuted by C41_goyaml_text_refuted),
    aliases (C47_goyaml_alias_refuted), collected errors (C47_goyaml_denied_refuted), and the documents
    for which [meaning_of] is [Odd] (C48). *)
Theorem C51_goyaml_partial :
  forall x tb omitempty strict o marshal zero_of t z g n d,
    sensible x tb -> no_texts tb -> zeros x tb zero_of -> known tb t -> no_text t = true -> typed tb t z -> unfolds g n d ->
    meaning_of x tb omitempty strict o zero_of t z d <> Odd ->
    exists v r hs F,
      (forall f, F <= f -> g_decode x tb omitempty strict o marshal false f t z g n = Done (v, (r, hs)))
      /\ (forall f, do_call (g_engine marshal o) o f DError r =
            Done (AErrors (match meaning_of x tb omitempty strict o zero_of t z d with Wrong e => [e] | _ => [] end), r))
      /\ (forall w, meaning_of x tb omitempty strict o zero_of t z d = Gives w -> v = w).
Proof. exact g_decode_means. Qed.
Print Assumptions C51_goyaml_partial.

(** When errors are collected, it holds for the documents that are right. *)
Theorem C51_goyaml_right_documents :
  forall x tb omitempty strict o marshal zero_of t z g i w v multi,
    sensible x tb -> zeros x tb zero_of -> no_texts tb -> no_text t = true -> known tb t -> typed tb t z -> g_tree g i w ->
    meaning_of x tb omitempty strict o zero_of t z (doc w) = Gives v ->
    exists F, forall f, F <= f -> exists r hs,
      g_decode x tb omitempty strict o marshal multi f t z g i = Done (v, (r, hs)) /\ no_errors (g_engine marshal o) o f r.
Proof. exact g_decode_gives. Qed.
Print Assumptions C51_goyaml_right_documents.

(** On yayamls it holds in both error modes and for all types, for the documents that are right (for wrong
    ones the decoder need not return: C47_yayamls_refuted). *)
Theorem C51_yayamls_partial :
  forall x tb omitempty strict o zero_of t z n w v multi,
    sensible x tb -> zeros x tb zero_of -> known tb t -> typed tb t z -> y_tree n = Some w ->
    meaning_of x tb omitempty strict o zero_of t z (doc w) = Gives v ->
    exists F, forall f, F <= f -> exists r hs,
      y_decode x tb omitempty strict o multi f t z n = Done (v, (r, hs)) /\ no_errors (y_engine o) o f r.
Proof. exact y_decode_gives. Qed.
Print Assumptions C51_yayamls_partial.

(** Every Go program has zero values for its types. *)
Theorem C51_zeros_exist : forall x tb, sensible x tb -> exists zero_of, zeros x tb zero_of.
Proof. exact zeros_exist. Qed.
Print Assumptions C51_zeros_exist.

(** type T struct { Name string; Kids []T; Next *T } as in C47_example.  The destination holds the name old
    and a Next with the name deep.
    {name: new, kids: [{name: a, other: [1]}, {kids: ~}], next: {kids: []}} keeps the name of Next; *)
Definition c51_zero := zero_by c47_x [c47_zero].
Definition c51_old : goval := GoStruct [GoString (t' "old"); GoNil; GoPtr (GoStruct [GoString (t' "deep"); GoNil; GoNil])].
Definition c51_tree : ytree :=
  YMap [YText (t' "name"); YText (t' "new");
        YText (t' "kids"); YSeq [YMap [YText (t' "name"); YText (t' "a"); YText (t' "other"); YSeq [YText (t' "1")]];
                                 YMap [YText (t' "kids"); YNull (t' "~")]];
        YText (t' "next"); YMap [YText (t' "kids"); YSeq []]].
Definition c51_graph : graph :=
  [mkX KMapping (t' "!!map") [] [] [Some 1; Some 2; Some 3; Some 4; Some 12; Some 13] None;
   gscalar (t' "!!str") (t' "name"); gscalar (t' "!!str") (t' "new"); gscalar (t' "!!str") (t' "kids");
   mkX KSequence (t' "!!seq") [] [] [Some 5; Some 10] None;
   mkX KMapping (t' "!!map") [] [] [Some 1; Some 6; Some 7; Some 8] None;
   gscalar (t' "!!str") (t' "a"); gscalar (t' "!!str") (t' "other");
   mkX KSequence (t' "!!seq") [] [] [Some 9] None; gscalar (t' "!!int") (t' "1");
   mkX KMapping (t' "!!map") [] [] [Some 3; Some 11] None; gscalar (t' "!!null") (t' "~");
   gscalar (t' "!!str") (t' "next"); mkX KMapping (t' "!!map") [] [] [Some 3; Some 14] None;
   mkX KSequence (t' "!!seq") [] [] [] None].
Definition c51_value : goval :=
  GoStruct [GoString (t' "new"); GoSlice [GoStruct [GoString (t' "a"); GoNil; GoNil]; c47_zero];
            GoPtr (GoStruct [GoString (t' "deep"); GoSlice []; GoNil])].
Example C51_example :
  no_texts c47_table /\ zeros c47_x c47_table c51_zero /\ typed c47_table (TyStruct 0) c51_old
  /\ unfolds c51_graph (Some 0) c51_tree
  /\ (forall o, meaning_of c47_x c47_table false false o c51_zero (TyStruct 0) c51_old c51_tree = Gives c51_value)
  /\ (forall o mar, exists s, g_decode c47_x c47_table false false o mar false 30 (TyStruct 0) c51_old c51_graph (Some 0) = Done (c51_value, s))
  (* unless unknown fields are errors *)
  /\ (forall o, meaning_of c47_x c47_table false true o c51_zero (TyStruct 0) c51_old c51_tree = Wrong (RUser 1))
  /\ (forall o mar, exists v s, g_decode c47_x c47_table false true o mar false 30 (TyStruct 0) c51_old c51_graph (Some 0) = Done (v, s)
        /\ r_fatal (fst s) = Some (RUser 1))
  (* the document of C47_example *)
  /\ (forall o, meaning_of c47_x c47_table false false o c51_zero (TyStruct 0) c51_old
       (YMap [YText (t' "kids"); YSeq [YMap [YText (t' "name"); YText (t' "a")]; YText (t' "7"); YMap [YText (t' "name"); YText (t' "b")]]])
       = Wrong (RDeny EMapping)).
Proof.
  split; [|split; [|split; [|split; [|split; [|split; [|split; [|split]]]]]]].
  - repeat constructor.
  - apply zero_by_zeros. intros [|i] Hi; [exact c47_zeroval|cbn in Hi; lia].
  - eapply T_struct; [reflexivity|cbn; repeat constructor; cbn; intuition discriminate|].
    repeat (apply Forall2_cons || apply Forall2_nil); constructor; try reflexivity.
    eapply T_struct; [reflexivity|cbn; repeat constructor; cbn; intuition discriminate|].
    repeat (apply Forall2_cons || apply Forall2_nil); constructor; reflexivity.
  - unfold c51_tree, c51_graph. tree.
  - reflexivity.
  - intros. eexists. vm_compute. reflexivity.
  - reflexivity.
  - intros. do 2 eexists. split; [vm_compute; reflexivity|reflexivity].
  - reflexivity.
Qed.

(** the same document for yayamls, in both error modes *)
Definition c51_node : node :=
  let s x := NText (t' x) AbsentQuoting in
  NMapping [NEntry (s "name"%string) (s "new"%string);
            NEntry (s "kids"%string) (NSequence [NMapping [NEntry (s "name"%string) (s "a"%string); NEntry (s "other"%string) (NSequence [s "1"%string])];
                                                 NMapping [NEntry (s "kids"%string) (s "~"%string)]]);
            NEntry (s "next"%string) (NMapping [NEntry (s "kids"%string) (NSequence [])])].
Example C51_yayamls_example : exists w, y_tree c51_node = Some w
  /\ (forall o, meaning_of c47_x c47_table false false o c51_zero (TyStruct 0) c51_old (doc w) = Gives c51_value)
  /\ forall o multi, exists s, y_decode c47_x c47_table false false o multi 30 (TyStruct 0) c51_old c51_node = Done (c51_value, s).
Proof.
  eexists. split; [reflexivity|]. split; [reflexivity|]. intros o [|]; eexists; vm_compute; reflexivity.
Qed.

(** C48 on goyaml.  The documents that are [Odd]: of the three structs in [~, {a: x}, {a: y}] two remain, *)
Definition c48_table_g : structs := [[mkField (t' "a") TyString false false]].
Definition c48_graph : graph :=
  [mkX KSequence (t' "!!seq") [] [] [Some 1; Some 2; Some 5] None; gscalar (t' "!!null") (t' "~");
   mkX KMapping (t' "!!map") [] [] [Some 3; Some 4] None; gscalar (t' "!!str") (t' "a"); gscalar (t' "!!str") (t' "x");
   mkX KMapping (t' "!!map") [] [] [Some 3; Some 6] None; gscalar (t' "!!str") (t' "y")].
Definition c48_tree : ytree :=
  YSeq [YNull (t' "~"); YMap [YText (t' "a"); YText (t' "x")]; YMap [YText (t' "a"); YText (t' "y")]].
Theorem C48_goyaml_null_element_refuted :
  unfolds c48_graph (Some 0) c48_tree
  /\ (forall o zero_of, meaning_of c47_x c48_table_g false true o zero_of (TySlice (TyStruct 0)) GoNil c48_tree = Odd)
  /\ forall o mar multi, exists r hs,
       g_decode c47_x c48_table_g false true o mar multi 30 (TySlice (TyStruct 0)) GoNil c48_graph (Some 0)
       = Done (GoSlice [GoStruct [GoString (t' "x")]; GoStruct [GoString (t' "y")]], (r, hs))
       /\ no_errors (g_engine mar o) o 30 r.
Proof.
  split; [unfold c48_tree; tree|]. split; [reflexivity|].
  intros o mar [|]; do 2 eexists; (split; [vm_compute; reflexivity|reflexivity]).
Qed.
Print Assumptions C48_goyaml_null_element_refuted.

(** and when a list is longer than the array it is read into, the rest is taken for entries of the struct
    around it: {a: [1, b, x], c: y} sets b to x. *)
Definition c48_array_g : structs := [[mkField (t' "a") (TyArray 1 TyString) false false; mkField (t' "b") TyString false false]].
Definition c48_array_graph : graph :=
  [mkX KMapping (t' "!!map") [] [] [Some 1; Some 2; Some 6; Some 7] None; gscalar (t' "!!str") (t' "a");
   mkX KSequence (t' "!!seq") [] [] [Some 3; Some 4; Some 5] None; gscalar (t' "!!int") (t' "1"); gscalar (t' "!!str") (t' "b");
   gscalar (t' "!!str") (t' "x"); gscalar (t' "!!str") (t' "c"); gscalar (t' "!!str") (t' "y")].
Definition c48_array_tree : ytree := YMap [YText (t' "a"); YSeq [YText (t' "1"); YText (t' "b"); YText (t' "x")]; YText (t' "c"); YText (t' "y")].
Theorem C48_goyaml_long_array_refuted :
  let z := GoStruct [GoArray [GoString []]; GoString []] in
  unfolds c48_array_graph (Some 0) c48_array_tree
  /\ (forall o zero_of, meaning_of c47_x c48_array_g false false o zero_of (TyStruct 0) z c48_array_tree = Odd)
  /\ forall o mar multi, exists r hs,
       g_decode c47_x c48_array_g false false o mar multi 30 (TyStruct 0) z c48_array_graph (Some 0)
       = Done (GoStruct [GoArray [GoString (t' "1")]; GoString (t' "x")], (r, hs))
       /\ no_errors (g_engine mar o) o 30 r.
Proof.
  split; [unfold c48_array_tree; tree|]. split; [reflexivity|].
  intros o mar [|]; do 2 eexists; (split; [vm_compute; reflexivity|reflexivity]).
Qed.
Print Assumptions C48_goyaml_long_array_refuted.
