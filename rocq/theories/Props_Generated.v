(** Properties C41, C47 and C48: the code written by the generator. *)
From Coq Require Import String.
From Verif Require Import Base Schema SchemaSpec Values Ast Writer Builder BuilderSpec GBuilder Reader YReader GReader
  ReaderCases GenCode GenSpec GenProofs GenEngines GenCases.
Local Open Scope nat_scope.

(** C41.  Full statement: for every type and every value, the generated decoder makes of the tree built
    by the generated encoder the same value again.  It is false (see below).  It holds, for types of any
    shape including recursive structs, for all values that [survives] describes: floats and texts must
    come back from their own texts (strconv and the text methods are not ours), no pointer points to a
    nil, no empty map or slice where omitempty drops it, and fields that are left out hold zero values. *)
Theorem C41_yayamls_partial :
  forall x tb omitempty strict o t v z,
    typed tb t v -> survives x tb o omitempty omitempty t v -> zeroval x tb t z ->
    exists n, observe (bsteps (new_builder false) (encode_top x tb omitempty t v)) = (None, n) /\
    forall multi, exists F, forall f, F <= f -> exists r hs,
      y_decode x tb omitempty strict o multi f t z n = Done (v, (r, hs)) /\ no_errors (y_engine o) o f r.
Proof. exact y_generated. Qed.
Print Assumptions C41_yayamls_partial.

(** For goyaml the types must not have text methods (see C41_goyaml_text_refuted), and the node that is
    decoded is any graph that holds the tree that was built. *)
Theorem C41_goyaml_partial :
  forall x tb omitempty strict o marshal short t v z, short_ok short ->
    typed tb t v -> survives x tb o omitempty omitempty t v -> zeroval x tb t z ->
    no_text t = true -> no_texts tb ->
    exists n, g_observe (gsteps (g_new false) (map gop_of (encode_top x tb omitempty t v))) = (None, Some n) /\
    forall g i multi, holds short g i n -> exists F, forall f, F <= f -> exists r hs,
      g_decode x tb omitempty strict o marshal multi f t z g i = Done (v, (r, hs))
      /\ no_errors (g_engine marshal o) o f r.
Proof. exact g_generated. Qed.
Print Assumptions C41_goyaml_partial.

(** The zero value that the destination holds exists for every type that has values. *)
Theorem C41_zero_exists : forall x tb t v, typed tb t v -> exists z, zeroval x tb t z.
Proof. intros x tb t v. exact (typed_zero x tb v t). Qed.
Print Assumptions C41_zero_exists.

(** A recursive type: type T struct { Name string; Next *T `omitempty`; Attrs map[string][]int8; Secret bool `-` } *)
Definition x_none : externs :=
  mkExterns (fun _ => []) (fun _ n => inl [n]) (fun _ s => match s with [n] => Some n | _ => None end) (fun _ => 0%N).
Definition c41_table : structs :=
  [[mkField (t' "name") TyString false false; mkField (t' "next") (TyPtr (TyStruct 0)) false true;
    mkField (t' "attrs") (TyMap TyString (TySlice (TyInt 8))) false false; mkField (t' "-") TyBool true false]].
Definition c41_value : goval :=
  GoStruct [GoString (t' "null");
            GoPtr (GoStruct [GoString []; GoNil; GoNil; GoBool false]);
            GoMap [(GoString (t' "a"), GoSlice [GoInt (-128); GoInt 7]); (GoString (t' "b"), GoNil); (GoString [], GoSlice [])];
            GoBool false].
Ltac fs := repeat (apply Forall_cons || apply Forall_nil || apply Forall2_cons || apply Forall2_nil).
Lemma c41_zero : zeroval x_none c41_table (TyStruct 0) (GoStruct [GoString []; GoNil; GoNil; GoBool false]).
Proof. eapply Z_struct; [reflexivity|]. fs; constructor; reflexivity. Qed.
Lemma c41_names : NoDup (map fl_name (filter (fun d => negb (fl_skip d)) (nth 0 c41_table []))).
Proof. cbn. repeat constructor; cbn; intuition discriminate. Qed.
Example C41_example : typed c41_table (TyStruct 0) c41_value
  /\ survives x_none c41_table o_none false false (TyStruct 0) c41_value
  /\ snd (observe (bsteps (new_builder false) (encode_top x_none c41_table false (TyStruct 0) c41_value))) =
     let q s := NText (t' s) DoubleQuoting in let p s := NText (t' s) AbsentQuoting in
     NMapping [NEntry (q "name"%string) (q "null"%string);
               NEntry (q "next"%string) (NMapping [NEntry (q "name"%string) (q ""%string); NEntry (q "attrs"%string) NNull]);
               NEntry (q "attrs"%string) (NMapping [NEntry (q "a"%string) (NSequence [p "-128"%string; p "7"%string]);
                                             NEntry (q "b"%string) NNull; NEntry (q ""%string) (NSequence [])])].
Proof.
  split; [|split; [|vm_compute; reflexivity]].
  - eapply T_struct; [reflexivity|exact c41_names|]. fs; cbn [fl_type].
    + constructor.
    + apply T_ptr. eapply T_struct; [reflexivity|exact c41_names|]. fs; constructor; reflexivity.
    + apply T_map; [|cbn; repeat constructor; cbn; intuition discriminate].
      fs; cbn [fst snd]; (split; [apply T_string|]);
        [apply T_slice; fs; (apply T_int; [vm_compute; discriminate|vm_compute; reflexivity])|apply T_nil; reflexivity|apply T_slice; fs].
    + constructor.
  - eapply S_struct; [reflexivity|]. fs.
    + apply F_written; [discriminate|reflexivity|constructor; exact I].
    + apply F_written; [intros _ []|reflexivity|]. cbn. apply S_ptr; [intros []|].
      eapply S_struct; [reflexivity|]. fs.
      * apply F_written; [discriminate|reflexivity|constructor; exact I].
      * apply F_omitted; [reflexivity|exact I|apply Z_nil; reflexivity].
      * apply F_written; [discriminate|reflexivity|apply S_nil].
      * apply F_skipped; [reflexivity|constructor].
    + apply F_written; [discriminate|reflexivity|]. cbn. apply S_map; [discriminate|].
      fs; cbn [fst snd]; (split; [apply S_simple; exact I|]);
        first [apply S_nil|apply S_slice; fs; apply S_simple; exact I].
    + apply F_skipped; [reflexivity|constructor].
Qed.

(** ** What does not come back *)

(** what decoding gives, for all fuels from some on, without an error *)
Definition y_gives x tb omitempty (q : bool) t v z w : Prop :=
  forall o, exists n, observe (bsteps (new_builder q) (encode_top x tb omitempty t v)) = (None, n) /\
  exists r hs, y_decode x tb omitempty false o false 20 t z n = Done (w, (r, hs)) /\ no_errors (y_engine o) o 20 r.
Ltac gives := intro; eexists; split; [vm_compute; reflexivity|]; do 2 eexists; split; [vm_compute; reflexivity|reflexivity].

(** No decoder could tell a pointer to a nil (through any number of pointers) from a nil pointer: the
    same calls are made for both. *)
Theorem C41_pointer_to_nil_refuted :
  forall x tb omitempty e v, typed tb e v -> null_like v ->
    GoPtr v <> GoNil /\ encode_top x tb omitempty (TyPtr e) (GoPtr v) = encode_top x tb omitempty (TyPtr e) GoNil.
Proof. intros x tb om e v Ht Hn. split; [discriminate|]. exact (null_like_encoded x tb om v e Ht Hn). Qed.
Print Assumptions C41_pointer_to_nil_refuted.

(** A pointer to a nil pointer comes back as nil. *)
Theorem C41_nested_pointer_refuted :
  typed [] (TyPtr (TyPtr TyString)) (GoPtr GoNil) /\
  y_gives x_none [] false false (TyPtr (TyPtr TyString)) (GoPtr GoNil) GoNil GoNil.
Proof. split; [repeat constructor|gives]. Qed.
Print Assumptions C41_nested_pointer_refuted.

(** With omitempty, an empty slice that is not nil comes back as nil. *)
Theorem C41_omitempty_refuted :
  let tb := [[mkField (t' "a") (TySlice TyString) false true]] in
  typed tb (TyStruct 0) (GoStruct [GoSlice []]) /\
  y_gives x_none tb false false (TyStruct 0) (GoStruct [GoSlice []]) (GoStruct [GoNil]) (GoStruct [GoNil]).
Proof.
  split; [|gives]. eapply T_struct; [reflexivity|cbn; repeat constructor; cbn; tauto|]. fs. apply T_slice. constructor.
Qed.
Print Assumptions C41_omitempty_refuted.

(** With the option that leaves one-line strings unquoted, the string null is lost. *)
Theorem C41_unquoted_refuted :
  y_gives x_none [] false true TyString (GoString (t' "null")) (GoString []) (GoString []).
Proof. gives. Qed.
Print Assumptions C41_unquoted_refuted.

(** goyaml: after a field with text methods, such as a time, the other fields are lost.  UnmarshalText
    succeeds, but AddError(nil) reads all iterators to their end. *)
Definition c41_graph : graph :=
  [mkX KMapping (t' "!!map") [] [] [Some 1; Some 2; Some 3; Some 4] None;
   gscalar (t' "!!str") (t' "a"); gscalar (t' "!!str") (t' "x"); gscalar (t' "!!str") (t' "b"); gscalar (t' "!!str") (t' "y")].
Definition c41_short (st : N) (tag v : text) : text := match tag with [] => t' "!!str" | _ => t' "!!null" end.
Theorem C41_goyaml_text_refuted :
  let tb := [[mkField (t' "a") (TyText 0) false false; mkField (t' "b") TyString false false]] in
  let v := GoStruct [GoText 120%N; GoString (t' "y")] in
  short_ok c41_short /\ typed tb (TyStruct 0) v /\
  exists n, g_observe (gsteps (g_new false) (map gop_of (encode_top x_none tb false (TyStruct 0) v))) = (None, Some n) /\
  holds c41_short c41_graph (Some 0) n /\
  forall o marshal, exists r hs,
    g_decode x_none tb false false o marshal false 20 (TyStruct 0) (GoStruct [GoText 0%N; GoString []]) c41_graph (Some 0)
    = Done (GoStruct [GoText 120%N; GoString []], (r, hs)) /\ no_errors (g_engine marshal o) o 20 r.
Proof.
  split; [|split; [|eexists; split; [vm_compute; reflexivity|split]]].
  - split; [reflexivity|]. split; intros; discriminate.
  - eapply T_struct; [reflexivity|cbn; repeat constructor; cbn; intuition discriminate|]. fs; constructor.
  - eapply H_node; try reflexivity; [intro; discriminate|]. fs; (eapply H_node; try reflexivity; constructor).
  - intros. do 2 eexists. split; [vm_compute; reflexivity|reflexivity].
Qed.
Print Assumptions C41_goyaml_text_refuted.

(** C47.  Full statement: the generated decoder returns on every document.  It is false for yayamls:
    after an error, the loops over collections with unread items go on forever.  A list of integers is
    not read from [x, 1], for any fuel, *)
Theorem C47_yayamls_refuted :
  forall x tb omitempty strict o b fuel,
    y_decode x tb omitempty strict o false fuel (TySlice (TyInt b)) GoNil (NSequence [plain_text (t' "x"); plain_text (t' "1")])
    = NoFuel.
Proof. exact never_returns. Qed.
Print Assumptions C47_yayamls_refuted.

(** ... and no loop returns that begins an iteration after an error while items are left, whatever is
    done in it. *)
Theorem C47_loop_after_error_refuted :
  forall Nd K A (en : engine Nd K) o f (body : A -> prog Nd A) h g a r hs res,
    has_fatal r = true -> h < length hs -> coll_more r (nth h hs CollNil) = Done true ->
    interp en o f (while g h (fun _ => true) body a) (r, hs) <> Done res.
Proof. intros Nd K A en o f body h. exact (loop_after_error en o f body h). Qed.
Print Assumptions C47_loop_after_error_refuted.

(** C48.  Full statement: decoding a value of a type reads the node of that value and nothing else.  For
    documents that fit this is C23 with C41; for others it is false.  The zero value is stored for a null,
    but then the decoder goes on to read a mapping: where nothing follows it ends with an error. *)
Theorem C48_null_struct_refuted :
  forall x tb omitempty strict o multi i z z0, zeroval x tb (TyStruct i) z0 ->
    exists F, forall f, F <= f -> exists r hs,
      y_decode x tb omitempty strict o multi f (TyStruct i) z NNull = Done (z0, (r, hs))
      /\ do_call (y_engine o) o f DError r = Done (AErrors [REnd], r).
Proof. exact null_struct. Qed.
Print Assumptions C48_null_struct_refuted.

(** where a mapping follows it is read instead: of the three structs in [null, {a: x}, {a: y}] two remain, *)
Definition c48_table : structs := [[mkField (t' "a") TyString false false]].
Definition q_ (s : string) : node := NText (t' s) DoubleQuoting.
Theorem C48_null_element_refuted :
  forall o, exists r hs,
    y_decode x_none c48_table false true o false 30 (TySlice (TyStruct 0)) GoNil
      (NSequence [NNull; NMapping [NEntry (q_ "a") (q_ "x")]; NMapping [NEntry (q_ "a") (q_ "y")]])
    = Done (GoSlice [GoStruct [GoString (t' "x")]; GoStruct [GoString (t' "y")]], (r, hs))
    /\ no_errors (y_engine o) o 30 r.
Proof. intro. do 2 eexists. split; [vm_compute; reflexivity|reflexivity]. Qed.
Print Assumptions C48_null_element_refuted.

(** and when a list is longer than the array it is read into, the rest is taken for keys and values of
    the struct around it, and b is lost. *)
Definition c48_array : structs := [[mkField (t' "a") (TyArray 1 TyString) false false; mkField (t' "b") TyString false false]].
Theorem C48_long_array_refuted :
  forall o, exists r hs,
    y_decode x_none c48_array false false o false 30 (TyStruct 0) (GoStruct [GoArray [GoString []]; GoString []])
      (NMapping [NEntry (q_ "a") (NSequence [q_ "1"; q_ "2"]); NEntry (q_ "b") (q_ "x")])
    = Done (GoStruct [GoArray [GoString (t' "1")]; GoString []], (r, hs))
    /\ no_errors (y_engine o) o 30 r.
Proof. intro. do 2 eexists. split; [vm_compute; reflexivity|reflexivity]. Qed.
Print Assumptions C48_long_array_refuted.
