(** Property C50: MarshalYAML followed by UnmarshalYAML, through the text (yayamls). *)
From Coq Require Import String.
From Verif Require Import Base Schema SchemaSpec Values Ast Writer Builder BuilderSpec Encoder YamlChar Parser ParserDocs ParserFacts
  RoundTripSpec Reader YReader ReaderCases GenCode GenSpec GenMarshal MarshalSpec MarshalProofs.
Local Open Scope nat_scope.

(** C50.  Full statement: [UnmarshalYAML (MarshalYAML v)] is [v], without an error, for every type and
    every value.  It is false (see below).  It holds for types of any shape and values of any size that
    survive the generated code (C41) and whose text can be read back (C21): [textual] excludes strings
    that need escapes, empty collections, keys that are not scalars.  Nils may be anywhere.  The whole way
    is covered: generated encoder, builder, encoder, writer; tokenizer, parser, reader, generated decoder. *)
Theorem C50_marshal_unmarshal_partial :
  forall digit x tb omitempty strict o t v z,
    typed tb t v -> textual x tb omitempty t v -> survives x tb o omitempty omitempty t v -> zeroval x tb t z ->
    exists s, y_marshal x tb omitempty t v = [Encoder.AText (OutText s)] /\
    exists F, forall f, F <= f -> y_unmarshal digit x tb omitempty strict o f t z s = Done (v, None).
Proof. exact marshal_unmarshal. Qed.
Print Assumptions C50_marshal_unmarshal_partial.

(** type T struct { Name string; Next *T `omitempty`; Attrs map[string][]int8; Secret bool `-` } *)
Definition c50_x : externs :=
  mkExterns (fun _ => []) (fun _ n => inl [n]) (fun _ s => match s with [n] => Some n | _ => None end) (fun _ => 0%N).
Definition c50_table : structs :=
  [[mkField (t' "name") TyString false false; mkField (t' "next") (TyPtr (TyStruct 0)) false true;
    mkField (t' "attrs") (TyMap TyString (TySlice (TyInt 8))) false false; mkField (t' "-") TyBool true false]].
Definition c50_value : goval :=
  GoStruct [GoString (t' "null: # x");
            GoPtr (GoStruct [GoString []; GoNil; GoNil; GoBool false]);
            GoMap [(GoString (t' "a"), GoSlice [GoInt (-128); GoInt 7]); (GoString (t' "b"), GoNil)];
            GoBool false].
Definition line (s : string) : text := map (fun c => if (c =? 39)%N then 34%N else c) (t' s) ++ [10%N].
Ltac each := repeat (apply Forall_cons || apply Forall_nil || apply Forall2_cons || apply Forall2_nil).
Ltac chars := each; (split; [vm_compute; split; discriminate|vm_compute; intuition discriminate]).
Lemma c50_names : NoDup (map fl_name (filter (fun d => negb (fl_skip d)) (nth 0 c50_table []))).
Proof. cbn. repeat constructor; cbn; intuition discriminate. Qed.
Example C50_example :
  typed c50_table (TyStruct 0) c50_value /\ textual c50_x c50_table false (TyStruct 0) c50_value
  /\ survives c50_x c50_table o_none false false (TyStruct 0) c50_value
  /\ zeroval c50_x c50_table (TyStruct 0) (GoStruct [GoString []; GoNil; GoNil; GoBool false])
  /\ y_marshal c50_x c50_table false (TyStruct 0) c50_value =
     [Encoder.AText (OutText (line "'name': 'null: # x'" ++ line "'next':" ++ line "  'name': ''" ++ line "  'attrs': null" ++
        line "'attrs':" ++ line "  'a':" ++ line "    - -128" ++ line "    - 7" ++ line "  'b': null"))].
Proof.
  split; [|split; [|split; [|split]]]; [| | | |vm_compute; reflexivity].
  - eapply T_struct; [reflexivity|exact c50_names|]. each; cbn [fl_type].
    + constructor.
    + apply T_ptr. eapply T_struct; [reflexivity|exact c50_names|]. each; constructor; reflexivity.
    + apply T_map; [|cbn; repeat constructor; cbn; intuition discriminate].
      each; cbn [fst snd]; (split; [apply T_string|]);
        [apply T_slice; each; (apply T_int; [vm_compute; discriminate|vm_compute; reflexivity])|apply T_nil; reflexivity].
    + constructor.
  - eapply X_struct; [reflexivity| |exists 0; do 2 eexists; split; [reflexivity|split; [reflexivity|]];
      intros [H|[H _]]; discriminate H]. each.
    + apply FX_in; [chars|constructor; chars].
    + apply FX_in; [chars|]. constructor. eapply X_struct; [reflexivity| |exists 0; do 2 eexists; split; [reflexivity|split; [reflexivity|]];
        intros [H|[H _]]; discriminate H]. each.
      * apply FX_in; [chars|constructor; constructor].
      * apply FX_out. right. split; [reflexivity|exact I].
      * apply FX_in; [chars|constructor].
      * apply FX_out. left. reflexivity.
    + apply FX_in; [chars|]. constructor; [discriminate|reflexivity|]. each; cbn [fst snd]; (split; [constructor; chars|]).
      * constructor; [discriminate|]. each; constructor.
      * constructor.
    + apply FX_out. left. reflexivity.
  - eapply S_struct; [reflexivity|]. each.
    + apply F_written; [discriminate|reflexivity|constructor; exact I].
    + apply F_written; [intros _ []|reflexivity|]. cbn. apply S_ptr; [intros []|].
      eapply S_struct; [reflexivity|]. each.
      * apply F_written; [discriminate|reflexivity|constructor; exact I].
      * apply F_omitted; [reflexivity|exact I|apply Z_nil; reflexivity].
      * apply F_written; [discriminate|reflexivity|apply S_nil].
      * apply F_skipped; [reflexivity|constructor].
    + apply F_written; [discriminate|reflexivity|]. cbn. apply S_map; [discriminate|].
      each; cbn [fst snd]; (split; [constructor; exact I|]); [apply S_slice; each; constructor; exact I|apply S_nil].
    + apply F_skipped; [reflexivity|constructor].
  - eapply Z_struct; [reflexivity|]. each; constructor; reflexivity.
Qed.

(** ** What does not come back *)
Definition comes_back (tb : structs) (t : gotype) (v z w : goval) (e : option unmarshal_error) : Prop :=
  exists s, y_marshal c50_x tb false t v = [Encoder.AText (OutText s)] /\
    forall digit strict o f, 4 * length s + 30 <= f -> y_unmarshal digit c50_x tb false strict o f t z s = Done (w, e).
Ltac fuel f Hf := do 30 (destruct f as [|f]; [cbn in Hf; lia|]); clear Hf; reflexivity.
(** A string with a line break comes back with a backslash and an n, without an error. *)
Theorem C50_escape_refuted :
  comes_back [] TyString (GoString [97%N; 10%N; 98%N]) (GoString []) (GoString (t' "a\nb")) None.
Proof.
  eexists. split; [vm_compute; reflexivity|]. intros digit strict o f Hf. unfold y_unmarshal.
  rewrite (parse_string_at digit true _ (inl (NText (t' "a\nb") DoubleQuoting))); [fuel f Hf|vm_compute; reflexivity|lia].
Qed.
Print Assumptions C50_escape_refuted.
(** An empty slice is an empty document: an error.  Inside of other values it comes back as nil. *)
Theorem C50_empty_refuted :
  comes_back [] (TySlice TyString) (GoSlice []) GoNil (GoSlice []) (Some (URead [REnd]))
  /\ comes_back [] (TySlice (TySlice TyString)) (GoSlice [GoSlice []; GoSlice [GoString (t' "a")]]) GoNil
       (GoSlice [GoNil; GoSlice [GoString (t' "a")]]) None.
Proof.
  split; (eexists; split; [vm_compute; reflexivity|]; intros digit strict o f Hf; unfold y_unmarshal).
  - rewrite (parse_string_at digit true _ (inl (NStream []))); [fuel f Hf|vm_compute; reflexivity|lia].
  - rewrite (parse_string_at digit true _ (inl (NSequence [NNull; NSequence [NText (t' "a") DoubleQuoting]])));
      [fuel f Hf|vm_compute; reflexivity|lia].
Qed.
Print Assumptions C50_empty_refuted.
