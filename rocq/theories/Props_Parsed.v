(** C58: the parser gives trees of documents, whatever the input. *)
From Coq Require Import String.
From Verif Require Import Base YamlChar Values Token Ast CPAccessor Lexer Parser ParserDocs ParserFacts ParserTotal Utf8 Comparator ComparatorSpec Printer PrinterSpec
  Schema SchemaSpec Writer Reader ReadSpec ReaderSpec YReader GenCode GenSpec GenMarshal CursorSpec MeaningSpec MeaningReads ParsedSpec ParsedProofs ParsedFacts
  ReaderCases CursorCases RoundTripSpec TextSpec Props_Cursor Props_Meaning Props_Unmarshal Props_Marshal.
Local Open Scope nat_scope.

(** For every stream of tokens, also one that does not come from a tokenizer, and also if there are errors. *)
Theorem C58_any_tokens :
  forall S digit fuel (st : stream S) s tree errs,
    parse_token_stream digit fuel st s = Fin (tree, errs) tt -> exists docs, tree = NStream docs /\ Forall document docs.
Proof. exact @token_stream_documents. Qed.
Print Assumptions C58_any_tokens.
(** For all bytes: with WithOmitStream a single document is given itself. *)
Theorem C58_any_bytes :
  forall digit fuel omit_stream src tree,
    parse_bytes digit fuel omit_stream src = Fin (inl tree) tt ->
    (exists docs, tree = NStream docs /\ Forall document docs /\ (omit_stream = true -> length docs <> 1)) \/
    (omit_stream = true /\ document tree).
Proof. exact bytes_documents. Qed.
Print Assumptions C58_any_bytes.

(** So parsed trees can be printed, prints tell them apart (C57), and can be compared (the conditions of C27 and C28). *)
Theorem C58_parsed_trees_print :
  forall digit fuel omit_stream src tree,
    parse_bytes digit fuel omit_stream src = Fin (inl tree) tt -> exists s, print tree = PrText s.
Proof.
  intros digit fuel omit src tree H. apply bytes_documents, tree_proper, PrinterProofs.proper_whole, PrinterProofs.print_drawn in H. eauto.
Qed.
Print Assumptions C58_parsed_trees_print.
Theorem C58_prints_tell_parsed_trees :
  forall digit fuel omit_stream src src' n m,
    parse_bytes digit fuel omit_stream src = Fin (inl n) tt -> parse_bytes digit fuel omit_stream src' = Fin (inl m) tt ->
    (forall s, In s (texts n ++ texts m) -> ~ In 92%N s) -> print n = print m -> unquoted n = unquoted m.
Proof.
  intros digit fuel omit src src' n m H H'. apply PrinterProofs.prints_differ; eapply tree_proper; eapply bytes_documents; eassumption.
Qed.
Print Assumptions C58_prints_tell_parsed_trees.
Theorem C58_parsed_trees_compare :
  forall digit fuel omit_stream src tree,
    parse_bytes digit fuel omit_stream src = Fin (inl tree) tt -> tree <> NNil /\ no_nil_elements tree.
Proof. intros digit fuel omit src tree H. eapply proper_no_nil, tree_proper, bytes_documents, H. Qed.
Print Assumptions C58_parsed_trees_compare.

(** Documents without aliases and without pairs as elements of sequences have a value, so that all theorems on decoding
    (C23, C45, C48, C51) are about them. *)
Theorem C58_documents_have_values : forall n, document n -> ParsedSpec.simple n -> exists t, y_tree n = Some t.
Proof. intro n. exact (proj1 (simple_tree n)). Qed.
Print Assumptions C58_documents_have_values.

(** C53 for all texts that the parser accepts, in the grammar of C52 or not.  The texts that it does not accept are
    reported, and leave the destination as it is. *)
Theorem C53_accepted_text_partial :
  forall digit x tb omitempty strict o zero_of t z n s,
    sensible x tb -> zeros x tb zero_of -> known tb t -> typed tb t z ->
    parse_string digit (4 * length s + 4) true s = Fin (inl n) tt -> ParsedSpec.simple n ->
    exists w, y_tree n = Some w /\ forall v, meaning_of x tb omitempty strict o zero_of t z (doc w) = Gives v ->
      exists F, forall f, F <= f -> y_unmarshal digit x tb omitempty strict o f t z s = Done (v, None).
Proof. exact accepted_means. Qed.
Print Assumptions C53_accepted_text_partial.
Theorem C53_rejected_text :
  forall digit x tb omitempty strict o t z s es,
    parse_string digit (4 * length s + 4) true s = Fin (inr es) tt ->
    forall f, 4 * length s + 4 <= f -> y_unmarshal digit x tb omitempty strict o f t z s = Done (z, Some (USyntax es)).
Proof. exact rejected_keeps. Qed.
Print Assumptions C53_rejected_text.

(** A pair in a flow sequence stands for a mapping with one entry (YAML 1.2.2, 7.4.1), but the parser puts the entry itself
    into the sequence.  It has no value: read as strings, key and value are two elements, and it cannot be read as
    a mapping. *)
Theorem C58_pairs_refuted :
  forall digit f, 60 <= f ->
    let tree := NSequence [NEntry (NText (t' "a") UnknownQuoting) (NText (t' "b") UnknownQuoting)] in
    parse_string digit f true (t' "[a: b]") = Fin (inl tree) tt /\ document tree /\ y_tree tree = None.
Proof.
  intros digit f Hf tree. split; [|split].
  - apply parse_string_at; [vm_compute; reflexivity|cbn; lia].
  - apply doc_content, con_seq. constructor; [|constructor]. right. constructor; apply doc_content; constructor.
  - reflexivity.
Qed.
Print Assumptions C58_pairs_refuted.
Theorem C53_pairs_refuted :
  forall digit strict o f, 60 <= f ->
    y_unmarshal digit c50_x [] false strict o f (TySlice TyString) GoNil (t' "[a: b, c]")
      = Done (GoSlice [GoString (t' "a"); GoString (t' "b"); GoString (t' "c")], None)
    /\ y_unmarshal digit c50_x [] false strict o f (TySlice (TyMap TyString TyString)) GoNil (t' "[a: b]")
      = Done (GoSlice [GoMap []], Some (URead [RDeny EMapping])).
Proof.
  intros digit strict o f Hf. unfold y_unmarshal. split.
  - rewrite (parse_string_at digit true _ (inl (NSequence [NEntry (NText (t' "a") UnknownQuoting) (NText (t' "b") UnknownQuoting); NText (t' "c") UnknownQuoting])));
      [fuel f Hf|vm_compute; reflexivity|cbn; lia].
  - rewrite (parse_string_at digit true _ (inl (NSequence [NEntry (NText (t' "a") UnknownQuoting) (NText (t' "b") UnknownQuoting)])));
      [fuel f Hf|vm_compute; reflexivity|cbn; lia].
Qed.
Print Assumptions C53_pairs_refuted.

(** Anchors, tags, aliases, explicit keys, a folded scalar and two documents, in bytes. *)
Definition c58_text : text :=
  t' "&a !!map" ++ [10%N] ++ t' "? [x, y: z, {? q : r}]" ++ [10%N] ++ t' ": !t >-" ++ [10%N] ++ t' "  one" ++ [10%N] ++ t' "  two" ++ [10%N] ++ t' "k: *a" ++ [10%N] ++ t' "..." ++ [10%N] ++ t' "'q'" ++ [10%N].
Definition c58_tree : node := Eval vm_compute in
  match parse_bytes (fun _ => false) 400 true c58_text with Fin (inl n) _ => n | _ => NNil end.
Example C58_example :
  parse_bytes (fun _ => false) 400 true c58_text = Fin (inl c58_tree) tt
  /\ c58_tree = NStream [
       NContent (NProperties (NTag (t' "map")) (NAnchor (t' "a"))) (NMapping [
         NEntry (NSequence [NText (t' "x") UnknownQuoting; NEntry (NText (t' "y") UnknownQuoting) (NText (t' "z") UnknownQuoting); NMapping [NEntry (NText (t' "q") UnknownQuoting) (NText (t' "r") UnknownQuoting)]])
                (NContent (NProperties (NTag (t' "t")) NInvalid) (NText (t' "one two") UnknownQuoting));
         NEntry (NText (t' "k") UnknownQuoting) (NAlias (t' "a"))]);
       NText (t' "q") SingleQuoting].
Proof. split; vm_compute; reflexivity. Qed.
(** A text outside of the grammar of C52: an explicit key, a tag and a folded scalar. *)
Definition c58_name : text := t' "? !!str name" ++ [10%N] ++ t' ": >-" ++ [10%N] ++ t' "  new" ++ [10%N].
Example C53_accepted_example : forall digit o,
  parse_string digit (4 * length c58_name + 4) true c58_name
    = Fin (inl (NMapping [NEntry (NContent (NProperties (NTag (t' "str")) NInvalid) (NText (t' "name") UnknownQuoting)) (NText (t' "new") UnknownQuoting)])) tt
  /\ exists F, forall f, F <= f -> y_unmarshal digit c47_x c47_table false false o f (TyStruct 0) c51_old c58_name = Done
       (GoStruct [GoString (t' "new"); GoNil; GoPtr (GoStruct [GoString (t' "deep"); GoNil; GoNil])], None).
Proof.
  intros digit o. assert (E : parse_string digit (4 * length c58_name + 4) true c58_name = Fin (inl (NMapping [NEntry (NContent (NProperties (NTag (t' "str")) NInvalid)
    (NText (t' "name") UnknownQuoting)) (NText (t' "new") UnknownQuoting)])) tt) by (vm_compute; reflexivity).
  split; [exact E|]. destruct C51_example as (_ & Z & T & _).
  destruct (C53_accepted_text_partial digit c47_x c47_table false false o c51_zero (TyStruct 0) c51_old _ c58_name
    (proj1 C47_example) Z (proj1 (proj2 C47_example)) T E) as (w & Ew & H).
  - apply simple_map. constructor; [|constructor]. repeat constructor.
  - inversion Ew. subst w. apply H. reflexivity.
Qed.
