(** Property C53: UnmarshalYAML of a text. *)
From Coq Require Import String.
From Verif Require Import Base Schema SchemaSpec Values Ast Writer Reader ReadSpec ReaderSpec ReaderCases YReader GenCode GenSpec GenMarshal CursorSpec CursorCases
  MeaningSpec MeaningReads RoundTripSpec TextSpec TextFacts TextProofs UnmarshalProofs Props_Cursor Props_Meaning.
Local Open Scope nat_scope.

(** C53.  Full statement: UnmarshalYAML gives for every text the value that the text means in the type, and
    an error for texts that mean none.  Here: for the texts of the grammar of documents (C52) that have a
    meaning (C51), for all types, whatever the destination holds before, on yayamls.  Missing: the texts
    that C52 does not cover, texts without a meaning (refuted by C47_yayamls_refuted), aliases. *)
Theorem C53_unmarshal_partial :
  forall digit x tb omitempty strict o zero_of t z n s w v,
    sensible x tb -> zeros x tb zero_of -> known tb t -> typed tb t z -> document_text n s -> y_tree n = Some w ->
    meaning_of x tb omitempty strict o zero_of t z (doc w) = Gives v ->
    exists F, forall f, F <= f -> y_unmarshal digit x tb omitempty strict o f t z s = Done (v, None).
Proof. exact text_means. Qed.
Print Assumptions C53_unmarshal_partial.

(** The document of C51_example as a text. *)
Definition c53_text : text :=
  t' "--- # people" ++ nl ++ t' "name : new" ++ crlf ++ t' "kids:" ++ nl ++ t' "- {name: a, ""other"": [1]}" ++ nl ++ nl ++ t' "-  kids:" ++ nl ++
  t' "next:" ++ nl ++ t' "   kids: []".
Definition c53_tree : node :=
  NMapping [NEntry (u "name") (u "new");
            NEntry (u "kids") (NSequence [NMapping [NEntry (u "name") (u "a"); NEntry (NText (t' "other") DoubleQuoting) (NSequence [u "1"])];
                                          NMapping [NEntry (u "kids") NNull]]);
            NEntry (u "next") (NMapping [NEntry (u "kids") (NSequence [])])].
Lemma c53_text_of : document_text c53_tree c53_text.
Proof.
  assert (P : forall s, plain_word (string_to_text s) -> scalar_text (u s) (string_to_text s)) by (intros; constructor; constructor; assumption).
  assert (W : forall s, plain_word (string_to_text s) -> hd 0%N (string_to_text s) <> 58%N -> word_text (u s) (string_to_text s)) by (split; auto).
  assert (L : forall n s, plain_word (string_to_text s) -> leaf_text n (u s) (string_to_text s)) by (intros; apply lt_scalar; auto).
  apply (sm_marked false [] _ (t' " # people" ++ nl ++ t' "name : new" ++ crlf ++ t' "kids:" ++ nl ++ t' "- {name: a, ""other"": [1]}" ++ nl ++ nl ++ t' "-  kids:" ++ nl ++
    t' "next:" ++ nl ++ t' "   kids: []") [] []); [constructor| |apply dn_end, en_line, (tr_blank 0)|].
  2: { intros _. apply (ends_other (t' " # people" ++ nl ++ t' "name : new" ++ crlf ++ t' "kids:" ++ nl ++ t' "- {name: a, ""other"": [1]}" ++ nl ++ nl ++ t' "-  kids:" ++ nl ++
    t' "next:" ++ nl ++ t' "   kids: [")). discriminate. }
  apply (mk_below false (t' " # people" ++ nl)); [apply (comment_gap 0 (t' "# people")); [comment_ok|constructor]|].
  apply (ls_entries false false 0 [_; _; _]).
  apply (es_more false false false 0 _ (t' "name : new") crlf [_; _]); [|constructor; apply (gp_lines [] crlf []); [apply (tr_blank 0)|constructor|constructor]|].
  { apply (et_map false 0 _ (t' "name") 1 _ (t' " new")); [apply P; word_ok|apply at_word, L; word_ok]. }
  apply (es_next false false 0 _ (t' "kids:" ++ nl ++ t' "- {name: a, ""other"": [1]}" ++ nl ++ nl ++ t' "-  kids:") [_]).
  - apply (et_key false 0 _ (t' "kids") (build true _) (nl ++ t' "- {name: a, ""other"": [1]}" ++ nl ++ nl ++ t' "-  kids:")); [apply P; word_ok|].
    apply (at_lines false false true 0 nl 0); [exact gap_line|auto|].
    apply (es_more false false true 0 _ (t' "- {name: a, ""other"": [1]}") (nl ++ nl) [_]); [|constructor; apply (gp_lines [] nl nl); [apply (tr_blank 0)|constructor|apply (id_more [] nl []); [apply (il_blank 0)|constructor|constructor]]|].
    + apply (et_seq false 0 _ (t' " {name: a, ""other"": [1]}")), at_word, (lt_flow _ 1); [lia|].
      apply (items_flow _ false 1 0 [_; _] (t' "name: a, ""other"": [1]")).
      apply (more_items _ false 1 _ (t' "name: a") 0 1).
      { apply (it_pair _ false 1 (u "name") (t' "name") 0 1 (u "a") (t' "a")); [apply W; [word_ok|discriminate]|intro E; discriminate|].
        constructor. apply W; [word_ok|discriminate]. }
      apply (one_item _ false 1 _ (t' """other"": [1]") 0). apply (it_pair _ false 1 _ (t' """other""") 0 1 _ (t' "[1]")); [|intro E; discriminate|].
      { split; [|discriminate]. apply (stx_double (t' "other")). repeat constructor; cbn; intuition lia. }
      apply (items_flow _ true 0 0 _ (t' "1")), (one_item _ true 0 _ (t' "1") 0), it_node, ft_scalar, W; [word_ok|discriminate].
    + apply es_one, (et_seq false 0 (build false _) (t' "  kids:")), (at_coll false false 0 1), es_one, (et_key false 3 _ (t' "kids") _ []); [apply P; word_ok|constructor].
  - apply es_one, (et_key false 0 _ (t' "next") (build false _) (nl ++ t' "   kids: []")); [apply P; word_ok|].
    apply (at_lines false false false 0 nl 3); [exact gap_line|left; lia|].
    apply es_one, (et_key false 3 _ (t' "kids") _ (t' " []")); [apply P; word_ok|]. apply at_word, (lt_flow _ 1); [lia|apply (empty_flow _ true 0 0)].
Qed.
Example C53_example : document_text c53_tree c53_text
  /\ (exists w, y_tree c53_tree = Some w /\ forall o, meaning_of c47_x c47_table false false o c51_zero (TyStruct 0) c51_old (doc w) = Gives c51_value)
  /\ forall digit o, exists F, forall f, F <= f -> y_unmarshal digit c47_x c47_table false false o f (TyStruct 0) c51_old c53_text = Done (c51_value, None).
Proof.
  split; [exact c53_text_of|]. split; [eexists; split; reflexivity|]. intros digit o.
  destruct C51_example as (_ & Z & T & _).
  eapply C53_unmarshal_partial with (zero_of := c51_zero); [exact (proj1 C47_example)|exact Z|exact (proj1 (proj2 C47_example))|exact T|exact c53_text_of|reflexivity|reflexivity].
Qed.
