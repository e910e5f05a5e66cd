(** Property C21: written documents parse back to the same tree. *)
From Coq Require Import String.
From Verif Require Import Base Ast Parser ParserDocs ParserFacts Writer Encoder WriterSpec RoundTripSpec TextSpec NotedSpec RoundTripProofs.
Local Open Scope nat_scope.

(** C21.  Full statement: [forall t, parse (serialized t) = t] for every tree of scalars, sequences,
    mappings, anchors, tags and aliases.  It is false (see the refutations below).  It holds for all
    trees of any depth and width made of words, of quoted texts that need no escapes, of non-empty
    sequences, and of non-empty mappings with scalar keys ([simple]).  Up to the label of unquoted
    text and nulls, which come back as the text null ([reread]), the same tree comes back, alone or as the only document of a stream. *)
Theorem C21_round_trip_partial :
  forall t, simple t -> exists s, serialized t = OutText s /\
    forall digit omit fuel, 4 * length s + 4 <= fuel ->
      parse_string digit fuel omit s = Fin (inl (if omit then reread t else NStream [reread t])) tt.
Proof. exact round_trip. Qed.
Print Assumptions C21_round_trip_partial.

(** If no text of the tree asks for the absence of quotes, the very same tree comes back. *)
Theorem C21_same_tree_partial :
  forall t, simple t -> reread t = t -> exists s, serialized t = OutText s /\
    forall digit fuel, 4 * length s + 4 <= fuel -> parse_string digit fuel true s = Fin (inl t) tt.
Proof.
  intros t H E. destruct (round_trip t H) as (s & E1 & E2). exists s. split; [exact E1|].
  intros digit fuel Hf. rewrite (E2 digit true fuel Hf), E. reflexivity.
Qed.
Print Assumptions C21_same_tree_partial.

Definition word_ (s : string) : node := NText (t' s) UnknownQuoting.
Definition c21_tree : node :=
  NMapping [NEntry (word_ "one two") (NSequence [NSequence [word_ "-1"; word_ "http://x"];
                                                 NMapping [NEntry (NText (t' "k: v") SingleQuoting) (word_ ".5")]]);
            NEntry (word_ "b") (NText (t' "# no, [comment]") DoubleQuoting)].
Ltac each_char := apply Forall_forall; let c := fresh in let H := fresh in intros c H; vm_compute in H;
  repeat (destruct H as [<-|H]); [..|destruct H].
Ltac a_word := split; [discriminate|split; [each_char; vm_compute; intuition discriminate|]];
  split; [vm_compute; intuition discriminate|split; [vm_compute; discriminate|vm_compute; intuition discriminate]].

Example C21_example : simple c21_tree /\ reread c21_tree = c21_tree /\
  serialized c21_tree = OutText (t' "one two:" ++ [10%N] ++ t' "  - - -1" ++ [10%N] ++ t' "    - http://x" ++ [10%N] ++
    t' "  - 'k: v': .5" ++ [10%N] ++ t' "b: " ++ [34%N] ++ t' "# no, [comment]" ++ [34%N; 10%N]).
Proof.
  split; [|split; vm_compute; reflexivity].
  assert (W : forall s, plain_word (t' s) -> simple_scalar (word_ s)) by (intros s H; constructor; [auto|apply pt_word, H]).
  assert (Two : simple_scalar (word_ "one two")).
  { constructor; [auto|]. change (t' "one two") with (t' "one" ++ repeat 32%N 1 ++ t' "two"). apply pt_more; [|apply pt_word]; a_word. }
  assert (S : simple_scalar (NText (t' "k: v") SingleQuoting)).
  { apply ss_single. each_char; (split; [right; vm_compute; split; discriminate|vm_compute; intuition discriminate]). }
  assert (D : simple_scalar (NText (t' "# no, [comment]") DoubleQuoting)).
  { apply ss_double. each_char; (split; [vm_compute; split; discriminate|vm_compute; intuition discriminate]). }
  apply simple_mapping; [discriminate|]. apply Forall_cons; [|apply Forall_cons; [|apply Forall_nil]].
  - apply simple_entry_; [exact Two|]. apply simple_sequence; [discriminate|]. apply Forall_cons; [|apply Forall_cons; [|apply Forall_nil]].
    + apply simple_sequence; [discriminate|]. apply Forall_cons; [|apply Forall_cons; [|apply Forall_nil]]; apply simple_scalar_, W; a_word.
    + apply simple_mapping; [discriminate|]. apply Forall_cons; [|apply Forall_nil]. apply simple_entry_; [exact S|]. apply simple_scalar_, W; a_word.
  - apply simple_entry_; [apply W; a_word|apply simple_scalar_, D].
Qed.

(** The same with aliases anywhere, with tags and anchors on the values of mappings (scalars and block collections),
    and with tags and anchors on scalars in sequences ([noted]).  Elsewhere they are lost: see [C21_anchor_refuted]
    and [C21_marked_alias_refuted].  Texts of several lines may be values of mappings and entries of sequences, and
    are written as literal scalars ([many_lines]; for other texts see [C21_lines_refuted]). *)
Theorem C21_marks_partial :
  forall t, noted t -> exists s, serialized t = OutText s /\
    forall digit omit fuel, 4 * length s + 4 <= fuel ->
      parse_string digit fuel omit s = Fin (inl (if omit then reread t else NStream [reread t])) tt.
Proof. exact noted_round_trip. Qed.
Print Assumptions C21_marks_partial.

Definition anchored (a : string) (t : node) : node := NContent (NProperties NInvalid (NAnchor (t' a))) t.
Definition c21_marked : node :=
  NMapping [NEntry (word_ "base") (anchored "b1" (NMapping [NEntry (word_ "x") (NContent (NProperties (NTag (t' "str")) NInvalid) (word_ "1"))]));
            NEntry (word_ "list") (NContent (NProperties (NTag (t' "seq")) (NAnchor (t' "l"))) (NSequence [anchored "i" (word_ "2"); NAlias (t' "b1")]));
            NEntry (word_ "same") (NAlias (t' "l"))].
Example C21_marks_case : noted c21_marked /\ reread c21_marked = c21_marked /\
  serialized c21_marked = OutText (t' "base: &b1" ++ [10%N] ++ t' "  x: !!str 1" ++ [10%N] ++ t' "list: !!seq &l" ++ [10%N] ++
    t' "  - &i 2" ++ [10%N] ++ t' "  - *b1" ++ [10%N] ++ t' "same: *l" ++ [10%N]).
Proof.
  split; [|split; vm_compute; reflexivity].
  assert (W : forall s, plain_word (t' s) -> simple_scalar (word_ s)) by (intros s H; constructor; [auto|apply pt_word, H]).
  assert (T : forall w, forallb (fun c => ((97 <=? c) && (c <=? 122))%N)%bool w = true -> Forall tag_char w).
  { intros w H. apply Forall_forall. intros c Hc. rewrite forallb_forall in H. specialize (H c Hc). unfold tag_char, alnum. lia. }
  apply noted_mapping; [discriminate|]. repeat (apply Forall_cons; [constructor; [apply W; a_word|]|]); [..|apply Forall_nil].
  - apply value_marked; [apply nt_anchor; a_word| |discriminate]. apply noted_mapping; [discriminate|]. apply Forall_cons; [|apply Forall_nil].
    constructor; [apply W; a_word|]. apply value_marked; [apply nt_tag; [discriminate|apply T; reflexivity]| |discriminate]. apply noted_scalar, W; a_word.
  - apply value_marked; [apply nt_both; [discriminate|apply T; reflexivity|a_word]| |discriminate].
    apply noted_sequence; [discriminate|]. apply Forall_cons; [|apply Forall_cons; [|apply Forall_nil]].
    + apply item_marked; [apply nt_anchor; a_word|apply W; a_word].
    + apply item_bare, noted_alias; a_word.
  - apply value_bare, noted_alias; a_word.
Qed.

Definition lines_of (s : text) : node := NText s AbsentQuoting.
Definition c21_code : text := t' "if x # [1]:" ++ [10; 10]%N ++ t' "  - y" ++ [10%N] ++ t' "end" ++ [10; 10]%N.
Definition c21_pair : text := t' "a b" ++ [10%N] ++ t' "we don't".
Definition c21_lined : node :=
  NMapping [NEntry (word_ "k") (lines_of c21_pair); NEntry (word_ "s") (NSequence [lines_of c21_code; anchored "i" (lines_of c21_pair)])].
Ltac a_line w u := refine (ln_line w u _ _ _ _ _ _); [each_char; vm_compute; intuition discriminate|discriminate|each_char; vm_compute; intuition discriminate|vm_compute; intuition discriminate|vm_compute; intuition discriminate|first [left; reflexivity|right; vm_compute; auto]].
Example C21_lines_case : noted c21_lined /\
  reread c21_lined = NMapping [NEntry (word_ "k") (NText c21_pair UnknownQuoting);
                               NEntry (word_ "s") (NSequence [NText c21_code UnknownQuoting; anchored "i" (NText c21_pair UnknownQuoting)])] /\
  serialized c21_lined = OutText (t' "k: |-" ++ [10%N] ++ t' "  a b" ++ [10%N] ++ t' "  we don't" ++ [10%N] ++
    t' "s:" ++ [10%N] ++ t' "  - |+" ++ [10%N] ++ t' "    if x # [1]:" ++ [10; 10]%N ++ t' "      - y" ++ [10%N] ++ t' "    end" ++ [10; 10]%N ++
    t' "  - &i |-" ++ [10%N] ++ t' "    a b" ++ [10%N] ++ t' "    we don't" ++ [10%N]).
Proof.
  split; [|split; vm_compute; reflexivity].
  assert (W : forall s, plain_word (t' s) -> simple_scalar (word_ s)) by (intros s H; constructor; [auto|apply pt_word, H]).
  assert (P : many_lines c21_pair).
  { apply (my_lines (t' "a b") (10%N :: repeat 10%N 0 ++ t' "we don't" ++ []) 0); [| |left; discriminate].
    - a_line (t' "a") (t' " b").
    - apply ml_line; [|constructor]. apply fr_line. a_line (t' "we") (t' " don't"). }
  assert (C : many_lines c21_code).
  { apply (my_lines (t' "if x # [1]:") (10%N :: repeat 10%N 1 ++ t' "  - y" ++ 10%N :: repeat 10%N 0 ++ t' "end" ++ []) 2); [| |left; discriminate].
    - a_line (t' "if") (t' " x # [1]:").
    - apply ml_line; [|apply ml_line; [|constructor]].
      + apply (fr_blank 32%N (t' " - y")); [left; reflexivity|each_char; vm_compute; intuition discriminate].
      + apply fr_line. a_line (t' "end") (@nil N). }
  apply noted_mapping; [discriminate|]. repeat (apply Forall_cons; [constructor; [apply W; a_word|]|]); [..|apply Forall_nil].
  - apply value_lines, P.
  - apply value_bare, noted_sequence; [discriminate|]. apply Forall_cons; [|apply Forall_cons; [|apply Forall_nil]].
    + apply item_lines, C.
    + apply item_marked_lines; [apply nt_anchor; a_word|exact P].
Qed.

(** ** What does not come back *)
Definition comes_back_as (t r : node) : Prop := exists s, serialized t = OutText s /\
  forall digit fuel, 4 * length s + 4 <= fuel -> parse_string digit fuel true s = Fin (inl r) tt.

(** The null value comes back as the text null. *)
Theorem C21_null_refuted : exists t r, comes_back_as t r /\ t = NSequence [NNull] /\ r = NSequence [word_ "null"].
Proof.
  exists (NSequence [NNull]), (NSequence [word_ "null"]). split; [|split; reflexivity].
  eexists. split; [vm_compute; reflexivity|]. intros digit fuel Hf. apply parse_string_at; [vm_compute; reflexivity|exact Hf].
Qed.
Print Assumptions C21_null_refuted.

(** Quotes are not undone: an apostrophe is doubled and an escape stays an escape. *)
Theorem C21_quoted_refuted :
  comes_back_as (NText (t' "it's") SingleQuoting) (NText (t' "it''s") SingleQuoting) /\
  comes_back_as (NText [97%N; 10%N; 98%N] DoubleQuoting) (NText (t' "a\nb") DoubleQuoting).
Proof.
  split; (eexists; split; [vm_compute; reflexivity|]; intros digit fuel Hf; apply parse_string_at; [vm_compute; reflexivity|exact Hf]).
Qed.
Print Assumptions C21_quoted_refuted.

(** Text that is not quoted is written as it is: it can come back as a mapping, or cut at what looks
    like a comment. *)
Theorem C21_unquoted_refuted :
  comes_back_as (word_ "a: b") (NMapping [NEntry (word_ "a") (word_ "b")]) /\
  comes_back_as (word_ "a # b") (word_ "a").
Proof.
  split; (eexists; split; [vm_compute; reflexivity|]; intros digit fuel Hf; apply parse_string_at; [vm_compute; reflexivity|exact Hf]).
Qed.
Print Assumptions C21_unquoted_refuted.

(** Empty collections come back as null, or as no document at all. *)
Theorem C21_empty_refuted :
  comes_back_as (NSequence [NSequence []; word_ "v"]) (NSequence [NNull; word_ "v"]) /\
  comes_back_as (NMapping [NEntry (word_ "k") (NMapping [])]) (NMapping [NEntry (word_ "k") NNull]) /\
  comes_back_as (NSequence []) (NStream []).
Proof.
  repeat split; (eexists; split; [vm_compute; reflexivity|]; intros digit fuel Hf; apply parse_string_at; [vm_compute; reflexivity|exact Hf]).
Qed.
Print Assumptions C21_empty_refuted.

(** Anchors: at the root the anchor is glued to the value; for a sequence in a sequence the document
    is lost. *)
Theorem C21_anchor_refuted :
  let anchor := NProperties NInvalid (NAnchor (t' "x")) in
  comes_back_as (NContent anchor (word_ "v")) (NContent (NProperties NInvalid (NAnchor (t' "xv"))) NNull) /\
  comes_back_as (NSequence [NContent anchor (NSequence [word_ "v"])]) (NStream []).
Proof.
  split; (eexists; split; [vm_compute; reflexivity|]; intros digit fuel Hf; apply parse_string_at; [vm_compute; reflexivity|exact Hf]).
Qed.
Print Assumptions C21_anchor_refuted.

(** A tag on a mapping in a sequence moves to the first key; a tag before an alias is followed by nothing but the alias, and the document is lost. *)
Theorem C21_marked_alias_refuted :
  let tag := NProperties (NTag (t' "t")) NInvalid in
  comes_back_as (NSequence [NContent tag (NMapping [NEntry (word_ "k") (word_ "v")])])
                (NSequence [NMapping [NEntry (NContent tag (word_ "k")) (word_ "v")]]) /\
  comes_back_as (NMapping [NEntry (word_ "k") (NContent tag (NAlias (t' "a")))]) (NStream []).
Proof.
  split; (eexists; split; [vm_compute; reflexivity|]; intros digit fuel Hf; apply parse_string_at; [vm_compute; reflexivity|exact Hf]).
Qed.
Print Assumptions C21_marked_alias_refuted.

(** Texts of several lines: after an empty first line the indentation becomes part of the text; if the first line
    starts with a space, all lines but the first are lost; and a line that starts with a brace makes the document unreadable. *)
Theorem C21_lines_refuted :
  let value s := NMapping [NEntry (word_ "k") s] in
  comes_back_as (value (lines_of (10%N :: t' "a"))) (value (NText (10%N :: t' "  a") UnknownQuoting)) /\
  comes_back_as (value (lines_of (t' " a" ++ 10%N :: t' "b"))) (value (word_ "a")) /\
  exists s, serialized (value (lines_of (t' "a" ++ 10%N :: t' "{b"))) = OutText s /\
    forall digit fuel, 4 * length s + 4 <= fuel ->
      parse_string digit fuel true s = Fin (inr [UnbalancedOpening (Some Token.TMappingStart) (Token.mkPos 4%N 1%N)]) tt.
Proof.
  repeat split; (eexists; split; [vm_compute; reflexivity|]; intros digit fuel Hf; apply parse_string_at; [vm_compute; reflexivity|exact Hf]).
Qed.
Print Assumptions C21_lines_refuted.

(** Scalar documents of a stream swallow the end marker. *)
Theorem C21_stream_refuted :
  comes_back_as (NStream [word_ "v"; word_ "v"]) (NStream [word_ "v..."; word_ "v..."]).
Proof.
  eexists. split; [vm_compute; reflexivity|]. intros digit fuel Hf. apply parse_string_at; [vm_compute; reflexivity|exact Hf].
Qed.
Print Assumptions C21_stream_refuted.
