(** Property theorems C63: aliases, anchors and tags. *)
From Coq Require Import String.
From Verif Require Import Base Token Ast Lexer Parser ParserDocs RoundTripSpec TextSpec TextFacts TextProofs LiteralProofs MarkProofs.

(** C63: a value that is an alias, or has a tag and an anchor before it, in either order, is parsed to the alias, or
    to the tag, the anchor and what they are for. *)
Theorem C63_marks_parse : forall t s, leaf_text 0 t s ->
  forall digit omit fuel, 4 * length s + 4 <= fuel ->
    parse_string digit fuel omit s = Fin (inl (if omit then t else NStream [t])) tt.
Proof. exact mark_parses. Qed.
Print Assumptions C63_marks_parse.

(** C63: as the value of an entry, it leaves the entries after it alone. *)
Theorem C63_entries_after_marks : forall k ks t s es r, scalar_text k ks -> leaf_text 1 t s -> entries_text false false 0 es r ->
  forall digit omit fuel, let doc := ks ++ 58%N :: 32%N :: s ++ 10%N :: r ++ [10%N] in 4 * length doc + 4 <= fuel ->
    parse_string digit fuel omit doc = Fin (inl (let v := NMapping (NEntry k t :: es) in if omit then v else NStream [v])) tt.
Proof. exact mark_value_parses. Qed.
Print Assumptions C63_entries_after_marks.

(** C63: a mapping with an anchored value and any number of aliases of it keeps the name wherever it is. *)
Theorem C63_aliases_parse : forall a k v ks, plain_word a -> plain_word k -> plain_word v -> Forall plain_word ks ->
  forall digit omit fuel, let doc := k ++ [58; 32; 38]%N ++ a ++ 32%N :: v ++ 10%N :: alias_source a ks in 4 * length doc + 4 <= fuel ->
    parse_string digit fuel omit doc =
      Fin (inl (lone omit (NMapping (NEntry (word k) (NContent (anchored a) (word v)) :: alias_entries a ks)))) tt.
Proof. exact aliases_parse. Qed.
Print Assumptions C63_aliases_parse.

(** C63: a tag and an anchor on the line of a key are for the whole collection on the following lines, and leave the
    entries after it alone. *)
Theorem C63_marked_collections_parse : forall k ks p ps kind m es s es2 r,
  scalar_text k ks -> props_text p ps -> 0 < m -> entries_text false kind m es s -> entries_text false false 0 es2 r ->
  forall digit omit fuel, let doc := ks ++ 58%N :: 32%N :: ps ++ 10%N :: spaces m ++ s ++ 10%N :: r ++ [10%N] in 4 * length doc + 4 <= fuel ->
    parse_string digit fuel omit doc = Fin (inl (lone omit (NMapping (NEntry k (NContent p (build kind es)) :: es2)))) tt.
Proof. exact marked_lines_parse. Qed.
Print Assumptions C63_marked_collections_parse.

(** C63: so they are for a literal or folded scalar that starts on their line. *)
Theorem C63_marked_block_scalars_parse : forall k ks p ps t s es r,
  scalar_text k ks -> props_text p ps -> literal_text 1 t s -> entries_text false false 0 es r ->
  forall digit omit fuel, let doc := ks ++ 58%N :: 32%N :: ps ++ 32%N :: s ++ r ++ [10%N] in 4 * length doc + 4 <= fuel ->
    parse_string digit fuel omit doc = Fin (inl (lone omit (NMapping (NEntry k (NContent p t) :: es)))) tt.
Proof. exact marked_literal_parses. Qed.
Print Assumptions C63_marked_block_scalars_parse.

(** C63 is refuted for anchors before the first key of a mapping: the document is dropped, without an error. *)
Theorem C63_first_key_refuted : forall digit omit, ~ forall a k v, plain_word a -> plain_word k -> plain_word v ->
  exists fuel0, forall fuel, fuel0 <= fuel ->
    parse_string digit fuel omit (38%N :: a ++ 32%N :: k ++ [58; 32]%N ++ v ++ [10%N]) =
      Fin (inl (lone omit (NMapping [NEntry (NContent (anchored a) (word k)) (word v)]))) tt.
Proof.
  intros digit omit H. destruct (H (t' "a") (t' "k") (t' "v")) as [f0 Hf]; try word_ok.
  specialize (Hf (f0 + 300) ltac:(lia)). pose proof (eq_trans (eq_sym Hf) (first_key_lost digit omit (f0 + 300) ltac:(lia))) as D. destruct omit; discriminate D.
Qed.
Print Assumptions C63_first_key_refuted.

(** C63 is refuted for tags with a dash, which YAML allows in every tag. *)
Theorem C63_tag_dash_refuted : forall digit omit, ~ forall w v, w <> [] -> Forall handle_char w -> plain_word v ->
  exists fuel0, forall fuel, fuel0 <= fuel ->
    parse_string digit fuel omit (33%N :: w ++ 32%N :: v) = Fin (inl (lone omit (NContent (tagged w) (word v)))) tt.
Proof.
  intros digit omit H. destruct (H (t' "my-tag") (t' "x")) as [f0 Hf]; [discriminate| |word_ok|].
  - unfold handle_char, alnum. repeat (apply Forall_cons; [cbn; lia|]). constructor.
  - specialize (Hf (f0 + 300) ltac:(lia)). destruct (dashed_tag_fails digit omit (f0 + 300) ltac:(lia)) as [es E].
    pose proof (eq_trans (eq_sym Hf) E) as D. discriminate D.
Qed.
Print Assumptions C63_tag_dash_refuted.

(** C63 is refuted for handles: tags that differ in nothing but the handle are one tag in the tree. *)
Theorem C63_handles_refuted : forall digit omit, ~ forall p1 s1 p2 s2 v, tag_text p1 s1 -> tag_text p2 s2 -> s1 <> s2 -> plain_word v ->
  exists fuel0, forall fuel, fuel0 <= fuel ->
    parse_string digit fuel omit (s1 ++ 32%N :: v) <> parse_string digit fuel omit (s2 ++ 32%N :: v).
Proof.
  intros digit omit H.
  assert (T : Forall tag_char (t' "int")) by (unfold tag_char, alnum; repeat (apply Forall_cons; [cbn; lia|]); constructor).
  assert (T1 : tag_text (NTag (t' "int")) (t' "!int")) by (apply tg_local; [discriminate|exact T]).
  assert (T2 : tag_text (NTag (t' "int")) (t' "!!int")) by (apply tg_core; [discriminate|exact T]).
  destruct (H _ _ _ _ (t' "x") T1 T2) as [f0 Hf]; [discriminate|word_ok|]. apply (Hf (f0 + 300)); [lia|].
  assert (V : bare_text 0 (word (t' "x")) (t' "x")) by (apply ba_scalar; constructor; constructor; word_ok).
  assert (L : 4 * length (t' "!!int" ++ 32%N :: t' "x") + 4 <= f0 + 300) by (cbn; lia).
  transitivity (Fin (S := unit) (inl (B := list perror) (if omit then NContent (tagged (t' "int")) (word (t' "x")) else NStream [NContent (tagged (t' "int")) (word (t' "x"))])) tt); [|symmetry].
  - apply mark_parses; [exact (lt_props 0 _ _ 0 _ _ (pr_tag _ _ T1) V)|]. etransitivity; [|exact L]. cbn. lia.
  - apply mark_parses; [exact (lt_props 0 _ _ 0 _ _ (pr_tag _ _ T2) V)|exact L].
Qed.
Print Assumptions C63_handles_refuted.

Example C63_aliases_case : forall digit fuel, 400 <= fuel ->
  parse_string digit fuel true (t' "base: &b-1 one" ++ [10%N] ++ t' "x: *b-1" ++ [10%N] ++ t' "<<: *b-1" ++ [10%N]) =
    Fin (inl (NMapping [NEntry (word (t' "base")) (NContent (anchored (t' "b-1")) (word (t' "one")));
      NEntry (word (t' "x")) (NAlias (t' "b-1")); NEntry (word (t' "<<")) (NAlias (t' "b-1"))])) tt.
Proof.
  intros digit fuel H. apply (aliases_parse (t' "b-1") (t' "base") (t' "one") [t' "x"; t' "<<"]); try word_ok; [|vm_compute; vm_compute in H; lia].
  constructor; [word_ok|constructor; [word_ok|constructor]].
Qed.
(** A tag with a named handle and an anchor before a flow sequence. *)
Example C63_marks_case : forall digit fuel, 400 <= fuel ->
  parse_string digit fuel true (t' "!e-1!p.q  &b [a, 'c d']") =
    Fin (inl (NContent (NProperties (NTag (t' "p.q")) (NAnchor (t' "b"))) (NSequence [word (t' "a"); NText (t' "c d") SingleQuoting]))) tt.
Proof.
  intros digit fuel H. refine (mark_parses _ (t' "!e-1!p.q  &b [a, 'c d']") _ digit true fuel _); [|vm_compute; vm_compute in H; lia].
  apply (lt_props 0 _ (t' "!e-1!p.q  &b") 0 _ (t' "[a, 'c d']")).
  - apply (pr_tag_anchor _ (t' "!e-1!p.q") 1 _ (t' "&b")); [|apply an_name; word_ok].
    apply (tg_named (t' "e-1") (t' "p.q")); try discriminate; unfold tag_char, handle_char, alnum; repeat (apply Forall_cons; [cbn; intuition lia|]); constructor.
  - apply (ba_flow 0 1); [lia|]. apply (ft_items 0 true 0 [] [_; _] (t' "a, 'c d'")); [apply (sp_spaces 0 0)|].
    apply (is_more 0 true 0 _ (t' "a") [] (t' " ") [_] (t' "'c d'")); [|apply (sp_spaces 0 0)|apply (sp_spaces 0 1)|].
    + apply it_node, ft_scalar. split; [constructor; constructor; word_ok|discriminate].
    + apply (is_one 0 true 0 _ (t' "'c d'") []); [|apply (sp_spaces 0 0)]. apply it_node, ft_scalar. split; [|discriminate].
      apply (stx_single (t' "c d")). repeat (apply Forall_cons; [split; cbn; intuition lia|]). constructor.
Qed.
(** A mapping with an anchor, and its alias as the value of a merge key. *)
Example C63_marked_collections_case : forall digit fuel, 400 <= fuel ->
  parse_string digit fuel true (t' "base: &b-1" ++ [10%N] ++ t' "  a: one" ++ [10%N] ++ t' "<<: *b-1" ++ [10%N]) =
    Fin (inl (NMapping [NEntry (word (t' "base")) (NContent (anchored (t' "b-1")) (NMapping [NEntry (word (t' "a")) (word (t' "one"))]));
      NEntry (word (t' "<<")) (NAlias (t' "b-1"))])) tt.
Proof.
  intros digit fuel H.
  apply (marked_lines_parse (word (t' "base")) (t' "base") (anchored (t' "b-1")) (t' "&b-1") false 2
      [NEntry (word (t' "a")) (word (t' "one"))] (t' "a: one") [NEntry (word (t' "<<")) (NAlias (t' "b-1"))] (t' "<<: *b-1"));
    [constructor; constructor; word_ok|apply pr_anchor; constructor; word_ok|lia| | |vm_compute; vm_compute in H; lia].
  - apply es_one. apply (et_key false 2 _ (t' "a") _ (t' " one")); [constructor; constructor; word_ok|]. apply (at_leaf false 2 0 _ (t' "one")).
    apply lt_bare, ba_scalar. constructor. constructor. word_ok.
  - apply es_one. apply (et_key false 0 _ (t' "<<") _ (t' " *b-1")); [constructor; constructor; word_ok|]. apply (at_leaf false 0 0 _ (t' "*b-1")).
    apply lt_alias. word_ok.
Qed.
(** A tag before a literal scalar. *)
Example C63_marked_block_scalars_case : forall digit fuel, 400 <= fuel ->
  parse_string digit fuel true (t' "k: !!str |" ++ [10%N] ++ t' "  a: #b" ++ [10%N] ++ t' "x: y" ++ [10%N]) =
    Fin (inl (NMapping [NEntry (word (t' "k")) (NContent (tagged (t' "str")) (NText (t' "a: #b" ++ [10%N]) UnknownQuoting));
      NEntry (word (t' "x")) (word (t' "y"))])) tt.
Proof.
  intros digit fuel H.
  apply (marked_literal_parses (word (t' "k")) (t' "k") (tagged (t' "str")) (t' "!!str")
      (NText (t' "a: #b" ++ [10%N]) UnknownQuoting) (t' "|" ++ [10%N] ++ t' "  a: #b" ++ [10%N]) [NEntry (word (t' "x")) (word (t' "y"))] (t' "x: y"));
    [constructor; constructor; word_ok| | | |vm_compute; vm_compute in H; lia].
  - apply pr_tag, tg_core; [discriminate|]. unfold tag_char, alnum. repeat (apply Forall_cons; [cbn; lia|]). constructor.
  - apply (lines_literal 2 (t' "a: #b") []); [lia| |constructor]. first_word (t' "a:") (t' " #b").
  - apply es_one. apply (et_key false 0 _ (t' "x") _ (t' " y")); [constructor; constructor; word_ok|]. apply (at_leaf false 0 0 _ (t' "y")).
    apply lt_bare, ba_scalar. constructor. constructor. word_ok.
Qed.
