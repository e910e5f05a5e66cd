(** Texts in the grammar of documents, and JSON. *)
From Coq Require Import String.
From Verif Require Import Base Token Ast Lexer Parser ParserDocs ParserFuel ParserTotal ParserFacts RoundTripSpec TextSpec TextFacts RoundTripProofs.
Local Open Scope N_scope.

Definition parses (t : node) (s : text) : Prop :=
  forall digit omit fuel, (4 * length s + 4 <= fuel)%nat ->
    parse_string digit fuel omit s = Fin (inl (if omit then t else NStream [t])) tt.

Theorem streams_parse ds s : stream_text ds s -> forall digit omit fuel, (4 * length s + 4 <= fuel)%nat ->
  parse_string digit fuel omit s = Fin (inl (match ds with [d] => if omit then d else NStream ds | _ => NStream ds end)) tt.
Proof. intros H digit omit fuel Hf. apply streams_read; assumption. Qed.
Theorem documents_parse t s : document_text t s -> parses t s.
Proof. intros H digit omit fuel Hf. apply reads_back; assumption. Qed.

Lemma json_flow k : (1 <= k)%nat ->
  (forall h t s, json_text k h t s -> flow_text 0 h t s) /\
  (forall kind h e s, json_item k kind h e s -> item_text 0 kind h e s) /\
  (forall kind h es s, json_items k kind h es s -> items_text 0 kind h es s).
Proof.
  intro Hk. apply json_ind.
  - intros h s H. constructor. split; [constructor; exact H|discriminate].
  - intros h w H1 H2. constructor. split; [constructor; constructor; exact H1|exact H2].
  - intros kind h w Hw. apply ft_empty, Hw.
  - intros kind h w es s Hw _ IH. apply ft_items; assumption.
  - intros h t s _ IH. constructor. exact IH.
  - intros h ks m t s H Hm _ IH. apply (it_pair 0 false h (NText ks DoubleQuoting) (34 :: ks ++ [34]) 0 m t s); [|intro E; lia|exact IH].
    split; [constructor; exact H|discriminate].
  - intros kind h e s w _ IH Hw. apply is_one; assumption.
  - intros kind h e s w w2 es s2 _ IH Hw Hw2 _ IH2. apply is_more; assumption.
Qed.
Theorem flows_parse h t s : (h <= 5)%nat -> flow_text 0 h t s -> parses t s.
Proof. intros Hh H. apply documents_parse, leaf_document. apply (lt_flow 0 h); [exact Hh|exact H]. Qed.
Theorem json_parses k h t s : (1 <= k)%nat -> (h <= 5)%nat -> json_text k h t s -> parses t s.
Proof. intros Hk Hh H. apply (flows_parse h); [exact Hh|]. eapply (proj1 (json_flow k Hk)), H. Qed.

Definition compact : text := [123; 34; 97; 34; 58; 91; 49; 93; 125].
Lemma compact_json : json_text 0 1 (NMapping [NEntry (NText [97] DoubleQuoting) (NSequence [NText [49] UnknownQuoting])]) compact.
Proof.
  apply (js_items 0 false 1 [] _ [34; 97; 34; 58; 91; 49; 93]); [apply (sp_spaces 0 0)|].
  apply (jl_one 0 false 1 _ [34; 97; 34; 58; 91; 49; 93] []); [|apply (sp_spaces 0 0)].
  apply (ji_member 0 1 [97] 0 (NSequence [NText [49] UnknownQuoting]) [91; 49; 93]); [|lia|].
  - repeat constructor; cbn; intuition lia.
  - apply (js_items 0 true 0 [] _ [49]); [apply (sp_spaces 0 0)|]. apply (jl_one 0 true 0 _ [49] []); [|apply (sp_spaces 0 0)]. do 2 constructor; [|discriminate].
    split; [discriminate|]. repeat split; try (intro H; cbn in H; intuition discriminate); try discriminate.
    constructor; [|constructor]. intro H; cbn in H; intuition discriminate.
Qed.
Lemma compact_fails digit omit fuel : (100 <= fuel)%nat ->
  exists tk, parse_string digit fuel omit compact = Fin (inr [UnbalancedClosing tk]) tt /\ tok_origin tk = [93].
Proof.
  intro H. eexists. split; [apply parse_string_at; [destruct omit; vm_compute; reflexivity|cbn; lia]|reflexivity].
Qed.

(** an example with everything in it *)
Definition nl : text := [10].
Definition sample : text :=
  t' "name: it" ++ nl ++ t' "list:" ++ nl ++ t' "  - [a, 'b c' , [], {}, k: v]" ++ nl ++
  t' "  - x: {""p"":1, q, r : [ [] ],}" ++ nl ++ t' "    y: z:w" ++ nl.
Definition u (s : string) : node := NText (string_to_text s) UnknownQuoting.
Definition sample_tree : node :=
  NMapping [NEntry (u "name") (u "it");
    NEntry (u "list") (NSequence [
      NSequence [u "a"; NText (t' "b c") SingleQuoting; NSequence []; NMapping []; NEntry (u "k") (u "v")];
      NMapping [NEntry (u "x") (NMapping [NEntry (NText (t' "p") DoubleQuoting) (u "1"); NEntry (u "q") NNull; NEntry (u "r") (NSequence [NSequence []])]);
        NEntry (u "y") (u "z:w")]])].
Ltac word_ok := split; [discriminate|]; split; [repeat (apply Forall_cons || apply Forall_nil); vm_compute; intuition discriminate|];
  split; [vm_compute; intuition discriminate|]; split; [vm_compute; discriminate|vm_compute; intuition discriminate].
Lemma sample_text : document_text sample_tree sample.
Proof.
  assert (P : forall s, plain_word (string_to_text s) -> scalar_text (u s) (string_to_text s)) by (intros; constructor; constructor; assumption).
  assert (W : forall s, plain_word (string_to_text s) -> hd 0 (string_to_text s) <> 58 -> word_text (u s) (string_to_text s)) by (split; auto).
  assert (L : forall n s, plain_word (string_to_text s) -> leaf_text n (u s) (string_to_text s)) by (intros; apply lt_scalar; auto).
  apply (lines_document false [_; _] (t' "name: it" ++ 10 :: spaces 0 ++ (t' "list:" ++ nl ++ t' "  - [a, 'b c' , [], {}, k: v]" ++ nl ++
    t' "  - x: {""p"":1, q, r : [ [] ],}" ++ nl ++ t' "    y: z:w"))).
  apply es_next.
  { apply (et_key false 0 (u "name") (t' "name") (u "it") (32 :: t' "it")); [apply P; word_ok|apply at_word, L; word_ok]. }
  apply es_one. apply (et_key false 0 (u "list") (t' "list") (build true _) (10 :: spaces 2 ++ (t' "- [a, 'b c' , [], {}, k: v]" ++ 10 :: spaces 2 ++ 
    t' "- x: {""p"":1, q, r : [ [] ],}" ++ nl ++ t' "    y: z:w"))); [apply P; word_ok|]. apply at_next.
  apply es_next.
  { apply (et_seq false 2 _ (32 :: t' "[a, 'b c' , [], {}, k: v]")). apply at_word, (lt_flow _ 5); [lia|].
    apply (items_flow _ true 4 0 _ (t' "a, 'b c' , [], {}, k: v")).
    apply (more_items _ true 4 (u "a") (t' "a") 0 1); [constructor; constructor; apply W; [word_ok|discriminate]|].
    apply (more_items _ true 4 _ (t' "'b c'") 1 1).
    { constructor. constructor. split; [|discriminate]. apply (stx_single (t' "b c")). repeat constructor; cbn; intuition lia. }
    apply (more_items _ true 4 _ (t' "[]") 0 1); [constructor; apply (empty_flow _ true 3 0)|].
    apply (more_items _ true 4 _ (t' "{}") 0 1); [constructor; apply (empty_flow _ false 4 0)|].
    apply (one_item _ true 4 _ (t' "k: v") 0). apply (it_pair _ true 4 (u "k") (t' "k") 0 1 (u "v") (t' "v")); [apply W; [word_ok|discriminate]|intro E; discriminate|].
    constructor. apply W; [word_ok|discriminate]. }
  apply es_one. apply (et_seq false 2 (build false _) (32 :: (t' "x: {""p"":1, q, r : [ [] ],}" ++ 10 :: spaces 4 ++ t' "y: z:w"))). apply at_dash.
  apply es_next.
  - apply (et_key false 4 (u "x") (t' "x") _ (32 :: t' "{""p"":1, q, r : [ [] ],}")); [apply P; word_ok|]. apply at_word, (lt_flow _ 5); [lia|].
    apply (items_flow _ false 5 0 _ (t' """p"":1, q, r : [ [] ],")).
    apply (more_items _ false 5 _ (t' """p"":1") 0 1).
    { apply (it_pair _ false 5 _ (t' """p""") 0 0 (u "1") (t' "1")).
      - split; [|discriminate]. apply (stx_double (t' "p")). repeat constructor; cbn; intuition lia.
      - intros _. split; [reflexivity|]. split; [exists (t' "p"); auto|do 2 eexists; reflexivity].
      - constructor. apply W; [word_ok|discriminate]. }
    apply (more_items _ false 5 _ (t' "q") 0 1); [constructor; apply W; [word_ok|discriminate]|].
    apply (last_item _ false 5 _ (t' "r : [ [] ]") 0 0).
    apply (it_pair _ false 5 (u "r") (t' "r") 1 1 _ (t' "[ [] ]")); [apply W; [word_ok|discriminate]|intro E; discriminate|].
    apply (items_flow _ true 4 1 _ (t' "[] ")). apply (one_item _ true 4 _ (t' "[]") 1). constructor. apply (empty_flow _ true 3 0).
  - apply es_one. apply (et_key false 4 (u "y") (t' "y") _ (32 :: t' "z:w")); [apply P; word_ok|apply at_word, L; word_ok].
Qed.

(** an example with comments, empty lines, line breaks of two characters, deep and level indentation, values left out and three documents *)
Definition crlf : text := [13; 10].
Definition stream_sample : text :=
  t' "# head" ++ nl ++ nl ++ t' "list:   # items" ++ crlf ++ t' "- a" ++ nl ++ t' "-" ++ nl ++ t' "- b: 1 # x" ++ nl ++ t' " " ++ nl ++ t' "  c :" ++ nl ++
  t' "     -   d" ++ nl ++ t' "more:" ++ nl ++ t' "    k:" ++ nl ++ t' "# end" ++ nl ++ t' "--- w # second" ++ nl ++ t' "---" ++ nl ++ nl ++ t' " - e".
Definition stream_trees : list node :=
  [NMapping [NEntry (u "list") (NSequence [u "a"; NNull; NMapping [NEntry (u "b") (u "1"); NEntry (u "c") (NSequence [u "d"])]]);
     NEntry (u "more") (NMapping [NEntry (u "k") NNull])];
   u "w"; NSequence [u "e"]].
Ltac comment_ok := constructor; repeat (apply Forall_cons || apply Forall_nil); vm_compute; intuition discriminate.
Lemma comment_gap n s : comment_text s -> forall e, break_text e -> gap_text (spaces (S n) ++ s ++ e).
Proof.
  intros H e He. replace (spaces (S n) ++ s ++ e) with ((spaces (S n) ++ s) ++ e ++ []) by (rewrite app_nil_r, <- app_assoc; reflexivity).
  apply gp_lines; [apply tr_comment, H|exact He|constructor].
Qed.
Lemma stream_sample_text : stream_text stream_trees stream_sample.
Proof.
  assert (P : forall s, plain_word (string_to_text s) -> scalar_text (u s) (string_to_text s)) by (intros; constructor; constructor; assumption).
  assert (L : forall n s, plain_word (string_to_text s) -> leaf_text n (u s) (string_to_text s)) by (intros; apply lt_scalar; auto).
  apply (sm_plain false (t' "# head" ++ nl ++ nl) _
    (t' "list:   # items" ++ crlf ++ t' "- a" ++ nl ++ t' "-" ++ nl ++ t' "- b: 1 # x" ++ nl ++ t' " " ++ nl ++ t' "  c :" ++ nl ++
     t' "     -   d" ++ nl ++ t' "more:" ++ nl ++ t' "    k:") _
    (nl ++ t' "# end" ++ nl ++ t' "--- w # second" ++ nl ++ t' "---" ++ nl ++ nl ++ t' " - e")).
  - apply (id_more (t' "# head") nl nl); [apply (il_comment 0); comment_ok|constructor|]. apply (id_more [] nl []); [apply (il_blank 0)|constructor|constructor].
  - apply (ls_entries false false 0 [_; _]).
    apply (es_more false false false 0 _ (t' "list:   # items" ++ crlf ++ t' "- a" ++ nl ++ t' "-" ++ nl ++ t' "- b: 1 # x" ++ nl ++ t' " " ++ nl ++ t' "  c :" ++ nl ++
     t' "     -   d") nl [_] (t' "more:" ++ nl ++ t' "    k:")); [|constructor; exact gap_line|].
    + apply (et_key false 0 _ (t' "list") (build true _) (t' "   # items" ++ crlf ++ t' "- a" ++ nl ++ t' "-" ++ nl ++ t' "- b: 1 # x" ++ nl ++ t' " " ++ nl ++ t' "  c :" ++ nl ++
        t' "     -   d")); [apply P; word_ok|].
      apply (at_lines false false true 0 (t' "   # items" ++ crlf) 0); [apply (comment_gap 2 (t' "# items")); [comment_ok|constructor]|auto|].
      apply (es_next false true 0 _ (t' "- a")); [apply (et_seq false 0 _ (t' " a")), at_word, L; word_ok|].
      apply (es_next false true 0 _ (t' "-")); [apply (et_seq false 0 _ []), at_none|].
      apply es_one. apply (et_seq false 0 (build false _) (t' " b: 1 # x" ++ nl ++ t' " " ++ nl ++ t' "  c :" ++ nl ++ t' "     -   d")). apply at_dash.
      apply (es_more false false false 2 _ (t' "b: 1") (t' " # x" ++ nl ++ t' " " ++ nl) [_] (t' "c :" ++ nl ++ t' "     -   d")).
      * apply (et_key false 2 _ (t' "b") _ (t' " 1")); [apply P; word_ok|apply at_word, L; word_ok].
      * constructor. apply (gp_lines (t' " # x") nl (t' " " ++ nl)); [apply (tr_comment 0); comment_ok|constructor|].
        apply (id_more (t' " ") nl []); [apply (il_blank 1)|constructor|constructor].
      * apply es_one. apply (et_map false 2 _ (t' "c") 1 (build true _) (nl ++ t' "     -   d")); [apply P; word_ok|].
        apply (at_lines false false true 2 nl 5); [exact gap_line|left; lia|]. apply es_one, (et_seq false 5 _ (t' "   d")), (at_leaf true 5 2), L. word_ok.
    + apply es_one. apply (et_key false 0 _ (t' "more") (build false _) (nl ++ t' "    k:")); [apply P; word_ok|].
      apply (at_lines false false false 0 nl 4); [exact gap_line|left; lia|]. apply es_one, (et_key false 4 _ (t' "k") _ []); [apply P; word_ok|constructor].
  - apply (dn_more false false (nl ++ t' "# end" ++ nl) _ (t' " w") _ (t' " # second" ++ nl ++ t' "---" ++ nl ++ nl ++ t' " - e")).
    + constructor. apply (gp_lines [] nl (t' "# end" ++ nl)); [apply (tr_blank 0)|constructor|]. apply (id_more (t' "# end") nl []); [apply (il_comment 0); comment_ok|constructor|constructor].
    + apply (mk_leaf 0), L. word_ok.
    + apply (dn_more false false (t' " # second" ++ nl) _ (nl ++ nl ++ t' " - e") [] []); [constructor; apply (comment_gap 0 (t' "# second")); [comment_ok|constructor]| | |].
      * apply (mk_below false (nl ++ nl)); [|apply (ls_entries false true 1), es_one, (et_seq false 1 _ (t' " e")), at_word, L; word_ok].
        apply (gp_lines [] nl nl); [apply (tr_blank 0)|constructor|apply (id_more [] nl []); [apply (il_blank 0)|constructor|constructor]].
      * apply dn_end, en_line, (tr_blank 0).
      * intros _. apply (ends_other (nl ++ nl ++ t' " - ")). discriminate.
    + discriminate.
  - discriminate.
Qed.

(** a dash as the last character *)
Definition last_dash : text := t' "- a" ++ nl ++ t' "-".
Lemma last_dash_lines : lines_text false (NSequence [u "a"; NNull]) last_dash.
Proof.
  apply (ls_entries false true 0 [_; _]). apply (es_next false true 0 _ (t' "- a") [_] (t' "-")).
  - apply (et_seq false 0 _ (t' " a")), at_word, lt_scalar. constructor. constructor. word_ok.
  - apply es_one, (et_seq false 0 _ []), at_none.
Qed.
Lemma last_dash_lost digit omit fuel : (100 <= fuel)%nat ->
  parse_string digit fuel omit last_dash = Fin (inl (if omit then NSequence [u "a"] else NStream [NSequence [u "a"]])) tt.
Proof. intro H. apply parse_string_at; [destruct omit; vm_compute; reflexivity|cbn; lia]. Qed.

(** scalars over several lines *)
Definition fold_sample : text :=
  t' "a: one" ++ nl ++ t' "  two " ++ nl ++ t' " " ++ nl ++ t' " three" ++ nl ++ t' "b:" ++ nl ++ t' "  - 'x" ++ crlf ++ nl ++ t' "    y" ++ nl ++ t' "   '" ++ nl.
Definition fold_tree : node :=
  NMapping [NEntry (u "a") (NText (t' "one two" ++ nl ++ t' "three") UnknownQuoting);
    NEntry (u "b") (NSequence [NText (t' "x" ++ nl ++ t' "y ") SingleQuoting])].
Lemma fold_sample_text : document_text fold_tree fold_sample.
Proof.
  assert (P : forall s, plain_word (string_to_text s) -> scalar_text (u s) (string_to_text s)) by (intros; constructor; constructor; assumption).
  apply (lines_document false [_; _] (t' "a: one" ++ nl ++ t' "  two " ++ nl ++ t' " " ++ nl ++ t' " three" ++ nl ++ t' "b:" ++ nl ++ t' "  - 'x" ++ crlf ++ nl ++ t' "    y" ++ nl ++ t' "   '")).
  apply (es_next false false 0 _ (t' "a: one" ++ nl ++ t' "  two " ++ nl ++ t' " " ++ nl ++ t' " three") _ (t' "b:" ++ nl ++ t' "  - 'x" ++ crlf ++ nl ++ t' "    y" ++ nl ++ t' "   '")).
  { apply (et_key false 0 _ (t' "a") _ (32 :: (t' "one" ++ nl ++ t' "  two " ++ nl ++ t' " " ++ nl ++ t' " three"))); [apply P; word_ok|].
    apply at_word. apply (lt_plain 1 (t' "one") (t' " two" ++ nl ++ t' "three") (nl ++ t' "  two " ++ nl ++ t' " " ++ nl ++ t' " three")); [constructor; word_ok|].
    apply (pm_line 1 0 [32] (nl ++ t' "  ") (t' "two") (nl ++ t' "three") (t' " " ++ nl ++ t' " " ++ nl ++ t' " three")); [apply (st_seam 1 nl 0 [] 2); [constructor|constructor|lia]|constructor; word_ok|].
    apply (pm_line 1 1 nl (nl ++ t' " " ++ nl ++ t' " ") (t' "three") [] []); [|constructor; word_ok|constructor].
    apply (st_seam 1 nl 1 (t' " " ++ nl) 1); [constructor|apply (em_more 0 1 []); constructor|lia]. }
  apply es_one. apply (et_key false 0 _ (t' "b") (build true _) (nl ++ t' "  - 'x" ++ crlf ++ nl ++ t' "    y" ++ nl ++ t' "   '")); [apply P; word_ok|].
  apply (at_next false false true 0 _ (t' "- 'x" ++ crlf ++ nl ++ t' "    y" ++ nl ++ t' "   '")).
  apply es_one, (et_seq false 2 _ (32 :: (t' "'x" ++ crlf ++ nl ++ t' "    y" ++ nl ++ t' "   '"))), at_word.
  apply (lt_single 3 (t' "x") (nl ++ t' "y ") (crlf ++ nl ++ t' "    y" ++ nl ++ t' "   ")).
  - repeat constructor; cbn; intuition lia.
  - intros _ [E|E]; discriminate.
  - apply (qm_line 3 _ nl (crlf ++ nl ++ t' "    ") (t' "y") (t' " ") (nl ++ t' "   ")).
    + apply (st_seam 3 crlf 1 nl 4); [constructor|apply (em_more 0 0 []); constructor|lia].
    + discriminate.
    + repeat constructor; cbn; intuition lia.
    + intros [E|E]; discriminate.
    + intros _ [E|E]; discriminate.
    + apply qm_last. apply (st_seam 3 nl 0 [] 3); [constructor|constructor|lia].
Qed.

(** spaces before a line break between quotes, and empty lines that end with two characters *)
Lemma blanks_kept digit omit fuel : (200 <= fuel)%nat ->
  parse_string digit fuel omit (34 :: t' "x" ++ spaces 1 ++ 10 :: t' "y" ++ [34]) =
    Fin (inl (if omit then NText (t' "x  y") DoubleQuoting else NStream [NText (t' "x  y") DoubleQuoting])) tt.
Proof. intro H. apply parse_string_at; [destruct omit; vm_compute; reflexivity|cbn; lia]. Qed.
Lemma returns_kept digit omit fuel : (200 <= fuel)%nat ->
  parse_string digit fuel omit (t' "x" ++ crlf ++ crlf ++ t' "y") =
    Fin (inl (if omit then NText (t' "x" ++ crlf ++ t' "y") UnknownQuoting else NStream [NText (t' "x" ++ crlf ++ t' "y") UnknownQuoting])) tt.
Proof. intro H. apply parse_string_at; [destruct omit; vm_compute; reflexivity|cbn; lia]. Qed.
