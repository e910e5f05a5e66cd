(** Literal scalars: what their texts parse to, and what goes wrong outside the grammar. *)
From Coq Require Import String.
From Verif Require Import Base Token Ast Lexer Parser ParserDocs ParserFacts RoundTripSpec RoundTripProofs LexText BlockText LineText TextSpec TextFacts TextProofs.
Local Open Scope N_scope.

Lemma end_not_dangling s : last s 0 = 10 -> ~ dangling s.
Proof. intros H (u & -> & _). rewrite last_last in H. discriminate. Qed.

Lemma literal_ends n t s : literal_text n t s -> last s 0 = 10.
Proof. intro H. apply (literal_text_last _ _ _ H). Qed.

(** ** a scalar as the document, and as a value with entries after it *)
Lemma literal_document t s : literal_text 1 t s -> stream_text [t] s.
Proof.
  intro H. pose proof (sm_plain true [] t s [] [] id_none (ls_literal 0 t s H) (dn_end true [] en_none)) as D.
  cbn [app] in D. rewrite app_nil_r in D. apply D. intros _. eapply end_not_dangling, literal_ends, H.
Qed.
Theorem literal_parses t s : literal_text 1 t s -> forall digit omit fuel, (4 * length s + 4 <= fuel)%nat ->
  parse_string digit fuel omit s = Fin (inl (if omit then t else NStream [t])) tt.
Proof. intros H digit omit fuel Hf. apply (streams_read digit omit [t] s (literal_document t s H) fuel Hf). Qed.

Lemma literal_entry k ks t s : scalar_text k ks -> literal_text 1 t s -> entry_text true false 0 (NEntry k t) (ks ++ 58 :: 32 :: s).
Proof. intros Hk H. apply (et_map true 0 k ks 0 t (32 :: s) Hk). apply (at_literal false 0 0 t s H). Qed.
Lemma literal_mapping k ks t s : scalar_text k ks -> literal_text 1 t s -> stream_text [NMapping [NEntry k t]] (ks ++ 58 :: 32 :: s).
Proof.
  intros Hk H. pose proof (ls_entries true false 0 _ _ (es_one true false 0 _ _ (literal_entry k ks t s Hk H))) as L.
  pose proof (sm_plain true [] _ _ [] [] id_none L (dn_end true [] en_none)) as D.
  cbn [app spaces repeat] in D. rewrite app_nil_r in D. apply D. intros _. apply end_not_dangling.
  change (58 :: 32 :: s) with ([58; 32] ++ s). pose proof (literal_ends _ _ _ H) as E. destruct s as [|c s]; [discriminate|]. rewrite last_app by discriminate.
  rewrite last_app by discriminate. exact E.
Qed.
Theorem literal_value_parses k ks t s es r : scalar_text k ks -> literal_text 1 t s -> entries_text false false 0 es r ->
  forall digit omit fuel, let doc := ks ++ 58 :: 32 :: s ++ r ++ [10] in (4 * length doc + 4 <= fuel)%nat ->
    parse_string digit fuel omit doc = Fin (inl (let v := NMapping (NEntry k t :: es) in if omit then v else NStream [v])) tt.
Proof.
  intros Hk H Hr digit omit fuel doc Hf.
  pose proof (es_after false false 0 _ _ _ _ (literal_entry k ks t s Hk H) Hr) as L. cbn [spaces repeat app] in L.
  pose proof (lines_document _ _ _ L) as D. rewrite <- app_assoc in D. cbn [app] in D. rewrite <- app_assoc in D.
  apply (streams_read digit omit [_] _ D fuel Hf).
Qed.

(** ** lines given as a list *)
Definition line_up (v : nat) (ls : list text) : text := concat (map (fun l => spaces v ++ l ++ [10]) ls).
Definition unlines (ls : list text) : text := concat (map (fun l => l ++ [10]) ls).
Lemma lines_literal v l ls : (1 <= v)%nat -> line_text l -> Forall line_text ls ->
  literal_text 1 (NText (unlines (l :: ls)) UnknownQuoting) (124 :: 10 :: line_up v (l :: ls)).
Proof.
  intros Hv Hl Hls.
  assert (M : exists w r, literal_more_text v w r /\ forall a, a ++ w ++ [10] = a ++ 10 :: unlines ls /\ a ++ r ++ [10] = a ++ 10 :: line_up v ls).
  { clear Hl. induction Hls as [|x ls Hx Hls (w & r & Hm & E)]; [exists [], []; split; [constructor|auto]|].
    exists (10 :: repeat 10 0 ++ x ++ w), (10 :: [] ++ spaces v ++ x ++ r). split; [apply (lo_line v 0 []); auto; [constructor|constructor; exact Hx]|].
    intro a. destruct (E []) as [E1 E2]. cbn [app] in E1, E2. cbn [repeat app]. unfold unlines, line_up in *. cbn [map concat]. rewrite <- !app_assoc. cbn [app].
    rewrite E1, E2. split; reflexivity. }
  destruct M as (w & r & Hm & E). destruct (E []) as [E1 E2]. cbn [app] in E1, E2.
  pose proof (li_lines 1 v _ [124] [] [10] l w r 0 [] Hv (hd_clip 124) (tr_blank 0) br_lf Hl Hm ltac:(constructor)) as L.
  cbn [app] in L. unfold text, rune in *. rewrite E1, E2 in L. unfold unlines, line_up in *. cbn [map concat]. rewrite <- !app_assoc. exact L.
Qed.
Theorem literal_lines_parse k v l ls : plain_word k -> (1 <= v)%nat -> line_text l -> Forall line_text ls ->
  forall digit omit fuel, let doc := k ++ [58; 32; 124; 10] ++ line_up v (l :: ls) in (4 * length doc + 4 <= fuel)%nat ->
    parse_string digit fuel omit doc =
      Fin (inl (let t := NMapping [NEntry (NText k UnknownQuoting) (NText (unlines (l :: ls)) UnknownQuoting)] in if omit then t else NStream [t])) tt.
Proof.
  intros Hk Hv Hl Hls digit omit fuel doc Hf.
  apply (streams_read digit omit [_] _ (literal_mapping _ k _ _ (stx_plain k (pt_word k Hk)) (lines_literal v l ls Hv Hl Hls)) fuel Hf).
Qed.

(** ** outside the grammar *)
Definition word (s : text) : node := NText s UnknownQuoting.
Definition lone (omit : bool) (t : node) : node := if omit then t else NStream [t].
Ltac runs := let H := fresh in intro H; apply parse_string_at; [match goal with o : bool |- _ => destruct o end; vm_compute; reflexivity|cbn; lia].
(** an empty line in front *)
Lemma empty_line_swallows digit omit fuel : (300 <= fuel)%nat ->
  parse_string digit fuel omit (t' "a" ++ [58; 32; 124; 10] ++ [10] ++ line_up 2 [t' "x"] ++ t' "b" ++ [58; 32] ++ t' "c" ++ [10]) =
    Fin (inl (lone omit (NMapping [NEntry (word (t' "a")) (word ([10] ++ t' "  x" ++ [10] ++ t' "b: c" ++ [10]))]))) tt.
Proof. runs. Qed.
(** no lines at all *)
Lemma no_lines_swallow digit omit fuel : (300 <= fuel)%nat ->
  parse_string digit fuel omit (t' "a" ++ [58; 32; 124; 10] ++ t' "b" ++ [58; 32] ++ t' "c" ++ [10]) =
    Fin (inl (lone omit (NMapping [NEntry (word (t' "a")) (word (t' "b: c" ++ [10]))]))) tt.
Proof. runs. Qed.
(** a bracket or a quote in the first word of a line *)
Lemma bracket_fails digit omit fuel : (300 <= fuel)%nat ->
  exists es, parse_string digit fuel omit (t' "a" ++ [58; 32; 124; 10] ++ line_up 2 [t' "[x"]) = Fin (inr es) tt.
Proof. intro H. eexists. apply parse_string_at; [destruct omit; vm_compute; reflexivity|cbn; lia]. Qed.
Lemma quote_drops digit omit fuel : (300 <= fuel)%nat ->
  parse_string digit fuel omit (t' "a" ++ [58; 32; 124; 10] ++ line_up 2 [t' "it's"] ++ t' "b" ++ [58; 32] ++ t' "c" ++ [10]) =
    Fin (inl (lone omit (NMapping [NEntry (word (t' "a")) (word (t' "it's" ++ [10]))]))) tt.
Proof. runs. Qed.
(** lines that end with two characters *)
Lemma returns_in_text digit omit fuel : (300 <= fuel)%nat ->
  parse_string digit fuel omit (t' "a" ++ [58; 32; 124] ++ crlf ++ spaces 2 ++ t' "x" ++ crlf) =
    Fin (inl (lone omit (NMapping [NEntry (word (t' "a")) (word (t' "x" ++ crlf))]))) tt.
Proof. runs. Qed.
(** the indicator 0 *)
Lemma zero_indent_lost digit omit fuel : (300 <= fuel)%nat ->
  parse_string digit fuel omit (t' "a: |0" ++ [10] ++ line_up 2 [t' "x"]) = Fin (inl (NStream [])) tt.
Proof. runs. Qed.

(** ** a text with several literal scalars *)
Definition literal_sample : text :=
  t' "a: |  # one" ++ crlf ++ t' "    if x; then" ++ [10] ++ t' "      echo ""$y"" # no" ++ [10] ++ [10] ++ t' "    fi" ++ [10; 10] ++ t' "# note" ++ [10] ++
  t' "b:" ++ [10] ++ t' "  - |-" ++ [10] ++ t' "   - x: [" ++ [10] ++ t' "  - |+" ++ [10] ++ t' "   k: v" ++ [10] ++ t' " " ++ [10] ++
  t' "c: d" ++ [10] ++ t' "---" ++ [10] ++ t' "|" ++ [10] ++ t' " last" ++ [10].
Definition literal_trees : list node :=
  [NMapping [NEntry (word (t' "a")) (word (t' "if x; then" ++ [10] ++ t' "  echo ""$y"" # no" ++ [10; 10] ++ t' "fi" ++ [10]));
     NEntry (word (t' "b")) (NSequence [word (t' "- x: ["); word (t' "k: v" ++ [10; 10])]); NEntry (word (t' "c")) (word (t' "d"))];
   word (t' "last" ++ [10])].
Ltac chars_ok := repeat (apply Forall_cons || apply Forall_nil); vm_compute; intuition discriminate.
Ltac first_word w s := apply (ln_line w s); [chars_ok|discriminate|chars_ok|vm_compute; intuition discriminate|vm_compute; intuition discriminate|try (left; reflexivity); try (right; left; reflexivity)].
Lemma literal_sample_text : stream_text literal_trees literal_sample.
Proof.
  assert (P : forall s, plain_word (string_to_text s) -> scalar_text (u s) (string_to_text s)) by (intros; constructor; constructor; assumption).
  set (m1 := [10] ++ t' "      echo ""$y"" # no" ++ [10] ++ [10] ++ t' "    fi").
  set (l1 := t' "|  # one" ++ crlf ++ t' "    if x; then" ++ m1 ++ [10; 10]).
  set (s1 := t' "a: " ++ l1).
  set (l2 := t' "|-" ++ [10] ++ t' "   - x: [" ++ [10]).
  set (l3 := t' "|+" ++ [10] ++ t' "   k: v" ++ [10] ++ t' " " ++ [10]).
  set (s2 := t' "- " ++ l2 ++ t' "  - " ++ l3).
  apply (sm_plain false [] _ (s1 ++ (t' "# note" ++ [10]) ++ (t' "b:" ++ [10] ++ t' "  " ++ s2) ++ t' "c: d") [_]
    ([10] ++ mark_text ++ ([10] ++ t' "|" ++ [10] ++ t' " last" ++ [10]) ++ [])).
  - constructor.
  - apply (ls_entries false false 0 [_; _; _]). apply (es_more false true false 0 _ s1 (t' "# note" ++ [10]) [_; _] ((t' "b:" ++ [10] ++ t' "  " ++ s2) ++ t' "c: d")).
    + apply (literal_entry _ (t' "a") _ l1); [apply P; word_ok|].
      apply (li_lines 1 4 (fun _ => [10]) [124] (t' "  # one") crlf (t' "if x; then") ([10] ++ t' "  echo ""$y"" # no" ++ [10; 10] ++ t' "fi") m1 1 [10]); [lia|constructor| |constructor| | |].
      * apply (tr_comment 1). comment_ok.
      * first_word (t' "if") (t' " x; then").
      * apply (lo_line 4 0 [] (t' "  echo ""$y"" # no") ([10; 10] ++ t' "fi") ([10; 10] ++ t' "    fi")); [constructor| |].
        { apply (fr_blank 32 (t' " echo ""$y"" # no")); [left; reflexivity|chars_ok]. }
        apply (lo_line 4 1 [10] (t' "fi") [] []); [apply (hw_more 4 0 0 []); [lia|constructor]|apply fr_line; first_word (t' "fi") (t' "")|constructor].
      * apply (hw_more 4 0 0 []); [lia|constructor].
    + apply (bt_note 0 0 (t' "# note") [10] []); [lia|comment_ok|constructor|constructor].
    + apply (es_after false false 0 _ (t' "b:" ++ [10] ++ t' "  " ++ s2) [_] (t' "c: d")).
      * apply (et_key true 0 _ (t' "b") (build true _) ([10] ++ t' "  " ++ s2)); [apply P; word_ok|]. apply (at_lines true false true 0 [10] 2 [_; _] s2); [exact gap_line|left; lia|].
        apply (es_after true true 2 _ (t' "- " ++ l2) [_] (t' "- " ++ l3)).
        { apply (et_seq true 2 _ (t' " " ++ l2)), (at_literal true 2 0).
          apply (li_lines 3 3 (fun _ => []) (t' "|-") [] [10] (t' "- x: [") [] [] 0 []); [lia|constructor|apply (tr_blank 0)|constructor|first_word (t' "-") (t' " x: [")|constructor|constructor]. }
        apply es_one, (et_seq true 2 _ (t' " " ++ l3)), (at_literal true 2 0).
        apply (li_lines 3 3 (fun k => repeat 10 (S k)) (t' "|+") [] [10] (t' "k: v") [] [] 1 (t' " " ++ [10])); [lia|constructor|apply (tr_blank 0)|constructor|first_word (t' "k:") (t' " v")|constructor|].
        apply (hw_more 3 0 1 []); [lia|constructor].
      * apply es_one. apply (et_key false 0 _ (t' "c") _ (t' " d")); [apply P; word_ok|]. apply at_word, lt_scalar. apply P. word_ok.
  - apply (dn_more false true [10] _ ([10] ++ t' "|" ++ [10] ++ t' " last" ++ [10]) [] []).
    + constructor. exact gap_line.
    + apply (mk_below true [10] _ (t' "|" ++ [10] ++ t' " last" ++ [10])); [exact gap_line|]. apply (ls_literal 0).
      apply (li_lines 1 1 (fun _ => [10]) [124] [] [10] (t' "last") [] [] 0 []); [lia|constructor|apply (tr_blank 0)|constructor|first_word (t' "last") (t' "")|constructor|constructor].
    + apply dn_end, en_none.
    + intros _. apply end_not_dangling. reflexivity.
  - discriminate.
Qed.
