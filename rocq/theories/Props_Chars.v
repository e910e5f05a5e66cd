(** Property theorems C03, C04, C05, C43. *)
From Verif Require Import Base YamlChar YamlCharSpec YamlCharProofs Token TokenProofs.
Local Open Scope N_scope.

(** C03: whatever is asked and in whatever order, a freshly produced token answers each
    question from its text, and asking changes nothing else of it. *)
Theorem C03_cached_answers_transparent :
  forall ty st en o (qs : list charset),
    let tk := mkTok ty st en o 0 in
    fst (tok_ask tk qs) = map (conforms_charset o) qs /\
    (tok_type (snd (tok_ask tk qs)), tok_start (snd (tok_ask tk qs)),
     tok_end (snd (tok_ask tk qs)), tok_origin (snd (tok_ask tk qs))) = (ty, st, en, o).
Proof. exact ask_fresh. Qed.
Print Assumptions C03_cached_answers_transparent.

Example C03_case :
  let tk := mkTok TString (mkPos 1 1) (mkPos 1 3) [49; 45; 97] 0 in
  fst (tok_ask tk [CsDecimal; CsWord; CsDecimal; CsDoubleQuoted; CsWord; CsURI; CsDoubleQuoted])
  = [false; true; false; true; true; true; true].
Proof. reflexivity. Qed.

(** C04: quoting then unquoting is the identity on representable strings, ... *)
Theorem C04_single_quote_round_trip :
  forall s, Forall json_char s -> from_single_quoted (to_single_quoted s) = Some s.
Proof. exact from_to_single. Qed.
Print Assumptions C04_single_quote_round_trip.

(** ... the quoted form is acceptable single-quoted content, ... *)
Theorem C04_single_quote_accepted :
  forall s, Forall json_char s ->
    single_quoted_content (to_single_quoted s) /\
    conforms_charset (to_single_quoted s) CsSingleQuoted = true.
Proof.
  exact (fun s H => conj (to_single_content s H)
                         (proj2 (single_quoted_iff _) (to_single_content s H))).
Qed.
Print Assumptions C04_single_quote_accepted.

(** ... and every string that can be unquoted at all is the quoted form of the result. *)
Theorem C04_single_unquote_inverse :
  forall s u, from_single_quoted s = Some u -> to_single_quoted u = s /\ Forall json_char u.
Proof. exact to_from_single. Qed.
Print Assumptions C04_single_unquote_inverse.

Example C04_case :
  Forall json_char [39; 97; 39; 39; 9; 128512] /\
  to_single_quoted [39; 97; 39; 39; 9; 128512] = [39; 39; 97; 39; 39; 39; 39; 9; 128512].
Proof. split; [repeat constructor; unfold json_char; lia | reflexivity]. Qed.

(** C05, full statement: [forall s, Forall code_point s ->
      from_double_quoted (to_double_quoted s) = UOk s].  It is false: control characters are
    written as [\xhh] and the unquoting reads the wrong runes. *)
Theorem C05_double_quote_refuted :
  exists s, Forall code_point s /\ from_double_quoted (to_double_quoted s) <> UOk s.
Proof. exists [1]. split; [repeat constructor; unfold code_point; lia | vm_compute; congruence]. Qed.
Print Assumptions C05_double_quote_refuted.

(** The same defect yields a wrong string without any error: U+0001 "41" comes back as "A41". *)
Theorem C05_double_quote_silent_refuted :
  exists s u, Forall code_point s /\ from_double_quoted (to_double_quoted s) = UOk u /\ u <> s.
Proof.
  exists [1; 52; 49], [65; 52; 49].
  split; [repeat constructor; unfold code_point; lia|]. split; [reflexivity|congruence].
Qed.
Print Assumptions C05_double_quote_silent_refuted.

(** C05, proved part: the identity for all strings whose characters are JSON characters or have
    a one-letter escape (quotes, backslashes, tabs, line breaks, ...).  Missing: the other
    control characters. *)
Theorem C05_double_quote_round_trip_partial :
  forall s, Forall letter_escapable s -> from_double_quoted (to_double_quoted s) = UOk s.
Proof. exact from_to_double. Qed.
Print Assumptions C05_double_quote_round_trip_partial.

Example C05_partial_case :
  Forall letter_escapable [34; 92; 110; 10; 8; 0; 27; 133; 160; 8232; 65] /\
  from_double_quoted (to_double_quoted [34; 92; 110; 10; 8; 0; 27; 133; 160; 8232; 65])
  = UOk [34; 92; 110; 10; 8; 0; 27; 133; 160; 8232; 65].
Proof.
  split; [|reflexivity].
  repeat (constructor; [first [ left; right; split; discriminate
                              | right; cbn; tauto ]|]).
  constructor.
Qed.

(** C43: the recognisers of quoted content, URIs and tags decide the grammars. *)
Theorem C43_single_quoted_grammar :
  forall s, conforms_charset s CsSingleQuoted = true <-> single_quoted_content s.
Proof. exact single_quoted_iff. Qed.
Print Assumptions C43_single_quoted_grammar.

Theorem C43_uri_grammar :
  forall s, conforms_charset s CsURI = true <-> percent_content code_uri_char s.
Proof. exact uri_iff. Qed.
Print Assumptions C43_uri_grammar.

Theorem C43_tag_grammar :
  forall s, conforms_charset s CsTag = true <-> percent_content code_tag_char s.
Proof. exact tag_iff. Qed.
Print Assumptions C43_tag_grammar.

(** Double-quoted content, for the escape letters the code knows. *)
Theorem C43_double_quoted_grammar :
  forall s, conforms_charset s CsDoubleQuoted = true <->
            double_quoted_content single_escaped_characters s.
Proof. exact double_quoted_iff. Qed.
Print Assumptions C43_double_quoted_grammar.

(** The code's letters are not YAML's: [\b] is missing, although the writer emits it. *)
Theorem C43_double_quoted_yaml_refuted :
  exists s, double_quoted_content yaml_escape_letters s /\
            conforms_charset s CsDoubleQuoted = false /\
            to_double_quoted [8] = s.
Proof.
  exists [92; 98]. split; [|split; reflexivity].
  apply (dq_escape _ [98] []); [|constructor].
  constructor; [cbn; tauto | | |]; congruence.
Qed.
Print Assumptions C43_double_quoted_yaml_refuted.

(** What the double-quote writer emits is accepted, backspace excepted. *)
Theorem C43_written_double_quoted_accepted_partial :
  forall s, Forall code_point s -> ~ In 8 s ->
            conforms_charset (to_double_quoted s) CsDoubleQuoted = true.
Proof. exact (fun s H H8 => proj2 (double_quoted_iff _) (to_double_content s H H8)). Qed.
Print Assumptions C43_written_double_quoted_accepted_partial.

Example C43_case :
  Forall code_point [1; 34; 92; 233; 10] /\ ~ In 8 [1; 34; 92; 233; 10] /\
  to_double_quoted [1; 34; 92; 233; 10] = [92; 120; 48; 49; 92; 34; 92; 92; 233; 92; 110].
Proof.
  split; [repeat constructor; unfold code_point; lia|]. split; [cbn; intuition congruence|reflexivity].
Qed.
