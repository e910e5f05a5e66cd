(** Property theorems C64: directives. *)
From Coq Require Import String.
From Verif Require Import Base Token Ast Lexer Parser ParserDocs RoundTripSpec TextSpec DirSpec TextFacts TextProofs LiteralProofs MarkProofs DirProofs.

(** C64: a stream whose first document has directives, the version, handles with global prefixes or such that
    mean nothing, is parsed to its documents.  Digits are asked of unicode.IsDigit; nothing is assumed of it but the answer for the ten digits. *)
Theorem C64_directives_parse : forall digit, (forall c, decimal c -> digit c = true) -> forall ds s, directed_text ds s ->
  forall omit fuel, 4 * length s + 4 <= fuel ->
    parse_string digit fuel omit s = Fin (inl (match ds with [d] => if omit then d else NStream ds | _ => NStream ds end)) tt.
Proof. intros digit H ds s Hs omit. exact (directed_read digit omit ds s H Hs). Qed.
Print Assumptions C64_directives_parse.

(** C64: the same without them. *)
Theorem C64_directives_change_nothing : forall digit, (forall c, decimal c -> digit c = true) -> forall o l d t s ds s2,
  idle_text l -> directives_text d -> marked_text o t s -> docs_text o ds s2 -> joins s s2 ->
  forall omit fuel, 4 * length (l ++ d ++ mark_text ++ s ++ s2) + 4 <= fuel ->
    parse_string digit fuel omit (l ++ d ++ mark_text ++ s ++ s2) = parse_string digit fuel omit (l ++ mark_text ++ s ++ s2).
Proof. intros digit Hd o l d t s ds s2 H1 H2 H3 H4 H5 omit. exact (directives_aside digit omit o l d t s ds s2 Hd H1 H2 H3 H4 H5). Qed.
Print Assumptions C64_directives_change_nothing.

(** C64 is refuted for tag directives with local prefixes, which YAML allows: the document is dropped, without an error. *)
Theorem C64_local_prefixes_refuted : forall digit omit, ~ forall h p v, h <> [] -> Forall alnum h -> p <> [] -> Forall alnum p -> plain_word v ->
  exists fuel0, forall fuel, fuel0 <= fuel ->
    parse_string digit fuel omit (t' "%TAG !" ++ h ++ t' "! !" ++ p ++ [10%N] ++ t' "--- " ++ v) = Fin (inl (lone omit (word v))) tt.
Proof.
  intros digit omit H. destruct (H (t' "e") (t' "foo") (t' "a")) as [f0 Hf]; try discriminate; try word_ok;
    try (unfold alnum; repeat (apply Forall_cons; [cbn; lia|]); constructor).
  specialize (Hf (f0 + 300) ltac:(lia)). pose proof (eq_trans (eq_sym Hf) (local_prefix_lost digit omit (f0 + 300) ltac:(lia))) as D. destruct omit; discriminate D.
Qed.
Print Assumptions C64_local_prefixes_refuted.

(** C64 is refuted for wrong directives, too: they are not reported, and the documents after them are dropped. *)
Theorem C64_wrong_directives_refuted : forall digit omit, ~ forall v, plain_word v ->
  exists fuel0, forall fuel, fuel0 <= fuel -> exists es, parse_string digit fuel omit (t' "%YAML" ++ [10%N] ++ t' "--- " ++ v) = Fin (inr es) tt.
Proof.
  intros digit omit H. destruct (H (t' "a")) as [f0 Hf]; [word_ok|].
  destruct (Hf (f0 + 300) ltac:(lia)) as [es E]. pose proof (eq_trans (eq_sym E) (no_version_lost digit omit (f0 + 300) ltac:(lia))) as D. discriminate D.
Qed.
Print Assumptions C64_wrong_directives_refuted.

(** A comment, the version, a prefix, a directive with a parameter that looks like a comment, an empty line, and two documents. *)
Definition c64_text : text :=
  t' "# c" ++ nl ++ t' "%YAML 1.2 # v" ++ nl ++ t' "%TAG !e-1! tag:e.org,2000:" ++ nl ++ t' "%FOO  a:b #c" ++ nl ++ nl ++ t' "---" ++ nl ++ t' "k: v" ++ nl ++ t' "--- x".
Definition c64_docs : list node := [NMapping [NEntry (word (t' "k")) (word (t' "v"))]; word (t' "x")].
Lemma c64_text_of : directed_text c64_docs c64_text.
Proof.
  assert (N : forall w, forallb (fun c => negb (existsb (N.eqb c) [9; 10; 13; 32; 65279]%N)) w = true -> Forall name_char w).
  { intros w H. apply Forall_forall. intros c Hc. rewrite forallb_forall in H. specialize (H c Hc). intro K. apply Bool.negb_true_iff in H.
    rewrite <- Bool.not_true_iff_false in H. apply H. apply existsb_exists. exists c. split; [exact K|apply N.eqb_refl]. }
  apply (dd_stream false (t' "# c" ++ nl) (t' "%YAML 1.2 # v" ++ nl ++ t' "%TAG !e-1! tag:e.org,2000:" ++ nl ++ t' "%FOO  a:b #c" ++ nl ++ nl) _ (nl ++ t' "k: v") [_] (nl ++ t' "--- x")).
  - apply (id_more (t' "# c") nl []); [apply (il_comment 0 (t' "# c")); comment_ok|constructor|constructor].
  - apply (dv_more (t' "%YAML 1.2 # v" ++ nl)); [|apply (dv_more (t' "%TAG !e-1! tag:e.org,2000:" ++ nl)); [|apply dv_one]].
    + apply (dv_version 0 (t' "1.2") (t' " # v" ++ nl)); [|apply (comment_gap 0 (t' "# v")); [comment_ok|constructor]].
      apply (vn_pair (t' "1") (t' "2")); try discriminate; (constructor; [cbn; unfold decimal; lia|constructor]).
    + apply (dv_tag 0 (t' "!e-1!") 0 116%N (t' "ag:e.org,2000:") []); [apply (hd_named (t' "e-1")); [discriminate|]| | |constructor].
      * change (Forall handle_char [101; 45; 49]%N). unfold handle_char, alnum. repeat (constructor; [lia|]). constructor.
      * left. unfold alnum. lia.
      * change (Forall uri_char [97; 103; 58; 101; 46; 111; 114; 103; 44; 50; 48; 48; 48; 58]%N). unfold uri_char, tag_char, alnum. repeat (constructor; [cbn; lia|]). constructor.
    + apply (dv_other (t' "FOO") (t' "  a:b #c") nl); try discriminate; [apply N; reflexivity| |apply (id_more [] nl []); [apply (il_blank 0)|constructor|constructor]].
      apply (pm_more 1 (t' "a:b") (t' " #c")); [discriminate|apply N; reflexivity|].
      apply (pm_more 0 (t' "#c") []); [discriminate|apply N; reflexivity|constructor].
  - apply (mk_below false nl); [exact gap_line|]. apply (ls_entries false false 0 [_]).
    apply es_one, (et_key false 0 _ (t' "k") _ (t' " v")); [constructor; constructor; word_ok|]. apply (at_leaf false 0 0 _ (t' "v")).
    apply lt_bare, ba_scalar. constructor. constructor. word_ok.
  - apply (dn_more false false nl _ (t' " x") [] []); [constructor; exact gap_line| |apply dn_end, en_line, (tr_blank 0)|].
    + apply (mk_leaf 0 _ (t' "x")), lt_bare, ba_scalar. constructor. constructor. word_ok.
    + intros _. apply (ends_other (t' " ")). discriminate.
  - discriminate.
Qed.
Example C64_directives_case : directed_text c64_docs c64_text
  /\ forall digit, (forall c, decimal c -> digit c = true) -> forall omit fuel, 400 <= fuel -> parse_string digit fuel omit c64_text = Fin (inl (NStream c64_docs)) tt.
Proof.
  split; [exact c64_text_of|]. intros digit Hd omit fuel H. apply (directed_read digit omit c64_docs c64_text Hd c64_text_of). vm_compute. vm_compute in H. lia.
Qed.
