(** Folded scalars: what their texts parse to, and what goes wrong outside the grammar. *)
From Coq Require Import String.
From Verif Require Import Base Token Ast Lexer Parser ParserDocs ParserFacts RoundTripSpec RoundTripProofs LexText BlockText LineText TextSpec TextFacts TextProofs LiteralProofs FoldedSpec.
Local Open Scope N_scope.

Lemma word_starts w s : plain_word w -> indented (w ++ s) = false.
Proof.
  intros (Hn & Hc & _). destruct w as [|c w]; [congruence|]. inversion Hc as [|? ? H _]; subst. unfold plain_char in H. cbn [app indented].
  destruct (N.eqb_spec c 32); [subst; cbn in H; tauto|]. destruct (N.eqb_spec c 9); [subst; cbn in H; tauto|reflexivity].
Qed.
Lemma line_starts l : fold_line_text l -> indented l = false.
Proof. intros [w s Hw _ _]. apply word_starts, Hw. Qed.
Lemma hollow_zero v k : hollow_text v k (repeat 10 k).
Proof. induction k as [|k IH]; [constructor|]. apply (hw_more v k 0); [lia|exact IH]. Qed.

Lemma lines_folded v l ls : (1 <= v)%nat -> fold_line_text l -> Forall (fun p => fold_line_text (snd p)) ls ->
  folded_text 1 (NText (yaml_fold l ls) UnknownQuoting) (62 :: 10 :: fold_source v l ls).
Proof.
  intros Hv Hl Hls.
  assert (M : exists w r, fold_more_text v w r /\ yaml_fold l ls = l ++ w ++ [10] /\ fold_source v l ls = spaces v ++ l ++ r ++ [10]).
  { revert l Hl. induction Hls as [|[k x] ls Hx Hls IH]; intros l Hl; [exists [], []; repeat split; constructor|].
    cbn [snd] in Hx. destruct (IH x Hx) as (w & r & Hm & E1 & E2).
    exists (fold_break k ++ x ++ w), (10 :: repeat 10 k ++ spaces v ++ x ++ r). split; [apply fo_line; auto using hollow_zero|].
    cbn [yaml_fold fold_source]. rewrite E1, E2. unfold yaml_break. rewrite (line_starts l Hl), (line_starts x Hx). cbn [orb].
    split; rewrite <- ?app_assoc; [reflexivity|]. cbn [app]. rewrite <- !app_assoc. reflexivity. }
  destruct M as (w & r & Hm & E1 & E2). rewrite E1, E2.
  exact (fd_lines 1 v _ [62] [] [10] l w r 0 [] Hv (hd_clip 62) (tr_blank 0) br_lf Hl Hm ltac:(constructor)).
Qed.

Theorem folded_parses t s : folded_text 1 t s -> forall digit omit fuel, (4 * length s + 4 <= fuel)%nat ->
  parse_string digit fuel omit s = Fin (inl (if omit then t else NStream [t])) tt.
Proof. intro H. apply literal_parses, li_folded, H. Qed.
Theorem folded_value_parses k ks t s es r : scalar_text k ks -> folded_text 1 t s -> entries_text false false 0 es r ->
  forall digit omit fuel, let doc := ks ++ 58 :: 32 :: s ++ r ++ [10] in (4 * length doc + 4 <= fuel)%nat ->
    parse_string digit fuel omit doc = Fin (inl (let v := NMapping (NEntry k t :: es) in if omit then v else NStream [v])) tt.
Proof. intros Hk H. apply literal_value_parses; [exact Hk|apply li_folded, H]. Qed.
Theorem folded_lines_parse k v l ls : plain_word k -> (1 <= v)%nat -> fold_line_text l -> Forall (fun p => fold_line_text (snd p)) ls ->
  forall digit omit fuel, let doc := k ++ [58; 32; 62; 10] ++ fold_source v l ls in (4 * length doc + 4 <= fuel)%nat ->
    parse_string digit fuel omit doc =
      Fin (inl (let t := NMapping [NEntry (NText k UnknownQuoting) (NText (yaml_fold l ls) UnknownQuoting)] in if omit then t else NStream [t])) tt.
Proof.
  intros Hk Hv Hl Hls digit omit fuel doc Hf.
  apply (streams_read digit omit [_] _ (literal_mapping _ k _ _ (stx_plain k (pt_word k Hk)) (li_folded _ _ _ (lines_folded v l ls Hv Hl Hls))) fuel Hf).
Qed.

(** words separated by spaces are lines *)
Lemma plain_is_line s : plain_text s -> fold_line_text s.
Proof.
  intros [w Hw|w n s2 Hw Hs].
  - rewrite <- (app_nil_r w). constructor; auto.
  - constructor; [exact Hw| |right; reflexivity]. apply Forall_app. split.
    + apply Forall_forall. intros x Hx. apply repeat_spec in Hx. subst x. unfold comment_char. cbn. intuition discriminate.
    + clear w n Hw. assert (W : forall w, plain_word w -> Forall comment_char w).
      { intros w (_ & H & _). eapply Forall_impl; [|exact H]. unfold plain_char, comment_char. cbn. intuition. }
      induction Hs as [w Hw|w n s3 Hw Hs IH]; [auto|]. apply Forall_app. split; [auto|]. apply Forall_app. split; [|exact IH].
      apply Forall_forall. intros x Hx. apply repeat_spec in Hx. subst x. unfold comment_char. cbn. intuition discriminate.
Qed.

(** ** outside the grammar *)
(** two lines that are indented more: the break between them is doubled *)
Lemma breaks_doubled digit omit fuel : (300 <= fuel)%nat ->
  parse_string digit fuel omit (t' "a" ++ [58; 32; 62; 10] ++ fold_source 2 (t' "x") [(0%nat, t' " y"); (0%nat, t' " z")]) =
    Fin (inl (lone omit (NMapping [NEntry (word (t' "a")) (word (t' "x" ++ [10] ++ t' " y" ++ [10; 10] ++ t' " z" ++ [10]))]))) tt.
Proof. runs. Qed.
(** one such line is read as it should be *)
Lemma one_kept digit omit fuel : (300 <= fuel)%nat ->
  parse_string digit fuel omit (t' "a" ++ [58; 32; 62; 10] ++ fold_source 2 (t' "x") [(0%nat, t' " y"); (1%nat, t' "z")]) =
    Fin (inl (lone omit (NMapping [NEntry (word (t' "a")) (word (yaml_fold (t' "x") [(0%nat, t' " y"); (1%nat, t' "z")]))]))) tt.
Proof. runs. Qed.
(** a quote in front *)
Lemma folded_quote_drops digit omit fuel : (300 <= fuel)%nat ->
  parse_string digit fuel omit (t' "a" ++ [58; 32; 62; 10] ++ fold_source 2 (t' "it's") [] ++ t' "b: c" ++ [10]) =
    Fin (inl (lone omit (NMapping [NEntry (word (t' "a")) (word (t' "it's" ++ [10]))]))) tt.
Proof. runs. Qed.
Lemma folded_bracket_fails digit omit fuel : (300 <= fuel)%nat -> exists es,
  parse_string digit fuel omit (t' "a" ++ [58; 32; 62; 10] ++ fold_source 2 (t' "[x") []) = Fin (inr es) tt.
Proof. eexists. revert H. runs. Qed.
