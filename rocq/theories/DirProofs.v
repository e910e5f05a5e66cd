(** Streams with directives: what they parse to, and what goes wrong outside the grammar. *)
From Coq Require Import String.
From Verif Require Import Base Token Ast Balance CPAccessor Lexer LexerSpec LexerProofs Parser ParserDocs ParserTape ParserFuel ParserTotal ParserFacts RoundTripSpec TapeRules BlockParse1 BlockParse2 BlockParse3 BlockParse4
  LitParse FlowParse1 FlowParse2 FoldParse FlowParse4 LeafParse BlockParse5 BlockColl BlockParse6 BlockParse7 DirParse LexText BlockText LineText DirText TokenStarts RoundTripProofs TextSpec DirSpec TextFacts TextProofs LiteralProofs.

Local Open Scope nat_scope.

Lemma directive_not_eof digit ts : directive digit ts -> Forall (fun t => is_eof t = false) ts.
Proof.
  intros [x n sps v g Hx Hn _ Hs _ Hv _ Hg|x n sps hs sp sps2 p c u nl l Hx Hn On Hs Hne Hh Hsp Hs2 Hp Op Oc Ou Hnl Hl|x n ws nl l Hx Hn _ _ Hw Hnl Hl].
  2:{ do 4 (constructor; [first [reflexivity|eapply type_not_eof; [eassumption|discriminate]]|]).
    apply Forall_app. split; [apply blanks_not_eof, Hs|]. apply Forall_app. split; [destruct Hh; repeat constructor; (eapply type_not_eof; [eassumption|discriminate])|].
    do 2 (constructor; [first [reflexivity|eapply type_not_eof; [eassumption|discriminate]]|]). apply Forall_app. split; [apply blanks_not_eof, Hs2|].
    do 3 (constructor; [first [reflexivity|eapply type_not_eof; [eassumption|discriminate]]|]). apply mild_not_eof, idle_mild, Hl. }
  - do 4 (constructor; [first [reflexivity|eapply type_not_eof; [eassumption|discriminate]]|]).
    apply Forall_app. split; [apply blanks_not_eof, Hs|]. constructor; [eapply type_not_eof; [exact Hv|discriminate]|apply mild_not_eof, gap_mild, Hg].
  - do 5 (constructor; [first [reflexivity|eapply type_not_eof; [eassumption|discriminate]]|]). apply Forall_app. split.
    + induction Hw as [|sps w ts0 Hs _ Hw _ IH]; [constructor|]. apply Forall_app. split; [apply blanks_not_eof, Hs|].
      constructor; [eapply type_not_eof; [exact Hw|discriminate]|exact IH].
    + constructor; [eapply type_not_eof; [exact Hnl|discriminate]|]. constructor; [reflexivity|apply mild_not_eof, idle_mild, Hl].
Qed.
Lemma directives_not_eof digit ts : directives digit ts -> Forall (fun t => is_eof t = false) ts.
Proof.
  induction 1 as [ts H|ts ts2 H _ IH]; [eapply directive_not_eof, H|]. apply Forall_app. split; [eapply directive_not_eof, H|exact IH].
Qed.
Lemma directed_split digit ds ts : directed_of digit ds ts -> two_ends ts.
Proof.
  intros [l dts t ds2 tl Hl Hdt Hd]. apply two_app; [apply mild_not_eof, idle_mild, Hl|]. apply two_app; [eapply directives_not_eof, Hdt|]. apply (docs_split _ _ _ Hd).
Qed.

Theorem directed_read digit omit ds s : (forall c, decimal c -> digit c = true) -> directed_text ds s -> forall fuel, 4 * length s + 4 <= fuel ->
  parse_string digit fuel omit s = Fin (inl (match ds with [d] => if omit then d else NStream ds | _ => NStream ds end)) tt.
Proof.
  intros Hdg H fuel Hf.
  destruct (directed_tokens digit Hdg (S (length s)) ltac:(lia) ds s H ltac:(lia)) as (ts & Hd & Hg).
  destruct (directed_split _ _ _ Hd) as (body & tail & E & Ht & Hb).
  assert (Hl : length ts < fuel).
  { subst ts. pose proof (few_tokens (S (length s)) s _ _ ltac:(lia) Hg [] body tail eq_refl (new_place s) Hb) as L.
    rewrite app_length, Ht. cbn in L. lia. }
  destruct (starts_differ (S (length s)) s ts _ ltac:(lia) Hg [] (new_place s)) as [Hn _].
  destruct (directed_ok digit fuel ltac:(lia) ds ts Hd Hl Hn) as (p & tp & E1 & E2).
  rewrite (parse_text_tape digit omit s fuel ts _ p tp Hf Hg E1 E2). destruct ds as [|d [|d2 ds]]; reflexivity.
Qed.
Theorem directives_aside digit omit o l d t s ds s2 : (forall c, decimal c -> digit c = true) ->
  idle_text l -> directives_text d -> marked_text o t s -> docs_text o ds s2 -> joins s s2 ->
  forall fuel, 4 * length (l ++ d ++ mark_text ++ s ++ s2) + 4 <= fuel ->
    parse_string digit fuel omit (l ++ d ++ mark_text ++ s ++ s2) = parse_string digit fuel omit (l ++ mark_text ++ s ++ s2).
Proof.
  intros Hdg Hl Hd Hm Hds Hj fuel Hf.
  rewrite (directed_read digit omit (t :: ds) _ Hdg (dd_stream o l d t s ds s2 Hl Hd Hm Hds Hj) fuel Hf). symmetry.
  apply (streams_read digit omit (t :: ds)); [exact (sm_marked o l t s ds s2 Hl Hm Hds Hj)|]. rewrite !app_length in *. lia.
Qed.

(** ** outside the grammar *)
Lemma local_prefix_lost digit omit fuel : 300 <= fuel -> parse_string digit fuel omit (t' "%TAG !e! !foo" ++ [10%N] ++ t' "--- a") = Fin (inl (NStream [])) tt.
Proof. runs. Qed.
Lemma no_version_lost digit omit fuel : 300 <= fuel -> parse_string digit fuel omit (t' "%YAML" ++ [10%N] ++ t' "--- a") = Fin (inl (NStream [])) tt.
Proof. runs. Qed.
Lemma global_prefix_kept digit omit fuel : 300 <= fuel -> parse_string digit fuel omit (t' "%TAG !e! tag:e.org,2000:" ++ [10%N] ++ t' "--- a") =
  Fin (inl (lone omit (NText (t' "a") UnknownQuoting))) tt.
Proof. runs. Qed.
