(** Aliases, anchors and tags: what they parse to, and what goes wrong outside the grammar. *)
From Coq Require Import String.
From Verif Require Import Base Token Ast Lexer Parser ParserDocs ParserFacts RoundTripSpec RoundTripProofs TextSpec TextFacts TextProofs LiteralProofs.
Local Open Scope N_scope.

Definition tagged (t : text) : node := NProperties (NTag t) NInvalid.
Definition anchored (a : text) : node := NProperties NInvalid (NAnchor a).

Theorem mark_parses t s : leaf_text 0 t s -> forall digit omit fuel, (4 * length s + 4 <= fuel)%nat ->
  parse_string digit fuel omit s = Fin (inl (if omit then t else NStream [t])) tt.
Proof. intro H. apply documents_parse, leaf_document, H. Qed.
Theorem mark_value_parses k ks t s es r : scalar_text k ks -> leaf_text 1 t s -> entries_text false false 0 es r ->
  forall digit omit fuel, let doc := ks ++ 58 :: 32 :: s ++ 10 :: r ++ [10] in (4 * length doc + 4 <= fuel)%nat ->
    parse_string digit fuel omit doc = Fin (inl (let v := NMapping (NEntry k t :: es) in if omit then v else NStream [v])) tt.
Proof.
  intros Hk H Hr. apply documents_parse.
  pose proof (lines_document false _ _ (es_next false false 0 _ _ _ _ (et_key false 0 k ks t (32 :: s) Hk (at_word false 0 t s H)) Hr)) as D.
  rewrite <- app_assoc in D. cbn [app] in D. rewrite <- app_assoc in D. exact D.
Qed.

(** ** before block collections and block scalars *)
Lemma marked_entry k ks p ps kind m es s : scalar_text k ks -> props_text p ps -> (0 < m)%nat -> entries_text false kind m es s ->
  entry_text false false 0 (NEntry k (NContent p (build kind es))) (ks ++ 58 :: 32 :: ps ++ 10 :: spaces m ++ s).
Proof.
  intros Hk Hp Hm Hs.
  pose proof (et_key false 0 k ks _ _ Hk (at_marked_lines false false kind 0 0 p ps ([] ++ [10] ++ []) m es s Hp (gp_lines [] [10] [] (tr_blank 0) br_lf id_none) Hm Hs)) as E.
  exact E.
Qed.
Theorem marked_lines_parse k ks p ps kind m es s es2 r : scalar_text k ks -> props_text p ps -> (0 < m)%nat -> entries_text false kind m es s ->
  entries_text false false 0 es2 r ->
  forall digit omit fuel, let doc := ks ++ 58 :: 32 :: ps ++ 10 :: spaces m ++ s ++ 10 :: r ++ [10] in (4 * length doc + 4 <= fuel)%nat ->
    parse_string digit fuel omit doc = Fin (inl (lone omit (NMapping (NEntry k (NContent p (build kind es)) :: es2)))) tt.
Proof.
  intros Hk Hp Hm Hs Hr digit omit fuel.
  pose proof (documents_parse _ _ (lines_document false _ _ (es_next false false 0 _ _ _ _ (marked_entry k ks p ps kind m es s Hk Hp Hm Hs) Hr)) digit omit fuel) as D.
  intro doc. match type of D with context [parse_string _ _ _ ?d] => replace doc with d; [exact D|] end.
  subst doc. repeat (rewrite <- ?app_assoc; cbn [app]). reflexivity.
Qed.
Theorem marked_literal_parses k ks p ps t s es r : scalar_text k ks -> props_text p ps -> literal_text 1 t s -> entries_text false false 0 es r ->
  forall digit omit fuel, let doc := ks ++ 58 :: 32 :: ps ++ 32 :: s ++ r ++ [10] in (4 * length doc + 4 <= fuel)%nat ->
    parse_string digit fuel omit doc = Fin (inl (lone omit (NMapping (NEntry k (NContent p t) :: es)))) tt.
Proof.
  intros Hk Hp H Hr digit omit fuel.
  pose proof (es_after false false 0 _ _ _ _ (et_key true 0 k ks _ _ Hk (at_marked_literal false 0 0 p ps 0 t s Hp H)) Hr) as L.
  pose proof (documents_parse _ _ (lines_document _ _ _ L) digit omit fuel) as D.
  intro doc. match type of D with context [parse_string _ _ _ ?d] => replace doc with d; [exact D|] end.
  subst doc. cbn [spaces repeat]. repeat (rewrite <- ?app_assoc; cbn [app]). reflexivity.
Qed.

(** ** an anchored value and aliases of it *)
Definition alias_entries (a : text) (ks : list text) : list node := map (fun k => NEntry (word k) (NAlias a)) ks.
Fixpoint alias_source (a : text) (ks : list text) : text :=
  match ks with [] => [] | k :: ks => k ++ [58; 32; 42] ++ a ++ 10 :: alias_source a ks end.
Lemma alias_lines a k ks : plain_word a -> Forall plain_word (k :: ks) ->
  exists s, alias_source a (k :: ks) = s ++ [10] /\ entries_text false false 0 (alias_entries a (k :: ks)) s.
Proof.
  intros Ha. revert k. induction ks as [|k2 ks IH]; intros k Hk; inversion Hk as [|? ? H1 H2]; subst.
  - exists (k ++ 58 :: 32 :: 42 :: a). split; [cbn; rewrite <- ?app_assoc; reflexivity|].
    apply es_one, et_key; [constructor; constructor; exact H1|]. apply at_word, lt_alias, Ha.
  - destruct (IH k2 H2) as (s & E & Hs). exists ((k ++ 58 :: 32 :: 42 :: a) ++ 10 :: s). split.
    + change (alias_source a (k :: k2 :: ks)) with (k ++ [58; 32; 42] ++ a ++ 10 :: alias_source a (k2 :: ks)). rewrite E. cbn [app]. rewrite <- ?app_assoc. cbn [app]. rewrite <- ?app_assoc. reflexivity.
    + apply (es_next false false 0 _ (k ++ 58 :: 32 :: 42 :: a) _ s); [|exact Hs].
      apply et_key; [constructor; constructor; exact H1|]. apply at_word, lt_alias, Ha.
Qed.
Theorem aliases_parse a k v ks : plain_word a -> plain_word k -> plain_word v -> Forall plain_word ks ->
  forall digit omit fuel, let doc := k ++ [58; 32; 38] ++ a ++ 32 :: v ++ 10 :: alias_source a ks in (4 * length doc + 4 <= fuel)%nat ->
    parse_string digit fuel omit doc =
      Fin (inl (lone omit (NMapping (NEntry (word k) (NContent (anchored a) (word v)) :: alias_entries a ks)))) tt.
Proof.
  intros Ha Hk Hv Hks digit omit fuel.
  assert (L : leaf_text 1 (NContent (anchored a) (word v)) ((38 :: a) ++ spaces 1 ++ v)).
  { apply (lt_props 1 _ (38 :: a) 0); [apply pr_anchor; constructor; exact Ha|]. apply ba_scalar. constructor. constructor. exact Hv. }
  assert (K : scalar_text (word k) k) by (constructor; constructor; exact Hk).
  destruct ks as [|k2 ks].
  - pose proof (documents_parse _ _ (lines_document false _ _ (es_one false false 0 _ _ (et_key false 0 _ k _ (32 :: _) K (at_word false 0 _ _ L))))) as D.
    intro doc. specialize (D digit omit fuel). replace doc with ((k ++ 58 :: 32 :: (38 :: a) ++ spaces 1 ++ v) ++ [10]); [exact D|].
    subst doc. cbn [app alias_source]. rewrite <- ?app_assoc. cbn [app]. rewrite <- ?app_assoc. reflexivity.
  - destruct (alias_lines a k2 ks Ha Hks) as (s & E & Hs). pose proof (mark_value_parses _ k _ _ _ _ K L Hs digit omit fuel) as D. cbv zeta in D.
    intro doc. replace doc with (k ++ 58 :: 32 :: ((38 :: a) ++ spaces 1 ++ v) ++ 10 :: s ++ [10]); [exact D|].
    subst doc. rewrite E. cbn [app]. rewrite <- ?app_assoc. cbn [app]. rewrite <- ?app_assoc. reflexivity.
Qed.

(** ** outside the grammar *)
(** an anchor before the first key of a document *)
Lemma first_key_lost digit omit fuel : (300 <= fuel)%nat -> parse_string digit fuel omit (t' "&a k: v" ++ [10]) = Fin (inl (NStream [])) tt.
Proof. runs. Qed.
(** the same anchor before the second key *)
Lemma second_key_kept digit omit fuel : (300 <= fuel)%nat -> parse_string digit fuel omit (t' "j: w" ++ [10] ++ t' "&a k: v" ++ [10]) =
  Fin (inl (lone omit (NMapping [NEntry (word (t' "j")) (word (t' "w")); NEntry (NContent (anchored (t' "a")) (word (t' "k"))) (word (t' "v"))]))) tt.
Proof. runs. Qed.
(** a dash in a tag *)
Lemma dashed_tag_fails digit omit fuel : (300 <= fuel)%nat -> exists es, parse_string digit fuel omit (t' "!my-tag x") = Fin (inr es) tt.
Proof. intro H. eexists. revert H. runs. Qed.
