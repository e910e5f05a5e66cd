(** Documents with aliases and merge keys whose generic value is wrong. *)
From Coq Require Import String.
From Verif Require Import Base Schema Values Ast Writer AnyBuilder Reader YReader GBuilder GReader
  ReadSpec ReaderSpec DocSpec AliasSpec ReaderProofs AnyProofs DocProofs ReaderCases.
Local Open Scope nat_scope.

Definition any_map (m : list (text * value)) : Prop := True.

(** [[&a [&b x], &b y, *a, *b]] *)
Definition y_rebind : node :=
  NSequence [anchored (t' "a") (NSequence [anchored (t' "b") (plain_text (t' "x"))]);
             anchored (t' "b") (plain_text (t' "y")); NAlias (t' "a"); NAlias (t' "b")].
(** [[&x u, &a [*x], &x v, *a]] *)
Definition y_capture : node :=
  NSequence [anchored (t' "x") (plain_text (t' "u")); anchored (t' "a") (NSequence [NAlias (t' "x")]);
             anchored (t' "x") (plain_text (t' "v")); NAlias (t' "a")].
(** [&a [*a]] *)
Definition y_self : node := anchored (t' "a") (NSequence [NAlias (t' "a")]).
Definition g_self : graph :=
  [mkX KSequence (t' "!!seq") [] (t' "a") [Some 1] None; mkX KAlias [] (t' "a") [] [] (Some 0)].
(** [<<: {k: {m: x}}] *)
Definition y_nested : node :=
  NMapping [NEntry (plain_text (t' "<<"))
    (NMapping [NEntry (plain_text (t' "k")) (NMapping [NEntry (plain_text (t' "m")) (plain_text (t' "x"))])])].
Definition g_nested : graph :=
  [mkX KMapping (t' "!!map") [] [] [Some 1; Some 2] None; gscalar (t' "!!merge") (t' "<<");
   mkX KMapping (t' "!!map") [] [] [Some 3; Some 4] None; gscalar (t' "!!str") (t' "k");
   mkX KMapping (t' "!!map") [] [] [Some 5; Some 6] None; gscalar (t' "!!str") (t' "m"); gscalar (t' "!!str") (t' "x")].
(** [<<: [{k: x}, {m: y}]]: a list of mappings to merge *)
Definition y_list : node :=
  NMapping [NEntry (plain_text (t' "<<"))
    (NSequence [NMapping [NEntry (plain_text (t' "k")) (plain_text (t' "x"))];
                NMapping [NEntry (plain_text (t' "m")) (plain_text (t' "y"))]])].

Ltac dv := repeat first [apply dv_seq | apply dv_map | apply dv_anchor | apply dv_null
  | (apply dv_text; reflexivity) | (apply dv_alias; reflexivity)
  | (eapply dvs_cons) | apply dvs_nil | (apply de_nil)
  | (eapply de_merge; [|exact I|]) | (eapply de_cons; [discriminate| |])].

Lemma rebind_meaning : exists d e, y_doc y_rebind = Some d
  /\ dval o_none any_map [] d (VSeq [VSeq [VStr (t' "x")]; VStr (t' "y"); VSeq [VStr (t' "x")]; VStr (t' "y")]) e.
Proof. eexists _, _. split; [vm_compute; reflexivity|]. dv. Qed.
Lemma rebind_value : exists k, extract_any y_access o_none 20 an_new y_rebind
  = Done (inl (VSeq [VSeq [VStr (t' "x")]; VStr (t' "y"); VSeq [VStr (t' "x")]; VStr (t' "x")]), k).
Proof. eexists. vm_compute. reflexivity. Qed.
Lemma capture_meaning : exists d e, y_doc y_capture = Some d
  /\ dval o_none any_map [] d (VSeq [VStr (t' "u"); VSeq [VStr (t' "u")]; VStr (t' "v"); VSeq [VStr (t' "u")]]) e.
Proof. eexists _, _. split; [vm_compute; reflexivity|]. dv. Qed.
Lemma capture_value : exists k, extract_any y_access o_none 20 an_new y_capture
  = Done (inl (VSeq [VStr (t' "u"); VSeq [VStr (t' "u")]; VStr (t' "v"); VSeq [VStr (t' "v")]]), k).
Proof. eexists. vm_compute. reflexivity. Qed.
Lemma nested_meaning : exists d, y_doc y_nested = Some d /\ g_doc g_nested (Some 0) d
  /\ dval o_none any_map [] d (VMap [(t' "k", VMap [(t' "m", VStr (t' "x"))])]) [].
Proof.
  eexists. split; [vm_compute; reflexivity|]. split.
  - eapply gd_map; [reflexivity|reflexivity|]. apply gde_cons; [exact (gd_text g_nested 1 _ eq_refl eq_refl eq_refl)| |constructor].
    eapply gd_map; [reflexivity|reflexivity|]. apply gde_cons; [exact (gd_text g_nested 3 _ eq_refl eq_refl eq_refl)| |constructor].
    eapply gd_map; [reflexivity|reflexivity|]. apply gde_cons; [exact (gd_text g_nested 5 _ eq_refl eq_refl eq_refl)|exact (gd_text g_nested 6 _ eq_refl eq_refl eq_refl)|constructor].
  - cbn. apply dv_map. eapply (de_merge _ _ _ _ _ [(t' "k", VMap [(t' "m", VStr (t' "x"))])]); [|exact I|apply de_nil].
    apply dv_map. eapply (de_cons _ _ _ _ (t' "k") _ (VMap [(t' "m", VStr (t' "x"))])); [discriminate| |apply de_nil].
    apply dv_map. eapply (de_cons _ _ _ _ (t' "m") _ (VStr (t' "x"))); [discriminate| |apply de_nil].
    apply dv_text. reflexivity.
Qed.
Lemma nested_value_y : exists k, extract_any y_access o_none 20 an_new y_nested = Done (inl (VMap [(t' "m", VStr (t' "x"))]), k).
Proof. eexists. vm_compute. reflexivity. Qed.
Lemma nested_value_g : extract_any g_access o_none 20 g_nested (Some 0) = Done (inl (VMap [(t' "m", VStr (t' "x"))]), g_nested).
Proof. vm_compute. reflexivity. Qed.
(** the entry of the second mapping is lost *)
Lemma list_value : exists k, extract_any y_access o_none 20 an_new y_list = Done (inl (VMap [(t' "k", VStr (t' "x"))]), k).
Proof. eexists. vm_compute. reflexivity. Qed.

(** a node that contains itself *)
Lemma self_forever_y f : extract_any y_access o_none f an_new y_self = NoFuel.
Proof.
  set (al := NAlias (t' "a")). set (sq := NSequence [al]).
  assert (H : forall f (a : abuilder anchors), an_map (ab_keep a) = [(t' "a", sq)] ->
            any_visit y_access o_none f sq a = NoFuel /\ any_visit y_access o_none f al a = NoFuel).
  { clear f. induction f as [|f IH]; intros a Ha; [split; reflexivity|].
    split; rewrite any_visit_S.
    - change (ac_view y_access (ab_keep a) sq) with (AVSeq [al]). cbn [av_seq].
      destruct (IH (ab_set_flags false (ab_extract_merge a) a) Ha) as [_ ->]. reflexivity.
    - change (ac_view y_access (ab_keep a) al) with (AVAlias (an_deref (t' "a") (ab_keep a))).
      unfold an_deref. rewrite Ha. cbn [an_find]. rewrite teqb_refl. apply (IH a Ha). }
  unfold extract_any. destruct f as [|[|[|f]]]; try reflexivity. unfold y_self, anchored. fold al sq.
  rewrite any_visit_S. cbn [ac_view y_access y_view valid_node node_type].
  rewrite any_visit_S. cbn [ac_view y_access y_view valid_node node_type].
  rewrite any_visit_S. cbn [ac_view y_access y_view valid_node node_type obind].
  match goal with |- context [any_visit _ _ ?g sq ?a] => destruct (H g a eq_refl) as [-> _] end. reflexivity.
Qed.
Lemma self_forever_g f : extract_any g_access o_none f g_self (Some 0) = NoFuel.
Proof.
  assert (H : forall f (a : abuilder graph), ab_keep a = g_self ->
            any_visit g_access o_none f (Some 0) a = NoFuel /\ any_visit g_access o_none f (Some 1) a = NoFuel).
  { clear f. induction f as [|f IH]; intros a Ha; [split; reflexivity|]. split.
    - cbn. rewrite Ha. cbn. destruct (IH (ab_set_flags false (ab_extract_merge a) a) Ha) as [_ ->]. reflexivity.
    - cbn. rewrite Ha. cbn. apply (IH a Ha). }
  unfold extract_any. destruct (H f (ab_new g_self) eq_refl) as [-> _]. reflexivity.
Qed.

(** an anchor that was skipped is not known afterwards *)
Lemma skipped_anchor : exists s,
  do_requests (y_engine o_none) o_none 40 [QCall DSequence; QCall DSkip; QCall DString; QCall DError]
    (y_reader false (NSequence [NSequence [anchored (t' "a") (plain_text (t' "x"))]; NAlias (t' "a")]), [])
  = Done ([PAnswer (AColl (CollState 2 0)); PAnswer AUnit; PAnswer (AText []); PAnswer (AErrors [RAlias (t' "a")])], s).
Proof. eexists. vm_compute. reflexivity. Qed.

(** a document that satisfies all conditions: [[&a [&b x], &c y, *a, *b, &c z, *c]] *)
Definition y_fine : node :=
  NSequence [anchored (t' "a") (NSequence [anchored (t' "b") (plain_text (t' "x"))]);
             anchored (t' "c") (plain_text (t' "y")); NAlias (t' "a"); NAlias (t' "b");
             anchored (t' "c") (plain_text (t' "z")); NAlias (t' "c")].
Definition fine_inner (b : text) : bool := text_eqb b (t' "b").
Lemma fine_ok : exists d e, y_doc y_fine = Some d
  /\ stable fine_inner (fun _ => DText (t' "x")) d /\ keys_once d
  /\ dval o_none flat [] d (VSeq [VSeq [VStr (t' "x")]; VStr (t' "y"); VSeq [VStr (t' "x")]; VStr (t' "x"); VStr (t' "z"); VStr (t' "z")]) e.
Proof.
  eexists _, _. split; [vm_compute; reflexivity|]. split; [|split].
  - repeat constructor; cbn; intros; repeat match goal with H : _ \/ _ |- _ => destruct H end; subst; try contradiction; try reflexivity; try discriminate.
  - repeat constructor.
  - dv.
Qed.
(** merge keys: [{base: &m {k: x, q: y}, it: {k: own, <<: *m}}] *)
Definition y_merge : node :=
  NMapping [NEntry (plain_text (t' "base")) (anchored (t' "m") (NMapping [NEntry (plain_text (t' "k")) (plain_text (t' "x")); NEntry (plain_text (t' "q")) (plain_text (t' "y"))]));
            NEntry (plain_text (t' "it")) (NMapping [NEntry (plain_text (t' "<<")) (NAlias (t' "m")); NEntry (plain_text (t' "k")) (plain_text (t' "own"))])].
Lemma merge_ok : exists d e m1 m2, y_doc y_merge = Some d
  /\ stable (fun _ => false) (fun _ => DNull) d /\ keys_once d
  /\ dval o_none flat [] d (VMap [(t' "base", VMap m1); (t' "it", VMap m2)]) e
  /\ map_get (t' "k") m2 = Some (VStr (t' "own")) /\ map_get (t' "q") m2 = Some (VStr (t' "y")).
Proof.
  eexists _, _, _, _. split; [vm_compute; reflexivity|]. split; [|split; [|split]].
  - repeat constructor; cbn; intros; repeat match goal with H : _ \/ _ |- _ => destruct H end; subst; try contradiction; try reflexivity; try discriminate.
  - assert (H1 : ~ In (t' "k") [t' "q"]) by (intros [H|[]]; discriminate).
    assert (H2 : ~ In (t' "base") [t' "it"]) by (intros [H|[]]; discriminate).
    repeat constructor; auto; try (intros []).
  - apply dv_map. eapply (de_cons _ _ _ _ (t' "base")); [discriminate| |].
    + apply dv_anchor. apply dv_map. eapply (de_cons _ _ _ _ (t' "k")); [discriminate|apply dv_text; reflexivity|].
      eapply (de_cons _ _ _ _ (t' "q")); [discriminate|apply dv_text; reflexivity|apply de_nil].
    + eapply (de_cons _ _ _ _ (t' "it")); [discriminate| |apply de_nil].
      apply dv_map. eapply (de_merge _ _ _ _ (DAlias (t' "m"))); [apply dv_alias; reflexivity|repeat constructor|].
      eapply (de_cons _ _ _ _ (t' "k")); [discriminate|apply dv_text; reflexivity|apply de_nil].
  - split; reflexivity.
Qed.
