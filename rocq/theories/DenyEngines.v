(** Reads that do not fit, for the two engines. *)
From Coq Require Import String.
From Verif Require Import Base Schema Values Ast Writer AnyBuilder Reader YReader GBuilder GReader ReaderProofs ReaderSteps
  ReadSpec ReaderSpec DocSpec AnyProofs ReadProofs YReaderProofs GReaderProofs DenySpec DenyProofs ReaderCases.
Local Open Scope nat_scope.

(** What is denied at a null.  A null of yaml.v3 may be a text tagged !!null that is, say, a number. *)
Definition y_nulls (e : expecter) : bool :=
  match e with EInteger | EBoolean | EFloat | EString | ESequence | EMapping => true | _ => false end.
Definition g_nulls (e : expecter) : bool :=
  match e with EString | ESequence | EMapping => true | _ => false end.
Definition no_nulls (e : expecter) : bool := false.

Lemma null_is s : sc_is_null s = true ->
  sc_is_integer s = false /\ sc_is_boolean s = false /\ sc_is_float s = false.
Proof.
  unfold sc_is_null. intro H. cbn [text_in existsb] in H.
  repeat (apply orb_true_iff in H as [H|H]; [apply text_eqb_eq in H; subst s; vm_compute; auto|]). discriminate.
Qed.

Local Arguments sc_is_null : simpl never.
Local Arguments sc_is_integer : simpl never.
Local Arguments sc_is_boolean : simpl never.
Local Arguments sc_is_float : simpl never.
Local Arguments sc_is_timestamp : simpl never.
Local Arguments g_is_null : simpl never.

(** inversion of [core], keeping two of its facts *)
Ltac invc H e Hn Hv := inversion H; subst;
  match goal with A : answers _ _ e _ _, B : forall k, _ -> _ = VNullNode \/ _ |- _ => rename A into Hn; rename B into Hv end.
Ltac invt H e Hn Hv := inversion H; subst;
  match goal with A : answers _ _ e _ _, B : forall k, _ -> _ = VTexter _ None |- _ => rename A into Hn; rename B into Hv end.
Ltac invs H e Hn Hv := inversion H; subst;
  match goal with A : answers _ _ e _ _, B : has_children _ _ _ _ _ _ |- _ => rename A into Hn; rename B into Hv end.

Section Y.
  Context (o : oracle).
  Let en := y_engine o.
  Notation coreY := (core en o (fun n => n) (value_of o) (fun _ => True)).

  Lemma y_core_null n : coreY n TNull -> y_is_null n = true.
  Proof.
    intro H. invc H ENull Hn Hv.
    specialize (Hn an_new CUnknown I (or_introl eq_refl)). unfold en, y_engine, y_process in Hn. cbn in Hn.
    destruct (y_is_null n); [reflexivity|].
    destruct (node_type n) as [t|]; [|discriminate]. destruct (y_inner_type t); discriminate.
  Qed.
  Lemma y_core_text n s : coreY n (TText s) -> exists q, n = NText s q.
  Proof.
    intro H. invt H ENull Hn Hv.
    specialize (Hv an_new I). specialize (Hn an_new CUnknown I (or_introl eq_refl)). cbn in Hv, Hn.
    destruct n; try discriminate.
    injection Hv as <-. eauto.
  Qed.
  Lemma y_core_seq n l : coreY n (TSeq l) -> exists l', n = NSequence l'.
  Proof.
    intro H. invs H ESequence Hn Hc.
    specialize (Hn an_new CUnknown I (or_introl eq_refl)). cbn in Hn.
    destruct n as [|[]| | | | | | | | | | | | |]; try discriminate; eauto.
    specialize (Hc an_new I). discriminate.
  Qed.
  Lemma y_core_map n l : coreY n (TMap l) -> exists l', n = NMapping l'.
  Proof.
    intro H. invs H EMapping Hn Hc.
    specialize (Hn an_new CUnknown I (or_introl eq_refl)). cbn in Hn.
    destruct n as [|[]| | | | | | | | | | | | |]; try discriminate; eauto.
    specialize (Hc an_new I). discriminate.
  Qed.

  Lemma y_denies nulls : (forall e, nulls e = true -> y_nulls e = true) ->
    forall n t c, coreY n t -> unfit o nulls c t = true -> answers en (fun _ => True) (expecter_of c) n (CDeny, false).
  Proof.
    intros Hle n t c Hc Hu k p _ Hp. destruct t as [|s|l|l].
    - pose proof (y_core_null _ Hc) as Hn.
      assert (Hy : y_nulls (expecter_of c) = true).
      { apply Hle. destruct c; cbn in Hu |- *; try discriminate; exact Hu. }
      invc Hc ENull Hx Hv. destruct (Hv k I) as [Hk|(s & Hk)].
      + destruct n; try discriminate. destruct Hp as [-> | ->]; destruct c; try discriminate; reflexivity.
      + destruct n; try discriminate. injection Hk as ->.
        assert (Hsn : sc_is_null s = true) by (destruct q; try discriminate; exact Hn).
        destruct (null_is s Hsn) as (Q1 & Q2 & Q3). unfold en, y_engine, y_process.
        destruct c; try discriminate; cbn [expecter_of en_process node_type]; unfold y_terminal;
          cbn [y_is y_text_is negb andb]; rewrite ?Q1, ?Q2, ?Q3, ?Hn; destruct Hp as [-> | ->]; reflexivity.
    - apply y_core_text in Hc as (q & ->). unfold en, y_engine, y_process.
      destruct c; cbn in Hu; try discriminate; cbn [expecter_of en_process node_type]; unfold y_terminal;
        cbn [y_is y_text_is]; try (apply negb_true_iff in Hu; rewrite Hu); destruct Hp as [-> | ->]; reflexivity.
    - apply y_core_seq in Hc as (q & ->).
      destruct c; cbn in Hu; try discriminate; destruct Hp as [-> | ->]; reflexivity.
    - apply y_core_map in Hc as (q & ->).
      destruct c; cbn in Hu; try discriminate; destruct Hp as [-> | ->]; reflexivity.
  Qed.

  Theorem y_stops n t qs ps c x : y_tree n = Some t ->
    until o (fun n => n) (value_of o) y_nulls 0 t qs ps c x -> stops_reading en o (y_reader false n) qs ps c x.
  Proof.
    intros Hn Hu. eapply (stop_node en o (fun n => n) (value_of o) (fun _ => True)); eauto.
    - apply y_denies. auto.
    - apply y_tree_rep. exact Hn.
  Qed.

  Theorem y_tries n t qs ps h es : y_tree n = Some t ->
    tries o (fun n => n) (value_of o) no_nulls 0 t qs ps h es -> done_trying en o (y_reader true n) qs ps h es.
  Proof.
    intros Hn Hu. eapply (try_node en o (fun n => n) (value_of o) (fun _ => True)); eauto.
    - apply y_denies. discriminate.
    - discriminate.
    - apply y_tree_rep. exact Hn.
  Qed.
End Y.

Section G.
  Context (o : oracle) (marshal : graph -> gref -> text + list N) (g : graph).
  Let en := g_engine marshal o.
  Notation coreG := (core en o double (value_of o) (fun k => k = g)).

  Lemma g_core_cell n t : coreG n t -> exists i c, n = Some i /\ nth_error g i = Some c.
  Proof.
    intro H. destruct (core_live _ _ _ _ _ _ _ H) as [Hv Hn]. destruct n as [i|]; [|discriminate].
    destruct (nth_error g i) as [c|] eqn:E; [eauto|]. exfalso.
    assert (Hs : answers en (fun k => k = g) ESkip (Some i) (CConsume, false)) by (destruct H; assumption).
    specialize (Hs g CUnknown eq_refl (or_introl eq_refl)). cbn in Hs. unfold g_process, g_at in Hs. rewrite E in Hs. discriminate.
  Qed.
  Lemma g_core_null n : coreG n TNull -> exists i c, n = Some i /\ nth_error g i = Some c /\ x_kind c = KScalar /\ g_is_null c = true.
  Proof.
    intro H. destruct (g_core_cell _ _ H) as (i & c & -> & E). exists i, c. split; [reflexivity|]. split; [exact E|].
    invc H ENull Hn Hv.
    specialize (Hn g CUnknown eq_refl (or_introl eq_refl)). cbn in Hn. unfold g_process, g_at in Hn. rewrite E in Hn.
    cbn in Hn. destruct (g_is_null c) eqn:En; [|discriminate]. split; [|reflexivity].
    unfold g_is_null in En. destruct (x_kind c); try discriminate. reflexivity.
  Qed.
  Lemma g_core_text n s : coreG n (TText s) -> exists i c, n = Some i /\ nth_error g i = Some c /\ x_kind c = KScalar /\ x_value c = s.
  Proof.
    intro H. destruct (g_core_cell _ _ H) as (i & c & -> & E). exists i, c. split; [reflexivity|]. split; [exact E|].
    invt H ENull Hn Hv.
    specialize (Hv g eq_refl). cbn in Hv. unfold g_visit, g_at in Hv. rewrite E in Hv.
    destruct (x_kind c); try discriminate; [destruct (x_content c); discriminate|]. split; [reflexivity|]. congruence.
  Qed.
  Lemma g_core_seq n l : coreG n (TSeq l) -> exists i c, n = Some i /\ nth_error g i = Some c /\ x_kind c = KSequence.
  Proof.
    intro H. destruct (g_core_cell _ _ H) as (i & c & -> & E). exists i, c. split; [reflexivity|]. split; [exact E|].
    invs H ESequence Hn Hv.
    specialize (Hn g CUnknown eq_refl (or_introl eq_refl)). cbn in Hn. unfold g_process, g_at in Hn. rewrite E in Hn. cbn in Hn.
    destruct (x_kind c); try discriminate. reflexivity.
  Qed.
  Lemma g_core_map n l : coreG n (TMap l) -> exists i c, n = Some i /\ nth_error g i = Some c /\ x_kind c = KMapping.
  Proof.
    intro H. destruct (g_core_cell _ _ H) as (i & c & -> & E). exists i, c. split; [reflexivity|]. split; [exact E|].
    invs H EMapping Hn Hv.
    specialize (Hn g CUnknown eq_refl (or_introl eq_refl)). cbn in Hn. unfold g_process, g_at in Hn. rewrite E in Hn. cbn in Hn.
    destruct (x_kind c); try discriminate. reflexivity.
  Qed.

  Lemma g_denies : forall n t c, coreG n t -> unfit o g_nulls c t = true ->
    answers en (fun k => k = g) (expecter_of c) n (CDeny, false).
  Proof.
    intros n t c Hc Hu k p -> Hp. destruct t as [|s|l|l].
    - apply g_core_null in Hc as (i & x & -> & E & Hk & Hn).
      destruct c; cbn in Hu; try discriminate; cbn; unfold g_process, g_at; rewrite E; cbn; unfold g_terminal, g_is;
        rewrite Hk, ?Hn; destruct Hp as [-> | ->]; reflexivity.
    - apply g_core_text in Hc as (i & x & -> & E & Hk & <-).
      destruct c; cbn in Hu; try discriminate; cbn; unfold g_process, g_at; rewrite E; cbn; unfold g_terminal, g_is, g_text_is;
        rewrite ?Hk; cbn [is_scalar_kind andb]; try (apply negb_true_iff in Hu; rewrite Hu); destruct Hp as [-> | ->]; reflexivity.
    - apply g_core_seq in Hc as (i & x & -> & E & Hk).
      destruct c; cbn in Hu; try discriminate; cbn; unfold g_process, g_at; rewrite E; cbn; unfold g_terminal;
        rewrite ?Hk; destruct Hp as [-> | ->]; reflexivity.
    - apply g_core_map in Hc as (i & x & -> & E & Hk).
      destruct c; cbn in Hu; try discriminate; cbn; unfold g_process, g_at; rewrite E; cbn; unfold g_terminal;
        rewrite ?Hk; destruct Hp as [-> | ->]; reflexivity.
  Qed.
  Lemma g_nulls_text : forall n e, coreG n TNull -> g_nulls e = true ->
    exists s, forall k, k = g -> en_visit en k n = VTexter s None.
  Proof.
    intros n e Hc _. apply g_core_null in Hc as (i & x & -> & E & Hk & Hn).
    exists (x_value x). intros k ->. cbn. unfold g_visit, g_at. rewrite E, Hk. reflexivity.
  Qed.

  Theorem g_stops n t qs ps c x : g_tree g n t ->
    until o double (value_of o) g_nulls 0 t qs ps c x -> stops_reading en o (r_new g false n) qs ps c x.
  Proof.
    intros Hn Hu. eapply (stop_node en o double (value_of o) (fun k => k = g)); eauto.
    - apply g_denies.
    - apply g_tree_rep. exact Hn.
  Qed.
  Theorem g_tries n t qs ps h es : g_tree g n t ->
    tries o double (value_of o) g_nulls 0 t qs ps h es -> done_trying en o (r_new g true n) qs ps h es.
  Proof.
    intros Hn Hu. eapply (try_node en o double (value_of o) (fun k => k = g)); eauto.
    - apply g_denies.
    - apply g_nulls_text.
    - apply g_tree_rep. exact Hn.
  Qed.
End G.

(** ** yayamls with collected denials: a null node *)
(** [5, (nothing)] *)
Definition y_five_null : node := NSequence [plain_text (t' "5"); NNull].

(** the second element is read as 5 as well *)
Lemma y_null_stale o : exists s',
  do_requests (y_engine o) o 40 [QCall DSequence; read_int; read_int; QCall DError] (y_reader true y_five_null, [])
  = Done ([PAnswer (AColl (CollState 2 0)); PAnswer (AInt 5); PAnswer (AInt 5); PAnswer (AErrors [RDeny EInteger])], s').
Proof. eexists. cbv. reflexivity. Qed.

(** asked for a sequence, it returns a nil interface, so a loop over it crashes *)
Lemma y_null_nil o : exists s',
  do_requests (y_engine o) o 40 [QCall DSequence] (y_reader true NNull, []) = Done ([PAnswer (AColl CollNil)], s')
  /\ do_request (y_engine o) o 40 (QMore 0) s' = Panics.
Proof. eexists. split; cbv; reflexivity. Qed.
