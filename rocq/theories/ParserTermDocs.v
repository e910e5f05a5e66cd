(** Specifications of the productions of ParserDocs.v and of the whole parser: it finishes. *)
From Coq Require Import String.
From Verif Require Import Base YamlChar Token Ast Balance Parser ParserLogic ParserTerm ParserFlow ParserTermFlow
  ParserBlock ParserTermBlock ParserDocs.
Local Open Scope parser_scope.

Section Docs.
  Context (is_digit_u : rune -> bool).
  Variables fuel B : nat.
  Hypothesis HB : 2 * B <= fuel.

  Lemma ok_yaml_version : ok B (parse_yaml_version is_digit_u) anyp.
  Proof. unfold parse_yaml_version. start; go'. Qed.
  Hint Resolve ok_yaml_version : pspec.
  Lemma ok_yaml_directive : ok B (parse_yaml_directive is_digit_u fuel) anyp.
  Proof. unfold parse_yaml_directive. start; go'. Qed.
  Lemma ok_local_tag_prefix : ok B parse_local_tag_prefix anyp.
  Proof. unfold parse_local_tag_prefix. start; go'. Qed.
  Hint Resolve ok_yaml_directive ok_local_tag_prefix : pspec.
  Lemma ok_tag_prefix : ok B parse_tag_prefix anyp.
  Proof. unfold parse_tag_prefix. start; go'. Qed.
  Hint Resolve ok_tag_prefix : pspec.
  Lemma ok_tag_directive : ok B (parse_tag_directive fuel) anyp.
  Proof. unfold parse_tag_directive. start; go'. Qed.
  Lemma ok_reserved_directive : ok B (parse_reserved_directive fuel) anyp.
  Proof. unfold parse_reserved_directive. start; go'. Qed.
  Hint Resolve ok_tag_directive ok_reserved_directive : pspec.
  Lemma ok_directive : ok B (parse_directive is_digit_u fuel) strict.
  Proof.
    unfold parse_directive. start.
    repeat (lazymatch goal with E : text_eqb _ _ = true |- _ => fail | _ => flow_facts; step end).
    all: try (fin; [post]).
    - assert (tok_type t0 <> TBOM) by (intro Hb; apply is_bom_type in Hb; destruct (K Hb); congruence). go'.
    - assert (tok_type t0 <> TBOM) by (intro Hb; apply is_bom_type in Hb; destruct (K Hb); congruence). go'.
  Qed.
  Hint Resolve ok_directive : pspec.

  Lemma ok_bare_document : ok B (parse_bare_document fuel) anyp.
  Proof.
    pose proof (ok_parse_block_node fuel B BlockIn HB) as H.
    unfold parse_bare_document. start; go'.
  Qed.
  Hint Resolve ok_bare_document : pspec.
  Lemma ok_explicit_document : ok B (parse_explicit_document fuel) strict.
  Proof. unfold parse_explicit_document. start; go'. Qed.
  Hint Resolve ok_explicit_document : pspec.
  Lemma ok_directive_document : ok B (parse_directive_document is_digit_u fuel) anyp.
  Proof. unfold parse_directive_document, repeat_valid. start; go'. Qed.
  Hint Resolve ok_directive_document : pspec.
  Lemma ok_any_document : ok B (parse_any_document is_digit_u fuel) anyp.
  Proof. unfold parse_any_document. start; go'. Qed.
  Hint Resolve ok_any_document : pspec.
  Lemma ok_document_suffix : ok B (parse_document_suffix fuel) strict.
  Proof. unfold parse_document_suffix. start; go'. Qed.
  Hint Resolve ok_document_suffix : pspec.

  Lemma ok_prefix_loop n : forall B' nn, B' <= n -> B' <= B ->
    ok B' (loop_go n (fun not_null =>
      set_checkpoint ;;
      ok <- valid (parse_comment_line fuel) ;;
      if ok : bool then commit ;; ret (true, true) else rollback ;; ret (not_null, false)) nn)
      (fun r m m' => (nn = true -> r = true) /\ (r = true -> nn = true \/ m' < m)).
  Proof.
    induction n as [|n IH]; intros B' nn Hn HB'; start; [lia|].
    cbn [loop_go]. repeat (lazymatch goal with |- wpM (loop_go _ _ _) _ _ _ => fail | _ => step end).
    - eapply wpM_ok; [apply (IH (B' - 1)); lia|exact A|lia|exact Hk|].
      intros r tx2 nx2 sx2 gx2 A2 L2 [H1 H2]. exists tx2, nx2. split; [exact A2|]. split; [lia|].
      split; [intros _; apply H1; reflexivity|]. intros _. right. lia.
    - fin. split; auto.
  Qed.

  Definition is_null (n : node) : bool := match n with NNull => true | _ => false end.

  (** after a byte order mark nothing is known about the checkpoints *)
  Lemma wpM_document_prefix k d bs t n s g :
    at_ k d bs t n s g -> n < B -> 1 <= k + length bs ->
    wpM (parse_document_prefix fuel) s g (fun a s' g' =>
      (exists tx2 n', at_ k d bs tx2 n' s' g' /\ n' <= n /\ (valid_node a = true -> is_null a = false -> n' < n)) \/
      (exists d2 tx2 n', at_ (k + length bs) d2 [] tx2 n' s' g' /\ n' < n /\ a = NBasic DocumentPrefixType)).
  Proof.
    intros A Hn Hk. unfold parse_document_prefix, loop.
    assert (Hlp := ok_prefix_loop fuel B).
    do 4 step. { apply wpM_ret. left. exists t, n. split; [exact A|]. split; [lia|]. discriminate. }
    do 2 step. apply wpM_bind. break_if; tok_facts.
    - step. apply (wpM_next_bom _ _ _ _ _ _ _ _ A E0). intros d2 tx2 mx2 sx2 gx2 A2 L2 _.
      step. step. eapply wpM_ok; [apply (Hlp true); lia|exact A2|lia|cbn; lia|].
      intros r tx3 nx3 sx3 gx3 A3 L3 [H1 _]. rewrite (H1 eq_refl). step.
      right. exists d2, tx3, nx3. split; [exact A3|]. split; [lia|reflexivity].
    - step. step. eapply wpM_ok; [apply (Hlp false); lia|exact A|lia|exact Hk|].
      intros r tx3 nx3 sx3 gx3 A3 L3 [_ H2]. destruct r; step; left; exists tx3, nx3;
        (split; [exact A3|]; split; [lia|]).
      + intros _ _. destruct (H2 eq_refl); [discriminate|assumption].
      + discriminate.
  Qed.

  (** ** Outside of any checkpoint *)
  Definition okT {A} (B : nat) (m : M A) (P : A -> nat -> nat -> Prop) : Prop :=
    forall k d t n s g, at_ k d [] t n s g -> n < B ->
    wpM m s g (fun a s' g' => exists d2 tx2 n', at_ k d2 [] tx2 n' s' g' /\ n' <= n /\ P a n n').

  Lemma wpM_okT {A} B' (m : M A) P k d t n s g (Q : A -> pst -> ghost -> Prop) :
    okT B' m P -> at_ k d [] t n s g -> n < B' ->
    (forall a d2 tx2 n' s' g', at_ k d2 [] tx2 n' s' g' -> n' <= n -> P a n n' -> Q a s' g') ->
    wpM m s g Q.
  Proof.
    intros H Hat Hn HQ. eapply wpM_mono; [|exact (H _ _ _ _ _ _ Hat Hn)].
    cbn. intros a s' g' (d2 & tx2 & n' & Hat' & Hle & HP). eapply HQ; eassumption.
  Qed.

  Lemma okT_weaken {A} B1 B2 (m : M A) P : B2 <= B1 -> okT B1 m P -> okT B2 m P.
  Proof. intros HB12 H k d t n s g Hat Hn. refine (H k d t n s g Hat _). lia. Qed.

  Lemma okT_loop_go {A} n : forall B' (body : A -> M (A * bool)) a,
    B' <= n -> (forall a, okT B' (body a) cont) -> okT B' (loop_go n body a) anyp.
  Proof.
    induction n as [|n IH]; intros B' body a HB' Hbody k d t m s g Hat Hm; [lia|].
    cbn [loop_go]. apply wpM_bind.
    eapply wpM_okT; [apply Hbody|exact Hat|exact Hm|].
    intros [a2 b] d2 tx2 mx2 sx2 gx2 Hat2 Hle HP. unfold cont in HP. cbn [fst snd] in *. destruct b.
    - specialize (HP eq_refl).
      eapply wpM_okT; [apply (IH (B' - 1) body a2); [lia|]|exact Hat2|lia|].
      + intro a3. eapply okT_weaken; [|apply Hbody]. lia.
      + intros a3 d3 tx3 mx3 sx3 gx3 Hat3 Hle3 _. exists d3, tx3, mx3. split; [exact Hat3|]. split; [lia|exact I].
    - apply wpM_ret. exists d2, tx2, mx2. split; [exact Hat2|]. split; [lia|exact I].
  Qed.

  Ltac finT := match goal with
    | X : at_ ?k ?d [] ?tt ?m ?ss ?gg |- exists d2 t2 n', at_ ?k d2 [] t2 n' ?ss ?gg /\ _ =>
        exists d, tt, m; split; [exact X|split; [try lia|]]
    end.

  Lemma okT_prefixes : okT B (parse_prefixes fuel) anyp.
  Proof.
    unfold parse_prefixes, loop_, loop. apply okT_loop_go; [lia|].
    intros _ k d t n s g A Hn. step. step. step. step.
    eapply wpM_mono; [|apply (wpM_document_prefix _ _ _ _ _ _ _ A); [lia|cbn; lia]]. clear A.
    cbv beta. intros a sx2 gx2 [(tx2 & nx2 & A2 & L2 & H2)|(d2 & tx2 & nx2 & A2 & L2 & ->)].
    - fold (is_null a). destruct (negb (valid_node a) || is_null a) eqn:E.
      + repeat step. finT. discriminate.
      + repeat step. finT. intros _.
        destruct (valid_node a); [|discriminate]. destruct (is_null a); [discriminate|]. apply H2; reflexivity.
    - cbn [valid_node node_type negb orb]. cbn [length] in A2. rewrite Nat.add_1_r in A2.
      step. apply (wpM_commit_any _ _ _ _ _ _ _ A2). intros d3 sx3 gx3 A3. repeat step.
      exists d3, tx2, nx2. split; [exact A3|]. split; [lia|]. intros _. exact L2.
  Qed.

  Lemma wpM_suffixes_and_prefixes k d bs t n s g :
    at_ k d bs t n s g -> n < B -> 1 <= k + length bs ->
    wpM (parse_suffixes_and_prefixes fuel) s g (fun a s' g' =>
      (exists tx2 n', at_ k d bs tx2 n' s' g' /\ n' <= n /\ valid_node a = false) \/
      (exists d2 tx2 n', at_ (k + length bs) d2 [] tx2 n' s' g' /\ n' < n /\ valid_node a = true)).
  Proof.
    intros A Hn Hk. unfold parse_suffixes_and_prefixes, repeat_valid. assert (mark B) by exact I.
    do 4 step. { apply wpM_ret. left. exists t, n. auto. }
    repeat (lazymatch goal with |- wpM (parse_prefixes _) _ _ _ => fail | _ => step end).
    - apply at_forget in A.
      eapply wpM_okT; [apply okT_prefixes|exact A|lia|].
      intros a1 d2 tx2 nx2 sx2 gx2 A2 L2 _. step. right. exists d2, tx2, nx2. split; [exact A2|]. split; [lia|reflexivity].
    - left. fin. reflexivity.
  Qed.

  Lemma okT_maybe_any_document docs : okT B (maybe_any_document is_digit_u fuel docs) anyp.
  Proof.
    intros k d t n s g A Hn. assert (mark B) by exact I. unfold maybe_any_document. repeat step.
    all: finT; exact I.
  Qed.

  Lemma okT_stream : okT B (parse_stream is_digit_u fuel) anyp.
  Proof.
    intros k d t n s g A Hn. assert (mark B) by exact I. unfold parse_stream.
    step. eapply wpM_okT; [apply okT_prefixes|exact A|exact Hn|]. clear A.
    intros _ d2 tx2 nx2 sx2 gx2 A L _. step.
    eapply wpM_okT; [apply okT_maybe_any_document|exact A|lia|]. clear A.
    intros docs d3 tx3 nx3 sx3 gx3 A L2 _. step.
    eapply (wpM_okT B); [|exact A|lia|].
    2:{ intros r d4 tx4 nx4 sx4 gx4 A4 L4 _. step. exists d4, tx4, nx4. split; [exact A4|]. split; [lia|exact I]. }
    unfold loop. apply okT_loop_go; [lia|]. clear - HB.
    intros docs k d t n s g A Hn. assert (mark B) by exact I.
    do 5 step.
    eapply wpM_mono; [|apply (wpM_suffixes_and_prefixes _ _ _ _ _ _ _ A); [lia|cbn; lia]]. clear A.
    cbv beta. intros a sx2 gx2 [(tx2 & nx2 & A2 & L2 & Ha)|(d2 & tx2 & nx2 & A2 & L2 & Ha)]; rewrite Ha.
    - repeat (lazymatch goal with |- wpM (if ttype_eqb _ _ then _ else _) _ _ _ => fail | _ => step end). break_if.
      + step. tok_facts. apply (wpM_next_bom _ _ _ _ _ _ _ _ A E).
        intros d3 tx3 mx3 sx3 gx3 A3 L3 _. step. cbn [length] in A3. rewrite Nat.add_0_r in A3.
        exists d3, tx3, mx3. split; [exact A3|]. split; [lia|]. intros _. lia.
      + repeat step.
        all: finT.
        all: post.
    - repeat (lazymatch goal with |- wpM commit _ _ _ => fail | _ => step end). cbn [length] in A2. rewrite Nat.add_1_r in A2.
      apply (wpM_commit_any _ _ _ _ _ _ _ A2). intros d3 sx3 gx3 A3. step.
      eapply wpM_okT; [apply okT_maybe_any_document|exact A3|lia|].
      intros r d4 tx4 nx4 sx4 gx4 A4 L4 _. step. exists d4, tx4, nx4. split; [exact A4|]. split; [lia|]. intros _. lia.
  Qed.
End Docs.
