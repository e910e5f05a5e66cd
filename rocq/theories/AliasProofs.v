(** Generic values of documents with aliases, in both engines. *)
From Coq Require Import String.
From Verif Require Import Base Schema Values Ast Writer AnyBuilder Reader YReader GBuilder GReader
  ReadSpec ReaderSpec DocSpec AliasSpec ReaderProofs AnyProofs DocProofs YReaderProofs ReaderCases.
Local Open Scope nat_scope.

Local Arguments sc_is_null : simpl never.
Local Arguments sc_is_integer : simpl never.
Local Arguments sc_is_boolean : simpl never.
Local Arguments sc_is_float : simpl never.
Local Arguments sc_is_timestamp : simpl never.
Local Arguments g_is_null : simpl never.

(** ** yayamls *)
Section Y.
  Context (o : oracle).
  Definition y_kok (k : anchors) : Prop := an_met k = false.
  Definition y_lookup (k : anchors) (a : text) : node + text := an_deref a k.
  Definition y_silent_p (p : node) : Prop := anchor_name p = Some None.
  Definition y_naming_p (a : text) (p : node) : Prop := anchor_name p = Some (Some a).

  Lemma y_silent_ok p (c : node) a : y_silent_p p -> y_kok (ab_keep a) ->
    exists k', y_kok (ac_bind y_access c k') /\ (forall b, y_lookup (ac_bind y_access c k') b = y_lookup (ab_keep a) b)
      /\ exists F, forall f, F <= f -> any_visit y_access o f p a = Done (ab_set_keep k' a).
  Proof.
    unfold y_silent_p. intros H Hk. exists (ab_keep a). cbn.
    assert (Hb : an_bind c (ab_keep a) = ab_keep a) by (unfold an_bind; unfold y_kok in Hk; rewrite Hk; reflexivity).
    rewrite Hb. split; [exact Hk|]. split; [reflexivity|]. exists 2. intros f Hf. destruct f as [|[|f]]; try lia.
    destruct (valid_node p) eqn:E.
    - destruct p as [|ty| |t n| | | | | | | | | | |]; cbn in H, E; try discriminate; try (rewrite E in H; discriminate).
      assert (Hn : leaf_ok n = true /\ leaf_keep n (ab_keep a) = ab_keep a).
      { destruct n; cbn in H |- *; destruct (leaf_ok t); try discriminate; split; auto; try discriminate.
        destruct ty; cbn in *; try discriminate; auto. }
      rewrite any_visit_S. cbn [y_access ac_view y_view valid_node node_type].
      rewrite leaf_any by apply Hn. rewrite (proj2 Hn). reflexivity.
    - rewrite any_visit_S. cbn. unfold y_view. rewrite E. destruct a; reflexivity.
  Qed.

  Lemma y_naming_ok name p (c : node) a : y_naming_p name p -> y_kok (ab_keep a) ->
    exists k', y_kok (ac_bind y_access c k')
      /\ (forall b, y_lookup (ac_bind y_access c k') b = if text_eqb b name then inl c else y_lookup (ab_keep a) b)
      /\ exists F, forall f, F <= f -> any_visit y_access o f p a = Done (ab_set_keep k' a).
  Proof.
    unfold y_naming_p. intros H Hk. exists (an_store name (ab_keep a)). cbn. split; [reflexivity|]. split.
    - intros b. unfold y_lookup, an_deref. cbn. destruct (text_eqb b name); reflexivity.
    - assert (Hp : exists t, p = NProperties t (NAnchor name)).
      { destruct p as [|ty| |t n| | | | | | | | | | |]; cbn in H; try discriminate;
          try (destruct ty; discriminate).
        destruct n; cbn in H; destruct (leaf_ok t); try discriminate;
          try (match type of H with (if ?b then _ else _) = _ => destruct b end; discriminate).
        injection H as ->. eauto. }
      destruct Hp as [t ->]. exists 2. intros f Hf. destruct f as [|[|f]]; try lia. rewrite any_visit_S. cbn.
      reflexivity.
  Qed.

  Let arepY := arep y_access y_kok y_lookup y_silent_p y_naming_p.

  Lemma y_doc_arep n :
    (forall d, y_doc n = Some d -> arepY n d)
    /\ (forall k v, n = NEntry k v -> (forall d, y_doc k = Some d -> arepY k d) /\ (forall d, y_doc v = Some d -> arepY v d)).
  Proof.
    induction n using node_ind'; (split; [intros x Hx; cbn in Hx; try discriminate | intros k0 v0 E0; try discriminate]).
    - (* alias *) injection Hx as <-. apply ar_alias. intros k _. reflexivity.
    - (* text *)
      injection Hx as <-. destruct (plain_quoting q && sc_is_null s) eqn:E.
      + apply ar_null. right. exists s. intros k _. cbn. destruct q; try discriminate; cbn in E; rewrite E; reflexivity.
      + apply ar_text. intros k _. cbn. destruct q; cbn in E; rewrite ?E; reflexivity.
    - (* content *)
      destruct (anchor_name n1) as [[a|]|] eqn:E; [| |discriminate].
      + destruct (y_doc n2) as [d|] eqn:Ed; [|discriminate]. injection Hx as <-.
        eapply ar_anchor; [intros k _; reflexivity|exact E|apply IHn2; reflexivity].
      + destruct (y_doc n2) as [d|] eqn:Ed; [|discriminate]. injection Hx as <-.
        eapply ar_wrap; [intros k _; reflexivity|exact E|apply IHn2; reflexivity].
    - (* sequence *)
      match type of Hx with option_map _ ?g = _ => destruct g as [ts|] eqn:Eg end; [|discriminate].
      injection Hx as <-. eapply ar_seq; [intros k _; reflexivity|].
      revert ts Eg. induction H as [|y l Hy Hl IH]; intros ts Eg.
      + injection Eg as <-. constructor.
      + destruct (y_doc y) as [ty|] eqn:Ey; [|discriminate].
        match type of Eg with match ?g with _ => _ end = _ => destruct g as [ts'|] eqn:Eg' end; [|discriminate].
        injection Eg as <-. cbn. constructor; [apply Hy; reflexivity|apply IH; reflexivity].
    - (* mapping *)
      match type of Hx with option_map _ ?g = _ => destruct g as [ts|] eqn:Eg end; [|discriminate].
      injection Hx as <-. eapply ar_map; [intros k _; reflexivity|].
      revert ts Eg. induction H as [|y l Hy Hl IH]; intros ts Eg.
      + injection Eg as <-. constructor.
      + destruct y as [| | | | | | | | | | | | |kn vn|]; try discriminate.
        destruct (proj2 Hy kn vn eq_refl) as [Hk Hv].
        destruct (y_doc kn) as [tk|] eqn:Ek; [|discriminate].
        destruct (y_doc vn) as [tv|] eqn:Ev; [|discriminate].
        match type of Eg with match ?g with _ => _ end = _ => destruct g as [ts'|] eqn:Eg' end; [|discriminate].
        injection Eg as <-. cbn. eapply aes_whole; [intros k _; reflexivity| | |apply IH; reflexivity].
        * apply Hk. reflexivity.
        * apply Hv. reflexivity.
    - injection E0 as <- <-. split; [apply IHn1|apply IHn2].
    - injection Hx as <-. apply ar_null. left. intros k _. reflexivity.
  Qed.

  (** Any gives the value of the document *)
  Lemma y_any_meaning inner content n d v e' : y_doc n = Some d -> stable inner content d -> keys_once d ->
    dval o flat [] d v e' ->
    exists F, forall f, F <= f -> exists k', extract_any y_access o f an_new n = Done (inl v, k').
  Proof.
    intros Hn Hs Hk Hd. destruct (evaluates o inner content d v e' Hd Hs Hk) as (oe' & Hev).
    destruct (any_value y_access o y_kok y_lookup y_silent_p y_naming_p y_silent_ok y_naming_ok
                [] d v oe' n an_new Hev) as (F & k' & _ & HF).
    - apply y_doc_arep. exact Hn.
    - split; [reflexivity|]. discriminate.
    - exists F. intros f Hf. exists k'. apply HF. exact Hf.
  Qed.

  Definition is_collection (n : node) : bool := match n with NSequence _ | NMapping _ => true | _ => false end.

  Lemma y_reader_any multi n v F : is_collection n = true ->
    (forall f, F <= f -> exists k', extract_any y_access o f an_new n = Done (inl v, k')) ->
    exists F', forall f, F' <= f -> exists r', do_call (y_engine o) o f DAny (y_reader multi n) = Done (AAny v, r').
  Proof.
    intros Hc H. exists (S (S F)). intros f Hf. destruct f as [|[|f]]; try lia.
    destruct (H (S (S f))) as [k' Hk]; [lia|].
    destruct n; try discriminate; unfold do_call; cbn -[extract_any];
      rewrite Hk; cbn; eexists; reflexivity.
  Qed.

  Lemma y_reads_any multi inner content n d v e' : is_collection n = true -> y_doc n = Some d ->
    stable inner content d -> keys_once d -> dval o flat [] d v e' ->
    exists F, forall f, F <= f -> exists r', do_call (y_engine o) o f DAny (y_reader multi n) = Done (AAny v, r').
  Proof.
    intros Hc Hn Hs Hk Hd. destruct (y_any_meaning inner content n d v e' Hn Hs Hk Hd) as (F & HF).
    eapply y_reader_any; eassumption.
  Qed.

  (** *** unknown aliases *)
  Section Unknown.
    Context (a : text).
    Definition kgood (k : anchors) : Prop :=
      an_find a (an_map k) = None /\ Forall (fun bn => no_anchor a (snd bn)) (an_map k) /\ (an_met k = true -> an_name k <> a).

    Lemma find_in b m n : an_find b m = Some n -> In (b, n) m.
    Proof.
      induction m as [|[q w] m IH]; cbn; [discriminate|]. destruct (text_eqb b q) eqn:E; intros H.
      - apply text_eqb_eq in E. injection H as ->. subst. auto.
      - auto.
    Qed.

    Definition Unk (f : nat) : Prop := forall n (b b' : abuilder anchors), kgood (ab_keep b) -> no_anchor a n ->
      any_visit y_access o f n b = Done b' ->
      kgood (ab_keep b') /\ (ab_errors b <> [] -> ab_errors b' <> []) /\ (holds_alias a n -> ab_errors b' <> []).

    Lemma from_text_keep s u (b : abuilder anchors) :
      ab_keep (from_text o s u b) = ab_keep b /\ (ab_errors b <> [] -> ab_errors (from_text o s u b) <> []).
    Proof.
      unfold from_text.
      assert (Happ : forall x, ab_errors b ++ [x] <> []) by (intros x; destruct (ab_errors b); discriminate).
      repeat match goal with
             | |- context [if ?c then _ else _] => destruct c
             | |- context [match ?c with Some _ => _ | None => _ end] => destruct c
             end; cbn; auto.
    Qed.
    Lemma visit_scalar_keep s u (b : abuilder anchors) :
      ab_keep (visit_scalar o s u b) = ab_keep b /\ (ab_errors b <> [] -> ab_errors (visit_scalar o s u b) <> []).
    Proof. unfold visit_scalar. destruct (ab_extract_string b); [cbn; auto|apply from_text_keep]. Qed.

    Lemma unk_pair f : Unk f -> forall k v (b b' : abuilder anchors), kgood (ab_keep b) -> no_anchor a k -> no_anchor a v ->
      av_pair y_access o f k (Some v) b = Done b' ->
      kgood (ab_keep b') /\ (ab_errors b <> [] -> ab_errors b' <> []) /\ (holds_alias a k \/ holds_alias a v -> ab_errors b' <> []).
    Proof.
      intros IH k v b b' Hk Hnk Hnv H. unfold av_pair in H.
      apply obind_done in H as (b1 & H1 & H). apply obind_done in H as (b2 & H2 & H). injection H as <-. cbn.
      destruct (IH _ _ _ (Hk : kgood (ab_keep (ab_set_flags true (ab_extract_merge b) b))) Hnk H1) as (A1 & A2 & A3). cbn in A2.
      destruct (IH _ _ _ (A1 : kgood (ab_keep (ab_set_flags _ _ b1))) Hnv H2) as (B1 & B2 & B3). cbn in B2.
      split; [exact B1|]. split; [auto|]. intros [Hh|Hh]; auto.
    Qed.

    Lemma unknown_alias f : Unk f.
    Proof.
      induction f as [|f IH]; intros n b b' Hk Hn H; [discriminate|].
      rewrite any_visit_S in H. cbn in H. unfold y_view in H.
      destruct (valid_node n) eqn:Ev.
      2:{ injection H as <-. split; [exact Hk|]. split; [auto|]. intros Hh. inversion Hh; subst; discriminate. }
      destruct n as [|ty|l|t nn|s|s|s|c i|s q|p c|i|l|l|k v|]; cbn in Ev; try discriminate.
      - injection H as <-. split; [exact Hk|]. split; [auto|]. intros Hh. inversion Hh.
      - injection H as <-. cbn. split; [exact Hk|]. split; [destruct (ab_errors b); discriminate|]. intros Hh. inversion Hh.
      - inversion Hn as [| | | | | | | | | | | | |? ? Ht Hnn|]; subst. destruct (IH nn b b' Hk Hnn H) as (A1 & A2 & A3). split; [exact A1|]. split; [exact A2|].
        intros Hh. inversion Hh.
      - injection H as <-. split; [exact Hk|]. split; [auto|]. intros Hh. inversion Hh.
      - injection H as <-. inversion Hn; subst. cbn. destruct Hk as (K1 & K2 & K3).
        split; [repeat split; cbn; auto|]. split; [auto|]. intros Hh. inversion Hh.
      - (* alias *)
        unfold an_deref in H. destruct (an_find s (an_map (ab_keep b))) as [m|] eqn:Ef.
        + assert (Hm : no_anchor a m).
          { destruct Hk as (_ & K2 & _). rewrite Forall_forall in K2. exact (K2 _ (find_in _ _ _ Ef)). }
          destruct (IH m b b' Hk Hm H) as (A1 & A2 & A3). split; [exact A1|]. split; [exact A2|].
          intros Hh. inversion Hh; subst. destruct Hk as (K1 & _). congruence.
        + injection H as <-. cbn. split; [exact Hk|]. split; intros; destruct (ab_errors b); discriminate.
      - injection H as <-. split; [exact Hk|]. split; [auto|]. intros Hh. inversion Hh.
      - injection H as <-. match goal with |- kgood (ab_keep (visit_scalar _ _ ?u _)) /\ _ => destruct (visit_scalar_keep s u b) as [E1 E2] end.
        split; [rewrite E1; exact Hk|]. split; [exact E2|]. intros Hh. inversion Hh.
      - (* content *)
        apply obind_done in H as (b1 & H1 & H2). inversion Hn as [| | | | | | | | | | | | | |? ? Hnp Hnc]; subst.
        destruct (IH p b b1 Hk Hnp H1) as (A1 & A2 & A3).
        assert (Hk2 : kgood (an_bind c (ab_keep b1))).
        { unfold an_bind. destruct (an_met (ab_keep b1)) eqn:Em; [|exact A1]. destruct A1 as (K1 & K2 & K3).
          repeat split; cbn.
          - rewrite K1. destruct (text_eqb a (an_name (ab_keep b1))) eqn:E; [|reflexivity].
            apply text_eqb_eq in E. symmetry in E. apply K3 in E; [contradiction|exact Em].
          - constructor; assumption.
          - discriminate. }
        destruct (IH c _ b' (Hk2 : kgood (ab_keep (ab_set_keep _ b1))) Hnc H2) as (B1 & B2 & B3). cbn in B2.
        split; [exact B1|]. split; [auto|]. intros Hh. inversion Hh; subst. auto.
      - injection H as <-. split; [exact Hk|]. split; [auto|]. intros Hh. inversion Hh.
      - (* sequence *)
        apply obind_done in H as ([vs b1] & H1 & H). injection H as <-. cbn [fst snd].
        assert (G : kgood (ab_keep b1) /\ (ab_errors b <> [] -> ab_errors b1 <> []) /\ ((exists n, In n l /\ holds_alias a n) -> ab_errors b1 <> [])).
        { assert (Hl : Forall (no_anchor a) l) by (inversion Hn; assumption). clear Hn Ev.
          change (ab_errors b) with (ab_errors (ab_set_flags false (ab_extract_merge b) b)).
          assert (Hk2 : kgood (ab_keep (ab_set_flags false (ab_extract_merge b) b))) by exact Hk.
          revert Hk2 H1. generalize (ab_set_flags false (ab_extract_merge b) b) as b0. generalize (@nil value) as acc. clear Hk b.
          revert vs b1. induction Hl as [|n l Hn _ IHl]; intros vs b1 acc b0 Hk H1; cbn in H1.
          - injection H1 as <- <-. split; [exact Hk|]. split; [auto|]. intros (n & [] & _).
          - apply obind_done in H1 as (b2 & H1 & H2). fold (av_seq y_access o f) in H2.
            destruct (IH n b0 b2 Hk Hn H1) as (A1 & A2 & A3).
            destruct (IHl _ _ _ _ A1 H2) as (B1 & B2 & B3). split; [exact B1|]. split; [auto|].
            intros (x & [->|Hx] & Hh); [auto|]. apply B3. eauto. }
        destruct G as (G1 & G2 & G3). unfold finish_seq.
        assert (E : ab_keep (if ab_extract_string b then ab_set_string (o_sprint o (VSeq vs)) (ab_set_flags (ab_extract_string b) (ab_extract_merge b1) b1)
           else ab_set_value (VSeq vs) (ab_set_flags (ab_extract_string b) (ab_extract_merge b1) b1)) = ab_keep b1
           /\ ab_errors (if ab_extract_string b then ab_set_string (o_sprint o (VSeq vs)) (ab_set_flags (ab_extract_string b) (ab_extract_merge b1) b1)
           else ab_set_value (VSeq vs) (ab_set_flags (ab_extract_string b) (ab_extract_merge b1) b1)) = ab_errors b1)
          by (destruct (ab_extract_string b); split; reflexivity).
        destruct E as [E1 E2]. rewrite E1, E2. split; [exact G1|]. split; [exact G2|].
        intros Hh. inversion Hh; subst. eauto.
      - (* mapping *)
        apply obind_done in H as ([m b1] & H1 & H). injection H as <-. cbn [fst snd].
        assert (G : kgood (ab_keep b1) /\ (ab_errors b <> [] -> ab_errors b1 <> []) /\ ((exists n, In n l /\ holds_alias a n) -> ab_errors b1 <> [])).
        { assert (Hl : Forall (no_anchor a) l) by (inversion Hn; assumption). clear Hn Ev.
          revert b Hk m b1 H1. generalize (@nil (text * value)) as acc.
          induction Hl as [|n l Hn _ IHl]; intros acc b0 Hk m b1 H1; cbn in H1.
          - injection H1 as <- <-. split; [exact Hk|]. split; [auto|]. intros (n & [] & _).
          - apply obind_done in H1 as (b2 & H1 & H2). fold (av_entries y_access o f) in H2.
            destruct (IH n b0 b2 Hk Hn H1) as (A1 & A2 & A3).
            destruct (after_entry acc b2) as [acc2 b3] eqn:Ea.
            assert (E : ab_keep b3 = ab_keep b2 /\ ab_errors b3 = ab_errors b2).
            { unfold after_entry in Ea. destruct (ab_ok b2); [|injection Ea as <- <-; auto].
              destruct (ab_merge b2); injection Ea as <- <-; auto. }
            destruct E as [E1 E2]. rewrite <- E1 in A1. rewrite <- E2 in A2, A3.
            destruct (IHl _ _ A1 _ _ H2) as (B1 & B2 & B3). split; [exact B1|]. split; [auto|].
            intros (x & [->|Hx] & Hh); [auto|]. apply B3. eauto. }
        destruct G as (G1 & G2 & G3). unfold finish_map.
        destruct (ab_extract_merge b1); [|destruct (ab_extract_string b1)]; cbn; (split; [exact G1|]; split; [exact G2|];
          intros Hh; inversion Hh; subst; eauto).
      - (* entry *)
        inversion Hn as [| | | | | | | | | | | |? ? Hnk Hnv| |]; subst. destruct (unk_pair f IH k v b b' Hk Hnk Hnv H) as (A1 & A2 & A3).
        split; [exact A1|]. split; [exact A2|]. intros Hh. inversion Hh; subst; auto.
      - injection H as <-. destruct (ab_extract_string b); cbn; (split; [exact Hk|]; split; [auto|]; intros Hh; inversion Hh).
    Qed.
  End Unknown.

  Lemma y_unknown_alias a n f x k' : holds_alias a n -> no_anchor a n ->
    extract_any y_access o f an_new n = Done (x, k') -> exists e es, x = inr (e :: es).
  Proof.
    intros Hh Hn H. unfold extract_any in H. apply obind_done in H as (b & H & E). injection E as <- _.
    assert (Hk : kgood a (ab_keep (ab_new an_new))) by (repeat split; try constructor; discriminate).
    destruct (unknown_alias a f n _ b Hk Hn H) as (_ & _ & He). specialize (He Hh).
    destruct (ab_errors b); [congruence|eauto].
  Qed.

  (** reading an alias with any call: an unknown name is a fatal error *)
  Lemma y_unknown_call c a f (r : rstate node anchors) p : reading c = true -> r_fatal r = None ->
    hd_error (r_route r) = Some p -> pt_node p = NAlias a -> an_find a (an_map (r_keep r)) = None ->
    exists r', do_call (y_engine o) o (S (S f)) c r = Done (zero_answer o c, r') /\ r_fatal r' = Some (RAlias a).
  Proof.
    intros Hc Hf Hr Hp Ha. destruct (r_route r) as [|p0 rest] eqn:Er; [discriminate|]. injection Hr as ->.
    assert (Hrun : forall e, run (y_engine o) e (S (S f)) TCurrent r = Done (set_fatal (Some (RAlias a)) r)).
    { intros e. cbn. unfold current_node. rewrite Er, Hp. cbn. unfold an_deref. rewrite Ha. unfold append_err. cbn.
      rewrite andb_false_r, Hf. reflexivity. }
    assert (Hfin : forall c, exists r', finish (y_engine o) o (S (S f)) c (set_fatal (Some (RAlias a)) r) = Done (zero_answer o c, r') /\ r_fatal r' = Some (RAlias a) \/ reading c = false).
    { intros c0. destruct c0; try (exists r; right; reflexivity);
        (eexists; left; unfold finish, has_fatal; cbn [r_fatal set_fatal]; rewrite ?orb_true_r; split; [reflexivity|]);
        cbn; unfold take_deny; try reflexivity;
        cbn; destruct (r_deny r); try reflexivity; unfold append_err; cbn;
        destruct (r_multi r && is_deny _); reflexivity. }
    destruct (Hfin c) as [r' [[H1 H2]|H]]; [|congruence].
    exists r'. split; [|exact H2]. unfold do_call, has_fatal. rewrite Hf.
    destruct c; try discriminate Hc; rewrite Hrun; exact H1.
  Qed.
End Y.

(** ** goyaml *)
Scheme g_doc_mut := Induction for g_doc Sort Prop
  with g_docs_mut := Induction for g_docs Sort Prop
  with g_dents_mut := Induction for g_dents Sort Prop.
Combined Scheme g_doc_all from g_doc_mut, g_docs_mut, g_dents_mut.

Section G.
  Context (o : oracle) (marshal : graph -> gref -> text + list N) (g : graph).
  Let kinv (k : graph) : Prop := k = g.
  Definition g_lookup (k : graph) (a : text) : gref + text := inr a.
  Let arepG := arep g_access kinv g_lookup (fun _ => False) (fun _ _ => False).

  Lemma g_doc_arep :
    (forall n d, g_doc g n d -> arepG n d)
    /\ (forall ns l, g_docs g ns l -> areps g_access kinv g_lookup (fun _ => False) (fun _ _ => False) ns l)
    /\ (forall ns l, g_dents g ns l -> aents g_access kinv g_lookup (fun _ => False) (fun _ _ => False) (g_pairs ns) l).
  Proof.
    apply g_doc_all.
    - intros i c Hi Hk Hn. apply ar_null. right. exists (x_value c). intros k ->. cbn. unfold g_at. rewrite Hi, Hk, Hn. reflexivity.
    - intros i c Hi Hk Hn. apply ar_text. intros k ->. cbn. unfold g_at. rewrite Hi, Hk, Hn. reflexivity.
    - intros i c l Hi Hk Hl IH. eapply ar_seq; [|exact IH]. intros k ->. cbn. unfold g_at. rewrite Hi, Hk. reflexivity.
    - intros i c l Hi Hk Hl IH. eapply ar_map; [|exact IH]. intros k ->. cbn. unfold g_at. rewrite Hi, Hk. reflexivity.
    - intros i c d Hi Hk Hd IH. eapply ar_into; [|exact IH]. intros k ->. cbn. unfold g_at. rewrite Hi, Hk. reflexivity.
    - constructor.
    - intros. cbn. constructor; assumption.
    - constructor.
    - intros. cbn. constructor; assumption.
  Qed.

  Lemma g_doc_closed :
    (forall n d, g_doc g n d -> stable (fun _ => false) (fun _ => DNull) d)
    /\ (forall ns l, g_docs g ns l -> Forall (stable (fun _ => false) (fun _ => DNull)) l)
    /\ (forall ns l, g_dents g ns l -> Forall (fun kv => stable (fun _ => false) (fun _ => DNull) (fst kv) /\ stable (fun _ => false) (fun _ => DNull) (snd kv)) l).
  Proof. apply g_doc_all; intros; try (constructor; auto; fail). assumption. Qed.

  Lemma g_any_meaning n d v e' : g_doc g n d -> keys_once d -> dval o flat [] d v e' ->
    exists F, forall f, F <= f -> extract_any g_access o f g n = Done (inl v, g).
  Proof.
    intros Hn Hk Hd.
    destruct (evaluates o _ _ d v e' Hd (proj1 g_doc_closed _ _ Hn) Hk) as (oe' & Hev).
    destruct (any_value g_access o kinv g_lookup (fun _ => False) (fun _ _ => False)) with (e := @nil (text * doc)) (d := d) (v := v) (e' := oe') (n := n) (k := g)
      as (F & k' & Hk' & HF); try assumption.
    - intros p c a [].
    - intros nm p c a [].
    - apply g_doc_arep. exact Hn.
    - split; [reflexivity|]. discriminate.
    - exists F. destruct Hk' as [-> _]. exact HF.
  Qed.

  Lemma g_reads_any multi i c d v e' : nth_error g i = Some c -> (x_kind c = KSequence \/ x_kind c = KMapping) ->
    g_doc g (Some i) d -> keys_once d -> dval o flat [] d v e' ->
    exists F, forall f, F <= f -> exists r', do_call (g_engine marshal o) o f DAny (r_new g multi (Some i)) = Done (AAny v, r').
  Proof.
    intros Hi Hc Hn Hk Hd. destruct (g_any_meaning _ _ _ _ Hn Hk Hd) as (F & HF).
    exists (S (S F)). intros f Hf. destruct f as [|[|f]]; try lia.
    specialize (HF (S (S f)) ltac:(lia)).
    unfold do_call. cbn -[extract_any]. unfold g_visit, g_process, g_at. rewrite Hi.
    destruct Hc as [-> | ->]; cbn -[extract_any]; rewrite HF; cbn; eexists; reflexivity.
  Qed.
End G.

(** mappings with merge keys, key by key *)
Lemma y_mapping_lookup o multi inner content n l its e' : is_collection n = true -> y_doc n = Some (DMap l) ->
  stable inner content (DMap l) -> keys_once (DMap l) -> items_of o flat [] l its e' ->
  exists m F, (forall k, map_get k m = looked_up k its)
    /\ forall f, F <= f -> exists r', do_call (y_engine o) o f DAny (y_reader multi n) = Done (AAny (VMap m), r').
Proof.
  intros Hc Hn Hs Hk Hi. destruct (items_dents _ _ _ _ _ _ Hi []) as (m & Hm & El).
  assert (Hd : dval o flat [] (DMap l) (VMap m) e') by (constructor; exact Hm).
  destruct (y_reads_any o multi inner content n _ _ _ Hc Hn Hs Hk Hd) as (F & HF).
  exists m, F. split; [|exact HF]. intros k. rewrite El. reflexivity.
Qed.
Lemma g_mapping_lookup marshal o multi g i c l its e' : nth_error g i = Some c -> x_kind c = KMapping ->
  g_doc g (Some i) (DMap l) -> keys_once (DMap l) -> items_of o flat [] l its e' ->
  exists m F, (forall k, map_get k m = looked_up k its)
    /\ forall f, F <= f -> exists r', do_call (g_engine marshal o) o f DAny (r_new g multi (Some i)) = Done (AAny (VMap m), r').
Proof.
  intros Hi Hc Hn Hk Ht. destruct (items_dents _ _ _ _ _ _ Ht []) as (m & Hm & El).
  assert (Hd : dval o flat [] (DMap l) (VMap m) e') by (constructor; exact Hm).
  destruct (g_reads_any o marshal g multi i c _ _ _ Hi (or_intror Hc) Hn Hk Hd) as (F & HF).
  exists m, F. split; [|exact HF]. intros k. rewrite El. reflexivity.
Qed.
