(** Reading yayamls trees. *)
From Coq Require Import String.
From Verif Require Import Base Schema Values Ast Writer AnyBuilder Reader YReader ReaderProofs ReaderSteps
  ReadSpec ReaderSpec DocSpec AnyProofs ReadProofs.
Local Open Scope nat_scope.

Local Arguments sc_is_null : simpl never.
Local Arguments sc_is_integer : simpl never.
Local Arguments sc_is_boolean : simpl never.
Local Arguments sc_is_float : simpl never.
Local Arguments sc_is_timestamp : simpl never.

Section Y.
  Context (o : oracle).
  Let en := y_engine o.
  Let tt_inv (k : anchors) : Prop := True.

  (** *** the value builder *)
  Definition y_nolookup (k : anchors) (a : text) : node + text := inr a.
  Definition y_anyprops (p : node) : Prop := props_ok p = true.

  Definition leaf_keep (n : node) (k : anchors) : anchors := match n with NAnchor a => an_store a k | _ => k end.

  Lemma leaf_any n a f : leaf_ok n = true ->
    any_visit y_access o (S f) n a = Done (ab_set_keep (leaf_keep n (ab_keep a)) a).
  Proof.
    intro H. rewrite any_visit_S. cbn. unfold y_view. destruct (valid_node n) eqn:E.
    - destruct n as [|[]| | | | | | | | | | | | |]; cbn in H, E; try discriminate; destruct a; reflexivity.
    - destruct n as [|[]| | | | | | | | | | | | |]; cbn in H, E; try discriminate; destruct a; reflexivity.
  Qed.

  Lemma y_silent p (c : node) a : y_anyprops p -> True ->
    exists k', True /\ (forall b, y_nolookup (ac_bind y_access c k') b = y_nolookup (ab_keep a) b)
      /\ exists F, forall f, F <= f -> any_visit y_access o f p a = Done (ab_set_keep k' a).
  Proof.
    unfold y_anyprops. intros H _. destruct (valid_node p) eqn:E.
    - destruct p; cbn in H, E; try discriminate; try (rewrite E in H; discriminate).
      apply andb_true_iff in H as [_ Ha].
      eexists. split; [exact I|]. split; [reflexivity|].
      exists 2. intros f Hf. destruct f as [|[|f]]; try lia. rewrite any_visit_S.
      cbn [y_access ac_view y_view valid_node node_type]. apply leaf_any. exact Ha.
    - exists (ab_keep a). split; [exact I|]. split; [reflexivity|]. exists 1. intros f Hf. destruct f; [lia|].
      rewrite any_visit_S. cbn. unfold y_view. rewrite E. destruct a; reflexivity.
  Qed.

  Let arepY := arep y_access (fun _ => True) y_nolookup y_anyprops (fun _ _ => False).

  Lemma y_tree_arep n :
    (forall t, y_tree n = Some t -> arepY n (doc_of t))
    /\ (forall k v, n = NEntry k v -> (forall t, y_tree k = Some t -> arepY k (doc_of t))
                                   /\ (forall t, y_tree v = Some t -> arepY v (doc_of t))).
  Proof.
    induction n using node_ind'; (split; [intros x Hx; cbn in Hx; try discriminate | intros k0 v0 E0; try discriminate]).
    - (* text *)
      injection Hx as <-. destruct (plain_quoting q && sc_is_null s) eqn:E.
      + apply ar_null. right. exists s. intros k _. cbn. destruct q; try discriminate; cbn in E; rewrite E; reflexivity.
      + apply ar_text. intros k _. cbn. destruct q; cbn in E; rewrite ?E; reflexivity.
    - (* content *)
      destruct (props_ok n1) eqn:E; [|discriminate].
      eapply ar_wrap; [intros k _; reflexivity|exact E|apply IHn2; exact Hx].
    - (* sequence *)
      match type of Hx with option_map _ ?g = _ => destruct g as [ts|] eqn:Eg end; [|discriminate].
      injection Hx as <-. cbn [doc_of]. eapply ar_seq; [intros k _; reflexivity|].
      revert ts Eg. induction H as [|y l Hy Hl IH]; intros ts Eg.
      + injection Eg as <-. constructor.
      + destruct (y_tree y) as [ty|] eqn:Ey; [|discriminate].
        match type of Eg with match ?g with _ => _ end = _ => destruct g as [ts'|] eqn:Eg' end; [|discriminate].
        injection Eg as <-. cbn. constructor; [apply Hy; reflexivity|apply IH; reflexivity].
    - (* mapping *)
      match type of Hx with option_map _ ?g = _ => destruct g as [ts|] eqn:Eg end; [|discriminate].
      injection Hx as <-. cbn [doc_of]. eapply ar_map; [intros k _; reflexivity|].
      revert ts Eg. induction H as [|y l Hy Hl IH]; intros ts Eg.
      + injection Eg as <-. constructor.
      + destruct y as [| | | | | | | | | | | | |kn vn|]; try discriminate.
        destruct (proj2 Hy kn vn eq_refl) as [Hk Hv].
        destruct (y_tree kn) as [tk|] eqn:Ek; [|discriminate].
        destruct (y_tree vn) as [tv|] eqn:Ev; [|discriminate].
        match type of Eg with match ?g with _ => _ end = _ => destruct g as [ts'|] eqn:Eg' end; [|discriminate].
        injection Eg as <-. cbn. eapply aes_whole; [intros k _; reflexivity| | |apply IH; reflexivity].
        * apply Hk. reflexivity.
        * apply Hv. reflexivity.
    - injection E0 as <- <-. split; [apply IHn1|apply IHn2].
    - injection Hx as <-. apply ar_null. left. intros k _. reflexivity.
  Qed.

  Lemma y_any n t : y_tree n = Some t -> any_gives en (value_of o) (fun _ => True) n t.
  Proof.
    intros H v k _ Hv. apply (proj1 (y_tree_arep n)) in H.
    destruct (any_value y_access o (fun _ => True) y_nolookup y_anyprops (fun _ _ => False)) 
      with (e := @nil (text * doc)) (d := doc_of t) (v := v) (e' := @nil (text * doc)) (n := n) (k := k)
      as (F & k' & _ & HF).
    - intros p c a Hp _. apply y_silent; auto.
    - intros nm p c a [].
    - apply value_of_oev. exact Hv.
    - exact H.
    - split; [exact I|]. discriminate.
    - exists F, k'. split; [exact I|]. exact HF.
  Qed.

  (** *** the reader *)
  Let repY := rep en o (fun n => n) (value_of o) (fun _ => True).

  Lemma y_leaf n : leaf_ok n = true -> leaf en (fun _ => True) n.
  Proof.
    intro H. destruct (valid_node n) eqn:E; [|apply leaf_invalid; exact E].
    destruct n as [|[]| | | | | | | | | | | | |]; cbn in H, E; try discriminate.
    - eapply leaf_text; [split; reflexivity|intros k _; reflexivity|]. intros [] k _; reflexivity.
    - eapply leaf_text; [split; reflexivity|intros k _; reflexivity|]. intros [] k _; reflexivity.
  Qed.

  Lemma y_open n ch size b : (forall k, y_visit k n = VComplex ch size b) ->
    (forall e c, c = CMatch \/ c = CContinue -> y_process o e n c = (CContinue, false)) ->
    n <> NNil -> open_ok en (fun _ => True) n b.
  Proof.
    intros H1 H2 H3. split; [|split].
    - destruct n; reflexivity || congruence.
    - intros k _. exists ch, size. apply H1.
    - intros e k c _ Hc. apply H2. exact Hc.
  Qed.

  Lemma y_props p : props_ok p = true -> props en (fun _ => True) p.
  Proof.
    intro H. destruct (valid_node p) eqn:E; [|apply props_invalid; exact E].
    destruct p; cbn in H, E; try discriminate; try (rewrite E in H; discriminate).
    apply andb_true_iff in H as [Ha Hb].
    eapply (props_some en (fun _ => True) _ p2 p1 2).
    - split; reflexivity.
    - eapply y_open; [reflexivity| |discriminate]. intros [] c [-> | ->]; reflexivity.
    - intros [] k _; reflexivity.
    - intros k _. reflexivity.
    - apply y_leaf; assumption.
    - apply y_leaf; assumption.
  Qed.

  Lemma y_tree_rep n :
    (forall t, y_tree n = Some t -> repY n t)
    /\ (forall k v, n = NEntry k v -> (forall t, y_tree k = Some t -> repY k t)
                                   /\ (forall t, y_tree v = Some t -> repY v t)).
  Proof.
    induction n using node_ind'; (split; [intros x Hx0; pose proof Hx0 as Hx; cbn in Hx; try discriminate | intros k0 v0 E0; try discriminate]).
    - (* text *)
      apply rep_core. pose proof (y_any _ _ Hx0) as Hany.
      injection Hx as <-. destruct (plain_quoting q && sc_is_null s) eqn:E.
      + assert (Hn : y_is_null (NText s q) = true).
        { cbn. destruct q; try discriminate; cbn in E; exact E. }
        apply core_null; [split; reflexivity|intros k _; right; exists s; reflexivity| | | |exact Hany].
        * intros k c _ [-> | ->]; cbn; cbn in Hn; rewrite Hn; reflexivity.
        * intros k c _ [-> | ->]; reflexivity.
        * intros k c _ [-> | ->]; reflexivity.
      + assert (Hn : y_is_null (NText s q) = false).
        { cbn. destruct q; cbn in E; auto. }
        cbn [y_is_null] in Hn.
        apply core_text; [split; reflexivity|intros k _; reflexivity| | | | | | | | |exact Hany].
        * intros k c _ [-> | ->]; cbn; rewrite Hn; reflexivity.
        * intros k c _ [-> | ->]; reflexivity.
        * intros k c _ [-> | ->]; reflexivity.
        * intros k c _ [-> | ->]; cbn; rewrite Hn; reflexivity.
        * intros Hs k c _ [-> | ->]; cbn; rewrite Hs; reflexivity.
        * intros Hs k c _ [-> | ->]; cbn; rewrite Hs; reflexivity.
        * intros Hs k c _ [-> | ->]; cbn; rewrite Hs; reflexivity.
        * intros Hs k c _ [-> | ->]; cbn; rewrite Hs; reflexivity.
    - (* content *)
      destruct (props_ok n1) eqn:E; [|discriminate].
      eapply rep_wrap; [split; reflexivity| | |intros k _; reflexivity|apply y_props; exact E|apply IHn2; exact Hx].
      + eapply y_open; [reflexivity| |discriminate]. intros [] c [-> | ->]; reflexivity.
      + intros [] k _; reflexivity.
    - (* sequence *)
      apply rep_core. pose proof (y_any _ _ Hx0) as Hany.
      match type of Hx with option_map _ ?g = _ => destruct g as [ts|] eqn:Eg end; [|discriminate].
      injection Hx as <-.
      assert (Hlen : length l = length ts /\ reps en o (fun n => n) (value_of o) (fun _ => True) l ts).
      { clear Hany Hx0. revert ts Eg. induction H as [|y l Hy Hl IH]; intros ts Eg.
        - injection Eg as <-. split; [reflexivity|constructor].
        - destruct (y_tree y) as [ty|] eqn:Ey; [|discriminate].
          match type of Eg with match ?g with _ => _ end = _ => destruct g as [ts'|] eqn:Eg' end; [|discriminate].
          injection Eg as <-. destruct (IH _ eq_refl) as [IH1 IH2].
          split; [cbn; congruence|]. constructor; [apply Hy; reflexivity|exact IH2]. }
      destruct Hlen as [Hlen Hreps].
      eapply core_seq; [split; reflexivity| | |exact Hreps| | | | |exact Hany].
      + eapply y_open; [reflexivity| |discriminate]. intros [] c [-> | ->]; reflexivity.
      + intros k _. cbn. rewrite Hlen. reflexivity.
      + intros k c _ [-> | ->]; reflexivity.
      + intros k c _ [-> | ->]; reflexivity.
      + intros k c _ [-> | ->]; reflexivity.
      + intros k c _ [-> | ->]; reflexivity.
    - (* mapping *)
      apply rep_core. pose proof (y_any _ _ Hx0) as Hany.
      match type of Hx with option_map _ ?g = _ => destruct g as [ts|] eqn:Eg end; [|discriminate].
      injection Hx as <-.
      assert (Hlen : length l = length ts /\ entries en o (fun n => n) (value_of o) (fun _ => True) l ts).
      { clear Hany Hx0. revert ts Eg. induction H as [|y l Hy Hl IH]; intros ts Eg.
        - injection Eg as <-. split; [reflexivity|constructor].
        - destruct y as [| | | | | | | | | | | | |kn vn|]; try discriminate.
          destruct (proj2 Hy kn vn eq_refl) as [Hk Hv].
          destruct (y_tree kn) as [tk|] eqn:Ek; [|discriminate].
          destruct (y_tree vn) as [tv|] eqn:Ev; [|discriminate].
          match type of Eg with match ?g with _ => _ end = _ => destruct g as [ts'|] eqn:Eg' end; [|discriminate].
          injection Eg as <-. destruct (IH _ eq_refl) as [IH1 IH2].
          split; [cbn; congruence|].
          eapply (entries_node en o (fun n => n) (value_of o) (fun _ => True) _ kn vn 2);
            [split; reflexivity| | |intros k _; reflexivity|apply Hk; reflexivity|apply Hv; reflexivity|exact IH2].
          + eapply y_open; [reflexivity| |discriminate]. intros [] c [-> | ->]; reflexivity.
          + intros [] Q1 Q2 k _; try congruence; reflexivity. }
      destruct Hlen as [Hlen Hreps].
      eapply core_map; [split; reflexivity| | |exact Hreps| | | | |exact Hany].
      + eapply y_open; [reflexivity| |discriminate]. intros [] c [-> | ->]; reflexivity.
      + intros k _. cbn. rewrite Hlen. reflexivity.
      + intros k c _ [-> | ->]; reflexivity.
      + intros k c _ [-> | ->]; reflexivity.
      + intros k c _ [-> | ->]; reflexivity.
      + intros k c _ [-> | ->]; reflexivity.
    - injection E0 as <- <-. split; [apply IHn1|apply IHn2].
    - apply rep_core. pose proof (y_any _ _ Hx0) as Hany. injection Hx as <-.
      apply core_null; [split; reflexivity|intros k _; left; reflexivity| | | |exact Hany].
      + intros k c _ [-> | ->]; reflexivity.
      + intros k c _ [-> | ->]; reflexivity.
      + intros k c _ [-> | ->]; reflexivity.
  Qed.

  Theorem y_reads multi n t qs ps h : y_tree n = Some t ->
    reads o (fun n => n) (value_of o) 0 t qs ps h -> done_reading en o (y_reader multi n) qs ps h.
  Proof.
    intros Hn Hr. eapply (read_node en o (fun n => n) (value_of o) (fun _ => True)); eauto.
    apply y_tree_rep. exact Hn.
  Qed.

  Theorem y_reads_stream multi docs l t qs ps h1 qs' ps' h :
    Forall2 (fun n t => y_tree n = Some t) docs (t :: l) ->
    reads o (fun n => n) (value_of o) 0 t qs ps h1 -> not_skip qs ->
    reads_docs o (fun n => n) (value_of o) h1 l qs' ps' h ->
    done_reading en o (y_reader multi (NStream docs)) (qs ++ qs') (ps ++ ps') h.
  Proof.
    intros Hd Hr Hs Hrest.
    eapply (read_stream en o (fun n => n) (value_of o) (fun _ => True)); eauto.
    - eapply y_open; [reflexivity| |discriminate]. intros [] c [-> | ->]; reflexivity.
    - intros [] Q1 Q2 k _; try congruence; reflexivity.
    - intros k _. reflexivity.
    - clear Hr Hs Hrest. induction Hd; constructor; auto. apply y_tree_rep. assumption.
  Qed.
End Y.
