(** The value builder makes the same of a node as of the document that hangs from it. *)
From Verif Require Import Base Schema Values Writer AnyBuilder Reader GBuilder GReader ReadSpec DocSpec AnyProofs CursorSpec.
Local Open Scope nat_scope.

Section Any.
  Context (o : oracle) (g : graph).
  Definition lift (b : abuilder unit) : abuilder graph :=
    mkAB (ab_value b) (ab_extract_string b) (ab_string b) (ab_extract_merge b) (ab_merge b) g (ab_errors b).

  Lemma lift_value v b : ab_set_value v (lift b) = lift (ab_set_value v b). Proof. reflexivity. Qed.
  Lemma lift_string v b : ab_set_string v (lift b) = lift (ab_set_string v b). Proof. reflexivity. Qed.
  Lemma lift_flags v w b : ab_set_flags v w (lift b) = lift (ab_set_flags v w b). Proof. reflexivity. Qed.
  Lemma lift_scalar s n b : visit_scalar o s n (lift b) = lift (visit_scalar o s n b).
  Proof.
    unfold visit_scalar, from_text. cbn [lift ab_extract_string]. destruct (ab_extract_string b); [reflexivity|].
    destruct n; [reflexivity|].
    destruct (sc_is_timestamp o s); [destruct (o_time o s); reflexivity|].
    destruct (sc_is_unsigned s); [destruct (sc_to_unsigned s 64); reflexivity|].
    destruct (sc_is_integer s); [destruct (sc_to_integer s 64); reflexivity|].
    destruct (sc_is_float s); [destruct (o_float o s 64%N); reflexivity|].
    destruct (sc_is_boolean s); [destruct (sc_to_boolean s); reflexivity|]. reflexivity.
  Qed.
  Lemma lift_finish_map m b : finish_map o m (lift b) = lift (finish_map o m b).
  Proof. unfold finish_map. cbn. destruct (ab_extract_merge b), (ab_extract_string b); reflexivity. Qed.
  Lemma lift_finish_seq e m b : finish_seq o e m (lift b) = lift (finish_seq o e m b).
  Proof. unfold finish_seq. destruct e; reflexivity. Qed.
  Lemma lift_entry m b : after_entry m (lift b) = (fst (after_entry m b), lift (snd (after_entry m b))).
  Proof. unfold after_entry, ab_ok. cbn. destruct (ab_errors b); [|reflexivity]. destruct (ab_merge b); reflexivity. Qed.

  Definition same_any (n : gref) (d : ytree) : Prop :=
    forall b, exists b', forall f, depth d <= f ->
      any_visit g_access o f n (lift b) = Done (lift b') /\ any_visit tree_access o f d b = Done b'.
  Definition depths (l : list ytree) : nat := fold_right (fun x m => max (depth x) m) 0 l.

  Lemma seq_same ns l : Forall2 same_any ns l -> forall acc b, exists acc' b', forall f, depths l <= f ->
    av_seq g_access o f ns acc (lift b) = Done (acc', lift b') /\ av_seq tree_access o f l acc b = Done (acc', b').
  Proof.
    induction 1 as [|n d ns l Hd Hl IH]; intros acc b.
    - exists acc, b. intros. split; reflexivity.
    - destruct (Hd b) as (b1 & H1).
      destruct (IH (if ab_ok b1 then acc ++ [ab_value b1] else acc) b1) as (acc' & b2 & H2).
      exists acc', b2. intros f Hf. cbn [depths fold_right] in Hf. fold (depths l) in Hf.
      destruct (H1 f ltac:(lia)) as [E1 E2]. destruct (H2 f ltac:(lia)) as [E3 E4].
      cbn [av_seq]. rewrite E1, E2. cbn [obind]. split; [exact E3|exact E4].
  Qed.

  Lemma pair_same k dk v dv : same_any k dk -> match v, dv with Some v, Some dv => same_any v dv | None, None => True | _, _ => False end ->
    forall b, exists b', forall f, depth dk <= f -> match dv with Some dv => depth dv <= f | None => True end ->
      av_pair g_access o f k v (lift b) = Done (lift b') /\ av_pair tree_access o f dk dv b = Done b'.
  Proof.
    intros Hk Hv b. destruct (Hk (ab_set_flags true (ab_extract_merge b) b)) as (b1 & H1).
    set (b2 := ab_set_flags false (if text_eqb (ab_string b1) merge_key then true else ab_extract_merge b1) b1).
    destruct v as [v|], dv as [dv|]; try contradiction.
    - destruct (Hv b2) as (b3 & H3).
      exists (ab_set_flags (ab_extract_string b) (ab_extract_merge b) (ab_set_string (ab_string b1) b3)).
      intros f Hf Hf2. destruct (H1 f Hf) as [E1 E2]. destruct (H3 f Hf2) as [E3 E4].
      unfold av_pair. rewrite lift_flags. cbn [lift ab_extract_merge]. rewrite E1, E2. cbn [obind].
      rewrite lift_flags. cbn [lift ab_string ab_extract_merge]. fold b2. fold (lift b2). rewrite E3, E4. split; reflexivity.
    - exists (ab_set_flags (ab_extract_string b) (ab_extract_merge b) (ab_set_string (ab_string b1) (visit_scalar o [] true b2))).
      intros f Hf _. destruct (H1 f Hf) as [E1 E2].
      unfold av_pair. rewrite lift_flags. cbn [lift ab_extract_merge]. rewrite E1, E2. cbn [obind].
      rewrite lift_flags. cbn [lift ab_string ab_extract_merge]. fold b2. fold (lift b2). rewrite lift_scalar. split; reflexivity.
  Qed.

  Lemma entries_same : forall m ns l, length ns <= m -> Forall2 same_any ns l -> forall acc b, exists acc' b', forall f, depths l <= f ->
    av_entries g_access o f (g_pairs ns) acc (lift b) = Done (acc', lift b')
    /\ av_entries tree_access o f (pairs l) acc b = Done (acc', b').
  Proof.
    induction m as [|m IH]; intros ns l Hlen H acc b.
    - destruct ns; [|cbn in Hlen; lia]. inversion H; subst. exists acc, b. intros; split; reflexivity.
    - destruct H as [|k dk ns l Hk Hl]; [exists acc, b; intros; split; reflexivity|].
      destruct Hl as [|v dv ns l Hv Hl].
      + destruct (pair_same k dk None None Hk I b) as (b1 & H1).
        exists (fst (after_entry acc b1)), (snd (after_entry acc b1)). intros f Hf. cbn [depths fold_right] in Hf.
        destruct (H1 f ltac:(lia) I) as [E1 E2]. cbn [g_pairs pairs av_entries]. rewrite E1, E2. cbn [obind].
        rewrite lift_entry. destruct (after_entry acc b1); split; reflexivity.
      + destruct (pair_same k dk (Some v) (Some dv) Hk Hv b) as (b1 & H1).
        destruct (IH ns l ltac:(cbn in Hlen; lia) Hl (fst (after_entry acc b1)) (snd (after_entry acc b1))) as (acc' & b2 & H2).
        exists acc', b2. intros f Hf. cbn [depths fold_right] in Hf. fold (depths l) in Hf.
        destruct (H1 f ltac:(lia) ltac:(lia)) as [E1 E2]. destruct (H2 f ltac:(lia)) as [E3 E4].
        cbn [g_pairs pairs av_entries]. rewrite E1, E2. cbn [obind]. rewrite lift_entry.
        destruct (after_entry acc b1) as [m1 b1']. split; [exact E3|exact E4].
  Qed.

  Lemma keep_lift b : ab_keep (lift b) = g. Proof. reflexivity. Qed.
  Lemma string_lift b : ab_extract_string (lift b) = ab_extract_string b. Proof. reflexivity. Qed.
  Lemma merge_lift b : ab_extract_merge (lift b) = ab_extract_merge b. Proof. reflexivity. Qed.

  Lemma unfolds_any : forall d n, unfolds g n d -> same_any n d.
  Proof.
    apply (ytree_deep (fun d => forall n, unfolds g n d -> same_any n d)).
    - intros s n H b. inversion H; subst. exists (visit_scalar o (x_value c) true b). intros [|f] Hf; [cbn in Hf; lia|].
      rewrite !any_visit_S. cbn [g_access ac_view g_view tree_access g_at]. rewrite keep_lift, H1, H2, H4, lift_scalar. split; reflexivity.
    - intros s n H b. inversion H; subst. exists (visit_scalar o (x_value c) false b). intros [|f] Hf; [cbn in Hf; lia|].
      rewrite !any_visit_S. cbn [g_access ac_view g_view tree_access g_at]. rewrite keep_lift, H1, H2, H4, lift_scalar. split; reflexivity.
    - intros l IH n H b. inversion H; subst.
      assert (Hs : Forall2 same_any (x_content c) l).
      { clear -IH H4. induction H4; inversion IH; subst; constructor; auto. }
      destruct (seq_same _ _ Hs [] (ab_set_flags false (ab_extract_merge b) b)) as (acc & b1 & Hb).
      exists (finish_seq o (ab_extract_string b) acc b1). intros [|f] Hf; [cbn in Hf; lia|].
      cbn [depth] in Hf. fold (depths l) in Hf. destruct (Hb f ltac:(lia)) as [E1 E2].
      rewrite !any_visit_S. cbn [g_access ac_view g_view tree_access g_at]. rewrite keep_lift, H1, H2.
      rewrite lift_flags, merge_lift, string_lift.
      match goal with |- context [av_seq ?a o f (x_content c)] => change a with g_access end.
      match goal with |- context [av_seq ?a o f l] => change a with tree_access end.
      rewrite E1, E2. cbn [obind fst snd]. rewrite lift_finish_seq. split; reflexivity.
    - intros l IH n H b. inversion H; subst.
      assert (Hs : Forall2 same_any (x_content c) l).
      { clear -IH H4. induction H4; inversion IH; subst; constructor; auto. }
      destruct (entries_same _ _ _ (le_n _) Hs [] b) as (acc & b1 & Hb).
      exists (finish_map o acc b1). intros [|f] Hf; [cbn in Hf; lia|].
      cbn [depth] in Hf. fold (depths l) in Hf. destruct (Hb f ltac:(lia)) as [E1 E2].
      rewrite !any_visit_S. cbn [g_access ac_view g_view tree_access g_at]. rewrite keep_lift, H1, H2.
      match goal with |- context [av_entries ?a o f (g_pairs _)] => change a with g_access end.
      match goal with |- context [av_entries ?a o f (pairs _)] => change a with tree_access end.
      rewrite E1, E2. cbn [obind fst snd]. rewrite lift_finish_map. split; reflexivity.
  Qed.

  Lemma any_gives_value n d : unfolds g n d -> forall f, depth d <= f ->
    extract_any g_access o f g n = Done (any_value o d, g).
  Proof.
    intros H f Hf. destruct (unfolds_any d n H (ab_new tt)) as (b & Hb).
    unfold any_value, extract_any. destruct (Hb _ (le_n _)) as [_ E]. rewrite E. cbn [obind].
    destruct (Hb f Hf) as [E1 _]. change (ab_new g) with (lift (ab_new tt)). rewrite E1. reflexivity.
  Qed.
End Any.
