(** Reading yaml.v3 graphs. *)
From Coq Require Import String.
From Verif Require Import Base Schema Values Writer AnyBuilder Reader GBuilder GReader ReaderProofs ReaderSteps
  ReadSpec ReaderSpec DocSpec AnyProofs ReadProofs.
Local Open Scope nat_scope.

Local Arguments sc_is_null : simpl never.
Local Arguments sc_is_integer : simpl never.
Local Arguments sc_is_boolean : simpl never.
Local Arguments sc_is_float : simpl never.
Local Arguments sc_is_timestamp : simpl never.
Local Arguments g_is_null : simpl never.

Scheme g_tree_mut := Induction for g_tree Sort Prop
  with g_trees_mut := Induction for g_trees Sort Prop
  with g_entries_mut := Induction for g_entries Sort Prop.
Combined Scheme g_tree_all from g_tree_mut, g_trees_mut, g_entries_mut.

Definition double (n : nat) : nat := 2 * n.

Section G.
  Context (o : oracle) (marshal : graph -> gref -> text + list N) (g : graph).
  Let en := g_engine marshal o.
  Let kinv (k : graph) : Prop := k = g.
  Definition g_nolookup (k : graph) (a : text) : gref + text := inr a.
  Let arepG := arep g_access kinv g_nolookup (fun _ => False) (fun _ _ => False).

  Lemma g_tree_arep :
    (forall n t, g_tree g n t -> arepG n (doc_of t))
    /\ (forall ns l, g_trees g ns l -> areps g_access kinv g_nolookup (fun _ => False) (fun _ _ => False) ns (map doc_of l))
    /\ (forall ns l, g_entries g ns l ->
          aents g_access kinv g_nolookup (fun _ => False) (fun _ _ => False) (g_pairs ns)
            (map (fun kv => (doc_of (fst kv), doc_of (snd kv))) l)).
  Proof.
    apply g_tree_all.
    - intros i c Hi Hk Hn. apply ar_null. right. exists (x_value c). intros k ->. cbn. unfold g_at. rewrite Hi, Hk, Hn. reflexivity.
    - intros i c Hi Hk Hn. apply ar_text. intros k ->. cbn. unfold g_at. rewrite Hi, Hk, Hn. reflexivity.
    - intros i c l Hi Hk Hl IH. eapply ar_seq; [|exact IH]. intros k ->. cbn. unfold g_at. rewrite Hi, Hk. reflexivity.
    - intros i c l Hi Hk Hl IH. eapply ar_map; [|exact IH]. intros k ->. cbn. unfold g_at. rewrite Hi, Hk. reflexivity.
    - constructor.
    - intros. cbn. constructor; assumption.
    - constructor.
    - intros. cbn. constructor; assumption.
  Qed.

  Lemma g_any n t : g_tree g n t -> any_gives en (value_of o) kinv n t.
  Proof.
    intros H v k Hk Hv. apply (proj1 g_tree_arep) in H.
    destruct (any_value g_access o kinv g_nolookup (fun _ => False) (fun _ _ => False))
      with (e := @nil (text * doc)) (d := doc_of t) (v := v) (e' := @nil (text * doc)) (n := n) (k := k)
      as (F & k' & Hk' & HF).
    - intros p c a [].
    - intros nm p c a [].
    - apply value_of_oev. exact Hv.
    - exact H.
    - split; [exact Hk|]. discriminate.
    - exists F, k'. split; [apply Hk'|]. exact HF.
  Qed.

  Let repG := rep en o double (value_of o) kinv.

  Lemma g_tree_rep :
    (forall n t, g_tree g n t -> repG n t)
    /\ (forall ns l, g_trees g ns l -> length ns = length l /\ reps en o double (value_of o) kinv ns l)
    /\ (forall ns l, g_entries g ns l -> length ns = double (length l) /\ entries en o double (value_of o) kinv ns l).
  Proof.
    apply g_tree_all.
    - intros i c Hi Hk Hn. apply rep_core.
      apply core_null; [split; reflexivity| | | | |apply g_any; eapply gt_null; eassumption].
      + intros k ->. right. exists (x_value c). cbn. unfold g_visit, g_at. rewrite Hi, Hk. reflexivity.
      + intros k x -> [-> | ->]; cbn; unfold g_process, g_at; rewrite Hi; cbn; rewrite Hn; reflexivity.
      + intros k x -> [-> | ->]; cbn; unfold g_process, g_at; rewrite Hi; reflexivity.
      + intros k x -> [-> | ->]; cbn; unfold g_process, g_at; rewrite Hi; reflexivity.
    - intros i c Hi Hk Hn. apply rep_core.
      apply core_text; [split; reflexivity| | | | | | | | | |apply g_any; eapply gt_text; eassumption].
      + intros k ->. cbn. unfold g_visit, g_at. rewrite Hi, Hk. reflexivity.
      + intros k x -> [-> | ->]; cbn; unfold g_process, g_at; rewrite Hi; cbn; rewrite Hn; reflexivity.
      + intros k x -> [-> | ->]; cbn; unfold g_process, g_at; rewrite Hi; reflexivity.
      + intros k x -> [-> | ->]; cbn; unfold g_process, g_at; rewrite Hi; reflexivity.
      + intros k x -> [-> | ->]; cbn; unfold g_process, g_at; rewrite Hi; cbn; unfold g_terminal; rewrite Hk; cbn; rewrite Hn, Hk; reflexivity.
      + intros Hs k x -> [-> | ->]; cbn; unfold g_process, g_at; rewrite Hi; cbn; unfold g_terminal; rewrite Hk; cbn; unfold g_text_is; rewrite Hk, Hs; reflexivity.
      + intros Hs k x -> [-> | ->]; cbn; unfold g_process, g_at; rewrite Hi; cbn; unfold g_terminal; rewrite Hk; cbn; unfold g_text_is; rewrite Hk, Hs; reflexivity.
      + intros Hs k x -> [-> | ->]; cbn; unfold g_process, g_at; rewrite Hi; cbn; unfold g_terminal; rewrite Hk; cbn; unfold g_text_is; rewrite Hk, Hs; reflexivity.
      + intros Hs k x -> [-> | ->]; cbn; unfold g_process, g_at; rewrite Hi; cbn; unfold g_terminal; rewrite Hk; cbn; unfold g_text_is; rewrite Hk, Hs; reflexivity.
    - intros i c l Hi Hk Hl [Hlen Hreps]. apply rep_core.
      assert (Hnull : g_is_null c = false) by (unfold g_is_null; rewrite Hk; reflexivity).
      eapply core_seq; [split; reflexivity| | |exact Hreps| | | | |apply g_any; eapply gt_seq; eassumption].
      + split; [reflexivity|]. split.
        * intros k ->. eexists _, _. cbn. unfold g_visit, g_at. rewrite Hi, Hk. reflexivity.
        * intros e k x -> [-> | ->]; destruct e; cbn; unfold g_process, g_at; rewrite Hi; cbn; unfold g_terminal; rewrite ?Hnull, ?Hk; reflexivity.
      + intros k ->. cbn. unfold g_visit, g_at. rewrite Hi, Hk. f_equal. exact Hlen.
      + intros k x -> [-> | ->]; cbn; unfold g_process, g_at; rewrite Hi; cbn; rewrite Hnull; reflexivity.
      + intros k x -> [-> | ->]; cbn; unfold g_process, g_at; rewrite Hi; reflexivity.
      + intros k x -> [-> | ->]; cbn; unfold g_process, g_at; rewrite Hi; reflexivity.
      + intros k x -> [-> | ->]; cbn; unfold g_process, g_at; rewrite Hi; cbn; rewrite Hk; reflexivity.
    - intros i c l Hi Hk Hl [Hlen Hreps]. apply rep_core.
      assert (Hnull : g_is_null c = false) by (unfold g_is_null; rewrite Hk; reflexivity).
      eapply core_map; [split; reflexivity| | |exact Hreps| | | | |apply g_any; eapply gt_map; eassumption].
      + split; [reflexivity|]. split.
        * intros k ->. eexists _, _. cbn. unfold g_visit, g_at. rewrite Hi, Hk. reflexivity.
        * intros e k x -> [-> | ->]; destruct e; cbn; unfold g_process, g_at; rewrite Hi; cbn; unfold g_terminal; rewrite ?Hnull, ?Hk; reflexivity.
      + intros k ->. cbn. unfold g_visit, g_at. rewrite Hi, Hk. f_equal. exact Hlen.
      + intros k x -> [-> | ->]; cbn; unfold g_process, g_at; rewrite Hi; cbn; rewrite Hnull; reflexivity.
      + intros k x -> [-> | ->]; cbn; unfold g_process, g_at; rewrite Hi; reflexivity.
      + intros k x -> [-> | ->]; cbn; unfold g_process, g_at; rewrite Hi; reflexivity.
      + intros k x -> [-> | ->]; cbn; unfold g_process, g_at; rewrite Hi; cbn; rewrite Hk; reflexivity.
    - split; [reflexivity|constructor].
    - intros n ns t l Hn IH Hns [Hlen Hreps]. split; [cbn; congruence|]. constructor; assumption.
    - split; [reflexivity|constructor].
    - intros k v ns tk tv l Hk IHk Hv IHv Hns [Hlen Hreps]. split; [unfold double in *; cbn; lia|].
      apply entries_flat; assumption.
  Qed.

  Theorem g_reads multi n t qs ps h : g_tree g n t ->
    reads o double (value_of o) 0 t qs ps h -> done_reading en o (r_new g multi n) qs ps h.
  Proof.
    intros Hn Hr. eapply (read_node en o double (value_of o) kinv); eauto.
    - reflexivity.
    - apply g_tree_rep. exact Hn.
  Qed.

  (** NewASTReader enters a document node *)
  Theorem g_reads_document multi i c n t qs ps h : nth_error g i = Some c -> x_kind c = KDocument ->
    hd_error (x_content c) = Some n -> g_tree g n t ->
    reads o double (value_of o) 0 t qs ps h ->
    exists r, g_reader multi g i = Done r /\ done_reading en o r qs ps h.
  Proof.
    intros Hi Hk Hc Hn Hr. unfold g_reader. rewrite Hi, Hk.
    destruct (x_content c) as [|n0 ns]; [discriminate|]. injection Hc as ->.
    eexists. split; [reflexivity|]. apply (g_reads multi n t); assumption.
  Qed.
End G.
