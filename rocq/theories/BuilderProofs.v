From Verif Require Import Base Schema Ast Builder BuilderSpec.
Local Open Scope nat_scope.

(** ** lists with update *)
Lemma upd_length {A} (l : list A) i x : length (upd l i x) = length l.
Proof. revert i; induction l as [|y l IH]; intros [|i]; cbn; auto. Qed.

Lemma upd_same {A} (l : list A) i x : i < length l -> nth_error (upd l i x) i = Some x.
Proof.
  revert i; induction l as [|y l IH]; intros [|i] H; cbn in *; try lia; auto.
  apply IH. lia.
Qed.

Lemma upd_other {A} (l : list A) i j x : i <> j -> nth_error (upd l i x) j = nth_error l j.
Proof.
  revert i j; induction l as [|y l IH]; intros [|i] [|j] H; cbn; try lia; auto.
Qed.

Lemma nth_app_new {A} (l l' : list A) k : nth_error (l ++ l') (length l + k) = nth_error l' k.
Proof. rewrite nth_error_app2 by lia. f_equal. lia. Qed.

Lemma nth_app_0 {A} (l l' : list A) x : nth_error (l ++ x :: l') (length l) = Some x.
Proof. rewrite <- (Nat.add_0_r (length l)), nth_app_new. reflexivity. Qed.

(** ** reading *)
Inductive vreads (h : list cell) : nat -> hval -> node -> Prop :=
| vr_node lo n : vreads h lo (VNode n) n
| vr_seq lo i es ns : lo <= i -> nth_error h i = Some (CSeq es) -> vreads_l h (S i) es ns ->
    vreads h lo (VRef i) (NSequence ns)
| vr_map lo i es ns : lo <= i -> nth_error h i = Some (CMap es) -> vreads_l h (S i) es ns ->
    vreads h lo (VRef i) (NMapping ns)
| vr_entry lo i k v nk nv : lo <= i -> nth_error h i = Some (CEntry k v) ->
    vreads h (S i) k nk -> vreads h (S i) v nv -> vreads h lo (VRef i) (NEntry nk nv)
| vr_leaf lo i n : lo <= i -> nth_error h i = Some (CLeaf n) -> vreads h lo (VRef i) n
with vreads_l (h : list cell) : nat -> list hval -> list node -> Prop :=
| vrl_nil lo : vreads_l h lo [] []
| vrl_cons lo v n vs ns : vreads h lo v n -> vreads_l h lo vs ns ->
    vreads_l h lo (v :: vs) (n :: ns).

Scheme vreads_mut := Induction for vreads Sort Prop
  with vreads_l_mut := Induction for vreads_l Sort Prop.
Combined Scheme vreads_both from vreads_mut, vreads_l_mut.

Lemma vreads_mono h lo' lo v n : lo' <= lo -> vreads h lo v n -> vreads h lo' v n.
Proof.
  intros H Hv. destruct Hv as [|lo i|lo i|lo i|lo i].
  - constructor.
  - eapply vr_seq; eauto; lia.
  - eapply vr_map; eauto; lia.
  - eapply vr_entry; eauto; lia.
  - eapply vr_leaf; eauto; lia.
Qed.

Lemma vreads_l_mono h lo' lo vs ns : lo' <= lo -> vreads_l h lo vs ns -> vreads_l h lo' vs ns.
Proof. induction 2; constructor; eauto using vreads_mono. Qed.

Lemma vreads_agree h h' :
  (forall lo v n, vreads h lo v n ->
     (forall k c, lo <= k -> nth_error h k = Some c -> nth_error h' k = Some c) ->
     vreads h' lo v n) /\
  (forall lo vs ns, vreads_l h lo vs ns ->
     (forall k c, lo <= k -> nth_error h k = Some c -> nth_error h' k = Some c) ->
     vreads_l h' lo vs ns).
Proof.
  apply (vreads_both h
    (fun lo v n _ => (forall k c, lo <= k -> nth_error h k = Some c -> nth_error h' k = Some c) ->
       vreads h' lo v n)
    (fun lo vs ns _ => (forall k c, lo <= k -> nth_error h k = Some c -> nth_error h' k = Some c) ->
       vreads_l h' lo vs ns)).
  - intros. constructor.
  - intros lo i es ns Hi Hn Hl IH Ha. eapply vr_seq; eauto. apply IH. intros; apply Ha; [lia|auto].
  - intros lo i es ns Hi Hn Hl IH Ha. eapply vr_map; eauto. apply IH. intros; apply Ha; [lia|auto].
  - intros lo i k v nk nv Hi Hn Hk IHk Hv IHv Ha.
    eapply vr_entry; eauto; [apply IHk|apply IHv]; intros; apply Ha; auto; lia.
  - intros lo i n Hi Hn Ha. eapply vr_leaf; eauto.
  - intros. constructor.
  - intros lo v n vs ns Hv IHv Hl IHl Ha. constructor; auto.
Qed.

Lemma vreads_l_app h lo vs ns v n :
  vreads_l h lo vs ns -> vreads h lo v n -> vreads_l h lo (vs ++ [v]) (ns ++ [n]).
Proof. induction 1; cbn; intros; constructor; auto. constructor. Qed.

Lemma vreads_l_nodes h lo l : vreads_l h lo (map VNode l) l.
Proof. induction l; cbn; constructor; auto. constructor. Qed.

Lemma read_val_vreads h :
  (forall lo v n, vreads h lo v n -> forall fuel, length h < fuel + lo -> read_val fuel h v = n) /\
  (forall lo vs ns, vreads_l h lo vs ns -> forall fuel, length h < fuel + lo ->
     map (read_val fuel h) vs = ns).
Proof.
  apply (vreads_both h
    (fun lo v n _ => forall fuel, length h < fuel + lo -> read_val fuel h v = n)
    (fun lo vs ns _ => forall fuel, length h < fuel + lo -> map (read_val fuel h) vs = ns)).
  - intros lo n [|fuel] _; reflexivity.
  - intros lo i es ns Hi Hn Hl IH fuel Hf.
    assert (i < length h) by (apply nth_error_Some; congruence).
    destruct fuel as [|fuel]; [lia|]. cbn [read_val]. rewrite Hn. f_equal. apply IH. lia.
  - intros lo i es ns Hi Hn Hl IH fuel Hf.
    assert (i < length h) by (apply nth_error_Some; congruence).
    destruct fuel as [|fuel]; [lia|]. cbn [read_val]. rewrite Hn. f_equal. apply IH. lia.
  - intros lo i k v nk nv Hi Hn Hk IHk Hv IHv fuel Hf.
    assert (i < length h) by (apply nth_error_Some; congruence).
    destruct fuel as [|fuel]; [lia|]. cbn [read_val]. rewrite Hn.
    rewrite IHk, IHv by lia. reflexivity.
  - intros lo i n Hi Hn fuel Hf.
    assert (i < length h) by (apply nth_error_Some; congruence).
    destruct fuel as [|fuel]; [lia|]. cbn [read_val]. rewrite Hn. reflexivity.
  - reflexivity.
  - intros lo v n vs ns Hv IHv Hl IHl fuel Hf. cbn. rewrite IHv, IHl by assumption. reflexivity.
Qed.

(** ** inserting one value below an open collection *)
Definition is_open_cell (c : cell) : bool :=
  match c with CLeaf _ => false | _ => true end.
Definition child_base (h : list cell) (c : cell) : nat :=
  match c with CMap _ => S (length h) | _ => length h end.
Definition route_after (h : list cell) (i : nat) (r : list nat) (c : cell) : list nat :=
  match c with
  | CSeq _ => i :: r
  | CMap _ => length h :: i :: r
  | CEntry _ _ => r
  | CLeaf _ => []
  end.
(** [h'] is [h] with [w] added as the next child of cell [i] *)
Definition placed (h : list cell) (i : nat) (c : cell) (w : hval) (h' : list cell) : Prop :=
  child_base h c <= length h' /\
  (forall j, j < length h -> j <> i -> nth_error h' j = nth_error h j) /\
  match c with
  | CSeq es => nth_error h' i = Some (CSeq (es ++ [w]))
  | CMap es => nth_error h' i = Some (CMap (es ++ [VRef (length h)])) /\
               nth_error h' (length h) = Some (CEntry w (VNode NNil))
  | CEntry k _ => nth_error h' i = Some (CEntry k w)
  | CLeaf _ => False
  end.

Definition same_side (b b' : builder) : Prop :=
  b_fatal b' = None /\ b_root b' = b_root b /\ b_unquote b' = b_unquote b.

Lemma insert_placed b n push i r c :
  b_fatal b = None -> b_route b = i :: r -> nth_error (b_heap b) i = Some c ->
  is_open_cell c = true ->
  let h := b_heap b in
  let b' := insert_node b n push in
  let base := child_base h c in
  same_side b b' /\
  placed h i c (if push then VRef base else VNode n) (b_heap b') /\
  b_route b' = (if push then [base] else []) ++ route_after h i r c /\
  length (b_heap b') = (if push then S base else base) /\
  (push = true -> nth_error (b_heap b') base = Some (cell_of_node n)).
Proof.
  intros Hf Hr Hc Ho h b' base.
  assert (Hi : i < length h) by (apply nth_error_Some; unfold h; congruence).
  assert (Hcur : current b = Some (i, c)).
  { unfold current. rewrite Hr, Hc. reflexivity. }
  assert (Hv : negb (cell_valid c) = false).
  { destruct c; try reflexivity. discriminate. }
  unfold b', insert_node. rewrite Hf, Hcur, Hv. fold h. unfold base.
  destruct c as [es|es|k v|m]; [| | |discriminate]; cbn [child_base route_after placed];
    unfold child; destruct push; cbn [b_heap b_route b_fatal b_root b_unquote same_side app];
    rewrite ?Hr; cbn [tl];
    (split; [unfold same_side; cbn; auto|]);
    (split; [split; [rewrite app_length, upd_length; cbn; lia|]|]).
  all: try (split; [intros j Hj Hji; rewrite nth_error_app1 by (rewrite upd_length; lia);
      apply upd_other; lia|]).
  all: try (split; [reflexivity|]).
  all: try (split; [rewrite app_length, upd_length; cbn; lia|]).
  all: try discriminate.
  all: try (intros _).
  all: try (rewrite nth_error_app1 by (rewrite upd_length; lia); apply upd_same; exact Hi).
  all: try (split; [rewrite nth_error_app1 by (rewrite upd_length; lia); apply upd_same; exact Hi|]).
  all: try (rewrite nth_error_app2 by (rewrite upd_length; lia); rewrite upd_length, Nat.sub_diag;
    reflexivity).
  all: try (rewrite nth_error_app2 by (rewrite upd_length; lia); rewrite upd_length;
    replace (S (length h) - length h) with 1 by lia; reflexivity).
Qed.

Lemma placed_later h i c w h1 h2 :
  placed h i c w h1 -> i < length h -> is_open_cell c = true ->
  length h1 <= length h2 ->
  (forall j, j < child_base h c -> nth_error h2 j = nth_error h1 j) ->
  placed h i c w h2.
Proof.
  intros (H1 & H2 & H3) Hi Ho Hl Ha. split; [lia|]. split.
  - intros j Hj Hji. rewrite Ha; [apply H2; assumption|]. destruct c; cbn; lia.
  - destruct c as [es|es|k v|m]; cbn [child_base] in *.
    + rewrite Ha by lia. exact H3.
    + destruct H3 as [H3 H4]. rewrite !Ha by lia. split; assumption.
    + rewrite Ha by lia. exact H3.
    + exact H3.
Qed.

(** ** whole values *)
Definition builds (q : bool) (v : value) : Prop :=
  forall b i r c,
    b_unquote b = q -> b_fatal b = None -> b_route b = i :: r ->
    nth_error (b_heap b) i = Some c -> is_open_cell c = true ->
    let b' := bsteps b (calls v) in
    same_side b b' /\ b_route b' = route_after (b_heap b) i r c /\
    exists w, placed (b_heap b) i c w (b_heap b') /\
              vreads (b_heap b') (child_base (b_heap b) c) w (tree q v).

Lemma bsteps_app b l1 l2 : bsteps b (l1 ++ l2) = bsteps (bsteps b l1) l2.
Proof. unfold bsteps. apply fold_left_app. Qed.

(** children of a sequence that is on top of the route *)
Lemma build_items q vs : Forall (builds q) vs ->
  forall b j r es ns,
    b_unquote b = q -> b_fatal b = None -> b_route b = j :: r ->
    nth_error (b_heap b) j = Some (CSeq es) -> vreads_l (b_heap b) (S j) es ns ->
    let b' := bsteps b (flat_map calls vs) in
    same_side b b' /\ b_route b' = j :: r /\ length (b_heap b) <= length (b_heap b') /\
    (forall k, k < length (b_heap b) -> k <> j -> nth_error (b_heap b') k = nth_error (b_heap b) k) /\
    exists es', nth_error (b_heap b') j = Some (CSeq es') /\
                vreads_l (b_heap b') (S j) es' (ns ++ map (tree q) vs).
Proof.
  induction 1 as [|v vs Hv Hvs IH]; intros b j r es ns Hq Hf Hr Hj Hl.
  - cbn. unfold same_side. repeat split; auto. exists es. rewrite app_nil_r. split; assumption.
  - cbn zeta. cbn [flat_map]. rewrite bsteps_app.
    destruct (Hv b j r (CSeq es) Hq Hf Hr Hj eq_refl) as ((S1 & S2 & S3) & R & w & P & W).
    set (b1 := bsteps b (calls v)) in *. destruct P as (P1 & P2 & P3).
    cbn [child_base route_after] in *.
    assert (Hlen : j < length (b_heap b)) by (apply nth_error_Some; congruence).
    destruct (IH b1 j r (es ++ [w]) (ns ++ [tree q v])) as ((T1 & T2 & T3) & R' & L & F & es' & E & V);
      try congruence.
    { apply vreads_l_app.
      - eapply (proj2 (vreads_agree _ _)); [exact Hl|]. intros k c Hk Hc.
        rewrite P2; [exact Hc| |lia]. apply nth_error_Some. congruence.
      - eapply vreads_mono; [|exact W]. lia. }
    cbn zeta in *. unfold same_side. split; [repeat split; congruence|].
    split; [exact R'|]. split; [lia|]. split.
    + intros k Hk Hkj. rewrite F by lia. apply P2; assumption.
    + exists es'. split; [exact E|]. cbn [map].
      rewrite <- app_assoc in V. exact V.
Qed.

(** entries of a mapping that is on top of the route *)
Lemma build_entries q kvs : Forall (fun kv => builds q (fst kv) /\ builds q (snd kv)) kvs ->
  forall b j r es ns,
    b_unquote b = q -> b_fatal b = None -> b_route b = j :: r ->
    nth_error (b_heap b) j = Some (CMap es) -> vreads_l (b_heap b) (S j) es ns ->
    let b' := bsteps b (flat_map (fun kv => calls (fst kv) ++ calls (snd kv)) kvs) in
    same_side b b' /\ b_route b' = j :: r /\ length (b_heap b) <= length (b_heap b') /\
    (forall k, k < length (b_heap b) -> k <> j -> nth_error (b_heap b') k = nth_error (b_heap b) k) /\
    exists es', nth_error (b_heap b') j = Some (CMap es') /\
      vreads_l (b_heap b') (S j) es'
        (ns ++ map (fun kv => NEntry (tree q (fst kv)) (tree q (snd kv))) kvs).
Proof.
  induction 1 as [|[kx vx] kvs [Hk Hv] Hkvs IH]; intros b j r es ns Hq Hf Hr Hj Hl.
  - cbn. unfold same_side. repeat split; auto. exists es. rewrite app_nil_r. split; assumption.
  - cbn zeta. cbn [flat_map fst snd]. cbn [fst snd] in Hk, Hv. rewrite !bsteps_app.
    assert (Hlen : j < length (b_heap b)) by (apply nth_error_Some; congruence).
    destruct (Hk b j r (CMap es) Hq Hf Hr Hj eq_refl) as ((S1 & S2 & S3) & R & w & P & W).
    set (b1 := bsteps b (calls kx)) in *. destruct P as (P1 & P2 & P3 & P4).
    cbn [child_base route_after] in *. set (e := length (b_heap b)) in *.
    destruct (Hv b1 e (j :: r) (CEntry w (VNode NNil)) ltac:(congruence) S1 R P4 eq_refl)
      as ((T1 & T2 & T3) & R2 & w2 & Q & W2).
    set (b2 := bsteps b1 (calls vx)) in *. destruct Q as (Q1 & Q2 & Q3).
    cbn [child_base route_after] in *.
    destruct (IH b2 j r (es ++ [VRef e]) (ns ++ [NEntry (tree q kx) (tree q vx)]))
      as ((U1 & U2 & U3) & R' & L & F & es' & E & V); try congruence.
    { rewrite Q2 by lia. exact P3. }
    { apply vreads_l_app.
      - eapply (proj2 (vreads_agree _ _)); [exact Hl|]. intros k c Hk' Hc.
        assert (k < e) by (apply nth_error_Some; congruence).
        rewrite Q2, P2 by lia. exact Hc.
      - eapply vr_entry; [lia|exact Q3| |].
        + eapply (proj1 (vreads_agree _ _)); [exact W|]. intros k c Hk' Hc.
          rewrite Q2; [exact Hc| |lia]. apply nth_error_Some. congruence.
        + eapply vreads_mono; [|exact W2]. lia. }
    cbn zeta in *. unfold same_side. split; [repeat split; congruence|].
    split; [exact R'|]. split; [lia|]. split.
    + intros k Hk' Hkj. rewrite F by lia. rewrite Q2 by lia. apply P2; assumption.
    + exists es'. split; [exact E|]. cbn [map fst snd].
      rewrite <- app_assoc in V. exact V.
Qed.

Lemma builds_simple q v n :
  (forall b, b_fatal b = None -> b_unquote b = q -> bsteps b (calls v) = insert_node b n false) ->
  tree q v = n -> builds q v.
Proof.
  intros Hc Ht b i r c Hq Hf Hr Hcell Ho b'. unfold b'. rewrite Hc by assumption.
  destruct (insert_placed b n false i r c Hf Hr Hcell Ho) as (S & P & R & L & _).
  split; [exact S|]. split; [exact R|]. exists (VNode n). split; [exact P|].
  rewrite Ht. constructor.
Qed.

Lemma builds_all q v : single_docs v -> builds q v.
Proof.
  induction v as [|s|t|n|vs IH|kvs IH] using value_ind'; intro Hs.
  - eapply builds_simple; reflexivity.
  - eapply (builds_simple q _ (scalar_node q s)).
    + intros b Hf Hq. cbn. rewrite Hq. reflexivity.
    + destruct s; reflexivity.
  - eapply (builds_simple q _ (scalar_node q (SString t))).
    + intros b Hf Hq. cbn. unfold insert_raw_text. rewrite Hf, Hq. reflexivity.
    + reflexivity.
  - apply (builds_simple q _ n).
    + intros b Hf Hq. cbn. unfold insert_raw. rewrite Hf.
      destruct n; try reflexivity. destruct Hs.
    + reflexivity.
  - assert (Hall : Forall (builds q) vs).
    { clear -IH Hs. cbn in Hs. induction IH as [|x l Hx Hl IH']; [constructor|].
      destruct Hs as [Hs1 Hs2]. constructor; auto. }
    clear IH. intros b i r c Hq Hf Hr Hcell Ho b'.
    unfold b'. cbn [calls]. change (OStartSeq :: ?l) with ([OStartSeq] ++ l).
    rewrite !bsteps_app. cbn [bsteps fold_left bstep].
    destruct (insert_placed b (NSequence []) true i r c Hf Hr Hcell Ho)
      as ((S1 & S2 & S3) & P & R & L & B). specialize (B eq_refl).
    set (b1 := insert_node b (NSequence []) true) in *. cbn [cell_of_node map app] in *.
    set (base := child_base (b_heap b) c) in *.
    destruct (build_items q vs Hall b1 base (route_after (b_heap b) i r c) [] [])
      as ((T1 & T2 & T3) & R2 & L2 & F & es' & E & V); try congruence; [constructor|].
    fold (bsteps b1 (flat_map calls vs)). set (b2 := bsteps b1 (flat_map calls vs)) in *.
    assert (Hend : end_sequence b2 = pop_node b2).
    { unfold end_sequence, current. rewrite T1, R2, E. reflexivity. }
    rewrite Hend. unfold pop_node. cbn [b_fatal b_root b_unquote b_route b_heap].
    split; [unfold same_side; cbn; repeat split; congruence|].
    split; [rewrite R2; reflexivity|].
    exists (VRef base). split.
    + eapply placed_later; [exact P| |exact Ho|exact L2|].
      * apply nth_error_Some. congruence.
      * intros j Hj. apply F; unfold base in *; lia.
    + cbn [tree]. eapply vr_seq; [lia|exact E|exact V].
  - assert (Hall : Forall (fun kv => builds q (fst kv) /\ builds q (snd kv)) kvs).
    { clear -IH Hs. cbn in Hs. induction IH as [|x l Hx Hl IH']; [constructor|].
      destruct Hs as (Hs1 & Hs2 & Hs3). destruct Hx. constructor; auto. }
    clear IH. intros b i r c Hq Hf Hr Hcell Ho b'.
    unfold b'. cbn [calls]. change (OStartMap :: ?l) with ([OStartMap] ++ l).
    rewrite !bsteps_app. cbn [bsteps fold_left bstep].
    destruct (insert_placed b (NMapping []) true i r c Hf Hr Hcell Ho)
      as ((S1 & S2 & S3) & P & R & L & B). specialize (B eq_refl).
    set (b1 := insert_node b (NMapping []) true) in *. cbn [cell_of_node map app] in *.
    set (base := child_base (b_heap b) c) in *.
    destruct (build_entries q kvs Hall b1 base (route_after (b_heap b) i r c) [] [])
      as ((T1 & T2 & T3) & R2 & L2 & F & es' & E & V); try congruence; [constructor|].
    set (b2 := bsteps b1 (flat_map (fun kv => calls (fst kv) ++ calls (snd kv)) kvs)) in *.
    assert (Hend : end_mapping b2 = pop_node b2).
    { unfold end_mapping, current. rewrite T1, R2, E. reflexivity. }
    rewrite Hend. unfold pop_node. cbn [b_fatal b_root b_unquote b_route b_heap].
    split; [unfold same_side; cbn; repeat split; congruence|].
    split; [rewrite R2; reflexivity|].
    exists (VRef base). split.
    + eapply placed_later; [exact P| |exact Ho|exact L2|].
      * apply nth_error_Some. congruence.
      * intros j Hj. apply F; unfold base in *; lia.
    + cbn [tree]. eapply vr_map; [lia|exact E|exact V].
Qed.

(** ** a value inserted at the root of a builder whose route is empty *)
Lemma read_cell_of_node h i n lo :
  lo <= i -> nth_error h i = Some (cell_of_node n) -> vreads h lo (VRef i) n.
Proof.
  intros Hi Hn. destruct n; cbn in Hn; try (eapply vr_leaf; eassumption).
  - eapply vr_seq; eauto. apply vreads_l_nodes.
  - eapply vr_map; eauto. apply vreads_l_nodes.
  - eapply vr_entry; eauto; constructor.
Qed.

Lemma build_root q v b : single_docs v ->
  b_unquote b = q -> b_fatal b = None -> b_route b = [] ->
  let b' := bsteps b (calls v) in
  b_fatal b' = None /\ b_unquote b' = q /\ b_root b' = Some (length (b_heap b)) /\
  length (b_heap b) < length (b_heap b') /\
  (forall k, k < length (b_heap b) -> nth_error (b_heap b') k = nth_error (b_heap b) k) /\
  vreads (b_heap b') (length (b_heap b)) (VRef (length (b_heap b))) (tree q v).
Proof.
  intros Hs Hq Hf Hr.
  assert (Hins : forall n push, insert_node b n push =
     mkB (b_heap b ++ [cell_of_node n]) (Some (length (b_heap b))) [length (b_heap b)] q None).
  { intros n push. unfold insert_node, current. rewrite Hf, Hr, Hq. reflexivity. }
  assert (Hsimple : forall n, bsteps b (calls v) = insert_node b n false -> tree q v = n ->
    let b' := bsteps b (calls v) in
    b_fatal b' = None /\ b_unquote b' = q /\ b_root b' = Some (length (b_heap b)) /\
    length (b_heap b) < length (b_heap b') /\
    (forall k, k < length (b_heap b) -> nth_error (b_heap b') k = nth_error (b_heap b) k) /\
    vreads (b_heap b') (length (b_heap b)) (VRef (length (b_heap b))) (tree q v)).
  { intros n E Ht. cbn zeta. rewrite E, Hins, Ht. cbn. repeat split.
    - rewrite app_length. cbn. lia.
    - intros k Hk. apply nth_error_app1. exact Hk.
    - eapply read_cell_of_node; [lia|]. apply nth_app_0. }
  set (k0 := length (b_heap b)) in *.
  destruct v as [|s|t|n|vs|kvs].
  - apply (Hsimple NNull); reflexivity.
  - apply (Hsimple (scalar_node q s)); [cbn; rewrite Hq; reflexivity|destruct s; reflexivity].
  - apply (Hsimple (scalar_node q (SString t))); [|reflexivity].
    cbn. unfold insert_raw_text. rewrite Hf, Hq. reflexivity.
  - apply (Hsimple n); [|reflexivity]. cbn. unfold insert_raw. rewrite Hf.
    destruct n; try reflexivity. destruct Hs.
  - assert (Hall : Forall (builds q) vs).
    { clear -Hs. cbn in Hs. induction vs as [|x l IH]; [constructor|].
      destruct Hs as [Hs1 Hs2]. constructor; auto using builds_all. }
    cbn zeta. cbn [calls]. change (OStartSeq :: ?l) with ([OStartSeq] ++ l).
    rewrite !bsteps_app. cbn [bsteps fold_left bstep]. rewrite Hins. cbn [cell_of_node map].
    set (b1 := mkB _ _ _ _ _).
    destruct (build_items q vs Hall b1 k0 [] [] [])
      as ((T1 & T2 & T3) & R2 & L2 & F & es' & E & V); try reflexivity.
    { unfold b1; cbn [b_heap]. apply nth_app_0. }
    { constructor. }
    cbn zeta in *. fold (bsteps b1 (flat_map calls vs)).
    set (b2 := bsteps b1 (flat_map calls vs)) in *.
    assert (Hend : end_sequence b2 = pop_node b2).
    { unfold end_sequence, current. rewrite T1, R2, E. reflexivity. }
    rewrite Hend. unfold pop_node. cbn [b_fatal b_root b_unquote b_route b_heap].
    assert (Hl1 : length (b_heap b1) = S k0) by (unfold b1; cbn; rewrite app_length; cbn; lia).
    repeat split; try assumption; try lia.
    + intros k Hk. rewrite F by lia. unfold b1; cbn. apply nth_error_app1. exact Hk.
    + eapply vr_seq; [lia|exact E|exact V].
  - assert (Hall : Forall (fun kv => builds q (fst kv) /\ builds q (snd kv)) kvs).
    { clear -Hs. cbn in Hs. induction kvs as [|x l IH]; [constructor|].
      destruct Hs as (Hs1 & Hs2 & Hs3). constructor; auto using builds_all. }
    cbn zeta. cbn [calls]. change (OStartMap :: ?l) with ([OStartMap] ++ l).
    rewrite !bsteps_app. cbn [bsteps fold_left bstep]. rewrite Hins. cbn [cell_of_node map].
    set (b1 := mkB _ _ _ _ _).
    destruct (build_entries q kvs Hall b1 k0 [] [] [])
      as ((T1 & T2 & T3) & R2 & L2 & F & es' & E & V); try reflexivity.
    { unfold b1; cbn [b_heap]. apply nth_app_0. }
    { constructor. }
    cbn zeta in *.
    set (b2 := bsteps b1 (flat_map (fun kv => calls (fst kv) ++ calls (snd kv)) kvs)) in *.
    assert (Hend : end_mapping b2 = pop_node b2).
    { unfold end_mapping, current. rewrite T1, R2, E. reflexivity. }
    rewrite Hend. unfold pop_node. cbn [b_fatal b_root b_unquote b_route b_heap].
    assert (Hl1 : length (b_heap b1) = S k0) by (unfold b1; cbn; rewrite app_length; cbn; lia).
    repeat split; try assumption; try lia.
    + intros k Hk. rewrite F by lia. unfold b1; cbn. apply nth_error_app1. exact Hk.
    + eapply vr_map; [lia|exact E|exact V].
Qed.

Lemma observe_build q v : single_docs v ->
  observe (bsteps (new_builder q) (calls v)) = (None, tree q v).
Proof.
  intro Hs.
  destruct (build_root q v (new_builder q) Hs eq_refl eq_refl eq_refl)
    as (H1 & _ & H3 & _ & _ & H6).
  unfold observe. rewrite H1, H3. f_equal. cbn [read_root].
  eapply (proj1 (read_val_vreads _)); [exact H6|]. lia.
Qed.

(** ** C16: nothing changes after an error *)
Lemma bstep_fatal b o e : b_fatal b = Some e -> bstep b o = b.
Proof.
  intro H. destruct o; cbn [bstep];
    unfold insert_node, end_sequence, end_mapping, insert_raw, insert_raw_text; rewrite H; reflexivity.
Qed.

Lemma bsteps_fatal ops b e : b_fatal b = Some e -> bsteps b ops = b.
Proof.
  intro H. induction ops as [|o ops IH]; [reflexivity|].
  cbn. rewrite (bstep_fatal b o e H). exact IH.
Qed.

(** ** well-formed heaps: references point to larger addresses *)
Definition val_refs (v : hval) : list nat := match v with VRef i => [i] | VNode _ => [] end.
Definition cell_refs (c : cell) : list nat :=
  match c with
  | CSeq es | CMap es => flat_map val_refs es
  | CEntry k v => val_refs k ++ val_refs v
  | CLeaf _ => []
  end.
Definition wf_heap (h : list cell) : Prop :=
  forall i c, nth_error h i = Some c -> forall j, In j (cell_refs c) -> i < j < length h.
Definition wf_builder (b : builder) : Prop :=
  wf_heap (b_heap b) /\ Forall (fun i => i < length (b_heap b)) (b_route b) /\
  (match b_root b with Some i => i < length (b_heap b) | None => True end).

Lemma cell_of_node_refs n : cell_refs (cell_of_node n) = [].
Proof.
  destruct n; cbn; try reflexivity; induction entries as [|x l IH]; cbn; auto.
Qed.

Lemma wf_app h cells : wf_heap h ->
  (forall k c, nth_error cells k = Some c -> forall j, In j (cell_refs c) ->
     length h + k < j < length h + length cells) ->
  wf_heap (h ++ cells).
Proof.
  intros Hw Hc i c Hi j Hj. rewrite app_length.
  destruct (Nat.lt_ge_cases i (length h)) as [Hlt|Hge].
  - rewrite nth_error_app1 in Hi by lia. specialize (Hw i c Hi j Hj). lia.
  - rewrite nth_error_app2 in Hi by lia. specialize (Hc _ c Hi j Hj). lia.
Qed.

(** updating cell [i] by adding references to cells about to be added *)
Lemma wf_upd_app h i c0 c cells : wf_heap h -> nth_error h i = Some c0 ->
  (forall j, In j (cell_refs c) -> In j (cell_refs c0) \/ length h <= j < length h + length cells) ->
  (forall k c, nth_error cells k = Some c -> forall j, In j (cell_refs c) ->
     length h + k < j < length h + length cells) ->
  wf_heap (upd h i c ++ cells).
Proof.
  intros Hw Hi Hc Hcells k x Hk j Hj. rewrite app_length, upd_length.
  assert (Hil : i < length h) by (apply nth_error_Some; congruence).
  destruct (Nat.lt_ge_cases k (length h)) as [Hlt|Hge].
  - rewrite nth_error_app1 in Hk by (rewrite upd_length; lia).
    destruct (Nat.eq_dec i k) as [->|Hne].
    + rewrite upd_same in Hk by assumption. injection Hk as <-.
      destruct (Hc j Hj) as [Ho|Hn]; [|lia]. specialize (Hw k c0 Hi j Ho). lia.
    + rewrite upd_other in Hk by assumption. specialize (Hw k x Hk j Hj). lia.
  - rewrite nth_error_app2 in Hk by (rewrite upd_length; lia). rewrite upd_length in Hk.
    specialize (Hcells _ x Hk j Hj). lia.
Qed.

Lemma wf_pop b : wf_builder b -> wf_builder (pop_node b).
Proof.
  intros (H1 & H2 & H3). repeat split; cbn; auto.
  - eapply H1; eauto.
  - eapply H1; eauto.
  - destruct (b_route b); cbn; [constructor|]. inversion H2; assumption.
Qed.

Lemma wf_insert b n push : wf_builder b -> wf_builder (insert_node b n push).
Proof.
  intros (H1 & H2 & H3). unfold insert_node.
  destruct (b_fatal b) eqn:Hf; [repeat split; auto; eapply H1; eauto|].
  assert (Hroot : wf_builder (mkB (b_heap b ++ [cell_of_node n]) (Some (length (b_heap b)))
            (length (b_heap b) :: b_route b) (b_unquote b) None)).
  { unfold wf_builder; cbn [b_heap b_route b_root]. split; [|split].
    - apply wf_app; [exact H1|]. intros [|k] c Hk j Hj; cbn in Hk.
      + injection Hk as <-. rewrite cell_of_node_refs in Hj. destruct Hj.
      + destruct k; discriminate.
    - constructor; [rewrite app_length; cbn; lia|].
      eapply Forall_impl; [|exact H2]. intros a Ha. cbn beta in *. rewrite app_length. lia.
    - rewrite app_length; cbn; lia. }
  destruct (current b) as [[i c]|] eqn:Hcur; [|exact Hroot].
  destruct (negb (cell_valid c)); [exact Hroot|]. clear Hroot.
  unfold current in Hcur. destruct (b_route b) as [|i' r] eqn:Hr; [discriminate|].
  destruct (nth_error (b_heap b) i') as [c'|] eqn:Hi; [|discriminate].
  injection Hcur as -> ->. inversion H2 as [|? ? Hil Hrl]; subst.
  assert (Hone : forall k c, nth_error [cell_of_node n] k = Some c -> cell_refs c = []).
  { intros [|k] x Hk; cbn in Hk; [injection Hk as <-; apply cell_of_node_refs|destruct k; discriminate]. }
  destruct c as [es|es|k v|m]; unfold child; destruct push;
    unfold wf_builder; cbn [b_heap b_route b_root app tl];
    (split; [|split; [repeat constructor; rewrite ?app_length, ?upd_length; cbn [length]; try lia;
       eapply Forall_impl; try exact Hrl; intros a Ha; cbn beta in *;
       rewrite ?app_length, ?upd_length; cbn [length]; lia
      |destruct (b_root b); [rewrite ?app_length, ?upd_length; cbn [length]; lia|exact I]]]).
  - eapply wf_upd_app; [exact H1|exact Hi| |].
    + intros j Hj. cbn [cell_refs] in *. rewrite flat_map_app, in_app_iff in Hj. cbn in Hj.
      destruct Hj as [Hj|[<-|[]]]; [left; exact Hj|right; cbn; lia].
    + intros k x Hk j Hj. rewrite (Hone _ _ Hk) in Hj. destruct Hj.
  - eapply wf_upd_app; [exact H1|exact Hi| |].
    + intros j Hj. cbn [cell_refs] in *. rewrite flat_map_app, in_app_iff in Hj. cbn in Hj.
      destruct Hj as [Hj|[]]; left; exact Hj.
    + intros [|k] x Hk; discriminate.
  - eapply wf_upd_app; [exact H1|exact Hi| |].
    + intros j Hj. cbn [cell_refs] in *. rewrite flat_map_app, in_app_iff in Hj. cbn in Hj.
      destruct Hj as [Hj|[<-|[]]]; [left; exact Hj|right; cbn; lia].
    + intros [|k] x Hk j Hj; cbn [nth_error] in Hk.
      * injection Hk as <-. cbn in Hj. destruct Hj as [<-|[]]. cbn; lia.
      * rewrite (Hone k x Hk) in Hj. destruct Hj.
  - eapply wf_upd_app; [exact H1|exact Hi| |].
    + intros j Hj. cbn [cell_refs] in *. rewrite flat_map_app, in_app_iff in Hj. cbn in Hj.
      destruct Hj as [Hj|[<-|[]]]; [left; exact Hj|right; cbn; lia].
    + intros [|k] x Hk j Hj; cbn [nth_error] in Hk.
      * injection Hk as <-. cbn in Hj. destruct Hj.
      * destruct k; discriminate.
  - eapply wf_upd_app; [exact H1|exact Hi| |].
    + intros j Hj. cbn [cell_refs] in *. rewrite in_app_iff in *.
      destruct Hj as [Hj|[<-|[]]]; [left; left; exact Hj|right; cbn; lia].
    + intros k0 x Hk j Hj. rewrite (Hone _ _ Hk) in Hj. destruct Hj.
  - eapply wf_upd_app; [exact H1|exact Hi| |].
    + intros j Hj. cbn [cell_refs] in *. rewrite in_app_iff in *.
      destruct Hj as [Hj|[]]; left; left; exact Hj.
    + intros [|k0] x Hk; discriminate.
  - apply wf_app; [exact H1|]. intros k x Hk j Hj. rewrite (Hone _ _ Hk) in Hj. destruct Hj.
  - rewrite app_nil_r. exact H1.
Qed.

Lemma wf_fatal b e : wf_builder b -> wf_builder (with_fatal b e).
Proof. intros (H1 & H2 & H3). repeat split; cbn; auto; eapply H1; eauto. Qed.

Lemma wf_step b o : wf_builder b -> wf_builder (bstep b o).
Proof.
  intro H. destruct o; cbn [bstep]; try (apply wf_insert; exact H).
  - unfold end_sequence. destruct (b_fatal b); [exact H|].
    destruct (current b) as [[i c]|]; [|apply wf_fatal; exact H].
    destruct (negb (cell_valid c)); [apply wf_fatal; exact H|].
    destruct c; auto using wf_fatal, wf_pop.
  - unfold end_mapping. destruct (b_fatal b); [exact H|].
    destruct (current b) as [[i c]|]; [|apply wf_fatal; exact H].
    destruct (negb (cell_valid c)); [apply wf_fatal; exact H|].
    destruct c; auto using wf_fatal, wf_pop.
  - unfold insert_raw. destruct (b_fatal b); [exact H|].
    destruct r as [e|n]; [apply wf_fatal; exact H|].
    destruct n; try (apply wf_insert; exact H). apply wf_fatal; exact H.
  - unfold insert_raw_text. destruct (b_fatal b); [exact H|].
    destruct err; [apply wf_fatal; exact H|apply wf_insert; exact H].
Qed.

Lemma wf_steps ops b : wf_builder b -> wf_builder (bsteps b ops).
Proof.
  revert b. induction ops as [|o ops IH]; intros b H; [exact H|].
  cbn. apply IH, wf_step, H.
Qed.

Lemma wf_new q : wf_builder (new_builder q).
Proof. repeat split; cbn; auto; destruct i; discriminate. Qed.

(** every address of a well-formed heap can be read *)
Lemma wf_vreads h : wf_heap h -> forall m i, i < length h -> length h <= i + m ->
  exists n, vreads h i (VRef i) n.
Proof.
  intro Hw. induction m as [|m IH]; intros i Hi Hm; [lia|].
  destruct (nth_error h i) as [c|] eqn:Hc; [|apply nth_error_None in Hc; lia].
  pose proof (Hw i c Hc) as Hr.
  assert (Hv : forall v, (forall j, In j (val_refs v) -> i < j < length h) ->
    exists n, vreads h (S i) v n).
  { intros [n|j] Hj; [exists n; constructor|]. cbn in Hj. specialize (Hj j (or_introl eq_refl)).
    destruct (IH j) as [n Hn]; [lia|lia|]. exists n. eapply vreads_mono; [|exact Hn]. lia. }
  assert (Hl : forall es, (forall j, In j (flat_map val_refs es) -> i < j < length h) ->
    exists ns, vreads_l h (S i) es ns).
  { induction es as [|v es IHes]; intro Hes; [exists []; constructor|].
    destruct (Hv v) as [n Hn]; [intros j Hj; apply Hes; cbn; apply in_app_iff; auto|].
    destruct IHes as [ns Hns]; [intros j Hj; apply Hes; cbn; apply in_app_iff; auto|].
    exists (n :: ns). constructor; assumption. }
  destruct c as [es|es|k v|n]; cbn [cell_refs] in Hr.
  - destruct (Hl es Hr) as [ns Hns]. exists (NSequence ns). eapply vr_seq; eauto.
  - destruct (Hl es Hr) as [ns Hns]. exists (NMapping ns). eapply vr_map; eauto.
  - destruct (Hv k) as [nk Hnk]; [intros j Hj; apply Hr, in_app_iff; auto|].
    destruct (Hv v) as [nv Hnv]; [intros j Hj; apply Hr, in_app_iff; auto|].
    exists (NEntry nk nv). eapply vr_entry; eauto.
  - exists n. eapply vr_leaf; eauto.
Qed.

(** ** C17 *)
(** shifting all addresses *)
Definition shift_val (k : nat) (v : hval) : hval :=
  match v with VRef i => VRef (k + i) | VNode n => VNode n end.
Definition shift_cell (k : nat) (c : cell) : cell :=
  match c with
  | CSeq es => CSeq (map (shift_val k) es)
  | CMap es => CMap (map (shift_val k) es)
  | CEntry a b => CEntry (shift_val k a) (shift_val k b)
  | CLeaf n => CLeaf n
  end.
Definition shift_builder (g : list cell) (b : builder) : builder :=
  let k := length g in
  mkB (g ++ map (shift_cell k) (b_heap b)) (option_map (fun i => k + i) (b_root b))
      (map (fun i => k + i) (b_route b)) (b_unquote b) (b_fatal b).

Lemma upd_app_shift g h i c :
  upd (g ++ map (shift_cell (length g)) h) (length g + i) (shift_cell (length g) c) =
  g ++ map (shift_cell (length g)) (upd h i c).
Proof.
  generalize (length g) at 1 3 4 as k. intro k.
  induction g as [|x g IH]; cbn.
  - revert i; induction h as [|y h IH]; intros [|i]; cbn; auto. f_equal. apply IH.
  - f_equal. exact IH.
Qed.

Lemma shift_cell_of_node k n : shift_cell k (cell_of_node n) = cell_of_node n.
Proof. destruct n; cbn; try reflexivity; f_equal; rewrite map_map; reflexivity. Qed.

Lemma shift_length g h : length (g ++ map (shift_cell (length g)) h) = length g + length h.
Proof. rewrite app_length, map_length. reflexivity. Qed.

Lemma shift_nth g h i :
  nth_error (g ++ map (shift_cell (length g)) h) (length g + i) =
  option_map (shift_cell (length g)) (nth_error h i).
Proof. rewrite nth_app_new, nth_error_map. reflexivity. Qed.

Lemma shift_current g b :
  current (shift_builder g b) =
  option_map (fun ic => (length g + fst ic, shift_cell (length g) (snd ic))) (current b).
Proof.
  unfold current, shift_builder; cbn [b_route b_heap].
  destruct (b_route b) as [|i r]; [reflexivity|]. cbn [map]. rewrite shift_nth.
  destruct (nth_error (b_heap b) i); reflexivity.
Qed.

Lemma shift_valid k c : cell_valid (shift_cell k c) = cell_valid c.
Proof. destruct c; reflexivity. Qed.

Lemma shift_insert g b n push :
  insert_node (shift_builder g b) n push = shift_builder g (insert_node b n push).
Proof.
  unfold insert_node. cbn [b_fatal shift_builder].
  destruct (b_fatal b) eqn:Hf; [unfold shift_builder; rewrite Hf; reflexivity|].
  fold (shift_builder g b). rewrite shift_current.
  assert (Hroot :
    mkB (b_heap (shift_builder g b) ++ [cell_of_node n])
      (Some (length (b_heap (shift_builder g b))))
      (length (b_heap (shift_builder g b)) :: b_route (shift_builder g b))
      (b_unquote (shift_builder g b)) None =
    shift_builder g (mkB (b_heap b ++ [cell_of_node n]) (Some (length (b_heap b)))
      (length (b_heap b) :: b_route b) (b_unquote b) None)).
  { unfold shift_builder; cbn [b_heap b_root b_route b_unquote b_fatal option_map map].
    rewrite shift_length, map_app, app_assoc. cbn [map]. rewrite shift_cell_of_node. reflexivity. }
  destruct (current b) as [[i c]|]; cbn [option_map fst snd]; [|exact Hroot].
  rewrite shift_valid. destruct (negb (cell_valid c)); [exact Hroot|]. clear Hroot.
  destruct c as [es|es|k v|m]; cbn [shift_cell]; unfold child; destruct push;
    unfold shift_builder; cbn [b_heap b_root b_route b_unquote b_fatal app map tl];
    rewrite ?shift_length.
  - replace (CSeq (map (shift_val (length g)) es ++ [VRef (length g + length (b_heap b))]))
      with (shift_cell (length g) (CSeq (es ++ [VRef (length (b_heap b))])))
      by (cbn; rewrite map_app; reflexivity).
    rewrite upd_app_shift, map_app, app_assoc. cbn [map]. rewrite shift_cell_of_node. reflexivity.
  - replace (CSeq (map (shift_val (length g)) es ++ [VNode n]))
      with (shift_cell (length g) (CSeq (es ++ [VNode n])))
      by (cbn; rewrite map_app; reflexivity).
    rewrite upd_app_shift, map_app, app_assoc. reflexivity.
  - replace (CMap (map (shift_val (length g)) es ++ [VRef (length g + length (b_heap b))]))
      with (shift_cell (length g) (CMap (es ++ [VRef (length (b_heap b))])))
      by (cbn; rewrite map_app; reflexivity).
    rewrite upd_app_shift, map_app, app_assoc. cbn [map shift_cell shift_val].
    rewrite shift_cell_of_node. rewrite !Nat.add_succ_r. reflexivity.
  - replace (CMap (map (shift_val (length g)) es ++ [VRef (length g + length (b_heap b))]))
      with (shift_cell (length g) (CMap (es ++ [VRef (length (b_heap b))])))
      by (cbn; rewrite map_app; reflexivity).
    rewrite upd_app_shift, map_app, app_assoc. reflexivity.
  - change (CEntry (shift_val (length g) k) (VRef (length g + length (b_heap b))))
      with (shift_cell (length g) (CEntry k (VRef (length (b_heap b))))).
    rewrite upd_app_shift, map_app, app_assoc. cbn [map]. rewrite shift_cell_of_node.
    destruct (b_route b); reflexivity.
  - change (CEntry (shift_val (length g) k) (VNode n))
      with (shift_cell (length g) (CEntry k (VNode n))).
    rewrite upd_app_shift, map_app, app_assoc. destruct (b_route b); reflexivity.
  - rewrite map_app, app_assoc. cbn [map]. rewrite shift_cell_of_node. reflexivity.
  - rewrite map_app, app_assoc. reflexivity.
Qed.

Lemma shift_step g b o : bstep (shift_builder g b) o = shift_builder g (bstep b o).
Proof.
  destruct o; cbn [bstep]; try apply shift_insert.
  - unfold end_sequence. cbn [b_fatal shift_builder].
    destruct (b_fatal b) eqn:Hf; [unfold shift_builder; rewrite Hf; reflexivity|].
    fold (shift_builder g b). rewrite shift_current.
    destruct (current b) as [[i c]|]; cbn [option_map fst snd]; [|reflexivity].
    rewrite shift_valid. destruct (negb (cell_valid c)); [reflexivity|].
    destruct c; cbn [shift_cell]; try reflexivity.
    unfold pop_node, shift_builder; cbn. destruct (b_route b); reflexivity.
  - unfold end_mapping. cbn [b_fatal shift_builder].
    destruct (b_fatal b) eqn:Hf; [unfold shift_builder; rewrite Hf; reflexivity|].
    fold (shift_builder g b). rewrite shift_current.
    destruct (current b) as [[i c]|]; cbn [option_map fst snd]; [|reflexivity].
    rewrite shift_valid. destruct (negb (cell_valid c)); [reflexivity|].
    destruct c; cbn [shift_cell]; try reflexivity.
    unfold pop_node, shift_builder; cbn. destruct (b_route b); reflexivity.
  - unfold insert_raw. cbn [b_fatal shift_builder].
    destruct (b_fatal b) eqn:Hf; [unfold shift_builder; rewrite Hf; reflexivity|].
    destruct r as [e|n]; [reflexivity|].
    destruct n; try reflexivity; apply shift_insert.
  - unfold insert_raw_text. cbn [b_fatal shift_builder].
    destruct (b_fatal b) eqn:Hf; [unfold shift_builder; rewrite Hf; reflexivity|].
    destruct err; [reflexivity|]. apply shift_insert.
Qed.

Lemma shift_steps g ops b : bsteps (shift_builder g b) ops = shift_builder g (bsteps b ops).
Proof.
  revert b. induction ops as [|o ops IH]; intro b; [reflexivity|].
  cbn. rewrite shift_step. apply IH.
Qed.

Lemma shift_vreads g h :
  (forall lo v n, vreads h lo v n ->
     vreads (g ++ map (shift_cell (length g)) h) (length g + lo) (shift_val (length g) v) n) /\
  (forall lo vs ns, vreads_l h lo vs ns ->
     vreads_l (g ++ map (shift_cell (length g)) h) (length g + lo) (map (shift_val (length g)) vs) ns).
Proof.
  set (k := length g).
  apply (vreads_both h
    (fun lo v n _ => vreads (g ++ map (shift_cell k) h) (k + lo) (shift_val k v) n)
    (fun lo vs ns _ => vreads_l (g ++ map (shift_cell k) h) (k + lo) (map (shift_val k) vs) ns)).
  - intros; constructor.
  - intros lo i es ns Hi Hn Hl IH. cbn [shift_val]. eapply vr_seq; [lia| |].
    + unfold k. rewrite shift_nth, Hn. reflexivity.
    + rewrite Nat.add_succ_r in IH. exact IH.
  - intros lo i es ns Hi Hn Hl IH. cbn [shift_val]. eapply vr_map; [lia| |].
    + unfold k. rewrite shift_nth, Hn. reflexivity.
    + rewrite Nat.add_succ_r in IH. exact IH.
  - intros lo i a v na nv Hi Hn Ha IHa Hv IHv. cbn [shift_val]. rewrite Nat.add_succ_r in IHa, IHv.
    eapply vr_entry; [lia| |exact IHa|exact IHv].
    unfold k. rewrite shift_nth, Hn. reflexivity.
  - intros lo i n Hi Hn. cbn [shift_val]. eapply vr_leaf; [lia|].
    unfold k. rewrite shift_nth, Hn. reflexivity.
  - intros; constructor.
  - intros; constructor; assumption.
Qed.

Lemma shift_observe g b : wf_builder b -> observe (shift_builder g b) = observe b.
Proof.
  intros (H1 & _ & H3). unfold observe, shift_builder; cbn [b_fatal b_heap b_root].
  f_equal. destruct (b_root b) as [i|]; [|reflexivity]. cbn [option_map read_root].
  destruct (wf_vreads _ H1 (length (b_heap b)) i H3 ltac:(lia)) as [n Hn].
  rewrite (proj1 (read_val_vreads _) _ _ _ Hn) by lia.
  apply (proj1 (shift_vreads g (b_heap b))) in Hn. cbn [shift_val] in Hn.
  eapply (proj1 (read_val_vreads _)); [exact Hn|]. lia.
Qed.

(** a builder after Result is a fresh builder over the old heap *)
Lemma result_shift b :
  snd (result b) = shift_builder (b_heap b) (new_builder (b_unquote b)).
Proof. unfold result, shift_builder, new_builder; cbn. rewrite app_nil_r. reflexivity. Qed.

Lemma unquote_steps ops b : b_unquote (bsteps b ops) = b_unquote b.
Proof.
  revert b; induction ops as [|o ops IH]; intro b; [reflexivity|].
  cbn. fold (bsteps (bstep b o) ops). rewrite IH. clear IH.
  assert (Hi : forall n p, b_unquote (insert_node b n p) = b_unquote b).
  { intros n p. unfold insert_node. destruct (b_fatal b); [reflexivity|].
    destruct (current b) as [[i c]|]; [|reflexivity]. destruct (negb (cell_valid c)); [reflexivity|].
    destruct c; unfold child; destruct p; reflexivity. }
  destruct o; cbn [bstep]; auto.
  - unfold end_sequence. destruct (b_fatal b); [reflexivity|].
    destruct (current b) as [[i c]|]; [|reflexivity]. destruct (negb (cell_valid c)); [reflexivity|].
    destruct c; reflexivity.
  - unfold end_mapping. destruct (b_fatal b); [reflexivity|].
    destruct (current b) as [[i c]|]; [|reflexivity]. destruct (negb (cell_valid c)); [reflexivity|].
    destruct c; reflexivity.
  - unfold insert_raw. destruct (b_fatal b); [reflexivity|]. destruct r as [e|n]; [reflexivity|].
    destruct n; auto.
  - unfold insert_raw_text. destruct (b_fatal b); [reflexivity|]. destruct err; auto.
Qed.

Lemma reuse q ops1 ops2 :
  let b1 := bsteps (new_builder q) ops1 in
  let b2 := bsteps (snd (result b1)) ops2 in
  observe b2 = observe (bsteps (new_builder q) ops2) /\
  read_root (b_heap b2) (b_root b1) = read_root (b_heap b1) (b_root b1).
Proof.
  cbn zeta. rewrite result_shift, shift_steps, unquote_steps.
  set (b1 := bsteps (new_builder q) ops1).
  assert (Hw : wf_builder (bsteps (new_builder q) ops2)) by apply wf_steps, wf_new.
  split; [apply shift_observe; exact Hw|].
  assert (Hw1 : wf_builder b1) by apply wf_steps, wf_new. destruct Hw1 as (W1 & _ & W3).
  destruct (b_root b1) as [i|]; [|reflexivity]. cbn [read_root].
  destruct (wf_vreads _ W1 (length (b_heap b1)) i W3 ltac:(lia)) as [n Hn].
  rewrite (proj1 (read_val_vreads _) _ _ _ Hn) by lia.
  eapply (proj1 (read_val_vreads _)).
  - eapply (proj1 (vreads_agree _ _)); [exact Hn|]. intros k c Hk Hc.
    cbn [shift_builder b_heap]. rewrite nth_error_app1; [exact Hc|].
    apply nth_error_Some. congruence.
  - lia.
Qed.

(** ** C18, C19 *)
Inductive route_rel (h : list cell) : list nat -> list opened -> Prop :=
| rr_nil : route_rel h [] []
| rr_leaf i n : nth_error h i = Some (CLeaf n) -> valid_node n = true -> route_rel h [i] []
| rr_seq i es r st : nth_error h i = Some (CSeq es) -> route_rel h r st -> ~ In i r ->
    route_rel h (i :: r) (OpSeq :: st)
| rr_map i es r st : nth_error h i = Some (CMap es) -> route_rel h r st -> ~ In i r ->
    route_rel h (i :: r) (OpMap false :: st)
| rr_entry i j k v es r st : nth_error h i = Some (CEntry k v) -> nth_error h j = Some (CMap es) ->
    route_rel h r st -> ~ In j r -> ~ In i (j :: r) ->
    route_rel h (i :: j :: r) (OpMap true :: st).

(** what matters is only the kind of each cell *)
Definition kind_le (h h' : list cell) : Prop :=
  forall i, match nth_error h i with
            | Some (CSeq _) => exists es, nth_error h' i = Some (CSeq es)
            | Some (CMap _) => exists es, nth_error h' i = Some (CMap es)
            | Some (CEntry _ _) => exists k v, nth_error h' i = Some (CEntry k v)
            | Some (CLeaf n) => nth_error h' i = Some (CLeaf n)
            | None => True
            end.

Lemma route_rel_kind h h' r st : kind_le h h' -> route_rel h r st -> route_rel h' r st.
Proof.
  intros Hk. induction 1 as [|i n Hi Hv|i es r st Hi Hr IH Hn|i es r st Hi Hr IH Hn
                            |i j k v es r st Hi Hj Hr IH Hn1 Hn2].
  - constructor.
  - specialize (Hk i). rewrite Hi in Hk. eapply rr_leaf; eauto.
  - specialize (Hk i). rewrite Hi in Hk. destruct Hk as [es' Hk]. eapply rr_seq; eauto.
  - specialize (Hk i). rewrite Hi in Hk. destruct Hk as [es' Hk]. eapply rr_map; eauto.
  - pose proof (Hk i) as Hki. rewrite Hi in Hki. destruct Hki as (k' & v' & Hki).
    pose proof (Hk j) as Hkj. rewrite Hj in Hkj. destruct Hkj as (es' & Hkj).
    eapply rr_entry; eauto.
Qed.

Lemma kind_le_app h cells : kind_le h (h ++ cells).
Proof.
  intro i. destruct (nth_error h i) as [c|] eqn:E; [|exact I].
  assert (i < length h) by (apply nth_error_Some; congruence).
  rewrite nth_error_app1, E by assumption. destruct c; eauto.
Qed.

Definition same_kind (c c' : cell) : Prop :=
  match c, c' with
  | CSeq _, CSeq _ | CMap _, CMap _ | CEntry _ _, CEntry _ _ => True
  | _, _ => False
  end.

Lemma kind_le_upd h i c c' cells : nth_error h i = Some c -> same_kind c c' ->
  kind_le h (upd h i c' ++ cells).
Proof.
  intros Hi Hs j. destruct (nth_error h j) as [x|] eqn:E; [|exact I].
  assert (j < length h) by (apply nth_error_Some; congruence).
  rewrite nth_error_app1 by (rewrite upd_length; assumption).
  destruct (Nat.eq_dec i j) as [->|Hne].
  - rewrite upd_same by assumption. assert (x = c) as -> by congruence.
    destruct c, c'; try destruct Hs; eauto.
  - rewrite upd_other, E by assumption. destruct x; eauto.
Qed.

Lemma route_rel_range h r st : route_rel h r st -> Forall (fun i => i < length h) r.
Proof.
  induction 1; repeat constructor; auto; apply nth_error_Some; congruence.
Qed.

(** inserting below [st] *)
Lemma insert_route_rel b n push st :
  (push = true -> n = NSequence [] \/ n = NMapping []) ->
  b_fatal b = None -> route_rel (b_heap b) (b_route b) st ->
  (st = [] -> push = false -> is_open_cell (cell_of_node n) = false /\ valid_node n = true) ->
  let b' := insert_node b n push in
  (b_fatal b' = None -> route_rel (b_heap b') (b_route b')
     (if push then (match n with NSequence _ => OpSeq | _ => OpMap false end) :: got_value st
      else got_value st)) /\
  (b_fatal b' <> None <-> st = [] /\ b_route b <> []).
Proof.
  intros Hpush Hf Hr Hroot b'.
  pose proof (route_rel_range _ _ _ Hr) as Hrange.
  assert (Hpushed : push = true -> forall h' i r st', nth_error h' i = Some (cell_of_node n) ->
     route_rel h' r st' -> ~ In i r ->
     route_rel h' (i :: r) ((match n with NSequence _ => OpSeq | _ => OpMap false end) :: st')).
  { intros Hp h' i r st' Hi Hr' Hin. destruct (Hpush Hp) as [-> | ->]; cbn in *.
    - eapply rr_seq; eauto.
    - eapply rr_map; eauto. }
  assert (Hnew : forall x, x >= length (b_heap b) -> ~ In x (b_route b)).
  { intros x Hx Hin. rewrite Forall_forall in Hrange. specialize (Hrange x Hin). lia. }
  inversion Hr as [Hrt Hst|i m Hi Hv Hrt Hst|i es r st' Hi Hr' Hn Hrt Hst|i es r st' Hi Hr' Hn Hrt Hst
    |i j k v es r st' Hi Hj Hr' Hn1 Hn2 Hrt Hst].
  - (* empty route *)
    unfold b', insert_node, current. rewrite Hf, <- Hrt. cbn [b_fatal b_heap b_route].
    split; [|split; [congruence|intros [_ H]; congruence]].
    intros _. cbn [got_value]. destruct push eqn:Ep.
    + apply Hpushed; auto; [apply nth_app_0|constructor].
    + destruct (Hroot (eq_sym Hst) eq_refl) as [H1 H2].
      apply (rr_leaf _ _ n); [|exact H2]. rewrite nth_app_0. destruct n; try reflexivity; discriminate.
  - (* finished scalar at the root *)
    assert (Hfatal : b_fatal b' <> None).
    { unfold b', insert_node, current. rewrite Hf, <- Hrt, Hi.
      assert (negb (cell_valid (CLeaf m)) = false) as ->.
      { unfold valid_node in Hv. unfold cell_valid, cell_type.
        destruct (node_type m) as [[]|]; try reflexivity; discriminate. }
      unfold child; destruct push; discriminate. }
    split; [congruence|]. split; [intros _; split; [congruence|discriminate]|intros _; exact Hfatal].
  - (* sequence *)
    assert (Hs : same_side b b' /\ _) by
      (exact (insert_placed b n push i r (CSeq es) Hf (eq_sym Hrt) Hi eq_refl)).
    destruct Hs as ((S1 & _) & _ & R & L & B). fold b' in R, L, B. cbn [child_base route_after] in *.
    split; [|split; [congruence|intros [H _]; congruence]]. intros _. cbn [got_value].
    assert (Hk : kind_le (b_heap b) (b_heap b')).
    { unfold b', insert_node, current. rewrite Hf, <- Hrt, Hi. cbn [cell_valid cell_type negb].
      unfold child; destruct push; cbn [b_heap]; eapply kind_le_upd; eauto; exact I. }
    rewrite R. destruct push; cbn [app].
    + apply Hpushed; [reflexivity|apply B; reflexivity| |].
      * rewrite Hst, Hrt. eapply route_rel_kind; [exact Hk|exact Hr].
      * rewrite Hrt. apply Hnew. lia.
    + rewrite Hst, Hrt. eapply route_rel_kind; [exact Hk|exact Hr].
  - (* mapping *)
    assert (Hs : same_side b b' /\ _) by
      (exact (insert_placed b n push i r (CMap es) Hf (eq_sym Hrt) Hi eq_refl)).
    destruct Hs as ((S1 & _) & (_ & _ & _ & P) & R & L & B). fold b' in P, R, L, B.
    cbn [child_base route_after] in *.
    split; [|split; [congruence|intros [H _]; congruence]]. intros _. cbn [got_value negb].
    assert (Hk : kind_le (b_heap b) (b_heap b')).
    { unfold b', insert_node, current. rewrite Hf, <- Hrt, Hi. cbn [cell_valid cell_type negb].
      unfold child; destruct push; cbn [b_heap]; eapply kind_le_upd; eauto; exact I. }
    pose proof (Hk i) as Hki. rewrite Hi in Hki. destruct Hki as [es' Hki].
    assert (Hrel : route_rel (b_heap b') (length (b_heap b) :: i :: r) (OpMap true :: st')).
    { eapply rr_entry; eauto.
      - eapply route_rel_kind; eauto.
      - rewrite Hrt. apply Hnew. lia. }
    rewrite R. destruct push; cbn [app]; [|exact Hrel].
    apply Hpushed; [reflexivity|apply B; reflexivity|exact Hrel|].
    intros [Hin|Hin]; [lia|]. rewrite Hrt in Hin. revert Hin. apply Hnew. lia.
  - (* entry *)
    assert (Hs : same_side b b' /\ _) by
      (exact (insert_placed b n push i (j :: r) (CEntry k v) Hf (eq_sym Hrt) Hi eq_refl)).
    destruct Hs as ((S1 & _) & _ & R & L & B). fold b' in R, L, B.
    cbn [child_base route_after] in *.
    split; [|split; [congruence|intros [H _]; congruence]]. intros _. cbn [got_value negb].
    assert (Hk : kind_le (b_heap b) (b_heap b')).
    { unfold b', insert_node, current. rewrite Hf, <- Hrt, Hi. cbn [cell_valid cell_type negb].
      unfold child; destruct push; cbn [b_heap]; eapply kind_le_upd; eauto; exact I. }
    pose proof (Hk j) as Hkj. rewrite Hj in Hkj. destruct Hkj as [es' Hkj].
    assert (Hrel : route_rel (b_heap b') (j :: r) (OpMap false :: st')).
    { eapply rr_map; eauto. eapply route_rel_kind; eauto. }
    rewrite R. destruct push; cbn [app]; [|exact Hrel].
    apply Hpushed; [reflexivity|apply B; reflexivity|exact Hrel|].
    intro Hin. apply (Hnew (length (b_heap b))); [lia|]. rewrite <- Hrt. right. exact Hin.
Qed.

Lemma step_route_rel b o st :
  b_fatal b = None -> route_rel (b_heap b) (b_route b) st ->
  (match o, st with ORaw _, [] => False | _, _ => True end) ->
  let b' := bstep b o in
  (b_fatal b' = None -> exists st', open_step st o = Some st' /\ route_rel (b_heap b') (b_route b') st').
Proof.
  intros Hf Hr Hraw b'.
  assert (Hval : forall n, is_open_cell (cell_of_node n) = false -> valid_node n = true ->
    b' = insert_node b n false -> open_step st o = Some (got_value st) ->
    b_fatal b' = None -> exists st', open_step st o = Some st' /\ route_rel (b_heap b') (b_route b') st').
  { intros n H1 H2 Hb Ho Hf'.
    destruct (insert_route_rel b n false st) as [Hi _]; auto; try discriminate.
    rewrite <- Hb in Hi. exists (got_value st). split; [exact Ho|apply Hi; exact Hf']. }
  destruct o as [s| | | | | |ri|t err]; unfold b'; cbn [bstep open_step] in *.
  - apply (Hval (scalar_node (b_unquote b) s)); try reflexivity; destruct s; reflexivity.
  - apply (Hval NNull); reflexivity.
  - intro Hf'. destruct (insert_route_rel b (NSequence []) true st) as [Hi _]; auto; try discriminate.
    eexists; split; [reflexivity|]. apply Hi. exact Hf'.
  - unfold end_sequence, current. rewrite Hf.
    inversion Hr as [Hrt Hst|i m Hi Hv Hrt Hst|i es r st' Hi Hr' Hn Hrt Hst|i es r st' Hi Hr' Hn Hrt Hst
      |i j k v es r st' Hi Hj Hr' Hn1 Hn2 Hrt Hst]; try rewrite Hi; cbn [cell_valid cell_type negb];
      try discriminate.
    + destruct (negb _); discriminate.
    + intros _. exists st'. split; [reflexivity|]. cbn. rewrite <- Hrt. exact Hr'.
  - intro Hf'. destruct (insert_route_rel b (NMapping []) true st) as [Hi _]; auto; try discriminate.
    eexists; split; [reflexivity|]. apply Hi. exact Hf'.
  - unfold end_mapping, current. rewrite Hf.
    inversion Hr as [Hrt Hst|i m Hi Hv Hrt Hst|i es r st' Hi Hr' Hn Hrt Hst|i es r st' Hi Hr' Hn Hrt Hst
      |i j k v es r st' Hi Hj Hr' Hn1 Hn2 Hrt Hst]; try rewrite Hi; cbn [cell_valid cell_type negb];
      try discriminate.
    + destruct (negb _); discriminate.
    + intros _. exists st'. split; [reflexivity|]. cbn. rewrite <- Hrt. exact Hr'.
  - unfold insert_raw. rewrite Hf. destruct ri as [e|n]; [discriminate|].
    assert (Hst : st <> []) by (intros ->; exact Hraw).
    intro Hf'. destruct n; try discriminate;
      match type of Hf' with
      | b_fatal (insert_node _ ?n _) = None =>
          destruct (insert_route_rel b n false st) as [Hi _]; auto; try discriminate; try congruence;
          exists (got_value st); split; [reflexivity|apply Hi; exact Hf']
      end.
  - destruct err; [unfold insert_raw_text; rewrite Hf; discriminate|].
    apply (Hval (scalar_node (b_unquote b) (SString t))); try reflexivity.
    unfold b'. cbn [bstep]. unfold insert_raw_text. rewrite Hf. reflexivity.
Qed.

Lemma steps_route_rel ops : forall b st,
  b_fatal b = None -> route_rel (b_heap b) (b_route b) st -> raw_inside st ops = true ->
  let b' := bsteps b ops in
  b_fatal b' = None ->
  exists st', open_after st ops = Some st' /\ route_rel (b_heap b') (b_route b') st'.
Proof.
  induction ops as [|o ops IH]; intros b st Hf Hr Hraw b' Hf'.
  - exists st. split; [reflexivity|exact Hr].
  - cbn [raw_inside] in Hraw. apply andb_prop in Hraw as [Hraw1 Hraw2].
    unfold b' in *. cbn [bsteps fold_left] in *. fold (bsteps (bstep b o) ops) in *.
    destruct (b_fatal (bstep b o)) as [e|] eqn:Hfo.
    { rewrite (bsteps_fatal ops _ e Hfo) in Hf'. congruence. }
    destruct (step_route_rel b o st Hf Hr) as (st1 & Ho & Hr1); [|exact Hfo|].
    { destruct o, st; try exact I; discriminate. }
    rewrite Ho in Hraw2. cbn [open_after]. rewrite Ho.
    apply (IH (bstep b o) st1); assumption.
Qed.

(** ends are accepted exactly when they fit *)
Lemma ends_exact q ops :
  raw_inside [] ops = true -> b_fatal (bsteps (new_builder q) ops) = None ->
  exists st, open_after [] ops = Some st /\
    (b_fatal (bsteps (new_builder q) (ops ++ [OEndSeq])) = None <-> exists st', st = OpSeq :: st') /\
    (b_fatal (bsteps (new_builder q) (ops ++ [OEndMap])) = None <-> exists st', st = OpMap false :: st').
Proof.
  intros Hraw Hf.
  destruct (steps_route_rel ops (new_builder q) [] eq_refl (rr_nil _) Hraw Hf) as (st & Ho & Hr).
  exists st. split; [exact Ho|]. rewrite !bsteps_app. set (b := bsteps (new_builder q) ops) in *.
  cbn [bsteps fold_left bstep]. split.
  - split.
    + intro H. destruct (step_route_rel b OEndSeq st Hf Hr I H) as (st' & Hs & _).
      cbn in Hs. destruct st as [|[|] st0]; try discriminate. eauto.
    + intros [st' ->]. inversion Hr; subst. unfold end_sequence, current.
      rewrite Hf. match goal with H : _ :: _ = b_route b |- _ => rewrite <- H end. 
      match goal with H : nth_error _ _ = _ |- _ => rewrite H end. exact Hf.
  - split.
    + intro H. destruct (step_route_rel b OEndMap st Hf Hr I H) as (st' & Hs & _).
      cbn in Hs. destruct st as [|[|[]] st0]; try discriminate. eauto.
    + intros [st' ->]. inversion Hr; subst. unfold end_mapping, current.
      rewrite Hf.
      match goal with H : _ :: _ = b_route b |- _ => rewrite <- H end. 
      match goal with H : nth_error _ _ = _ |- _ => rewrite H end. exact Hf.
Qed.

(** *** call sequences with nothing left open are series of values *)
Lemma open_after_app st l1 l2 :
  open_after st (l1 ++ l2) =
  match open_after st l1 with Some st' => open_after st' l2 | None => None end.
Proof.
  revert st; induction l1 as [|o l1 IH]; intro st; [reflexivity|].
  cbn. destruct (open_step st o); [apply IH|reflexivity].
Qed.

Definition closing (st : list opened) : list bop :=
  flat_map (fun o => match o with
                     | OpSeq => [OEndSeq]
                     | OpMap false => [OEndMap]
                     | OpMap true => [ONull; OEndMap]
                     end) st.

Lemma open_after_closing st : open_after st (closing st) = Some [].
Proof.
  induction st as [|[|[]] st IH]; [reflexivity| | |]; cbn; exact IH.
Qed.

Definition pair_calls (kv : value * value) : list bop := calls (fst kv) ++ calls (snd kv).

Lemma series m : forall l, length l <= m -> forallb no_raw l = true ->
  (open_after [] l = Some [] -> exists vs, l = flat_map calls vs) /\
  (forall st, open_after (OpSeq :: st) l = Some [] ->
     exists vs l2, l = flat_map calls vs ++ OEndSeq :: l2 /\ open_after st l2 = Some []) /\
  (forall st, open_after (OpMap false :: st) l = Some [] ->
     exists kvs l2, l = flat_map pair_calls kvs ++ OEndMap :: l2 /\ open_after st l2 = Some []) /\
  (forall st, open_after (OpMap true :: st) l = Some [] ->
     exists v kvs l2, l = calls v ++ flat_map pair_calls kvs ++ OEndMap :: l2 /\
       open_after st l2 = Some []).
Proof.
  induction m as [|m IH]; intros l Hl Hraw.
  { destruct l; [|cbn in Hl; lia]. cbn. repeat split; try discriminate. exists []. reflexivity. }
  destruct l as [|o l].
  { cbn. repeat split; try discriminate. exists []. reflexivity. }
  cbn [length] in Hl. cbn [forallb] in Hraw. apply andb_prop in Hraw as [Ho Hraw].
  (* a value starting with o, below any stack *)
  assert (Hval : forall st, o <> OEndSeq -> o <> OEndMap -> open_after st (o :: l) = Some [] ->
    exists v l2, o :: l = calls v ++ l2 /\ open_after (got_value st) l2 = Some [] /\
      length l2 <= m /\ forallb no_raw l2 = true).
  { intros st H1 H2 Ha. cbn [open_after] in Ha.
    destruct o as [s| | | | | |ri|t err]; cbn [open_step] in Ha; try congruence.
    - exists (VaScalar s), l. repeat split; auto. lia.
    - exists VaNull, l. repeat split; auto. lia.
    - destruct (IH l ltac:(lia) Hraw) as (_ & Hs & _).
      destruct (Hs _ Ha) as (vs & l2 & -> & Ha2).
      exists (VaSeq vs), l2. repeat split; auto.
      + cbn. rewrite <- app_assoc. reflexivity.
      + rewrite app_length in Hl. cbn in Hl. lia.
      + rewrite forallb_app in Hraw. apply andb_prop in Hraw as [_ Hraw]. exact Hraw.
    - destruct (IH l ltac:(lia) Hraw) as (_ & _ & Hs & _).
      destruct (Hs _ Ha) as (kvs & l2 & -> & Ha2).
      exists (VaMap kvs), l2. repeat split; auto.
      + cbn. rewrite <- app_assoc. reflexivity.
      + rewrite app_length in Hl. cbn in Hl. lia.
      + rewrite forallb_app in Hraw. apply andb_prop in Hraw as [_ Hraw]. exact Hraw.
    - discriminate.
    - destruct err; [discriminate|]. exists (VaRawText t), l. repeat split; auto. lia. }
  assert (Hdec : o = OEndSeq \/ o = OEndMap \/ (o <> OEndSeq /\ o <> OEndMap)).
  { destruct o; try (right; right; split; discriminate); auto. }
  split; [|split; [|split]].
  - intro Ha. destruct Hdec as [-> | [-> | [H1 H2]]]; [discriminate|discriminate|].
    destruct (Hval [] H1 H2 Ha) as (v & l2 & E & Ha2 & L2 & R2).
    destruct (IH l2 L2 R2) as (Hn & _). destruct (Hn Ha2) as [vs ->].
    exists (v :: vs). exact E.
  - intros st Ha. destruct Hdec as [-> | [-> | [H1 H2]]]; [|discriminate|].
    + exists [], l. split; [reflexivity|]. exact Ha.
    + destruct (Hval _ H1 H2 Ha) as (v & l2 & E & Ha2 & L2 & R2).
      destruct (IH l2 L2 R2) as (_ & Hs & _). destruct (Hs st Ha2) as (vs & l3 & -> & Ha3).
      exists (v :: vs), l3. split; [|exact Ha3]. rewrite E. cbn. rewrite app_assoc. reflexivity.
  - intros st Ha. destruct Hdec as [-> | [-> | [H1 H2]]]; [discriminate| |].
    + exists [], l. split; [reflexivity|]. exact Ha.
    + destruct (Hval _ H1 H2 Ha) as (v & l2 & E & Ha2 & L2 & R2).
      destruct (IH l2 L2 R2) as (_ & _ & _ & Hs). destruct (Hs st Ha2) as (v2 & kvs & l3 & -> & Ha3).
      exists ((v, v2) :: kvs), l3. split; [|exact Ha3]. rewrite E. cbn. unfold pair_calls at 2. cbn.
      rewrite <- !app_assoc. reflexivity.
  - intros st Ha. destruct Hdec as [-> | [-> | [H1 H2]]]; [discriminate|discriminate|].
    destruct (Hval _ H1 H2 Ha) as (v & l2 & E & Ha2 & L2 & R2).
    destruct (IH l2 L2 R2) as (_ & _ & Hs & _). destruct (Hs st Ha2) as (kvs & l3 & -> & Ha3).
    exists v, kvs, l3. split; [exact E|exact Ha3].
Qed.

Lemma forallb_no_raw_inside ops : forall st, forallb no_raw ops = true -> raw_inside st ops = true.
Proof.
  induction ops as [|o ops IH]; intros st H; [reflexivity|].
  cbn in *. apply andb_prop in H as [H1 H2]. apply andb_true_intro. split.
  - destruct o, st; try reflexivity; discriminate.
  - destruct (open_step st o); auto.
Qed.

Lemma no_error_prefix q ops :
  forallb no_raw ops = true -> b_fatal (bsteps (new_builder q) ops) = None ->
  exists vs rest, ops ++ rest = flat_map calls vs.
Proof.
  intros Hraw Hf.
  destruct (ends_exact q ops (forallb_no_raw_inside ops [] Hraw) Hf) as (st & Ho & _).
  assert (Ha : open_after [] (ops ++ closing st) = Some []).
  { rewrite open_after_app, Ho. apply open_after_closing. }
  assert (Hr : forallb no_raw (ops ++ closing st) = true).
  { rewrite forallb_app, Hraw. clear. induction st as [|[|[]] st IH]; cbn in *; auto. }
  destruct (series _ (ops ++ closing st) (le_n _) Hr) as (Hs & _).
  destruct (Hs Ha) as [vs Hvs]. exists vs, (closing st). exact Hvs.
Qed.

(** after a scalar document any further insertion is an error *)
Lemma scalar_then_error q s o ops :
  match o with OEndSeq | OEndMap => False | _ => True end ->
  b_fatal (bsteps (new_builder q) (OScalar s :: o :: ops)) <> None.
Proof.
  intros Ho. cbn [bsteps fold_left].
  assert (Hi : forall n p, b_fatal (insert_node (bstep (new_builder q) (OScalar s)) n p) <> None).
  { intros n p. destruct s, p; discriminate. }
  set (b := bstep (new_builder q) (OScalar s)) in *.
  assert (Hb : b_fatal b = None) by reflexivity.
  assert (H : b_fatal (bstep b o) <> None).
  { destruct o; try destruct Ho; cbn [bstep]; try apply Hi.
    - unfold insert_raw. rewrite Hb. destruct r as [e|n]; [discriminate|].
      destruct n; try apply Hi. discriminate.
    - unfold insert_raw_text. rewrite Hb. destruct err; [discriminate|apply Hi]. }
  fold (bsteps (bstep b o) ops).
  destruct (b_fatal (bstep b o)) as [e|] eqn:E; [|congruence].
  rewrite (bsteps_fatal ops _ e E). congruence.
Qed.
