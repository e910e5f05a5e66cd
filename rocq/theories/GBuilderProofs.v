From Coq Require Import String.
From Verif Require Import Base Schema Builder BuilderSpec BuilderProofs GBuilder GBuilderSpec.
Local Open Scope nat_scope.

(** ** reading *)
Definition g_with (c : gcell) (l : list gval) : gcell :=
  mkCell (c_kind c) (c_style c) (c_tag c) (c_value c) (c_anchor c) l.
Definition g_node (c : gcell) (l : list gnode) : gnode :=
  G (c_kind c) (c_style c) (c_tag c) (c_value c) (c_anchor c) l.

Inductive greads (h : list gcell) : nat -> gval -> gnode -> Prop :=
| gr_node lo n : greads h lo (GNodeV n) n
| gr_ref lo i c ns : lo <= i -> nth_error h i = Some c -> greads_l h (S i) (c_content c) ns ->
    greads h lo (GRef i) (g_node c ns)
with greads_l (h : list gcell) : nat -> list gval -> list gnode -> Prop :=
| grl_nil lo : greads_l h lo [] []
| grl_cons lo v n vs ns : greads h lo v n -> greads_l h lo vs ns ->
    greads_l h lo (v :: vs) (n :: ns).

Scheme greads_mut := Induction for greads Sort Prop
  with greads_l_mut := Induction for greads_l Sort Prop.
Combined Scheme greads_both from greads_mut, greads_l_mut.

Lemma greads_mono h lo' lo v n : lo' <= lo -> greads h lo v n -> greads h lo' v n.
Proof.
  intros H Hv. destruct Hv as [|lo i]; [constructor|]. eapply gr_ref; eauto; lia.
Qed.

Lemma greads_agree h h' :
  (forall lo v n, greads h lo v n ->
     (forall k c, lo <= k -> nth_error h k = Some c -> nth_error h' k = Some c) ->
     greads h' lo v n) /\
  (forall lo vs ns, greads_l h lo vs ns ->
     (forall k c, lo <= k -> nth_error h k = Some c -> nth_error h' k = Some c) ->
     greads_l h' lo vs ns).
Proof.
  apply (greads_both h
    (fun lo v n _ => (forall k c, lo <= k -> nth_error h k = Some c -> nth_error h' k = Some c) ->
       greads h' lo v n)
    (fun lo vs ns _ => (forall k c, lo <= k -> nth_error h k = Some c -> nth_error h' k = Some c) ->
       greads_l h' lo vs ns)).
  - intros. constructor.
  - intros lo i c ns Hi Hn Hl IH Ha. eapply gr_ref; eauto. apply IH. intros; apply Ha; [lia|auto].
  - intros. constructor.
  - intros lo v n vs ns Hv IHv Hl IHl Ha. constructor; auto.
Qed.

Lemma greads_l_app h lo vs ns v n :
  greads_l h lo vs ns -> greads h lo v n -> greads_l h lo (vs ++ [v]) (ns ++ [n]).
Proof. induction 1; cbn; intros; constructor; auto. constructor. Qed.

Lemma greads_l_nodes h lo l : greads_l h lo (map GNodeV l) l.
Proof. induction l; cbn; constructor; auto. constructor. Qed.

Lemma g_read_greads h :
  (forall lo v n, greads h lo v n -> forall fuel, length h < fuel + lo -> g_read fuel h v = n) /\
  (forall lo vs ns, greads_l h lo vs ns -> forall fuel, length h < fuel + lo ->
     map (g_read fuel h) vs = ns).
Proof.
  apply (greads_both h
    (fun lo v n _ => forall fuel, length h < fuel + lo -> g_read fuel h v = n)
    (fun lo vs ns _ => forall fuel, length h < fuel + lo -> map (g_read fuel h) vs = ns)).
  - intros lo n [|fuel] _; reflexivity.
  - intros lo i c ns Hi Hn Hl IH fuel Hf.
    assert (i < length h) by (apply nth_error_Some; congruence).
    destruct fuel as [|fuel]; [lia|]. cbn [g_read]. rewrite Hn. unfold g_node. f_equal. apply IH. lia.
  - reflexivity.
  - intros lo v n vs ns Hv IHv Hl IHl fuel Hf. cbn. rewrite IHv, IHl by assumption. reflexivity.
Qed.

(** ** one value *)
Definition gside (b b' : gbuilder) : Prop :=
  g_fatal b' = None /\ g_root b' = g_root b /\ g_unquote b' = g_unquote b.

Definition gplaced (h : list gcell) (i : nat) (c : gcell) (w : gval) (h' : list gcell) : Prop :=
  length h <= length h' /\
  (forall j, j < length h -> j <> i -> nth_error h' j = nth_error h j) /\
  nth_error h' i = Some (g_with c (c_content c ++ [w])).

Lemma g_insert_placed b n push i r c :
  g_fatal b = None -> g_route b = i :: r -> nth_error (g_heap b) i = Some c ->
  is_collection (c_kind c) = true ->
  let h := g_heap b in
  let b' := g_insert b n push in
  let base := length h in
  gside b b' /\
  gplaced h i c (if push then GRef base else GNodeV n) (g_heap b') /\
  g_route b' = (if push then [base] else []) ++ i :: r /\
  length (g_heap b') = (if push then S base else base) /\
  (push = true -> nth_error (g_heap b') base = Some (gcell_of_node n)).
Proof.
  intros Hf Hr Hc Ho h b' base.
  assert (Hi : i < length h) by (apply nth_error_Some; unfold h; congruence).
  assert (Hcur : g_current b = Some (i, c)).
  { unfold g_current. rewrite Hr, Hc. reflexivity. }
  unfold b', g_insert. rewrite Hf, Hcur. fold h. unfold base, g_child.
  destruct push; rewrite Ho; cbn [g_heap g_route g_fatal g_root g_unquote app]; rewrite Hr;
    (split; [unfold gside; cbn; auto|]);
    (split; [split; [rewrite app_length, upd_length; cbn; lia|]|]).
  - split; [intros j Hj Hji; rewrite nth_error_app1 by (rewrite upd_length; lia);
      apply upd_other; lia|].
    rewrite nth_error_app1 by (rewrite upd_length; lia). apply upd_same; exact Hi.
  - split; [reflexivity|]. split; [rewrite app_length, upd_length; cbn; lia|]. intros _.
    rewrite nth_error_app2 by (rewrite upd_length; lia). rewrite upd_length, Nat.sub_diag. reflexivity.
  - split; [intros j Hj Hji; rewrite nth_error_app1 by (rewrite upd_length; lia);
      apply upd_other; lia|].
    rewrite nth_error_app1 by (rewrite upd_length; lia). apply upd_same; exact Hi.
  - split; [reflexivity|]. split; [rewrite app_length, upd_length; cbn; lia|]. discriminate.
Qed.

Definition gbuilds (q : bool) (v : gvalue) : Prop :=
  forall b i r c,
    g_unquote b = q -> g_fatal b = None -> g_route b = i :: r ->
    nth_error (g_heap b) i = Some c -> is_collection (c_kind c) = true ->
    let b' := gsteps b (gcalls v) in
    gside b b' /\ g_route b' = i :: r /\
    exists w, gplaced (g_heap b) i c w (g_heap b') /\
              greads (g_heap b') (length (g_heap b)) w (gtree q v).

Lemma gsteps_app b l1 l2 : gsteps b (l1 ++ l2) = gsteps (gsteps b l1) l2.
Proof. unfold gsteps. apply fold_left_app. Qed.

Lemma g_build_items q vs : Forall (gbuilds q) vs ->
  forall b j r c ns,
    g_unquote b = q -> g_fatal b = None -> g_route b = j :: r ->
    nth_error (g_heap b) j = Some c -> is_collection (c_kind c) = true ->
    greads_l (g_heap b) (S j) (c_content c) ns ->
    let b' := gsteps b (flat_map gcalls vs) in
    gside b b' /\ g_route b' = j :: r /\ length (g_heap b) <= length (g_heap b') /\
    (forall k, k < length (g_heap b) -> k <> j -> nth_error (g_heap b') k = nth_error (g_heap b) k) /\
    exists es, nth_error (g_heap b') j = Some (g_with c es) /\
               greads_l (g_heap b') (S j) es (ns ++ map (gtree q) vs).
Proof.
  induction 1 as [|v vs Hv Hvs IH]; intros b j r c ns Hq Hf Hr Hj Hcol Hl.
  - cbn. unfold gside. repeat split; auto. exists (c_content c). rewrite app_nil_r.
    split; [|assumption]. rewrite Hj. destruct c; reflexivity.
  - cbn zeta. cbn [flat_map]. rewrite gsteps_app.
    destruct (Hv b j r c Hq Hf Hr Hj Hcol) as ((S1 & S2 & S3) & R & w & P & W).
    set (b1 := gsteps b (gcalls v)) in *. destruct P as (P1 & P2 & P3).
    assert (Hlen : j < length (g_heap b)) by (apply nth_error_Some; congruence).
    destruct (IH b1 j r (g_with c (c_content c ++ [w])) (ns ++ [gtree q v]))
      as ((T1 & T2 & T3) & R' & L & F & es' & E & V); try congruence; try exact Hcol.
    { cbn [g_with c_content]. apply greads_l_app.
      - eapply (proj2 (greads_agree _ _)); [exact Hl|]. intros k x Hk Hc.
        rewrite P2; [exact Hc| |lia]. apply nth_error_Some. congruence.
      - eapply greads_mono; [|exact W]. lia. }
    cbn zeta in *. unfold gside. split; [repeat split; congruence|].
    split; [exact R'|]. split; [lia|]. split.
    + intros k Hk Hkj. rewrite F by lia. apply P2; assumption.
    + exists es'. split; [exact E|]. cbn [map].
      rewrite <- app_assoc in V. exact V.
Qed.

Lemma gbuilds_simple q v n :
  (forall b, g_fatal b = None -> g_unquote b = q -> gsteps b (gcalls v) = g_insert b n false) ->
  gtree q v = n -> gbuilds q v.
Proof.
  intros Hc Ht b i r c Hq Hf Hr Hcell Ho b'. unfold b'. rewrite Hc by assumption.
  destruct (g_insert_placed b n false i r c Hf Hr Hcell Ho) as (S & P & R & L & _).
  split; [exact S|]. split; [exact R|]. exists (GNodeV n). split; [exact P|].
  rewrite Ht. constructor.
Qed.

Definition flatten (kvs : list (gvalue * gvalue)) : list gvalue :=
  flat_map (fun kv => [fst kv; snd kv]) kvs.

Lemma flatten_calls kvs :
  flat_map (fun kv => gcalls (fst kv) ++ gcalls (snd kv)) kvs = flat_map gcalls (flatten kvs).
Proof.
  induction kvs as [|[k v] kvs IH]; [reflexivity|]. cbn. rewrite IH, <- app_assoc. reflexivity.
Qed.
Lemma flatten_tree q kvs :
  flat_map (fun kv => [gtree q (fst kv); gtree q (snd kv)]) kvs = map (gtree q) (flatten kvs).
Proof. induction kvs as [|[k v] kvs IH]; [reflexivity|]. cbn. rewrite IH. reflexivity. Qed.
Lemma flatten_forall P kvs :
  Forall (fun kv => P (fst kv) /\ P (snd kv)) kvs -> Forall P (flatten kvs).
Proof. induction 1 as [|[k v] l [H1 H2] Hl IH]; cbn; repeat constructor; assumption. Qed.

(** both kinds of collections at once *)
Lemma gbuilds_collection q v n start fin vs :
  gcalls v = start :: flat_map gcalls vs ++ [fin] ->
  (forall b, gstep b start = g_insert b n true) ->
  c_content (gcell_of_node n) = [] -> is_collection (g_kind n) = true ->
  (forall b i c, g_fatal b = None -> g_current b = Some (i, c) -> c_kind c = g_kind n ->
     gstep b fin = g_pop b) ->
  gtree q v = g_node (gcell_of_node n) (map (gtree q) vs) ->
  Forall (gbuilds q) vs -> gbuilds q v.
Proof.
  intros Hcalls Hstart Hempty Hcoll Hfin Htree Hall b i r c Hq Hf Hr Hcell Ho b'.
  assert (Hk : c_kind (gcell_of_node n) = g_kind n) by (destruct n; reflexivity).
  unfold b'. rewrite Hcalls. change (start :: ?l) with ([start] ++ l).
  rewrite !gsteps_app. cbn [gsteps fold_left]. rewrite Hstart.
  destruct (g_insert_placed b n true i r c Hf Hr Hcell Ho)
    as ((S1 & S2 & S3) & P & R & L & B). specialize (B eq_refl).
  set (b1 := g_insert b n true) in *. cbn [app] in *.
  set (base := length (g_heap b)) in *.
  destruct (g_build_items q vs Hall b1 base (i :: r) (gcell_of_node n) [])
    as ((T1 & T2 & T3) & R2 & L2 & F & es' & E & V); try congruence.
  { rewrite Hempty. constructor. }
  fold (gsteps b1 (flat_map gcalls vs)). set (b2 := gsteps b1 (flat_map gcalls vs)) in *.
  assert (Hcur : g_current b2 = Some (base, g_with (gcell_of_node n) es')).
  { unfold g_current. rewrite R2, E. reflexivity. }
  rewrite (Hfin b2 _ _ T1 Hcur Hk). unfold g_pop.
  cbn [g_fatal g_root g_unquote g_route g_heap].
  destruct P as (P1 & P2 & P3).
  assert (Hi : i < length (g_heap b)) by (apply nth_error_Some; congruence).
  split; [unfold gside; cbn; repeat split; congruence|].
  split; [rewrite R2; reflexivity|].
  exists (GRef base). split.
  - split; [lia|]. split.
    + intros j Hj Hji. rewrite F by lia. apply P2; assumption.
    + rewrite F by lia. exact P3.
  - rewrite Htree. change (g_node (gcell_of_node n) ?l) with
      (g_node (g_with (gcell_of_node n) es') l).
    eapply gr_ref; [lia|exact E|exact V].
Qed.

Lemma end_seq_pops b i c : g_fatal b = None -> g_current b = Some (i, c) -> c_kind c = KSequence ->
  gstep b GEndSeq = g_pop b.
Proof. intros H1 H2 H3. cbn. unfold g_end_sequence. rewrite H1, H2, H3. reflexivity. Qed.
Lemma end_map_pops b i c : g_fatal b = None -> g_current b = Some (i, c) -> c_kind c = KMapping ->
  gstep b GEndMap = g_pop b.
Proof. intros H1 H2 H3. cbn. unfold g_end_mapping. rewrite H1, H2, H3. reflexivity. Qed.

Lemma gbuilds_all q v : gbuilds q v.
Proof.
  induction v as [|s|t|n|vs IH|kvs IH] using gvalue_ind'.
  - apply (gbuilds_simple q _ g_null_node); reflexivity.
  - apply (gbuilds_simple q _ (g_scalar_node q s)).
    + intros b Hf Hq. cbn. rewrite Hq. reflexivity.
    + destruct s; reflexivity.
  - apply (gbuilds_simple q _ (g_scalar_node q (SString t))).
    + intros b Hf Hq. cbn. unfold g_insert_raw_text. rewrite Hf, Hq. reflexivity.
    + reflexivity.
  - apply (gbuilds_simple q _ n); [|reflexivity].
    intros b Hf Hq. cbn. unfold g_insert_raw. rewrite Hf. reflexivity.
  - apply (gbuilds_collection q (GvSeq vs) g_seq_node GStartSeq GEndSeq vs); try reflexivity;
      [intros; eapply end_seq_pops; eassumption|exact IH].
  - apply (gbuilds_collection q (GvMap kvs) g_map_node GStartMap GEndMap (flatten kvs)); try reflexivity.
    + cbn [gcalls]. rewrite flatten_calls. reflexivity.
    + intros; eapply end_map_pops; eassumption.
    + cbn [gtree]. rewrite flatten_tree. reflexivity.
    + apply flatten_forall. exact IH.
Qed.

(** ** at the root *)
Lemma greads_cell_of_node h i n lo :
  lo <= i -> nth_error h i = Some (gcell_of_node n) -> greads h lo (GRef i) n.
Proof.
  intros Hi Hn. destruct n as [k s t v a c].
  change (G k s t v a c) with (g_node (gcell_of_node (G k s t v a c)) c).
  eapply gr_ref; [exact Hi|exact Hn|]. apply greads_l_nodes.
Qed.

Lemma g_insert_empty b n push : g_fatal b = None -> g_route b = [] ->
  g_insert b n push =
  mkG (g_heap b ++ [gcell_of_node n]) (Some (length (g_heap b))) [length (g_heap b)] (g_unquote b) None.
Proof. intros Hf Hr. unfold g_insert, g_current. rewrite Hf, Hr. reflexivity. Qed.

Lemma g_root_simple q v n :
  (forall b, g_fatal b = None -> g_unquote b = q -> gsteps b (gcalls v) = g_insert b n false) ->
  gtree q v = n ->
  g_observe (gsteps (g_new q) (gcalls v)) = (None, Some (gtree q v)).
Proof.
  intros Hc Ht. rewrite Hc by reflexivity. rewrite g_insert_empty by reflexivity.
  unfold g_observe. cbn [g_fatal g_root g_heap g_new app length g_read_root]. f_equal. f_equal.
  eapply (proj1 (g_read_greads _)); [rewrite Ht; eapply greads_cell_of_node; [apply le_n|reflexivity]|].
  cbn. lia.
Qed.

Lemma g_root_collection q v n start fin vs :
  gcalls v = start :: flat_map gcalls vs ++ [fin] ->
  (forall b, gstep b start = g_insert b n true) ->
  c_content (gcell_of_node n) = [] -> is_collection (g_kind n) = true ->
  (forall b i c, g_fatal b = None -> g_current b = Some (i, c) -> c_kind c = g_kind n ->
     gstep b fin = g_pop b) ->
  gtree q v = g_node (gcell_of_node n) (map (gtree q) vs) ->
  g_observe (gsteps (g_new q) (gcalls v)) = (None, Some (gtree q v)).
Proof.
  intros Hcalls Hstart Hempty Hcoll Hfin Htree.
  assert (Hk : c_kind (gcell_of_node n) = g_kind n) by (destruct n; reflexivity).
  rewrite Hcalls. change (start :: ?l) with ([start] ++ l).
  rewrite !gsteps_app. cbn [gsteps fold_left]. rewrite Hstart.
  rewrite g_insert_empty by reflexivity. cbn [g_new g_heap g_unquote app length].
  set (b1 := mkG _ _ _ _ _).
  assert (Hall : Forall (gbuilds q) vs).
  { apply Forall_forall. intros x _. apply gbuilds_all. }
  destruct (g_build_items q vs Hall b1 0 [] (gcell_of_node n) [])
    as ((T1 & T2 & T3) & R2 & L2 & F & es' & E & V); try reflexivity.
  { rewrite Hk. exact Hcoll. }
  { rewrite Hempty. constructor. }
  cbn zeta in *. fold (gsteps b1 (flat_map gcalls vs)).
  set (b2 := gsteps b1 (flat_map gcalls vs)) in *.
  assert (Hcur : g_current b2 = Some (0, g_with (gcell_of_node n) es')).
  { unfold g_current. rewrite R2, E. reflexivity. }
  rewrite (Hfin b2 _ _ T1 Hcur Hk).
  unfold g_observe, g_pop. cbn [g_fatal g_root g_heap]. rewrite T1, T2. cbn [b1 g_root g_read_root].
  f_equal. f_equal. rewrite Htree.
  change (g_node (gcell_of_node n) ?l) with (g_node (g_with (gcell_of_node n) es') l).
  eapply (proj1 (g_read_greads _)); [eapply gr_ref; [apply le_n|exact E|exact V]|]. lia.
Qed.

Lemma g_observe_build q v : g_observe (gsteps (g_new q) (gcalls v)) = (None, Some (gtree q v)).
Proof.
  destruct v as [|s|t|n|vs|kvs].
  - apply (g_root_simple q _ g_null_node); reflexivity.
  - apply (g_root_simple q _ (g_scalar_node q s)).
    + intros b Hf Hq. cbn. rewrite Hq. reflexivity.
    + destruct s; reflexivity.
  - apply (g_root_simple q _ (g_scalar_node q (SString t))); [|reflexivity].
    intros b Hf Hq. cbn. unfold g_insert_raw_text. rewrite Hf, Hq. reflexivity.
  - apply (g_root_simple q _ n); [|reflexivity].
    intros b Hf Hq. cbn. unfold g_insert_raw. rewrite Hf. reflexivity.
  - apply (g_root_collection q (GvSeq vs) g_seq_node GStartSeq GEndSeq vs); try reflexivity;
      intros; eapply end_seq_pops; eassumption.
  - apply (g_root_collection q (GvMap kvs) g_map_node GStartMap GEndMap (flatten kvs)); try reflexivity.
    + cbn [gcalls]. rewrite flatten_calls. reflexivity.
    + intros; eapply end_map_pops; eassumption.
    + cbn [gtree]. rewrite flatten_tree. reflexivity.
Qed.

(** ** sticky errors *)
Lemma gstep_fatal b o e : g_fatal b = Some e -> gstep b o = b.
Proof.
  intro H. destruct o; cbn [gstep];
    unfold g_insert, g_end_sequence, g_end_mapping, g_insert_raw, g_insert_raw_text; rewrite H;
    reflexivity.
Qed.
Lemma gsteps_fatal ops b e : g_fatal b = Some e -> gsteps b ops = b.
Proof.
  intro H. induction ops as [|o ops IH]; [reflexivity|].
  cbn. rewrite (gstep_fatal b o e H). exact IH.
Qed.

(** ** well-formed heaps *)
Definition gval_refs (v : gval) : list nat := match v with GRef i => [i] | GNodeV _ => [] end.
Definition gcell_refs (c : gcell) : list nat := flat_map gval_refs (c_content c).
Definition g_wf_heap (h : list gcell) : Prop :=
  forall i c, nth_error h i = Some c -> forall j, In j (gcell_refs c) -> i < j < length h.
Definition g_wf (b : gbuilder) : Prop :=
  g_wf_heap (g_heap b) /\ Forall (fun i => i < length (g_heap b)) (g_route b) /\
  (match g_root b with Some i => i < length (g_heap b) | None => True end).

Lemma gcell_of_node_refs n : gcell_refs (gcell_of_node n) = [].
Proof.
  destruct n as [k s t v a c]. unfold gcell_refs; cbn.
  induction c as [|x l IH]; cbn; auto.
Qed.

Lemma g_wf_app h n : g_wf_heap h -> g_wf_heap (h ++ [gcell_of_node n]).
Proof.
  intros Hw i c Hi j Hj. rewrite app_length.
  destruct (Nat.lt_ge_cases i (length h)) as [Hlt|Hge].
  - rewrite nth_error_app1 in Hi by lia. specialize (Hw i c Hi j Hj). lia.
  - rewrite nth_error_app2 in Hi by lia. destruct (i - length h) as [|k]; cbn in Hi.
    + injection Hi as <-. rewrite gcell_of_node_refs in Hj. destruct Hj.
    + destruct k; discriminate.
Qed.

Lemma g_wf_insert b n push : g_wf b -> g_wf (g_insert b n push).
Proof.
  intros (H1 & H2 & H3). unfold g_insert.
  destruct (g_fatal b) eqn:Hf; [repeat split; auto; eapply H1; eauto|].
  destruct (g_current b) as [[i c]|] eqn:Hcur.
  - unfold g_current in Hcur. destruct (g_route b) as [|i' r] eqn:Hr; [discriminate|].
    destruct (nth_error (g_heap b) i') as [c'|] eqn:Hi; [|discriminate].
    injection Hcur as -> ->. inversion H2 as [|? ? Hil Hrl]; subst.
    unfold g_child. destruct push; destruct (is_collection (c_kind c));
      unfold g_wf; cbn [g_heap g_route g_root app];
      (split; [|split; [repeat constructor; rewrite ?app_length, ?upd_length; cbn [length]; try lia;
         eapply Forall_impl; try exact Hrl; intros a Ha; cbn beta in *;
         rewrite ?app_length, ?upd_length; cbn [length]; lia
        |destruct (g_root b); [rewrite ?app_length, ?upd_length; cbn [length]; lia|exact I]]]).
    + intros k x Hk j Hj. rewrite app_length, upd_length. cbn [length].
      destruct (Nat.lt_ge_cases k (length (g_heap b))) as [Hlt|Hge].
      * rewrite nth_error_app1 in Hk by (rewrite upd_length; lia).
        destruct (Nat.eq_dec i k) as [->|Hne].
        -- rewrite upd_same in Hk by assumption. injection Hk as <-.
           unfold gcell_refs in Hj; cbn in Hj. rewrite flat_map_app, in_app_iff in Hj. cbn in Hj.
           destruct Hj as [Hj|[<-|[]]]; [|lia]. specialize (H1 k c Hi j Hj). lia.
        -- rewrite upd_other in Hk by assumption. specialize (H1 k x Hk j Hj). lia.
      * rewrite nth_error_app2 in Hk by (rewrite upd_length; lia). rewrite upd_length in Hk.
        destruct (k - length (g_heap b)) as [|m]; cbn in Hk.
        -- injection Hk as <-. rewrite gcell_of_node_refs in Hj. destruct Hj.
        -- destruct m; discriminate.
    + apply g_wf_app. exact H1.
    + rewrite app_nil_r. intros k x Hk j Hj. rewrite upd_length.
      destruct (Nat.eq_dec i k) as [->|Hne].
      * rewrite upd_same in Hk by assumption. injection Hk as <-.
        unfold gcell_refs in Hj; cbn in Hj. rewrite flat_map_app, in_app_iff in Hj. cbn in Hj.
        destruct Hj as [Hj|[]]. exact (H1 k c Hi j Hj).
      * rewrite upd_other in Hk by assumption. exact (H1 k x Hk j Hj).
    + rewrite app_nil_r. exact H1.
  - unfold g_wf; cbn [g_heap g_route g_root]. split; [|split].
    + apply g_wf_app. exact H1.
    + constructor; [rewrite app_length; cbn; lia|].
      eapply Forall_impl; [|exact H2]. intros a Ha. cbn beta in *. rewrite app_length. lia.
    + rewrite app_length; cbn; lia.
Qed.

Lemma g_wf_fatal b e : g_wf b -> g_wf (g_with_fatal b e).
Proof. intros (H1 & H2 & H3). repeat split; cbn; auto; eapply H1; eauto. Qed.
Lemma g_wf_pop b : g_wf b -> g_wf (g_pop b).
Proof.
  intros (H1 & H2 & H3). repeat split; cbn; auto.
  - eapply H1; eauto.
  - eapply H1; eauto.
  - destruct (g_route b); cbn; [constructor|]. inversion H2; assumption.
Qed.

Lemma g_wf_step b o : g_wf b -> g_wf (gstep b o).
Proof.
  intro H. destruct o; cbn [gstep]; try (apply g_wf_insert; exact H).
  - unfold g_end_sequence. destruct (g_fatal b); [exact H|].
    destruct (g_current b) as [[i c]|]; [|apply g_wf_fatal; exact H].
    destruct (c_kind c); auto using g_wf_fatal, g_wf_pop.
  - unfold g_end_mapping. destruct (g_fatal b); [exact H|].
    destruct (g_current b) as [[i c]|]; [|apply g_wf_fatal; exact H].
    destruct (c_kind c); auto using g_wf_fatal, g_wf_pop.
  - unfold g_insert_raw. destruct (g_fatal b); [exact H|].
    destruct r as [e|n]; [apply g_wf_fatal; exact H|apply g_wf_insert; exact H].
  - unfold g_insert_raw_text. destruct (g_fatal b); [exact H|].
    destruct err; [apply g_wf_fatal; exact H|apply g_wf_insert; exact H].
Qed.

Lemma g_wf_steps ops b : g_wf b -> g_wf (gsteps b ops).
Proof.
  revert b. induction ops as [|o ops IH]; intros b H; [exact H|].
  cbn. apply IH, g_wf_step, H.
Qed.
Lemma g_wf_new q : g_wf (g_new q).
Proof. repeat split; cbn; auto; destruct i; discriminate. Qed.

Lemma g_wf_greads h : g_wf_heap h -> forall m i, i < length h -> length h <= i + m ->
  exists n, greads h i (GRef i) n.
Proof.
  intro Hw. induction m as [|m IH]; intros i Hi Hm; [lia|].
  destruct (nth_error h i) as [c|] eqn:Hc; [|apply nth_error_None in Hc; lia].
  pose proof (Hw i c Hc) as Hr.
  assert (Hl : forall es, (forall j, In j (flat_map gval_refs es) -> i < j < length h) ->
    exists ns, greads_l h (S i) es ns).
  { induction es as [|v es IHes]; intro Hes; [exists []; constructor|].
    assert (exists n, greads h (S i) v n) as [n Hn].
    { destruct v as [n|j]; [exists n; constructor|].
      assert (i < j < length h) by (apply Hes; cbn; auto).
      destruct (IH j) as [n Hn]; [lia|lia|]. exists n. eapply greads_mono; [|exact Hn]. lia. }
    destruct IHes as [ns Hns]; [intros j Hj; apply Hes; cbn; apply in_app_iff; auto|].
    exists (n :: ns). constructor; assumption. }
  destruct (Hl (c_content c) Hr) as [ns Hns]. exists (g_node c ns). eapply gr_ref; eauto.
Qed.

(** ** reuse *)
Definition gshift_val (k : nat) (v : gval) : gval :=
  match v with GRef i => GRef (k + i) | GNodeV n => GNodeV n end.
Definition gshift_cell (k : nat) (c : gcell) : gcell :=
  g_with c (map (gshift_val k) (c_content c)).
Definition gshift (g : list gcell) (b : gbuilder) : gbuilder :=
  let k := length g in
  mkG (g ++ map (gshift_cell k) (g_heap b)) (option_map (fun i => k + i) (g_root b))
      (map (fun i => k + i) (g_route b)) (g_unquote b) (g_fatal b).

Lemma g_upd_app_shift g h i c :
  upd (g ++ map (gshift_cell (length g)) h) (length g + i) (gshift_cell (length g) c) =
  g ++ map (gshift_cell (length g)) (upd h i c).
Proof.
  generalize (length g) at 1 3 4 as k. intro k.
  induction g as [|x g IH]; cbn.
  - revert i; induction h as [|y h IH]; intros [|i]; cbn; auto. f_equal. apply IH.
  - f_equal. exact IH.
Qed.
Lemma gshift_cell_of_node k n : gshift_cell k (gcell_of_node n) = gcell_of_node n.
Proof. destruct n; unfold gshift_cell, g_with; cbn. rewrite map_map. reflexivity. Qed.
Lemma gshift_length g h : length (g ++ map (gshift_cell (length g)) h) = length g + length h.
Proof. rewrite app_length, map_length. reflexivity. Qed.
Lemma gshift_nth g h i :
  nth_error (g ++ map (gshift_cell (length g)) h) (length g + i) =
  option_map (gshift_cell (length g)) (nth_error h i).
Proof. rewrite nth_app_new, nth_error_map. reflexivity. Qed.
Lemma gshift_current g b :
  g_current (gshift g b) =
  option_map (fun ic => (length g + fst ic, gshift_cell (length g) (snd ic))) (g_current b).
Proof.
  unfold g_current, gshift; cbn [g_route g_heap].
  destruct (g_route b) as [|i r]; [reflexivity|]. cbn [map]. rewrite gshift_nth.
  destruct (nth_error (g_heap b) i); reflexivity.
Qed.

Lemma gshift_insert g b n push : g_insert (gshift g b) n push = gshift g (g_insert b n push).
Proof.
  unfold g_insert. cbn [g_fatal gshift].
  destruct (g_fatal b) eqn:Hf; [unfold gshift; rewrite Hf; reflexivity|].
  fold (gshift g b). rewrite gshift_current.
  destruct (g_current b) as [[i c]|]; cbn [option_map fst snd].
  - unfold g_child. cbn [gshift_cell g_with c_kind c_style c_tag c_value c_anchor c_content].
    destruct push; destruct (is_collection (c_kind c));
      unfold gshift; cbn [g_heap g_root g_route g_unquote g_fatal app map]; rewrite ?gshift_length.
    + replace (mkCell _ _ _ _ _ (map (gshift_val (length g)) (c_content c) ++
        [GRef (length g + length (g_heap b))]))
        with (gshift_cell (length g) (g_with c (c_content c ++ [GRef (length (g_heap b))])))
        by (unfold gshift_cell, g_with; cbn; rewrite map_app; reflexivity).
      rewrite g_upd_app_shift, map_app, app_assoc. cbn [map]. rewrite gshift_cell_of_node. reflexivity.
    + rewrite map_app, app_assoc. cbn [map]. rewrite gshift_cell_of_node. reflexivity.
    + replace (mkCell _ _ _ _ _ (map (gshift_val (length g)) (c_content c) ++ [GNodeV n]))
        with (gshift_cell (length g) (g_with c (c_content c ++ [GNodeV n])))
        by (unfold gshift_cell, g_with; cbn; rewrite map_app; reflexivity).
      rewrite g_upd_app_shift, map_app, app_assoc. reflexivity.
    + rewrite map_app, app_assoc. reflexivity.
  - unfold gshift; cbn [g_heap g_root g_route g_unquote g_fatal option_map map].
    rewrite gshift_length, map_app, app_assoc. cbn [map]. rewrite gshift_cell_of_node. reflexivity.
Qed.

Lemma gshift_step g b o : gstep (gshift g b) o = gshift g (gstep b o).
Proof.
  destruct o; cbn [gstep]; try apply gshift_insert.
  - unfold g_end_sequence. cbn [g_fatal gshift].
    destruct (g_fatal b) eqn:Hf; [unfold gshift; rewrite Hf; reflexivity|].
    fold (gshift g b). rewrite gshift_current.
    destruct (g_current b) as [[i c]|]; cbn [option_map fst snd]; [|reflexivity].
    cbn [gshift_cell g_with c_kind]. destruct (c_kind c); try reflexivity.
    unfold g_pop, gshift; cbn. destruct (g_route b); reflexivity.
  - unfold g_end_mapping. cbn [g_fatal gshift].
    destruct (g_fatal b) eqn:Hf; [unfold gshift; rewrite Hf; reflexivity|].
    fold (gshift g b). rewrite gshift_current.
    destruct (g_current b) as [[i c]|]; cbn [option_map fst snd]; [|reflexivity].
    cbn [gshift_cell g_with c_kind]. destruct (c_kind c); try reflexivity.
    unfold g_pop, gshift; cbn. destruct (g_route b); reflexivity.
  - unfold g_insert_raw. cbn [g_fatal gshift].
    destruct (g_fatal b) eqn:Hf; [unfold gshift; rewrite Hf; reflexivity|].
    destruct r as [e|n]; [reflexivity|]. apply gshift_insert.
  - unfold g_insert_raw_text. cbn [g_fatal gshift].
    destruct (g_fatal b) eqn:Hf; [unfold gshift; rewrite Hf; reflexivity|].
    destruct err; [reflexivity|]. apply gshift_insert.
Qed.
Lemma gshift_steps g ops b : gsteps (gshift g b) ops = gshift g (gsteps b ops).
Proof.
  revert b. induction ops as [|o ops IH]; intro b; [reflexivity|].
  cbn. rewrite gshift_step. apply IH.
Qed.

Lemma gshift_greads g h :
  (forall lo v n, greads h lo v n ->
     greads (g ++ map (gshift_cell (length g)) h) (length g + lo) (gshift_val (length g) v) n) /\
  (forall lo vs ns, greads_l h lo vs ns ->
     greads_l (g ++ map (gshift_cell (length g)) h) (length g + lo) (map (gshift_val (length g)) vs) ns).
Proof.
  set (k := length g).
  apply (greads_both h
    (fun lo v n _ => greads (g ++ map (gshift_cell k) h) (k + lo) (gshift_val k v) n)
    (fun lo vs ns _ => greads_l (g ++ map (gshift_cell k) h) (k + lo) (map (gshift_val k) vs) ns)).
  - intros; constructor.
  - intros lo i c ns Hi Hn Hl IH. cbn [gshift_val].
    change (g_node c ns) with (g_node (gshift_cell k c) ns).
    eapply gr_ref; [lia| |].
    + unfold k. rewrite gshift_nth, Hn. reflexivity.
    + rewrite Nat.add_succ_r in IH. exact IH.
  - intros; constructor.
  - intros; constructor; assumption.
Qed.

Lemma gshift_observe g b : g_wf b -> g_observe (gshift g b) = g_observe b.
Proof.
  intros (H1 & _ & H3). unfold g_observe, gshift; cbn [g_fatal g_heap g_root].
  f_equal. destruct (g_root b) as [i|]; [|reflexivity]. cbn [option_map g_read_root].
  destruct (g_wf_greads _ H1 (length (g_heap b)) i H3 ltac:(lia)) as [n Hn].
  rewrite (proj1 (g_read_greads _) _ _ _ Hn) by lia.
  apply (proj1 (gshift_greads g (g_heap b))) in Hn. cbn [gshift_val] in Hn.
  f_equal. eapply (proj1 (g_read_greads _)); [exact Hn|]. lia.
Qed.

Lemma g_unquote_steps ops b : g_unquote (gsteps b ops) = g_unquote b.
Proof.
  revert b; induction ops as [|o ops IH]; intro b; [reflexivity|].
  cbn. fold (gsteps (gstep b o) ops). rewrite IH. clear IH.
  assert (Hi : forall n p, g_unquote (g_insert b n p) = g_unquote b).
  { intros n p. unfold g_insert. destruct (g_fatal b); [reflexivity|].
    destruct (g_current b) as [[i c]|]; [|reflexivity].
    unfold g_child; destruct p; destruct (is_collection (c_kind c)); reflexivity. }
  destruct o; cbn [gstep]; auto.
  - unfold g_end_sequence. destruct (g_fatal b); [reflexivity|].
    destruct (g_current b) as [[i c]|]; [|reflexivity]. destruct (c_kind c); reflexivity.
  - unfold g_end_mapping. destruct (g_fatal b); [reflexivity|].
    destruct (g_current b) as [[i c]|]; [|reflexivity]. destruct (c_kind c); reflexivity.
  - unfold g_insert_raw. destruct (g_fatal b); [reflexivity|]. destruct r; auto.
  - unfold g_insert_raw_text. destruct (g_fatal b); [reflexivity|]. destruct err; auto.
Qed.

Lemma g_reuse q ops1 ops2 :
  let b1 := gsteps (g_new q) ops1 in
  let b2 := gsteps (snd (g_result b1)) ops2 in
  g_observe b2 = g_observe (gsteps (g_new q) ops2) /\
  g_read_root (g_heap b2) (g_root b1) = g_read_root (g_heap b1) (g_root b1).
Proof.
  cbn zeta.
  assert (Hres : forall b, snd (g_result b) = gshift (g_heap b) (g_new (g_unquote b))).
  { intro b. unfold g_result, gshift, g_new; cbn. rewrite app_nil_r. reflexivity. }
  rewrite Hres, gshift_steps, g_unquote_steps.
  set (b1 := gsteps (g_new q) ops1).
  split; [apply gshift_observe, g_wf_steps, g_wf_new|].
  assert (Hw1 : g_wf b1) by apply g_wf_steps, g_wf_new. destruct Hw1 as (W1 & _ & W3).
  destruct (g_root b1) as [i|]; [|reflexivity]. cbn [g_read_root]. f_equal.
  destruct (g_wf_greads _ W1 (length (g_heap b1)) i W3 ltac:(lia)) as [n Hn].
  rewrite (proj1 (g_read_greads _) _ _ _ Hn) by lia.
  eapply (proj1 (g_read_greads _)).
  - eapply (proj1 (greads_agree _ _)); [exact Hn|]. intros k c Hk Hc.
    cbn [gshift g_heap]. rewrite nth_error_app1; [exact Hc|].
    apply nth_error_Some. congruence.
  - lia.
Qed.

(** ** ends *)
Inductive g_route_rel (h : list gcell) : list nat -> list opened -> Prop :=
| grr_nil : g_route_rel h [] []
| grr_leaf i c : nth_error h i = Some c -> is_collection (c_kind c) = false -> g_route_rel h [i] []
| grr_seq i c r st : nth_error h i = Some c -> c_kind c = KSequence -> g_route_rel h r st ->
    r = [] \/ st <> [] -> g_route_rel h (i :: r) (OpSeq :: st)
| grr_map i c b r st : nth_error h i = Some c -> c_kind c = KMapping -> g_route_rel h r st ->
    r = [] \/ st <> [] -> g_route_rel h (i :: r) (OpMap b :: st).

Lemma g_route_rel_kind h h' r st :
  (forall i c, nth_error h i = Some c -> exists c', nth_error h' i = Some c' /\ c_kind c' = c_kind c) ->
  g_route_rel h r st -> g_route_rel h' r st.
Proof.
  intros Hk. induction 1 as [|i c Hi Hv|i c r st Hi Hc Hr IH Hn|i c b r st Hi Hc Hr IH Hn].
  - constructor.
  - destruct (Hk i c Hi) as (c' & H1 & H2). eapply grr_leaf; eauto. congruence.
  - destruct (Hk i c Hi) as (c' & H1 & H2). eapply grr_seq; eauto. congruence.
  - destruct (Hk i c Hi) as (c' & H1 & H2). eapply grr_map; eauto. congruence.
Qed.

Lemma g_insert_kinds b n push :
  forall i c, nth_error (g_heap b) i = Some c ->
    exists c', nth_error (g_heap (g_insert b n push)) i = Some c' /\ c_kind c' = c_kind c.
Proof.
  intros i c Hi. assert (Hl : i < length (g_heap b)) by (apply nth_error_Some; congruence).
  unfold g_insert. destruct (g_fatal b); [eauto|].
  destruct (g_current b) as [[j d]|] eqn:Hcur.
  - assert (Hj : nth_error (g_heap b) j = Some d).
    { unfold g_current in Hcur. destruct (g_route b) as [|j' r]; [discriminate|].
      destruct (nth_error (g_heap b) j') eqn:E; [|discriminate]. congruence. }
    unfold g_child. destruct push; destruct (is_collection (c_kind d)); cbn [g_heap].
    + rewrite nth_error_app1 by (rewrite upd_length; lia).
      destruct (Nat.eq_dec j i) as [->|Hne].
      * rewrite upd_same by assumption. eexists; split; [reflexivity|]. cbn. congruence.
      * rewrite upd_other by assumption. eauto.
    + rewrite nth_error_app1 by lia. eauto.
    + rewrite nth_error_app1 by (rewrite upd_length; lia).
      destruct (Nat.eq_dec j i) as [->|Hne].
      * rewrite upd_same by assumption. eexists; split; [reflexivity|]. cbn. congruence.
      * rewrite upd_other by assumption. eauto.
    + rewrite nth_error_app1 by lia. eauto.
  - cbn [g_heap]. rewrite nth_error_app1 by lia. eauto.
Qed.

Lemma got_value_rel h r st : g_route_rel h r st -> g_route_rel h r (got_value st).
Proof.
  intros [|i c Hi Hv|i c r' st' Hi Hc Hr Hn|i c b r' st' Hi Hc Hr Hn]; cbn.
  - constructor.
  - eapply grr_leaf; eauto.
  - eapply grr_seq; eauto.
  - eapply grr_map; eauto.
Qed.

Lemma got_value_nil st : got_value st = [] -> st = [].
Proof. destruct st as [|[|] st]; cbn; congruence. Qed.

Lemma g_insert_rel b n push st :
  g_fatal b = None -> g_route_rel (g_heap b) (g_route b) st ->
  (st = [] -> push = false -> is_collection (g_kind n) = false) ->
  (push = true -> g_kind n = KSequence \/ g_kind n = KMapping) ->
  let b' := g_insert b n push in
  g_fatal b' = None ->
  g_route_rel (g_heap b') (g_route b')
    (if push then (match g_kind n with KSequence => OpSeq | _ => OpMap false end) :: got_value st
     else got_value st).
Proof.
  intros Hf Hr Hroot Hpush b' Hf'.
  assert (Hkind : c_kind (gcell_of_node n) = g_kind n) by (destruct n; reflexivity).
  assert (Hnewrel : forall h i r st', push = true ->
     nth_error h i = Some (gcell_of_node n) -> g_route_rel h r st' -> r = [] \/ st' <> [] ->
     g_route_rel h (i :: r) ((match g_kind n with KSequence => OpSeq | _ => OpMap false end) :: st')).
  { intros h i r st' Hp Hi Hrr Hor. destruct (Hpush Hp) as [E|E]; rewrite E.
    - eapply grr_seq; eauto. congruence.
    - eapply grr_map; eauto. congruence. }
  assert (Hcollcase : forall i r c, g_route b = i :: r -> nth_error (g_heap b) i = Some c ->
    is_collection (c_kind c) = true -> st <> [] ->
    g_route_rel (g_heap b') (g_route b')
    (if push then (match g_kind n with KSequence => OpSeq | _ => OpMap false end) :: got_value st
     else got_value st)).
  { intros i r c Hrt Hi Hcoll Hst.
    destruct (g_insert_placed b n push i r c Hf Hrt Hi Hcoll) as (_ & _ & R & _ & B).
    fold b' in R, B. rewrite R.
    assert (Hrel : g_route_rel (g_heap b') (i :: r) (got_value st)).
    { rewrite <- Hrt. eapply g_route_rel_kind; [apply g_insert_kinds|]. apply got_value_rel, Hr. }
    destruct push; cbn [app]; [|exact Hrel].
    apply Hnewrel; auto. right. intro E. apply Hst, got_value_nil, E. }
  inversion Hr as [Hrt Hst|i c Hi Hv Hrt Hst|i c r st' Hi Hc Hr' Hn Hrt Hst|i c bb r st' Hi Hc Hr' Hn Hrt Hst].
  - (* root *)
    unfold b' in *. rewrite g_insert_empty in * by congruence. cbn [g_heap g_route got_value].
    destruct push.
    + apply Hnewrel; auto; [apply nth_app_0|constructor].
    + eapply grr_leaf; [apply nth_app_0|]. rewrite Hkind. apply Hroot; congruence.
  - (* finished scalar *)
    exfalso. unfold b', g_insert, g_current in Hf'. rewrite Hf, <- Hrt, Hi in Hf'.
    destruct (g_child (length (g_heap b)) n push) as [[v cells] pushed].
    rewrite Hv in Hf'. discriminate.
  - rewrite Hst. eapply Hcollcase; eauto; [rewrite Hc; reflexivity|congruence].
  - rewrite Hst. eapply Hcollcase; eauto; [rewrite Hc; reflexivity|congruence].
Qed.

Lemma g_pop_rel h i r st x : g_route_rel h (i :: r) (x :: st) -> g_route_rel h r st.
Proof. intro H; inversion H; subst; assumption. Qed.

Lemma g_step_rel b o st :
  g_fatal b = None -> g_route_rel (g_heap b) (g_route b) st ->
  (match o, st with GRaw _, [] => False | _, _ => True end) ->
  let b' := gstep b o in
  g_fatal b' = None ->
  exists st', g_open_step_lax st o = Some st' /\ g_route_rel (g_heap b') (g_route b') st'.
Proof.
  intros Hf Hr Hraw b'.
  assert (Hval : forall n, (st = [] -> is_collection (g_kind n) = false) ->
    b' = g_insert b n false -> g_open_step_lax st o = Some (got_value st) ->
    g_fatal b' = None ->
    exists st', g_open_step_lax st o = Some st' /\ g_route_rel (g_heap b') (g_route b') st').
  { intros n H1 Hb Ho Hf'. exists (got_value st). split; [exact Ho|].
    rewrite Hb in *. apply (g_insert_rel b n false st); auto. discriminate. }
  destruct o as [s| | | | | |ri|t err]; cbn [g_open_step_lax g_open_step] in *.
  - apply (Hval (g_scalar_node (g_unquote b) s)); try reflexivity. destruct s; reflexivity.
  - apply (Hval g_null_node); reflexivity.
  - intro Hf'. eexists; split; [reflexivity|].
    apply (g_insert_rel b g_seq_node true st); auto.
  - unfold b'. cbn [gstep]. unfold g_end_sequence, g_current. rewrite Hf.
    inversion Hr as [Hrt Hst|i c Hi Hv Hrt Hst|i c r st' Hi Hc Hr' Hn Hrt Hst|i c bb r st' Hi Hc Hr' Hn Hrt Hst];
      try rewrite Hi; try rewrite Hc; try discriminate.
    + destruct (c_kind c); discriminate.
    + intros _. exists st'. split; [reflexivity|]. cbn. rewrite <- Hrt. exact Hr'.
  - intro Hf'. eexists; split; [reflexivity|].
    apply (g_insert_rel b g_map_node true st); auto.
  - unfold b'. cbn [gstep]. unfold g_end_mapping, g_current. rewrite Hf.
    inversion Hr as [Hrt Hst|i c Hi Hv Hrt Hst|i c r st' Hi Hc Hr' Hn Hrt Hst|i c bb r st' Hi Hc Hr' Hn Hrt Hst];
      try rewrite Hi; try rewrite Hc; try discriminate.
    + destruct (c_kind c); discriminate.
    + intros _. exists st'. split; [reflexivity|]. cbn. rewrite <- Hrt. exact Hr'.
  - destruct ri as [e|n]; [unfold b'; cbn; unfold g_insert_raw; rewrite Hf; discriminate|].
    apply (Hval n); try reflexivity.
    + intros ->. destruct Hraw.
    + unfold b'. cbn. unfold g_insert_raw. rewrite Hf. reflexivity.
  - destruct err; [unfold b'; cbn; unfold g_insert_raw_text; rewrite Hf; discriminate|].
    apply (Hval (g_scalar_node (g_unquote b) (SString t))); try reflexivity.
    unfold b'. cbn. unfold g_insert_raw_text. rewrite Hf. reflexivity.
Qed.

Lemma g_steps_rel ops : forall b st,
  g_fatal b = None -> g_route_rel (g_heap b) (g_route b) st -> g_raw_inside st ops = true ->
  let b' := gsteps b ops in
  g_fatal b' = None ->
  exists st', g_open_after_lax st ops = Some st' /\ g_route_rel (g_heap b') (g_route b') st'.
Proof.
  induction ops as [|o ops IH]; intros b st Hf Hr Hraw b' Hf'.
  - exists st. split; [reflexivity|exact Hr].
  - cbn [g_raw_inside] in Hraw. apply andb_prop in Hraw as [Hraw1 Hraw2].
    unfold b' in *. cbn [gsteps fold_left] in *. fold (gsteps (gstep b o) ops) in *.
    destruct (g_fatal (gstep b o)) as [e|] eqn:Hfo.
    { rewrite (gsteps_fatal ops _ e Hfo) in Hf'. congruence. }
    destruct (g_step_rel b o st Hf Hr) as (st1 & Ho & Hr1); [|exact Hfo|].
    { destruct o, st; try exact I; discriminate. }
    rewrite Ho in Hraw2. cbn [g_open_after_lax]. rewrite Ho.
    apply (IH (gstep b o) st1); assumption.
Qed.

Lemma g_ends_exact q ops :
  g_raw_inside [] ops = true -> g_fatal (gsteps (g_new q) ops) = None ->
  exists st, g_open_after_lax [] ops = Some st /\
    (g_fatal (gsteps (g_new q) (ops ++ [GEndSeq])) = None <-> exists st', st = OpSeq :: st') /\
    (g_fatal (gsteps (g_new q) (ops ++ [GEndMap])) = None <-> exists k st', st = OpMap k :: st').
Proof.
  intros Hraw Hf.
  destruct (g_steps_rel ops (g_new q) [] eq_refl (grr_nil _) Hraw Hf) as (st & Ho & Hr).
  exists st. split; [exact Ho|]. rewrite !gsteps_app. set (b := gsteps (g_new q) ops) in *.
  cbn [gsteps fold_left]. split.
  - split.
    + intro H. destruct (g_step_rel b GEndSeq st Hf Hr I H) as (st' & Hs & _).
      cbn in Hs. destruct st as [|[|] st0]; try discriminate. eauto.
    + intros [st' ->]. inversion Hr as [| |i c r st2 Hi Hc Hr' Hn Hrt Hst|]; subst.
      erewrite end_seq_pops; [exact Hf|exact Hf| |exact Hc].
      unfold g_current. rewrite <- Hrt, Hi. reflexivity.
  - split.
    + intro H. destruct (g_step_rel b GEndMap st Hf Hr I H) as (st' & Hs & _).
      cbn in Hs. destruct st as [|[|k] st0]; try discriminate. eauto.
    + intros (k & st' & ->). inversion Hr as [| | |i c bb r st2 Hi Hc Hr' Hn Hrt Hst]; subst.
      erewrite end_map_pops; [exact Hf|exact Hf| |exact Hc].
      unfold g_current. rewrite <- Hrt, Hi. reflexivity.
Qed.
