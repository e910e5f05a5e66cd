(** Raw extraction in goyaml restores the graph it rewrites. *)
From Coq Require Import String.
From Verif Require Import Base Schema Values Writer AnyBuilder Reader GBuilder GReader ReaderProofs ReaderSpec AnyProofs.
Local Open Scope nat_scope.

Lemma nth_ext' {A} (l l' : list A) : (forall i, nth_error l i = nth_error l' i) -> l = l'.
Proof.
  revert l'. induction l as [|x l IH]; intros [|y l'] H; [reflexivity|specialize (H 0); discriminate|specialize (H 0); discriminate|].
  pose proof (H 0) as H0. injection H0 as ->. f_equal. apply IH. intros i. apply (H (S i)).
Qed.

(** replacing the element at an index *)
Definition put {A} (l : list A) (i : nat) (x : A) : list A :=
  match skipn i l with [] => l | _ :: r => firstn i l ++ x :: r end.
Lemma put_nth {A} (x : A) i : forall l j,
  nth_error (put l i x) j = if Nat.eqb j i then (if Nat.ltb i (length l) then Some x else None) else nth_error l j.
Proof.
  induction i as [|i IH]; intros l j; unfold put.
  - destruct l as [|y l]; cbn; destruct j; reflexivity.
  - destruct l as [|y l]; cbn [skipn].
    + cbn. destruct j; cbn; [reflexivity|]. destruct (Nat.eqb j i); reflexivity.
    + specialize (IH l). unfold put in IH. destruct (skipn i l) as [|z r] eqn:E.
      * destruct j as [|j]; [reflexivity|]. exact (IH j).
      * destruct j as [|j]; [reflexivity|]. exact (IH j).
Qed.
Lemma put_length {A} (x : A) i : forall l, length (put l i x) = length l.
Proof.
  induction i as [|i IH]; intros l; unfold put.
  - destruct l; reflexivity.
  - destruct l as [|y l]; [reflexivity|]. cbn [skipn]. specialize (IH l). unfold put in IH.
    destruct (skipn i l); [reflexivity|]. cbn. rewrite IH. reflexivity.
Qed.

Lemma update_nth g i f j : nth_error (g_update g i f) j = if Nat.eqb j i then option_map f (nth_error g j) else nth_error g j.
Proof.
  unfold g_update. revert g j. induction i as [|i IH]; intros g j.
  - destruct g as [|c g]; cbn; destruct j; reflexivity.
  - destruct g as [|c g]; cbn [skipn].
    + destruct j as [|j]; cbn; [reflexivity|]. destruct (Nat.eqb j i); reflexivity.
    + specialize (IH g). destruct (skipn i g) as [|z r] eqn:E.
      * destruct j as [|j]; [reflexivity|]. exact (IH j).
      * destruct j as [|j]; [reflexivity|]. exact (IH j).
Qed.

Lemma content_put j x c : x_content (x_set_content j x c) = put (x_content c) j x.
Proof. reflexivity. Qed.

(** aliases never point to aliases *)
Definition direct (g : graph) : Prop :=
  forall i c j c', nth_error g i = Some c -> x_kind c = KAlias -> x_alias c = Some j -> nth_error g j = Some c' -> x_kind c' <> KAlias.

Definition same_shape (c c' : gxcell) : Prop :=
  x_kind c = x_kind c' /\ x_short c = x_short c' /\ x_value c = x_value c' /\ x_anchor c = x_anchor c' /\ x_alias c = x_alias c'
  /\ length (x_content c) = length (x_content c').
Lemma shape_refl c : same_shape c c. Proof. repeat split. Qed.
Lemma shape_put c c' j x : same_shape c c' -> same_shape (x_set_content j x c) c'.
Proof. intros (A & B & C & D & E & F). repeat split; auto. rewrite content_put, put_length. exact F. Qed.

(** the graph of the transformer is the original one except at the recorded places *)
Record derefs_ok (g0 : graph) (t : rawt) : Prop := {
  do_none : forall i, nth_error g0 i = None -> nth_error (rt_graph t) i = None;
  do_shape : forall i c0, nth_error g0 i = Some c0 -> exists c, nth_error (rt_graph t) i = Some c /\ same_shape c c0
    /\ forall j, nth_error (x_content c) j = nth_error (x_content c0) j
              \/ exists d, In d (rt_derefs t) /\ d_parent d = i /\ d_idx d = j
                    /\ (forall cc, g_at g0 (nth j (x_content c) None) = Some cc -> x_kind cc <> KAlias);
  do_orig : forall d, In d (rt_derefs t) -> exists c0, nth_error g0 (d_parent d) = Some c0 /\ nth_error (x_content c0) (d_idx d) = Some (d_alias d)
}.

Lemma ok_at g0 t n c : derefs_ok g0 t -> g_at (rt_graph t) n = Some c -> exists c0, g_at g0 n = Some c0 /\ same_shape c c0.
Proof.
  intros H. destruct n as [i|]; [|discriminate]. cbn. intros Hc. destruct (nth_error g0 i) as [c0|] eqn:E.
  - destruct (do_shape _ _ H i c0 E) as (c' & H1 & H2 & _). exists c0. split; [reflexivity|]. congruence.
  - rewrite (do_none _ _ H i E) in Hc. discriminate.
Qed.

Lemma ok_record g0 t i c j child cc met : direct g0 -> derefs_ok g0 t -> nth_error (rt_graph t) i = Some c ->
  child = nth j (x_content c) None -> j < length (x_content c) -> g_at (rt_graph t) child = Some cc -> x_kind cc = KAlias ->
  derefs_ok g0 (mkRawT (g_update (rt_graph t) i (x_set_content j (x_alias cc))) met (rt_derefs t ++ [mkDeref i child j])).
Proof.
  intros Hd H Hc Hch Hj Hcc Hk.
  destruct (nth_error g0 i) as [c0|] eqn:E0; [|rewrite (do_none _ _ H i E0) in Hc; discriminate].
  destruct (do_shape _ _ H i c0 E0) as (c' & Hc' & Hsh & Hpos). rewrite Hc in Hc'. injection Hc' as <-.
  destruct (ok_at _ _ _ _ H Hcc) as (cc0 & Hcc0 & Hshc).
  assert (Hkc : x_kind cc0 = KAlias) by (destruct Hshc as (<- & _); exact Hk).
  (* the place has not been rewritten before *)
  assert (Hjo : nth_error (x_content c0) j = Some child).
  { destruct (Hpos j) as [Ho|(d & _ & _ & _ & Hno)].
    - rewrite <- Ho, Hch. apply nth_error_nth'. exact Hj.
    - exfalso. eapply Hno; [rewrite <- Hch; exact Hcc0|exact Hkc]. }
  constructor; cbn [rt_graph rt_derefs].
  - intros k Hkn. rewrite update_nth, (do_none _ _ H k Hkn). destruct (Nat.eqb k i); reflexivity.
  - intros k ck Hkk. rewrite update_nth. destruct (Nat.eqb k i) eqn:E.
    + apply Nat.eqb_eq in E. subst k. rewrite E0 in Hkk. injection Hkk as <-. rewrite Hc. cbn.
      eexists. split; [reflexivity|]. split; [apply shape_put, Hsh|]. intros m. rewrite content_put, put_nth.
      destruct (Nat.eqb m j) eqn:Em.
      * apply Nat.eqb_eq in Em. subst m. right. exists (mkDeref i child j). split; [apply in_or_app; cbn; auto|].
        split; [reflexivity|]. split; [reflexivity|]. intros x Hx.
        assert (Hn : nth j (put (x_content c) j (x_alias cc)) None = x_alias cc).
        { apply nth_error_nth. rewrite put_nth, Nat.eqb_refl.
          destruct (Nat.ltb j (length (x_content c))) eqn:El; [reflexivity|]. apply Nat.ltb_ge in El. lia. }
        rewrite Hn in Hx. destruct (x_alias cc) as [ti|] eqn:Ea; [|discriminate Hx]. cbn in Hx.
        destruct child as [ci|]; [|discriminate]. cbn in Hcc0.
        eapply Hd; [exact Hcc0|exact Hkc| |exact Hx].
        destruct Hshc as (_ & _ & _ & _ & <- & _). exact Ea.
      * destruct (Hpos m) as [Ho|(d & D1 & D2 & D3 & D4)]; [left; exact Ho|]. right. exists d.
        split; [apply in_or_app; auto|]. split; [exact D2|]. split; [exact D3|]. intros x Hx. apply (D4 x).
        rewrite <- Hx. f_equal.
        pose proof (put_nth (x_alias cc) j (x_content c) m) as P. rewrite Em in P.
        destruct (nth_error (x_content c) m) eqn:En.
        { rewrite (nth_error_nth _ _ None En), (nth_error_nth _ _ None P). reflexivity. }
        { rewrite !nth_overflow; [reflexivity| |]; apply nth_error_None; assumption. }
    + destruct (do_shape _ _ H k ck Hkk) as (c' & H1 & H2 & H3). exists c'. split; [exact H1|]. split; [exact H2|].
      intros m. destruct (H3 m) as [Ho|(d & D1 & D2 & D3 & D4)]; [left; exact Ho|]. right. exists d.
      split; [apply in_or_app; auto|]. auto.
  - intros d Hin. apply in_app_or in Hin as [Hin|[<-|[]]]; [exact (do_orig _ _ H d Hin)|].
    exists c0. cbn. auto.
Qed.

Lemma ok_met g0 t met : derefs_ok g0 t -> derefs_ok g0 (mkRawT (rt_graph t) met (rt_derefs t)).
Proof. intros [A B C]. constructor; assumption. Qed.

(** the loop of rt_visit *)
Definition rt_loop (f i : nat) := fix loop (left : nat) (j : nat) (t : rawt) : outcome rawt :=
  match left with
  | O => Done t
  | S left' =>
      match g_at (rt_graph t) (Some i) with
      | None => Panics
      | Some c' =>
          let child := nth j (x_content c') None in
          match g_at (rt_graph t) child with
          | None => Panics
          | Some cc =>
              let t :=
                match x_kind cc with
                | KAlias =>
                    if existsb (text_eqb (x_value cc)) (rt_met t) then t
                    else mkRawT (g_update (rt_graph t) i (x_set_content j (x_alias cc))) (rt_met t)
                                (rt_derefs t ++ [mkDeref i child j])
                | _ => t
                end in
              obind (rt_visit f child t) (loop left' (S j))
          end
      end
  end.
Lemma rt_visit_S f i t : rt_visit (S f) (Some i) t =
  match g_at (rt_graph t) (Some i) with
  | Some c =>
      let t := match x_anchor c with
               | [] => t
               | a => mkRawT (rt_graph t) (a :: rt_met t) (rt_derefs t)
               end in
      match x_kind c with
      | KAlias => rt_visit f (x_alias c) t
      | KDocument | KMapping | KSequence => rt_loop f i (length (x_content c)) 0 t
      | _ => Done t
      end
  | None => Panics
  end.
Proof. reflexivity. Qed.

Lemma visit_ok g0 : direct g0 -> forall f n t tz, derefs_ok g0 t -> rt_visit f n t = Done tz -> derefs_ok g0 tz.
Proof.
  intros Hd. induction f as [|f IH]; intros n t tz H Hv; [discriminate|].
  destruct n as [i|]; [|discriminate]. rewrite rt_visit_S in Hv. cbn [g_at] in Hv.
  destruct (nth_error (rt_graph t) i) as [c|] eqn:Ec; [|discriminate].
  set (t1 := match x_anchor c with [] => t | _ => _ end) in Hv.
  assert (H1 : derefs_ok g0 t1) by (unfold t1; destruct (x_anchor c); [exact H|apply ok_met, H]).
  assert (Hlen : forall left j t tz, derefs_ok g0 t -> (forall c, nth_error (rt_graph t) i = Some c -> j + left <= length (x_content c)) ->
            rt_loop f i left j t = Done tz -> derefs_ok g0 tz).
  { clear t tz t1 H1 H Hv Ec. induction left as [|left IHl]; intros j t tz H Hb Hv.
    - injection Hv as <-. exact H.
    - cbn [rt_loop g_at] in Hv. destruct (nth_error (rt_graph t) i) as [c1|] eqn:E1; [|discriminate].
      cbn zeta in Hv. destruct (g_at (rt_graph t) (nth j (x_content c1) None)) as [cc|] eqn:Ecc; [|discriminate].
      set (t2 := match x_kind cc with KAlias => _ | _ => t end) in Hv.
      assert (H2 : derefs_ok g0 t2).
      { unfold t2. destruct (x_kind cc) eqn:Ek; try exact H. destruct (existsb _ _); [exact H|].
        eapply ok_record; eauto. specialize (Hb _ eq_refl). lia. }
      apply obind_done in Hv as (t3 & Hv1 & Hv2). pose proof (IH _ _ _ H2 Hv1) as H3.
      apply (IHl (S j) t3 tz H3); [|exact Hv2].
      intros c3 Hc3. destruct (nth_error g0 i) as [c0|] eqn:E0; [|rewrite (do_none _ _ H3 i E0) in Hc3; discriminate].
      destruct (do_shape _ _ H3 i c0 E0) as (c' & X1 & (_ & _ & _ & _ & _ & X2) & _). rewrite Hc3 in X1. injection X1 as <-.
      destruct (do_shape _ _ H i c0 E0) as (c' & Y1 & (_ & _ & _ & _ & _ & Y2) & _). rewrite E1 in Y1. injection Y1 as <-.
      specialize (Hb _ eq_refl). lia. }
  assert (Hg : rt_graph t1 = rt_graph t) by (unfold t1; destruct (x_anchor c); reflexivity).
  assert (Hb : forall c', nth_error (rt_graph t1) i = Some c' -> 0 + length (x_content c) <= length (x_content c')).
  { intros c' Hc'. rewrite Hg, Ec in Hc'. injection Hc' as <-. lia. }
  destruct (x_kind c).
  - injection Hv as <-. exact H1.
  - exact (Hlen _ _ _ _ H1 Hb Hv).
  - exact (Hlen _ _ _ _ H1 Hb Hv).
  - exact (Hlen _ _ _ _ H1 Hb Hv).
  - injection Hv as <-. exact H1.
  - exact (IH _ _ _ H1 Hv).
Qed.

(** what undoing the rewritings gives *)
Definition undo (ds : list deref_info) (g : graph) : graph :=
  fold_left (fun g d => g_update g (d_parent d) (x_set_content (d_idx d) (d_alias d))) ds g.

Lemma undo_spec g0 ds : (forall d, In d ds -> exists c0, nth_error g0 (d_parent d) = Some c0 /\ nth_error (x_content c0) (d_idx d) = Some (d_alias d)) ->
  forall g, (forall i, nth_error g0 i = None -> nth_error g i = None) ->
    (forall i c0, nth_error g0 i = Some c0 -> exists c, nth_error g i = Some c /\ same_shape c c0
       /\ forall j, nth_error (x_content c) j = nth_error (x_content c0) j \/ exists d, In d ds /\ d_parent d = i /\ d_idx d = j) ->
    undo ds g = g0.
Proof.
  induction ds as [|d ds IH]; intros Ho g Hn Hs; cbn.
  - apply nth_ext'. intros i. destruct (nth_error g0 i) as [c0|] eqn:E; [|apply Hn, E].
    destruct (Hs i c0 E) as (c & -> & (A & B & C & D & F & _) & Hp). f_equal.
    assert (Hcont : x_content c = x_content c0).
    { apply nth_ext'. intros j. destruct (Hp j) as [H|(d & [] & _)]. exact H. }
    destruct c, c0; cbn in *; congruence.
  - apply IH.
    + intros x Hx. apply Ho. cbn. auto.
    + intros i Hi. rewrite update_nth, (Hn i Hi). destruct (Nat.eqb i (d_parent d)); reflexivity.
    + intros i c0 Hi. destruct (Hs i c0 Hi) as (c & Hc & Hsh & Hp). rewrite update_nth.
      destruct (Nat.eqb i (d_parent d)) eqn:E.
      * apply Nat.eqb_eq in E. subst i. rewrite Hc. cbn. eexists. split; [reflexivity|]. split; [apply shape_put, Hsh|].
        destruct (Ho d (or_introl eq_refl)) as (c0' & X1 & X2). rewrite Hi in X1. injection X1 as <-.
        intros j. rewrite content_put, put_nth. destruct (Nat.eqb j (d_idx d)) eqn:Ej.
        { apply Nat.eqb_eq in Ej. subst j. left. rewrite X2.
          destruct Hsh as (_ & _ & _ & _ & _ & Hl). rewrite Hl.
          assert (d_idx d < length (x_content c0)) by (apply nth_error_Some; congruence).
          destruct (Nat.ltb (d_idx d) (length (x_content c0))) eqn:El; [reflexivity|]. apply Nat.ltb_ge in El. lia. }
        { destruct (Hp j) as [H|(d' & [<-|Hd'] & D2 & D3)]; [left; exact H| |right; eauto].
          subst j. rewrite Nat.eqb_refl in Ej. discriminate. }
      * exists c. split; [exact Hc|]. split; [exact Hsh|]. intros j.
        destruct (Hp j) as [H|(d' & [<-|Hd'] & D2 & D3)]; [left; exact H| |right; eauto].
        subst i. rewrite Nat.eqb_refl in E. discriminate.
Qed.

Lemma raw_restores fuel g n root anchor t : direct g ->
  rt_transform fuel g n = Done (root, anchor, t) -> rt_restore n anchor t = g.
Proof.
  intros Hd H. unfold rt_transform in H. destruct (nth_error g n) as [c|] eqn:Ec; [|discriminate].
  apply obind_done in H as (tz & Hv & E). injection E as <- <- <-.
  set (g0 := g_update g n (x_set_anchor [])) in *.
  assert (Hg0 : forall i, nth_error g0 i = if Nat.eqb i n then option_map (x_set_anchor []) (nth_error g i) else nth_error g i)
    by (intros i; apply update_nth).
  assert (Hd0 : direct g0).
  { intros i ci j cj Hi Hk Ha Hj. rewrite Hg0 in Hi, Hj.
    assert (X : exists ci', nth_error g i = Some ci' /\ x_kind ci' = x_kind ci /\ x_alias ci' = x_alias ci).
    { destruct (Nat.eqb i n); [|eauto]. destruct (nth_error g i); [|discriminate]. injection Hi as <-. eauto. }
    assert (Y : exists cj', nth_error g j = Some cj' /\ x_kind cj' = x_kind cj).
    { destruct (Nat.eqb j n); [|eauto]. destruct (nth_error g j); [|discriminate]. injection Hj as <-. eauto. }
    destruct X as (ci' & X1 & X2 & X3). destruct Y as (cj' & Y1 & Y2). rewrite <- Y2.
    eapply Hd; [exact X1| | |exact Y1]; congruence. }
  assert (H0 : derefs_ok g0 (mkRawT g0 [] [])).
  { constructor; cbn.
    - auto.
    - intros i c0 Hi. exists c0. split; [exact Hi|]. split; [apply shape_refl|]. auto.
    - intros d []. }
  pose proof (visit_ok g0 Hd0 _ _ _ _ H0 Hv) as [A B C].
  unfold rt_restore. apply (undo_spec g).
  - intros d Hin. destruct (C d Hin) as (c0 & C1 & C2). rewrite Hg0 in C1.
    destruct (Nat.eqb (d_parent d) n); [|eauto].
    destruct (nth_error g (d_parent d)) as [cg|] eqn:Eg; [|discriminate]. injection C1 as <-. exists cg. auto.
  - intros i Hi. rewrite update_nth. rewrite A by (rewrite Hg0, Hi; destruct (Nat.eqb i n); reflexivity).
    destruct (Nat.eqb i n); reflexivity.
  - intros i cg Hi. rewrite update_nth. destruct (Nat.eqb i n) eqn:E.
    + destruct (B i (x_set_anchor [] cg)) as (ct & B1 & B2 & B3); [rewrite Hg0, E, Hi; reflexivity|].
      rewrite B1. cbn. eexists. split; [reflexivity|]. split.
      * apply Nat.eqb_eq in E. subst i. rewrite Ec in Hi. injection Hi as <-.
        destruct B2 as (S1 & S2 & S3 & S4 & S5 & S6). repeat split; assumption.
      * cbn. intros j. destruct (B3 j) as [H|(d & D1 & D2 & D3 & _)]; [left; exact H|right; eauto].
    + destruct (B i cg) as (ct & B1 & B2 & B3); [rewrite Hg0, E, Hi; reflexivity|].
      exists ct. split; [exact B1|]. split; [exact B2|]. intros j.
      destruct (B3 j) as [H|(d & D1 & D2 & D3 & _)]; [left; exact H|right; eauto].
Qed.

Lemma raw_unchanged marshal fuel g n x g' : direct g -> g_raw marshal fuel g n = Done (x, g') -> g' = g.
Proof.
  intros Hd H. unfold g_raw in H. destruct n as [i|]; [|discriminate].
  apply obind_done in H as ([[root anchor] t] & Ht & E). injection E as _ <-. eapply raw_restores; eassumption.
Qed.

(** [[*b, *a]] with &b -> alias to a (a chain) read twice through sharing *)
Definition g_chain : graph :=
  [mkX KSequence (t' "!!seq") [] [] [Some 1; Some 1] None;
   mkX KSequence (t' "!!seq") [] [] [Some 2] None;
   mkX KAlias [] (t' "x") [] [] (Some 3);
   mkX KAlias [] (t' "y") [] [] (Some 4);
   mkX KScalar (t' "!!str") (t' "v") [] [] None].
Lemma chain_changes : exists x g', g_raw (fun _ _ => inl []) 20 g_chain (Some 0) = Done (x, g') /\ g' <> g_chain.
Proof. eexists _, _. split; [vm_compute; reflexivity|]. vm_compute. discriminate. Qed.

(** ** no call changes the document *)
Section Unchanged.
  Context (marshal : graph -> gref -> text + list N) (o : oracle) (g : graph) (Hd : direct g).
  Let en := g_engine marshal o.
  Notation st := (rstate gref graph).

  Lemma any_same_graph f : forall n (a b : abuilder graph), any_visit g_access o f n a = Done b -> ab_keep b = ab_keep a.
  Proof.
    assert (Hsc : forall s u (a : abuilder graph), ab_keep (visit_scalar o s u a) = ab_keep a).
    { intros s u a. unfold visit_scalar, from_text.
      repeat match goal with
             | |- context [if ?c then _ else _] => destruct c
             | |- context [match ?c with Some _ => _ | None => _ end] => destruct c
             end; reflexivity. }
    induction f as [|f IH]; intros n a b H; [discriminate|]. rewrite any_visit_S in H.
    assert (Hpair : forall k v (a b : abuilder graph), av_pair g_access o f k v a = Done b -> ab_keep b = ab_keep a).
    { clear H. intros k v x y H. unfold av_pair in H.
      apply obind_done in H as (x1 & H1 & H). apply obind_done in H as (x2 & H2 & H). injection H as <-. cbn.
      apply IH in H1. cbn in H1. rewrite <- H1. destruct v; [apply IH in H2; exact H2|]. injection H2 as <-. rewrite Hsc. reflexivity. }
    assert (Hseq : forall l acc (a : abuilder graph) r, av_seq g_access o f l acc a = Done r -> ab_keep (snd r) = ab_keep a).
    { clear H. induction l as [|x l IHl]; intros acc a0 r H; cbn in H; [injection H as <-; reflexivity|].
      apply obind_done in H as (a1 & H1 & H2). fold (av_seq g_access o f) in H2. apply IHl in H2. apply IH in H1. congruence. }
    assert (Hents : forall l m (a : abuilder graph) r, av_entries g_access o f l m a = Done r -> ab_keep (snd r) = ab_keep a).
    { clear H. induction l as [|x l IHl]; intros m a0 r H; cbn in H; [injection H as <-; reflexivity|].
      apply obind_done in H as (a1 & H1 & H2). fold (av_entries g_access o f) in H2.
      destruct (after_entry m a1) as [m2 a2] eqn:Ea. apply IHl in H2.
      assert (E : ab_keep a2 = ab_keep a1).
      { unfold after_entry in Ea. destruct (ab_ok a1); [|injection Ea as <- <-; auto].
        destruct (ab_merge a1); injection Ea as <- <-; auto. }
      assert (E1 : ab_keep a1 = ab_keep a0) by (destruct x; [apply IH in H1|apply Hpair in H1]; exact H1).
      congruence. }
    destruct (ac_view g_access (ab_keep a) n) as [| |nm|[m|nm]|s u| |l|l|k v|an|p c|m|]; try discriminate;
      try (injection H as <-; reflexivity); try (apply IH in H; exact H).
    - injection H as <-. apply Hsc.
    - injection H as <-. destruct (ab_extract_string a); reflexivity.
    - apply obind_done in H as (r & H1 & H). injection H as <-. apply Hseq in H1. unfold finish_seq.
      destruct (ab_extract_string a); cbn; exact H1.
    - apply obind_done in H as (r & H1 & H). injection H as <-. apply Hents in H1. unfold finish_map.
      destruct (ab_extract_merge (snd r)); [exact H1|]. destruct (ab_extract_string (snd r)); exact H1.
    - apply Hpair in H. exact H.
    - apply obind_done in H as (x & H1 & H). apply IH in H1. apply IH in H. cbn in H. congruence.
  Qed.

  Lemma keep_append e (r : st) : r_keep (append_err en e r) = r_keep r.
  Proof. unfold append_err, set_fatal_error. destruct (r_multi r && is_deny e); [reflexivity|]. destruct (r_fatal r); reflexivity. Qed.
  Lemma keep_swap p (r : st) : r_keep (swap_point p r) = r_keep r.
  Proof. unfold swap_point. destruct (r_route r); reflexivity. Qed.
  Lemma keep_extracting x c s (r : st) : r_keep (extracting x c s r) = r_keep r.
  Proof. unfold extracting. destruct x; reflexivity. Qed.

  Lemma keep_run e f : forall tk (r r' : st), run en e f tk r = Done r' -> r_keep r' = r_keep r.
  Proof.
    induction f as [|f IH]; intros tk r r' H; [discriminate|].
    destruct tk as [|n|i bind]; cbn [run] in H.
    - destruct (current_node en r) as [n|]; [eapply IH; exact H|]. injection H as <-. apply keep_append.
    - assert (Htx : forall n s r r', visit_texter en e n s r = Done r' -> r_keep r' = r_keep r).
      { clear. intros n s r r' H. unfold visit_texter in H. destruct (r_route r) as [|p ps]; [discriminate|].
        destruct (en_process en (r_keep r) e n (pt_concl p)) as [c x]. injection H as <-. rewrite keep_extracting.
        destruct c; cbn; rewrite ?keep_append, ?keep_swap; reflexivity. }
      destruct (en_visit en (r_keep r) n) as [ch size bind|s [a|]| |[m|a]|m| |] eqn:Ev; try discriminate.
      + destruct (r_route r) as [|p ps] eqn:Er; [discriminate|].
        set (pr := if is_unknown (pt_concl p) then _ else _) in H.
        assert (Hk : r_keep (snd pr) = r_keep r) by (unfold pr; destruct (is_unknown (pt_concl p)); reflexivity).
        destruct pr as [it r1]; cbn [snd] in Hk.
        destruct (en_process en (r_keep r1) e (pt_node p) (pt_concl p)) as [c x].
        set (r2 := swap_point _ _) in H.
        assert (Hk2 : r_keep r2 = r_keep r) by (unfold r2; rewrite keep_swap; exact Hk).
        clearbody r2. clear Hk.
        apply obind_done in H as (r3 & H3 & H).
        assert (Hk3 : r_keep r3 = r_keep r2).
        { destruct c; try discriminate; try (injection H3 as <-; reflexivity).
          - injection H3 as <-. apply keep_append.
          - destruct it as [i|]; [|discriminate].
            apply obind_done in H3 as (r4 & H4 & H3). apply IH in H4.
            destruct (iter_empty i r4 && is_continue (r_last r4)).
            + apply IH in H3. cbn in H3. congruence.
            + injection H3 as <-. exact H4. }
        destruct it; [injection H as <-; rewrite keep_extracting; congruence|]. destruct x; [discriminate|]. injection H as <-. congruence.
      + apply Htx in H. exact H.
      + apply Htx in H. exact H.
      + unfold visit_null in H. destruct (r_route r) as [|p ps]; [discriminate|].
        destruct (en_process en (r_keep r) e n (pt_concl p)) as [c x]. injection H as <-. rewrite keep_extracting.
        destruct c; cbn; rewrite ?keep_append, ?keep_swap; reflexivity.
      + apply IH in H. exact H.
      + injection H as <-. apply keep_append.
      + eapply IH; exact H.
      + injection H as <-. reflexivity.
    - destruct (is_continue (r_last r)); [|injection H as <-; reflexivity].
      destruct (iter_left i r) as [|n rest]; [injection H as <-; reflexivity|].
      set (r1 := if bind then _ else _) in H.
      assert (Hk : r_keep r1 = r_keep r) by (unfold r1; destruct bind; reflexivity).
      clearbody r1. rewrite <- Hk.
      destruct (en_valid en n).
      + apply obind_done in H as (r2 & H2 & H). apply IH in H2. apply IH in H. cbn in H2. congruence.
      + apply IH in H. exact H.
  Qed.

  Lemma keep_call f c (r r' : st) a : r_keep r = g -> do_call en o f c r = Done (a, r') -> r_keep r' = g.
  Proof.
    intros Hr H. unfold do_call in H.
    assert (Hfin : forall c r a r', r_keep r = g -> finish en o f c r = Done (a, r') -> r_keep r' = g).
    { clear c r r' a Hr H. intros c r a r' Hr H. unfold finish in H.
      assert (Hconv : forall A (v : option A) mk, converted en o c v mk r = Done (a, r') -> r_keep r' = g).
      { intros A v mk. unfold converted. destruct v; intro G; injection G as _ <-; [exact Hr|rewrite keep_append; exact Hr]. }
      assert (Htd : r_keep (take_deny en r) = g).
      { unfold take_deny. destruct (r_deny r); cbn; rewrite ?keep_append; exact Hr. }
      destruct c; try (destruct (denied r || has_fatal r); [injection H as _ <-; exact Htd|]);
        try (eapply Hconv; exact H); try (injection H as _ <-; exact Hr).
      - destruct (has_fatal r); [injection H as _ <-; exact Hr|]. destruct (r_deny r); injection H as _ <-; exact Hr.
      - destruct (r_route r) as [|p ps]; [injection H as _ <-; exact Hr|].
        apply obind_done in H as ([v k] & Hx & H). cbn in H, Hx.
        assert (Hk : k = g).
        { unfold extract_any in Hx. apply obind_done in Hx as (b & Hb & Hx). injection Hx as _ <-.
          apply any_same_graph in Hb. cbn in Hb. congruence. }
        destruct v; injection H as _ <-; rewrite ?keep_append; exact Hk.
      - destruct (r_route r) as [|p ps]; [discriminate|].
        apply obind_done in H as ([v k] & Hx & H). cbn in H, Hx.
        assert (Hk : k = g) by (rewrite Hr in Hx; eapply raw_unchanged; [exact Hd|exact Hx]).
        destruct v; injection H as _ <-; rewrite ?keep_append; exact Hk. }
    destruct c; try (destruct (has_fatal r); [injection H as _ <-; exact Hr|];
      apply obind_done in H as (r1 & H1 & H); apply keep_run in H1; eapply Hfin; [|exact H]; congruence).
    - injection H as _ <-. destruct (r_fatal r); exact Hr.
    - injection H as _ <-. exact Hr.
  Qed.

  Lemma graph_unchanged f qs : forall (s s' : client gref graph) ps, r_keep (fst s) = g ->
    do_requests en o f qs s = Done (ps, s') -> r_keep (fst s') = g.
  Proof.
    induction qs as [|q qs IH]; intros s s' ps Hs H; cbn in H.
    - injection H as _ <-. exact Hs.
    - apply obind_done in H as ([p s1] & H1 & H). apply obind_done in H as ([ps2 s2] & H2 & H).
      injection H as _ <-. cbn in *. eapply IH; [|exact H2]. destruct s as [r hs], q as [c|h|h]; cbn in H1.
      + apply obind_done in H1 as ([a r2] & H1 & E). injection E as _ <-. cbn. eapply keep_call; eassumption.
      + apply obind_done in H1 as (m & _ & E). injection E as _ <-. exact Hs.
      + apply obind_done in H1 as (m & _ & E). injection E as _ <-. exact Hs.
  Qed.
End Unchanged.

(** a shared mapping with aliases inside and outside of the extracted node *)
Definition g_shared : graph :=
  [mkX KSequence (t' "!!seq") [] [] [Some 1; Some 2] None;
   mkX KScalar (t' "!!str") (t' "v") (t' "x") [] None;
   mkX KSequence (t' "!!seq") [] (t' "y") [Some 3; Some 4; Some 5] None;
   mkX KAlias [] (t' "x") [] [] (Some 1);
   mkX KSequence (t' "!!seq") [] (t' "z") [Some 3] None;
   mkX KAlias [] (t' "z") [] [] (Some 4)].
Lemma shared_direct : direct g_shared.
Proof.
  intros i c j c' Hi Hk Ha Hj. do 6 (destruct i as [|i]; [cbn in Hi; injection Hi as <-; cbn in *; try discriminate; injection Ha as <-; cbn in Hj; injection Hj as <-; discriminate|]).
  destruct i; discriminate.
Qed.
(** what is serialised in between: the first alias to the outer anchor is replaced by its target, later ones stay *)
Lemma shared_between : exists root anchor t, rt_transform 20 g_shared 2 = Done (root, anchor, t) /\ rt_graph t <> g_shared
  /\ nth_error (map x_content (rt_graph t)) 2 = Some [Some 1; Some 4; Some 5]
  /\ nth_error (map x_content (rt_graph t)) 4 = Some [Some 3].
Proof. eexists _, _, _. split; [vm_compute; reflexivity|]. split; [|split; reflexivity]. vm_compute. discriminate. Qed.
(** a node that contains itself cannot be extracted: the recursion never ends *)
Definition g_loop : graph :=
  [mkX KSequence (t' "!!seq") [] (t' "a") [Some 1] None; mkX KAlias [] (t' "a") [] [] (Some 0)].
Lemma raw_loop_forever marshal f : g_raw marshal f g_loop (Some 0) = NoFuel.
Proof.
  unfold g_raw, rt_transform. cbn [nth_error g_loop].
  assert (H : forall f t, (rt_graph t = g_update g_loop 0 (x_set_anchor []) \/ rt_graph t = g_update (g_update g_loop 0 (x_set_anchor [])) 0 (x_set_content 0 (Some 0))) ->
            rt_visit f (Some 0) t = NoFuel /\ rt_visit f (Some 1) t = NoFuel).
  { clear f. induction f as [|f IH]; intros t Ht; [split; reflexivity|].
    split.
    - cbn [rt_visit]. unfold g_at. destruct Ht as [E|E]; rewrite E; cbn.
      + rewrite ?E; cbn. destruct (existsb _ _); [|]; match goal with |- obind (rt_visit f (Some 1) ?z) _ = _ => destruct (IH z) as [_ ->]; [cbn; rewrite ?E; auto|reflexivity] end.
      + rewrite ?E; cbn. match goal with |- obind (rt_visit f (Some 0) ?z) _ = _ => destruct (IH z) as [-> _]; [cbn; rewrite ?E; auto|reflexivity] end.
    - cbn [rt_visit]. unfold g_at. destruct Ht as [E|E]; rewrite E; cbn; apply IH; auto. }
  destruct (H f (mkRawT (g_update g_loop 0 (x_set_anchor [])) [] []) (or_introl eq_refl)) as [-> _]. reflexivity.
Qed.
