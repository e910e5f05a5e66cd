(** The operational evaluation of AnyProofs.v agrees with the meaning of documents (DocSpec.v) under the
    conditions stated there. *)
From Coq Require Import String.
From Verif Require Import Base Schema Values Writer AnyBuilder ReadSpec DocSpec AnyProofs.
Local Open Scope nat_scope.

Local Opaque merge_text.

(** ** maps *)
Lemma teqb_refl (k : text) : text_eqb k k = true.
Proof. apply text_eqb_eq. reflexivity. Qed.
Lemma teqb_sym (a b : text) : text_eqb a b = text_eqb b a.
Proof.
  destruct (text_eqb a b) eqn:E1, (text_eqb b a) eqn:E2; try reflexivity.
  - apply text_eqb_eq in E1. subst. rewrite teqb_refl in E2. discriminate.
  - apply text_eqb_eq in E2. subst. rewrite teqb_refl in E1. discriminate.
Qed.

Lemma get_set k k' v m : map_get k (map_set k' v m) = if text_eqb k k' then Some v else map_get k m.
Proof.
  induction m as [|[q w] m IH]; cbn; [reflexivity|].
  destruct (text_eqb k' q) eqn:E; cbn.
  - apply text_eqb_eq in E. subst q. destruct (text_eqb k k') eqn:E2; reflexivity.
  - rewrite IH. destruct (text_eqb k q) eqn:E2; [|reflexivity].
    apply text_eqb_eq in E2. subst q. rewrite teqb_sym, E. reflexivity.
Qed.

Lemma get_merge k mm : forall m, map_get k (merge_maps m mm) = match map_get k m with Some v => Some v | None => map_get k mm end.
Proof.
  unfold merge_maps. induction mm as [|[q w] mm IH]; intros m; cbn [fold_left fst snd].
  - cbn. destruct (map_get k m); reflexivity.
  - rewrite IH. cbn [map_get]. destruct (map_get q m) as [x|] eqn:E.
    + destruct (text_eqb k q) eqn:E2; [|reflexivity]. apply text_eqb_eq in E2. subst q. rewrite E. reflexivity.
    + rewrite get_set. destruct (text_eqb k q) eqn:E2; [|reflexivity].
      apply text_eqb_eq in E2. subst q. rewrite E. reflexivity.
Qed.

(** C25 on the meaning of documents *)
Lemma dents_items o mg e m l m' e' : dents o mg e m l m' e' -> exists its, items_of o mg e l its e'
  /\ forall k, map_get k m' = match own k its with Some v => Some v | None =>
                                match map_get k m with Some v => Some v | None => merged k its end end.
Proof.
  induction 1 as [e m|e m q d v e1 l m' e2 Hk Hd Hl (its & IH1 & IH2)|e m d mm e1 l m' e2 Hd Hm Hl (its & IH1 & IH2)].
  - exists []. split; [constructor|]. intros k. cbn. destruct (map_get k m); reflexivity.
  - exists (Own q v :: its). split; [econstructor; eassumption|]. intros k. rewrite IH2, get_set. cbn.
    destruct (own k its); [reflexivity|]. destruct (text_eqb k q); reflexivity.
  - exists (Merged mm :: its). split; [econstructor; eassumption|]. intros k. rewrite IH2, get_merge. cbn.
    destruct (own k its); [reflexivity|]. destruct (map_get k m); [reflexivity|]. destruct (map_get k mm); reflexivity.
Qed.

Lemma items_dents o mg e l its e' : items_of o mg e l its e' -> forall m, exists m', dents o mg e m l m' e'
  /\ forall k, map_get k m' = match own k its with Some v => Some v | None =>
                                match map_get k m with Some v => Some v | None => merged k its end end.
Proof.
  induction 1 as [e|e q d v e1 l its e2 Hk Hd Hl IH|e d mm e1 l its e2 Hd Hm Hl IH]; intros m.
  - eexists. split; [constructor|]. intros k. cbn. destruct (map_get k m); reflexivity.
  - destruct (IH (map_set q v m)) as (m' & H' & E). exists m'. split; [econstructor; eassumption|].
    intros k. rewrite E, get_set. cbn.
    destruct (own k its); [reflexivity|]. destruct (text_eqb k q); reflexivity.
  - destruct (IH (merge_maps m mm)) as (m' & H' & E). exists m'. split; [eapply de_merge; eassumption|].
    intros k. rewrite E, get_merge. cbn.
    destruct (own k its); [reflexivity|]. destruct (map_get k m); [reflexivity|]. destruct (map_get k mm); reflexivity.
Qed.

Lemma mapping_lookup o mg e l v e' : dval o mg e (DMap l) v e' ->
  exists its m, v = VMap m /\ items_of o mg e l its e' /\ forall k, map_get k m = looked_up k its.
Proof.
  intros H. inversion H as [| | |e0 l0 m e1 Hd| |]; subst. destruct (dents_items _ _ _ _ _ _ _ Hd) as (its & H1 & H2).
  exists its, m. split; [reflexivity|]. split; [exact H1|]. intros k. rewrite H2. reflexivity.
Qed.

(** keys of maps stay distinct *)
Lemma set_keys k v m : NoDup (map fst m) -> NoDup (map fst (map_set k v m)) /\ (forall q, In q (map fst (map_set k v m)) <-> q = k \/ In q (map fst m)).
Proof.
  induction m as [|[q w] m IH]; cbn; intros H.
  - split; [repeat constructor; auto|]. intuition.
  - inversion H as [|? ? Hni Hnd]; subst. destruct (text_eqb k q) eqn:E; cbn.
    + apply text_eqb_eq in E. subst q. split; [constructor; assumption|]. intuition.
    + destruct (IH Hnd) as [I1 I2]. split.
      * constructor; [|exact I1]. rewrite I2. intros [->|Hi]; [rewrite teqb_refl in E; discriminate|contradiction].
      * intros x. rewrite I2. intuition.
Qed.
Lemma get_in k v m : map_get k m = Some v -> In (k, v) m.
Proof.
  induction m as [|[q w] m IH]; cbn; [discriminate|]. destruct (text_eqb k q) eqn:E; intros H.
  - apply text_eqb_eq in E. injection H as ->. subst. auto.
  - auto.
Qed.

(** ** evaluating below a merge key *)
Section Conditions.
  Context (o : oracle).

  Definition env_all (P : doc -> Prop) (e : oenv) : Prop := forall a d, oget a e = Some d -> P d.
  Lemma env_all_cons (P : doc -> Prop) a d (e : oenv) : P d -> env_all P e -> env_all P ((a, d) :: e).
  Proof. intros Hd He b x. cbn. destruct (text_eqb b a); [intros [= <-]; exact Hd|apply He]. Qed.

  Lemma keys_once_seq l : keys_once (DSeq l) -> Forall keys_once l.
  Proof. intros H. inversion H. assumption. Qed.
  Lemma keys_once_map l : keys_once (DMap l) -> NoDup (own_keys l) /\ Forall (fun kv => keys_once (snd kv)) l.
  Proof. intros H. inversion H; subst. split; [assumption|]. eapply Forall_impl; [|eassumption]. intros kv [_ Hv]. exact Hv. Qed.
  Lemma keys_once_anchor a d : keys_once (DAnchor a d) -> keys_once d.
  Proof. intros H. inversion H. assumption. Qed.

  Lemma oev_keys_once :
    (forall em e d r e', oev o em e d r e' -> env_all keys_once e -> keys_once d -> env_all keys_once e')
    /\ (forall em e l vs e', oevs o em e l vs e' -> env_all keys_once e -> Forall keys_once l -> env_all keys_once e')
    /\ (forall em e m l m' e', oents o em e m l m' e' -> env_all keys_once e -> Forall (fun kv => keys_once (snd kv)) l -> env_all keys_once e').
  Proof.
    apply oev_all; intros; try assumption.
    - apply H; [assumption|]. apply keys_once_seq. assumption.
    - apply H; [assumption|]. apply keys_once_map. assumption.
    - apply keys_once_anchor in H1. apply H; [|assumption]. apply env_all_cons; assumption.
    - apply H; [assumption|]. eapply H0. eassumption.
    - inversion H2; subst. apply H0; [|assumption]. apply H; assumption.
    - inversion H2; subst. apply H0; [|assumption]. apply H; assumption.
  Qed.

  (** outside of merge keys there is always a value *)
  Lemma oev_false_inl em e d r e' : oev o em e d r e' -> em = false -> exists v, r = inl v.
  Proof.
    intros H. induction H; intros ->; eauto.
  Qed.

  (** entries that are not the merge key keep the key's value *)
  Lemma oents_keeps_own e m l m' e' em : oents o em e m l m' e' -> em = false -> forall k v, map_get k m = Some v -> ~ In k (own_keys l) ->
    k <> merge_text -> map_get k m' = Some v.
  Proof.
    induction 1 as [|em e m q d r e1 l m' e2 Hd Hl IH]; intros Hem k v Hk Hn Hkm; [exact Hk|]. subst em.
    apply IH; try reflexivity; try assumption.
    - destruct r as [w|mm].
      + rewrite get_set. destruct (text_eqb k q) eqn:E; [|exact Hk]. apply text_eqb_eq in E. subst q.
        exfalso. apply Hn. unfold own_keys. cbn. destruct (text_eqb k merge_text) eqn:E; [apply text_eqb_eq in E; contradiction|].
        cbn. auto.
      + rewrite get_merge, Hk. reflexivity.
    - intros Hi. apply Hn. unfold own_keys in *. cbn. apply in_or_app. auto.
  Qed.

  Definition Q_ev (em : bool) (e : oenv) (d : doc) (r : value + list (text * value)) (e' : oenv) : Prop :=
    em = false -> env_all keys_once e -> keys_once d -> forall v, r = inl v ->
      (mapless v = true -> oev o true e d (inl v) e') /\ (forall m, v = VMap m -> (forall k w, map_get k m = Some w -> mapless w = true) -> oev o true e d (inr m) e').
  Definition Q_evs (em : bool) (e : oenv) (l : list doc) (vs : list value) (e' : oenv) : Prop :=
    em = false -> env_all keys_once e -> Forall keys_once l -> forallb mapless vs = true -> oevs o true e l vs e'.
  Definition Q_ents (em : bool) (e : oenv) (m : list (text * value)) (l : list (doc * doc)) (m' : list (text * value)) (e' : oenv) : Prop :=
    em = false -> env_all keys_once e -> Forall (fun kv => keys_once (snd kv)) l -> NoDup (own_keys l) ->
      (forall k w, map_get k m' = Some w -> mapless w = true) -> oents o true e m l m' e'.

  Lemma below_merge :
    (forall em e d r e', oev o em e d r e' -> Q_ev em e d r e')
    /\ (forall em e l vs e', oevs o em e l vs e' -> Q_evs em e l vs e')
    /\ (forall em e m l m' e', oents o em e m l m' e' -> Q_ents em e m l m' e').
  Proof.
    apply oev_all.
    - intros em e -> He Hd v [= <-]. split; [constructor|]. discriminate.
    - intros em e s v Hs -> He Hd v' [= <-]. split; [constructor; assumption|]. intros m Hm _. subst v.
      exfalso. revert Hs. unfold scalar_value. destruct (o_time o s); [discriminate|].
      destruct (sc_is_unsigned s); [destruct (sc_to_unsigned s 64); discriminate|].
      destruct (sc_is_integer s); [destruct (sc_to_integer s 64); discriminate|].
      destruct (sc_is_float s); [destruct (o_float o s 64); discriminate|].
      destruct (sc_to_boolean s); discriminate.
    - intros em e l vs e' Hev IH -> He Hd v [= <-]. apply keys_once_seq in Hd. split; [|discriminate].
      intros Hm. constructor. apply IH; auto.
    - intros em e l m e' Hev IH -> He Hd v [= <-]. apply keys_once_map in Hd as [Hnd Hd]. split; [discriminate|].
      intros m' [= <-] Hm. apply (oe_map o true). apply IH; auto.
    - intros em e a d r e' Hev IH -> He Hd v ->. apply keys_once_anchor in Hd.
      destruct (IH eq_refl (env_all_cons _ _ _ _ Hd He) Hd v eq_refl) as [I1 I2].
      split; [intros; constructor; auto|]. intros m Hm Hw. constructor. eapply I2; eauto.
    - intros em e a d r e' Hg Hev IH -> He _ v ->.
      destruct (IH eq_refl He (He _ _ Hg) v eq_refl) as [I1 I2].
      split; [intros; econstructor; eauto|]. intros m Hm Hw. econstructor; [exact Hg|]. eapply I2; eauto.
    - intros em e -> He Hl Hv. constructor.
    - intros em e d v e1 l vs e2 Hev IH1 Hevs IH2 -> He Hl Hv. cbn in Hv. apply andb_true_iff in Hv as [Hv1 Hv2].
      inversion Hl as [|? ? Hl1 Hl2]; subst. econstructor.
      + apply (IH1 eq_refl He Hl1 v eq_refl). exact Hv1.
      + apply IH2; auto. eapply (proj1 oev_keys_once); eauto.
    - intros em e m -> He Hl Hn Hw. constructor.
    - intros em e m k d r e1 l m' e2 Hev IH1 Hents IH2 -> He Hl Hn Hw.
      inversion Hl as [|? ? Hl1 Hl2]; subst. cbn in Hl1.
      assert (He1 : env_all keys_once e1) by (eapply (proj1 oev_keys_once); eauto).
      assert (Hn' : NoDup (own_keys l)).
      { unfold own_keys in Hn. cbn in Hn. destruct (text_eqb k merge_text); [exact Hn|]. inversion Hn. assumption. }
      econstructor; [|apply IH2; auto].
      cbn in *. destruct (text_eqb k merge_text) eqn:E.
      + exact Hev.
      + destruct (oev_false_inl _ _ _ _ _ Hev eq_refl) as [v ->].
        apply (IH1 eq_refl He Hl1 v eq_refl). apply (Hw k).
        eapply oents_keeps_own; [exact Hents|reflexivity| | |].
        * rewrite get_set, teqb_refl. reflexivity.
        * unfold own_keys in Hn. cbn in Hn. inversion Hn. assumption.
        * intros ->. rewrite teqb_refl in E. discriminate.
  Qed.
End Conditions.

(** ** aliases *)
Section Alias.
  Context (o : oracle) (inner : text -> bool) (content : text -> doc).
  Notation stable := (stable inner content).

  (** all names in the document are inner *)
  Definition inside (d : doc) : Prop := forall b, In b (names d) -> inner b = true.

  (** the environment is consistent: inner names stand for their content, contents are stable *)
  Definition cons (e : oenv) : Prop :=
    forall a d, oget a e = Some d -> stable d /\ inside d /\ (inner a = true -> d = content a).
  Definition le (e1 e2 : oenv) : Prop := forall a, inner a = true -> oget a e1 <> None -> oget a e2 <> None.
  Definition outer_same (e1 e2 : oenv) : Prop := forall a, inner a = false -> oget a e1 = oget a e2.

  Lemma le_refl e : le e e. Proof. intros a _ H. exact H. Qed.
  Lemma le_trans a b c : le a b -> le b c -> le a c.
  Proof. intros H1 H2 x Hx H. auto. Qed.

  Lemma stable_seq l : stable (DSeq l) -> Forall stable l.
  Proof. intros H. inversion H. assumption. Qed.
  Lemma stable_map l : stable (DMap l) -> Forall (fun kv => stable (snd kv)) l.
  Proof. intros H. inversion H; subst. eapply Forall_impl; [|eassumption]. intros kv [_ Hv]. exact Hv. Qed.
  Lemma stable_anchor a d : stable (DAnchor a d) -> stable d /\ inside d /\ (inner a = true -> d = content a).
  Proof. intros H. inversion H; subst. split; [assumption|]. assumption. Qed.
  Lemma inside_seq l : inside (DSeq l) -> Forall inside l.
  Proof.
    intros H. apply Forall_forall. intros d Hd b Hb. apply H. cbn. apply in_concat. exists (names d).
    split; [apply in_map, Hd|exact Hb].
  Qed.
  Lemma inside_map l : inside (DMap l) -> Forall (fun kv => inside (snd kv)) l.
  Proof.
    intros H. apply Forall_forall. intros d Hd b Hb. apply H. cbn. apply in_concat. exists (names (fst d) ++ names (snd d)).
    split; [apply (in_map (fun kv => names (fst kv) ++ names (snd kv))), Hd|]. apply in_or_app. auto.
  Qed.
  Lemma inside_anchor a d : inside (DAnchor a d) -> inner a = true /\ inside d.
  Proof. intros H. split; [apply H; cbn; auto|]. intros b Hb. apply H. cbn. auto. Qed.

  Lemma cons_bind a d e : stable d -> inside d -> (inner a = true -> d = content a) -> cons e -> cons ((a, d) :: e).
  Proof.
    intros H1 H2 H3 He b x. cbn. destruct (text_eqb b a) eqn:E; [|apply He].
    apply text_eqb_eq in E. subst b. intros [= <-]. auto.
  Qed.
  Lemma le_bind a d e1 e2 : le e1 e2 -> le e1 ((a, d) :: e2).
  Proof. intros H b Hb Hn. cbn. destruct (text_eqb b a); [discriminate|auto]. Qed.
  Lemma le_bind2 a d e1 e2 : le e1 e2 -> le ((a, d) :: e1) ((a, d) :: e2).
  Proof. intros H b Hb. cbn. destruct (text_eqb b a); [auto|apply H; exact Hb]. Qed.

  Definition good (d : doc) : Prop := stable d /\ inside d.

  (** evaluation again in a larger environment *)
  Definition R_any (e' : oenv) (f f' : oenv) : Prop := cons f' /\ le f f' /\ le e' f' /\ outer_same e' f'.

  Lemma replay :
    (forall em e d r f, oev o em e d r f -> cons e -> good d -> cons f /\ le e f /\ outer_same e f /\
       forall e', cons e' -> le e e' -> exists f', oev o em e' d r f' /\ R_any e' f f')
    /\ (forall em e l vs f, oevs o em e l vs f -> cons e -> Forall good l -> cons f /\ le e f /\ outer_same e f /\
       forall e', cons e' -> le e e' -> exists f', oevs o em e' l vs f' /\ R_any e' f f')
    /\ (forall em e m l m' f, oents o em e m l m' f -> cons e -> Forall (fun kv => good (snd kv)) l -> cons f /\ le e f /\ outer_same e f /\
       forall e', cons e' -> le e e' -> exists f', oents o em e' m l m' f' /\ R_any e' f f').
  Proof.
    assert (Hsame : forall e e', cons e' -> le e e' -> R_any e' e e').
    { intros e e' H1 H2. repeat split; auto; try apply H1; auto. all: try (eapply H1; eauto). apply le_refl. }
    assert (Hsame0 : forall e, cons e -> cons e /\ le e e /\ outer_same e e).
    { intros e H. split; [exact H|]. split; [apply le_refl|]. intros a _. reflexivity. }
    apply oev_all.
    - intros em e He Hd. destruct (Hsame0 e He) as (A1 & A2 & A3). split; [exact A1|]. split; [exact A2|]. split; [exact A3|].
      intros e' He' Hle. exists e'. split; [constructor|]. auto.
    - intros em e s v Hs He Hd. destruct (Hsame0 e He) as (A1 & A2 & A3). split; [exact A1|]. split; [exact A2|]. split; [exact A3|].
      intros e' He' Hle. exists e'. split; [constructor; assumption|]. auto.
    - intros em e l vs f Hev IH He [Hs Hi]. destruct IH as (A1 & A2 & A3 & A4); [exact He| |].
      { apply stable_seq in Hs. apply inside_seq in Hi. rewrite Forall_forall in *. split; auto. }
      split; [exact A1|]. split; [exact A2|]. split; [exact A3|].
      intros e' He' Hle. destruct (A4 e' He' Hle) as (f' & B1 & B2). exists f'. split; [constructor; exact B1|exact B2].
    - intros em e l m f Hev IH He [Hs Hi]. destruct IH as (A1 & A2 & A3 & A4); [exact He| |].
      { apply stable_map in Hs. apply inside_map in Hi. rewrite Forall_forall in *. split; auto. }
      split; [exact A1|]. split; [exact A2|]. split; [exact A3|].
      intros e' He' Hle. destruct (A4 e' He' Hle) as (f' & B1 & B2). exists f'. split; [constructor; exact B1|exact B2].
    - intros em e a d r f Hev IH He [Hs Hi]. apply stable_anchor in Hs as (Hs & Hid & Hc). apply inside_anchor in Hi as [Ha Hi].
      destruct IH as (A1 & A2 & A3 & A4); [apply cons_bind; assumption|split; assumption|].
      split; [exact A1|]. split; [eapply le_trans; [|exact A2]; apply le_bind, le_refl|]. split.
      { intros b Hb. rewrite <- A3 by exact Hb. cbn. destruct (text_eqb b a) eqn:E; [|reflexivity].
        apply text_eqb_eq in E. subst. congruence. }
      intros e' He' Hle. destruct (A4 ((a, d) :: e')) as (f' & B1 & B2 & B3 & B4 & B5).
      { apply cons_bind; assumption. } { apply le_bind2, Hle. }
      exists f'. split; [constructor; exact B1|]. split; [exact B2|]. split; [exact B3|]. split.
      { eapply le_trans; [|exact B4]. apply le_bind, le_refl. }
      intros b Hb. rewrite <- B5 by exact Hb. cbn. destruct (text_eqb b a) eqn:E; [|reflexivity].
      apply text_eqb_eq in E. subst. congruence.
    - intros em e a d r f Hg Hev IH He [Hs Hi].
      destruct (He a d Hg) as (C1 & C2 & C3).
      assert (Ha : inner a = true) by (apply Hi; cbn; auto).
      destruct IH as (A1 & A2 & A3 & A4); [exact He|split; assumption|].
      split; [exact A1|]. split; [exact A2|]. split; [exact A3|].
      intros e' He' Hle. destruct (A4 e' He' Hle) as (f' & B1 & B2). exists f'. split; [|exact B2].
      assert (Hn : oget a e' <> None) by (apply Hle; [exact Ha|congruence]).
      destruct (oget a e') as [d'|] eqn:E; [|congruence].
      destruct (He' a d' E) as (_ & _ & C3'). econstructor; [exact E|].
      rewrite (C3' Ha), <- (C3 Ha). exact B1.
    - intros em e He Hd. destruct (Hsame0 e He) as (A1 & A2 & A3). split; [exact A1|]. split; [exact A2|]. split; [exact A3|].
      intros e' He' Hle. exists e'. split; [constructor|]. auto.
    - intros em e d v e1 l vs e2 Hev IH1 Hevs IH2 He Hl. inversion Hl as [|? ? Hl1 Hl2]; subst.
      destruct IH1 as (A1 & A2 & A3 & A4); [exact He|exact Hl1|].
      destruct IH2 as (B1 & B2 & B3 & B4); [exact A1|exact Hl2|].
      split; [exact B1|]. split; [eapply le_trans; eassumption|]. split; [intros b Hb; rewrite A3, B3; auto|].
      intros e' He' Hle. destruct (A4 e' He' Hle) as (f1 & C1 & C2 & C3 & C4 & C5).
      destruct (B4 f1 C2 C3) as (f2 & D1 & D2 & D3 & D4 & D5).
      exists f2. split; [econstructor; eassumption|]. split; [exact D2|]. split; [exact D3|].
      split; [eapply le_trans; eassumption|]. intros b Hb. rewrite C5, D5; auto.
    - intros em e m He Hd. destruct (Hsame0 e He) as (A1 & A2 & A3). split; [exact A1|]. split; [exact A2|]. split; [exact A3|].
      intros e' He' Hle. exists e'. split; [constructor|]. auto.
    - intros em e m k d r e1 l m' e2 Hev IH1 Hevs IH2 He Hl. inversion Hl as [|? ? Hl1 Hl2]; subst.
      destruct IH1 as (A1 & A2 & A3 & A4); [exact He|exact Hl1|].
      destruct IH2 as (B1 & B2 & B3 & B4); [exact A1|exact Hl2|].
      split; [exact B1|]. split; [eapply le_trans; eassumption|]. split; [intros b Hb; rewrite A3, B3; auto|].
      intros e' He' Hle. destruct (A4 e' He' Hle) as (f1 & C1 & C2 & C3 & C4 & C5).
      destruct (B4 f1 C2 C3) as (f2 & D1 & D2 & D3 & D4 & D5).
      exists f2. split; [econstructor; eassumption|]. split; [exact D2|]. split; [exact D3|].
      split; [eapply le_trans; eassumption|]. intros b Hb. rewrite C5, D5; auto.
  Qed.

  (** the values of the specification and the documents of the evaluation *)
  Definition sim (e : env) (oe : oenv) : Prop :=
    cons oe /\ env_all keys_once oe /\
    forall a v, map_get a e = Some v -> exists c oe0 oe1, oget a oe = Some c
      /\ oev o false oe0 c (inl v) oe1 /\ cons oe0 /\ le oe0 oe.

  Lemma sim_le e oe oe' : sim e oe -> cons oe' -> env_all keys_once oe' -> le oe oe' -> outer_same oe oe' -> sim e oe'.
  Proof.
    intros (H1 & H2 & H3) G1 G2 G3 G4. split; [exact G1|]. split; [exact G2|]. intros a v Ha.
    destruct (H3 a v Ha) as (c & oe0 & oe1 & E1 & E2 & E3 & E4). destruct (inner a) eqn:Hi.
    - assert (Hn : oget a oe' <> None) by (apply G3; [exact Hi|congruence]).
      destruct (oget a oe') as [c'|] eqn:E; [|congruence].
      exists c', oe0, oe1. split; [reflexivity|].
      destruct (G1 a c' E) as (_ & _ & X1). destruct (H1 a c E1) as (_ & _ & X2).
      rewrite (X1 Hi), <- (X2 Hi). split; [exact E2|]. split; [exact E3|]. eapply le_trans; eassumption.
    - exists c, oe0, oe1. split; [rewrite <- G4 by exact Hi; exact E1|]. split; [exact E2|]. split; [exact E3|].
      eapply le_trans; eassumption.
  Qed.

  Definition S_val (e : env) (d : doc) (v : value) (e' : env) : Prop :=
    forall oe, sim e oe -> stable d -> keys_once d ->
      (exists oe', oev o false oe d (inl v) oe' /\ sim e' oe')
      /\ (inside d -> forall a, inner a = false -> map_get a e' = map_get a e).
  Definition S_vals (e : env) (l : list doc) (vs : list value) (e' : env) : Prop :=
    forall oe, sim e oe -> Forall stable l -> Forall keys_once l ->
      (exists oe', oevs o false oe l vs oe' /\ sim e' oe')
      /\ (Forall inside l -> forall a, inner a = false -> map_get a e' = map_get a e).
  Definition S_ents (e : env) (m : list (text * value)) (l : list (doc * doc)) (m' : list (text * value)) (e' : env) : Prop :=
    forall oe, sim e oe -> Forall (fun kv => stable (snd kv)) l -> Forall (fun kv => keys_once (snd kv)) l ->
      (exists oe', oents o false oe m l m' oe' /\ sim e' oe')
      /\ (Forall (fun kv => inside (snd kv)) l -> forall a, inner a = false -> map_get a e' = map_get a e).

  Lemma flat_get m k w : flat m -> map_get k m = Some w -> mapless w = true.
  Proof.
    intros H Hg. apply get_in in Hg. unfold flat in H. rewrite Forall_forall in H. exact (H _ Hg).
  Qed.

  Lemma meaning_evaluates :
    (forall e d v e', dval o flat e d v e' -> S_val e d v e')
    /\ (forall e l vs e', dvals o flat e l vs e' -> S_vals e l vs e')
    /\ (forall e m l m' e', dents o flat e m l m' e' -> S_ents e m l m' e').
  Proof.
    apply dval_all.
    - intros e oe Hs Hst Hk. split; [|reflexivity]. exists oe. split; [constructor|exact Hs].
    - intros e s v Hv oe Hs Hst Hk. split; [|reflexivity]. exists oe. split; [constructor; exact Hv|exact Hs].
    - intros e l vs e' Hd IH oe Hs Hst Hk. apply stable_seq in Hst. apply keys_once_seq in Hk.
      destruct (IH oe Hs Hst Hk) as ((oe' & H1 & H2) & H3). split.
      + exists oe'. split; [constructor; exact H1|exact H2].
      + intros Hi. apply H3. apply inside_seq. exact Hi.
    - intros e l m e' Hd IH oe Hs Hst Hk. apply stable_map in Hst. apply keys_once_map in Hk as [_ Hk].
      destruct (IH oe Hs Hst Hk) as ((oe' & H1 & H2) & H3). split.
      + exists oe'. split; [apply (oe_map o false); exact H1|exact H2].
      + intros Hi. apply H3. apply inside_map. exact Hi.
    - intros e a d v e' Hd IH oe Hs Hst Hk. apply keys_once_anchor in Hk. apply stable_anchor in Hst as (Hst & Hin & Hc).
      destruct (IH oe Hs Hst Hk) as ((oe1 & H1 & H2) & H3). split.
      2:{ intros Hi b Hb. apply inside_anchor in Hi as [Ha _]. cbn. destruct (text_eqb b a) eqn:E.
          { apply text_eqb_eq in E. congruence. } apply H3; assumption. }
      pose proof Hs as (Hcons & Hko & _).
      destruct (proj1 replay _ _ _ _ _ H1 Hcons (conj Hst Hin)) as (A1 & A2 & A3 & A4).
      destruct (A4 ((a, d) :: oe)) as (oe2 & B1 & B2 & B3 & B4 & B5).
      { apply cons_bind; assumption. } { apply le_bind, le_refl. }
      exists oe2. split; [constructor; exact B1|].
      assert (Hko2 : env_all keys_once oe2).
      { eapply (proj1 (oev_keys_once o)); [exact B1| |exact Hk]. apply env_all_cons; assumption. }
      split; [exact B2|]. split; [exact Hko2|]. intros b w Hb. cbn in Hb. destruct (text_eqb b a) eqn:E.
      + apply text_eqb_eq in E. subst b. injection Hb as <-.
        assert (Hg : oget a oe2 = Some d).
        { destruct (inner a) eqn:Ha.
          - assert (Hn : oget a oe2 <> None). { apply B4; [exact Ha|]. cbn. rewrite teqb_refl. discriminate. }
            destruct (oget a oe2) as [d'|] eqn:E; [|congruence]. destruct (B2 a d' E) as (_ & _ & X).
            rewrite (X Ha), (Hc eq_refl). reflexivity.
          - rewrite <- B5 by exact Ha. cbn. rewrite teqb_refl. reflexivity. }
        exists d, oe, oe1. split; [exact Hg|]. split; [exact H1|]. split; [exact Hcons|].
        eapply le_trans; [|exact B4]. apply le_bind, le_refl.
      + destruct H2 as (_ & _ & H2). destruct (inner b) eqn:Hb2.
        * destruct (H2 b w Hb) as (c & oe0 & oex & E1 & E2 & E3 & E4).
          assert (Hn : oget b oe2 <> None) by (apply B3; [exact Hb2|congruence]).
          destruct (oget b oe2) as [d'|] eqn:Eb; [|congruence]. destruct (B2 b d' Eb) as (_ & _ & X).
          destruct (A1 b c E1) as (_ & _ & X2).
          exists d', oe0, oex. split; [reflexivity|]. rewrite (X Hb2), <- (X2 Hb2). split; [exact E2|].
          split; [exact E3|]. eapply le_trans; eassumption.
        * rewrite (H3 Hin b Hb2) in Hb. destruct Hs as (_ & _ & Hs).
          destruct (Hs b w Hb) as (c & oe0 & oex & E1 & E2 & E3 & E4).
          exists c, oe0, oex. split.
          { rewrite <- B5 by exact Hb2. cbn. rewrite E. exact E1. }
          split; [exact E2|]. split; [exact E3|]. eapply le_trans; [exact E4|]. eapply le_trans; [|exact B4]. apply le_bind, le_refl.
    - intros e a v Hg oe Hs Hst Hk. split; [|reflexivity].
      pose proof Hs as (Hcons & Hko & Hv). destruct (Hv a v Hg) as (c & oe0 & oe1 & E1 & E2 & E3 & E4).
      destruct (Hcons a c E1) as (C1 & C2 & C3).
      destruct (proj1 replay _ _ _ _ _ E2 E3 (conj C1 C2)) as (A1 & A2 & A3 & A4).
      destruct (A4 oe Hcons E4) as (oe2 & B1 & B2 & B3 & B4 & B5).
      exists oe2. split; [econstructor; eassumption|]. eapply sim_le; eauto.
      eapply (proj1 (oev_keys_once o)); [exact B1|exact Hko|]. exact (Hko _ _ E1).
    - intros e oe Hs Hst Hk. split; [|reflexivity]. exists oe. split; [constructor|exact Hs].
    - intros e d v e1 l vs e2 Hd IH1 Hl IH2 oe Hs Hst Hk.
      inversion Hst as [|? ? Hst1 Hst2]; subst. inversion Hk as [|? ? Hk1 Hk2]; subst.
      destruct (IH1 oe Hs Hst1 Hk1) as ((oe1 & H1 & H2) & H3).
      destruct (IH2 oe1 H2 Hst2 Hk2) as ((oe2 & G1 & G2) & G3). split.
      + exists oe2. split; [econstructor; eassumption|exact G2].
      + intros Hi b Hb. inversion Hi; subst. rewrite G3, H3; auto.
    - intros e m oe Hs Hst Hk. split; [|reflexivity]. exists oe. split; [constructor|exact Hs].
    - intros e m k d v e1 l m' e2 Hkm Hd IH1 Hl IH2 oe Hs Hst Hk.
      inversion Hst as [|? ? Hst1 Hst2]; subst. inversion Hk as [|? ? Hk1 Hk2]; subst.
      destruct (IH1 oe Hs Hst1 Hk1) as ((oe1 & H1 & H2) & H3).
      destruct (IH2 oe1 H2 Hst2 Hk2) as ((oe2 & G1 & G2) & G3). split.
      + exists oe2. split; [|exact G2]. eapply (oen_cons _ _ _ _ _ _ (inl v)); [|exact G1].
        destruct (text_eqb k merge_text) eqn:E; [apply text_eqb_eq in E; contradiction|exact H1].
      + intros Hi b Hb. inversion Hi; subst. rewrite G3, H3; auto.
    - intros e m d mm e1 l m' e2 Hd IH1 Hmm Hl IH2 oe Hs Hst Hk.
      inversion Hst as [|? ? Hst1 Hst2]; subst. inversion Hk as [|? ? Hk1 Hk2]; subst.
      destruct (IH1 oe Hs Hst1 Hk1) as ((oe1 & H1 & H2) & H3).
      destruct (IH2 oe1 H2 Hst2 Hk2) as ((oe2 & G1 & G2) & G3). split.
      + exists oe2. split; [|exact G2]. eapply (oen_cons _ _ _ _ _ _ (inr mm)); [|exact G1].
        rewrite teqb_refl. cbn [orb].
        destruct (proj1 (below_merge o) _ _ _ _ _ H1 eq_refl (proj1 (proj2 Hs)) Hk1 _ eq_refl) as [_ X].
        apply X; [reflexivity|]. intros q w Hq. eapply flat_get; eassumption.
      + intros Hi b Hb. inversion Hi; subst. rewrite G3, H3; auto.
  Qed.

  Lemma sim_empty : sim [] [].
  Proof. split; [discriminate|]. split; discriminate. Qed.

  Theorem evaluates d v e' : dval o flat [] d v e' -> stable d -> keys_once d ->
    exists oe', oev o false [] d (inl v) oe'.
  Proof.
    intros Hd Hs Hk. destruct (proj1 meaning_evaluates _ _ _ _ Hd [] sim_empty Hs Hk) as ((oe' & H & _) & _). eauto.
  Qed.
End Alias.
