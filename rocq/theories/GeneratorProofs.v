(** Proofs about the generator helpers. *)
From Coq Require Import String ZifyBool ZifyN ZifyNat FinFun.
From Verif Require Import Base Schema SchemaSpec SchemaProofs Generator GeneratorSpec.
Local Open Scope N_scope.

Lemma teq a b : text_eqb a b = true <-> a = b. Proof. apply text_eqb_eq. Qed.
Lemma tneq a b : text_eqb a b = false <-> a <> b.
Proof. rewrite <- teq. destruct (text_eqb a b); split; congruence. Qed.
Lemma tdec (a b : text) : a = b \/ a <> b.
Proof. destruct (text_eqb a b) eqn:E; [left; apply teq; exact E|right; apply tneq; exact E]. Qed.

(** ** tags *)
Lemma split_cons sep s : exists x l, split_on sep s = x :: l.
Proof.
  induction s as [|c s (x & l & E)]; cbn; [eauto|]. rewrite E. destruct (c =? sep); eauto.
Qed.
Lemma split_parts s : parts s (split_on 44 s).
Proof.
  induction s as [|c s IH]; cbn; [constructor; auto|]. destruct (split_cons 44 s) as (x & l & E). rewrite E in *.
  destruct (c =? 44) eqn:Ec.
  - apply N.eqb_eq in Ec. subst c. apply (parts_more [] s); auto.
  - inversion IH as [y Hy|y s0 l0 Hy Hl]; subst.
    + constructor. intros [->|H]; [lia|auto].
    + apply (parts_more (c :: x) s0); [|exact Hl]. intros [->|H]; [lia|auto].
Qed.
Lemma split_prefix x s : ~ In 44 x -> split_on 44 (x ++ 44 :: s) = x :: split_on 44 s.
Proof.
  intros H. induction x as [|c x IH]; [reflexivity|]. cbn [app split_on]. rewrite IH by (intro; apply H; right; assumption).
  destruct (c =? 44) eqn:E; [|reflexivity]. exfalso. apply H. left. lia.
Qed.
Lemma split_none x : ~ In 44 x -> split_on 44 x = [x].
Proof.
  intros H. induction x as [|c x IH]; [reflexivity|]. cbn [split_on]. rewrite IH by (intro; apply H; right; assumption).
  destruct (c =? 44) eqn:E; [|reflexivity]. exfalso. apply H. left. lia.
Qed.
Lemma parts_split s l : parts s l -> split_on 44 s = l.
Proof. induction 1 as [x H|x s l H _ IH]; [apply split_none, H|]. rewrite split_prefix, IH by exact H. reflexivity. Qed.

Lemma tags_meaning s name opts : parts s (name :: opts) ->
  tg_name (parse_tags s) = name
  /\ (tg_omitempty (parse_tags s) = true <-> In (t' "omitempty") opts)
  /\ (tg_inline (parse_tags s) = true <-> In (t' "inline") opts)
  /\ (tg_omit (parse_tags s) = true <-> s = t' "-").
Proof.
  intros H. unfold parse_tags. rewrite (parts_split _ _ H).
  set (f := fun (t : ftags) (s : text) => _).
  assert (G : forall opts t0, tg_name (fold_left f opts t0) = tg_name t0 /\ tg_omit (fold_left f opts t0) = tg_omit t0
     /\ (tg_omitempty (fold_left f opts t0) = true <-> tg_omitempty t0 = true \/ In (t' "omitempty") opts)
     /\ (tg_inline (fold_left f opts t0) = true <-> tg_inline t0 = true \/ In (t' "inline") opts)).
  { clear. induction opts as [|o opts IH]; intros t0; [cbn; intuition|].
    cbn [fold_left]. destruct (IH (f t0 o)) as (A & B & C & D). rewrite A, B, C, D. clear A B C D IH. unfold f.
    destruct (text_eqb o (t' "omitempty")) eqn:E1; [apply teq in E1; subst o; cbn [tg_name tg_omit tg_omitempty tg_inline In]|].
    - repeat split; intros; intuition; discriminate.
    - apply tneq in E1. destruct (text_eqb o (t' "inline")) eqn:E2; [apply teq in E2; subst o|apply tneq in E2];
        cbn [tg_name tg_omit tg_omitempty tg_inline In]; repeat split; intros; intuition congruence. }
  destruct (G opts (mkTags name (match opts with [] => text_eqb name (t' "-") | _ => false end) false false)) as (A & B & C & D).
  rewrite A, B, C, D. cbn [tg_name tg_omit tg_omitempty tg_inline]. repeat split; try (intuition congruence).
  - destruct opts as [|o opts]; [|discriminate]. intros E. apply teq in E. subst. inversion H; subst; [reflexivity|].
    match goal with H : parts _ [] |- _ => inversion H end.
  - intros ->. inversion H as [x Hx|x s0 l Hx Hl E]; subst; [apply teq; reflexivity|].
    exfalso. destruct name as [|c [|d name]]; discriminate.
Qed.

(** ** fields *)
Definition fnames (l : list sfield) : list text := map sf_name l.
Lemma in_filter_names first second n :
  In n (fnames (filter (fun f => negb (existsb (fun g => text_eqb (sf_name f) (sf_name g)) second)) first)) <->
  In n (fnames first) /\ ~ In n (fnames second).
Proof.
  unfold fnames. rewrite in_map_iff. split.
  - intros (f & <- & H). apply filter_In in H as [H1 H2]. split; [apply in_map, H1|].
    intros H. apply in_map_iff in H as (g & E & Hg). apply negb_true_iff in H2.
    rewrite <- not_true_iff_false in H2. apply H2. apply existsb_exists. exists g. split; [exact Hg|]. apply teq. auto.
  - intros [H1 H2]. apply in_map_iff in H1 as (f & <- & Hf). exists f. split; [reflexivity|]. apply filter_In. split; [exact Hf|].
    apply negb_true_iff, not_true_iff_false. intros H. apply existsb_exists in H as (g & Hg & E). apply teq in E.
    apply H2. rewrite E. apply in_map, Hg.
Qed.
Lemma nodup_filter {A B} (f : A -> B) p l : NoDup (map f l) -> NoDup (map f (filter p l)).
Proof.
  induction l as [|x l IH]; cbn; [auto|]. intros H. inversion H; subst. destruct (p x); cbn; [|auto]. constructor; [|auto].
  intros G. apply in_map_iff in G as (y & E & Hy). apply filter_In in Hy as [Hy _].
  match goal with K : ~ In _ _ |- _ => apply K end. rewrite <- E. apply in_map, Hy.
Qed.
Lemma nodup_app {A} (a b : list A) : NoDup a -> NoDup b -> (forall x, In x a -> ~ In x b) -> NoDup (a ++ b).
Proof.
  induction a as [|x a IH]; intros Ha Hb Hd; [exact Hb|]. inversion Ha; subst. cbn. constructor.
  - rewrite in_app_iff. intros [H|H]; [contradiction|]. apply (Hd x); cbn; auto.
  - apply IH; auto. intros y Hy. apply Hd. right. exact Hy.
Qed.
Lemma merge_nodup a b : NoDup (fnames a) -> NoDup (fnames b) -> NoDup (fnames (merge_fields a b)).
Proof.
  intros Ha Hb. unfold merge_fields, fnames. rewrite map_app. apply nodup_app; [exact Hb|apply nodup_filter; exact Ha|].
  intros n Hn H. apply in_filter_names in H as [_ H]. contradiction.
Qed.
Lemma merge_names a b n : In n (fnames (merge_fields a b)) <-> In n (fnames a) \/ In n (fnames b).
Proof.
  unfold merge_fields. unfold fnames at 1. rewrite map_app, in_app_iff. fold (fnames b).
  change (In n (fnames b) \/ In n (fnames (filter (fun f => negb (existsb (fun g => text_eqb (sf_name f) (sf_name g)) b)) a)) <-> In n (fnames a) \/ In n (fnames b)).
  rewrite in_filter_names. split; [intuition|].
  intros [H|H]; [|auto]. destruct (in_dec (list_eq_dec N.eq_dec) n (fnames b)); auto.
Qed.
Lemma merge_second a b f : In f b -> In f (merge_fields a b).
Proof. intros H. unfold merge_fields. apply in_app_iff. auto. Qed.
Lemma merge_from a b f : In f (merge_fields a b) -> In f a \/ In f b.
Proof. unfold merge_fields. rewrite in_app_iff, filter_In. tauto. Qed.

Section Fields.
  Context (is_upper : rune -> bool) (inline_embedded : bool) (tt : ttable).
  Notation distinct_fields := (distinct_fields tt).
  Notation inl := (inlined inline_embedded).
  Notation exp := (exported is_upper).
  Notation sfs := (struct_fields is_upper inline_embedded tt).
  Notation col := (collect is_upper inline_embedded tt).

  (** the part of a struct that one of its inlined fields stands for *)
  Definition inlines (fields_of : nat -> fout (list sfield)) (x : sfield) (sub : list sfield) : Prop :=
    inl x = true /\ (exists fs, nth_error tt (behind_pointer tt (sf_type x)) = Some (TdStruct fs))
    /\ fields_of (behind_pointer tt (sf_type x)) = FDone sub.

  Lemma collect_spec rec l : forall emb own emb' own', col rec l emb own = FDone (emb', own') ->
    (forall j sub, rec j = FDone sub -> NoDup (fnames sub)) -> NoDup (fnames emb) ->
    NoDup (fnames emb')
    /\ (exists extra, own' = own ++ extra /\ (forall f, In f extra -> In f l /\ inl f = true) /\ (NoDup (fnames l) -> NoDup (fnames extra)))
    /\ (forall n, In n (fnames emb) -> In n (fnames emb'))
    /\ (forall x sub, In x l -> inlines rec x sub -> forall n, In n (fnames sub) -> In n (fnames emb'))
    /\ (forall f, In f emb' -> In f emb \/ exists x sub, In x l /\ inlines rec x sub /\ In f sub).
  Proof.
    induction l as [|x l IH]; intros emb own emb' own' H Hr He; cbn in H.
    - injection H as <- <-. split; [exact He|]. split; [exists []; rewrite app_nil_r; repeat split; cbn; [contradiction|contradiction|auto]|].
      repeat split; auto. intros x sub [].
    - destruct (inl x) eqn:Ei.
      + destruct (nth_error tt (behind_pointer tt (sf_type x))) as [[fs|e| |]|] eqn:Et.
        * destruct (rec (behind_pointer tt (sf_type x))) as [sub| |] eqn:Es; try discriminate.
          destruct (IH _ _ _ _ H Hr) as (A & (ex & B1 & B2 & B3) & C & D & E); [apply merge_nodup; [exact He|eapply Hr; exact Es]|].
          split; [exact A|]. split; [|split; [|split]].
          -- exists ex. split; [exact B1|]. split; [intros f Hf; destruct (B2 f Hf); cbn; auto|]. intros Hn. inversion Hn; auto.
          -- intros n Hn. apply C, merge_names. auto.
          -- intros y sub' [<-|Hy] Hs n Hn; [|eapply D; eassumption]. apply C, merge_names. right.
             destruct Hs as (_ & _ & Hs). rewrite Es in Hs. injection Hs as <-. exact Hn.
          -- intros f Hf. destruct (E f Hf) as [G|(y & s & Hy & Hs & Hf')]; [|right; exists y, s; cbn; auto].
             apply merge_from in G as [G|G]; [auto|]. right. exists x, sub. split; [left; reflexivity|]. split; [|exact G].
             split; [exact Ei|]. split; [eauto|exact Es].
        * destruct (IH _ _ _ _ H Hr He) as (A & (ex & B1 & B2 & B3) & C & D & E). split; [exact A|]. split; [|split; [|split]].
          -- exists ex. split; [exact B1|]. split; [intros f Hf; destruct (B2 f Hf); cbn; auto|]. intros Hn. inversion Hn; auto.
          -- exact C.
          -- intros y sub' [<-|Hy] Hs n Hn; [|eapply D; eassumption]. destruct Hs as (_ & (fs & Hs) & _). congruence.
          -- intros f Hf. destruct (E f Hf) as [G|(y & s & Hy & Hs & Hf')]; [auto|right; exists y, s; cbn; auto].
        * destruct (rune_in 46 (sf_name x) || exp x).
          -- destruct (IH _ _ _ _ H Hr He) as (A & (ex & B1 & B2 & B3) & C & D & E). split; [exact A|]. split; [|split; [|split]].
             ++ exists (x :: ex). split; [rewrite B1, <- app_assoc; reflexivity|]. split.
                ** intros f [<-|Hf]; [cbn; auto|]. destruct (B2 f Hf). cbn. auto.
                ** intros Hn. inversion Hn; subst. constructor; [|auto]. intros G. apply in_map_iff in G as (f & Ef & Hf).
                   destruct (B2 f Hf) as [Hf' _]. match goal with K : ~ In _ _ |- _ => apply K end. rewrite <- Ef. apply in_map, Hf'.
             ++ exact C.
             ++ intros y sub' [<-|Hy] Hs n Hn; [|eapply D; eassumption]. destruct Hs as (_ & (fs & Hs) & _). congruence.
             ++ intros f Hf. destruct (E f Hf) as [G|(y & s & Hy & Hs & Hf')]; [auto|right; exists y, s; cbn; auto].
          -- destruct (IH _ _ _ _ H Hr He) as (A & (ex & B1 & B2 & B3) & C & D & E). split; [exact A|]. split; [|split; [|split]].
             ++ exists ex. split; [exact B1|]. split; [intros f Hf; destruct (B2 f Hf); cbn; auto|]. intros Hn. inversion Hn; auto.
             ++ exact C.
             ++ intros y sub' [<-|Hy] Hs n Hn; [|eapply D; eassumption]. destruct Hs as (_ & (fs & Hs) & _). congruence.
             ++ intros f Hf. destruct (E f Hf) as [G|(y & s & Hy & Hs & Hf')]; [auto|right; exists y, s; cbn; auto].
        * destruct (IH _ _ _ _ H Hr He) as (A & (ex & B1 & B2 & B3) & C & D & E). split; [exact A|]. split; [|split; [|split]].
          -- exists ex. split; [exact B1|]. split; [intros f Hf; destruct (B2 f Hf); cbn; auto|]. intros Hn. inversion Hn; auto.
          -- exact C.
          -- intros y sub' [<-|Hy] Hs n Hn; [|eapply D; eassumption]. destruct Hs as (_ & (fs & Hs) & _). congruence.
          -- intros f Hf. destruct (E f Hf) as [G|(y & s & Hy & Hs & Hf')]; [auto|right; exists y, s; cbn; auto].
        * destruct (IH _ _ _ _ H Hr He) as (A & (ex & B1 & B2 & B3) & C & D & E). split; [exact A|]. split; [|split; [|split]].
          -- exists ex. split; [exact B1|]. split; [intros f Hf; destruct (B2 f Hf); cbn; auto|]. intros Hn. inversion Hn; auto.
          -- exact C.
          -- intros y sub' [<-|Hy] Hs n Hn; [|eapply D; eassumption]. destruct Hs as (_ & (fs & Hs) & _). congruence.
          -- intros f Hf. destruct (E f Hf) as [G|(y & s & Hy & Hs & Hf')]; [auto|right; exists y, s; cbn; auto].
      + destruct (IH _ _ _ _ H Hr He) as (A & (ex & B1 & B2 & B3) & C & D & E). split; [exact A|]. split; [|split; [|split]].
        * exists ex. split; [exact B1|]. split; [intros f Hf; destruct (B2 f Hf); cbn; auto|]. intros Hn. inversion Hn; auto.
        * exact C.
        * intros y sub' [<-|Hy] Hs n Hn; [|eapply D; eassumption]. destruct Hs as (Hs & _). congruence.
        * intros f Hf. destruct (E f Hf) as [G|(y & s & Hy & Hs & Hf')]; [auto|right; exists y, s; cbn; auto].
  Qed.

  Lemma fields_nodup : distinct_fields -> forall f i r, sfs f i = FDone r -> NoDup (fnames r).
  Proof.
    intros Hd. induction f as [|f IH]; intros i r H; [discriminate|]. cbn in H.
    destruct (nth_error tt i) as [[fs|e| |]|] eqn:Et; try discriminate.
    destruct (col (sfs f) fs [] []) as [[emb own]| |] eqn:Ec; try discriminate. injection H as <-.
    destruct (collect_spec _ _ _ _ _ _ Ec IH (NoDup_nil _)) as (A & (ex & B1 & B2 & B3) & _).
    pose proof (Hd _ _ Et) as Hn. cbn in B1. subst own. apply merge_nodup; [exact A|].
    unfold fnames. rewrite map_app. apply nodup_app; [apply B3, Hn|apply nodup_filter, Hn|].
    intros n H1 H2. apply in_map_iff in H1 as (g & E1 & G1). apply in_map_iff in H2 as (h & E2 & G2).
    apply filter_In in G2 as [G2 G3]. apply B2 in G1 as [G1 G4].
    assert (g = h); [|subst; rewrite G4 in G3; discriminate].
    revert G1 G2 Hn. rewrite <- E1 in E2. clear -E2. induction fs as [|x fs IH]; [contradiction|].
    cbn. intros [->|H1] [->|H2] Hn; inversion Hn as [|? ? Hx Hn']; subst; auto.
    - exfalso. apply Hx. unfold sfield in *. rewrite <- E2. apply in_map, H2.
    - exfalso. apply Hx. rewrite E2. apply in_map, H1.
  Qed.

  Lemma fields_complete f i fs r : distinct_fields -> nth_error tt i = Some (TdStruct fs) -> sfs (S f) i = FDone r ->
    (forall x, In x fs -> inl x = false -> exp x = true -> In x r)
    /\ (forall x sub g, In x fs -> inlines (sfs f) x sub -> In g sub -> exists h, In h r /\ sf_name h = sf_name g)
    /\ (forall h, In h r -> In h fs \/ exists x sub, In x fs /\ inlines (sfs f) x sub /\ In h sub).
  Proof.
    intros Hd Et H. cbn in H. rewrite Et in H.
    destruct (col (sfs f) fs [] []) as [[emb own]| |] eqn:Ec; try discriminate. injection H as <-.
    destruct (collect_spec _ _ _ _ _ _ Ec (fields_nodup Hd f) (NoDup_nil _)) as (A & (ex & B1 & B2 & B3) & C & D & E).
    cbn in B1. subst own. split; [|split].
    - intros x Hx Hi He. apply merge_second, in_app_iff. right. apply filter_In. rewrite Hi, He. auto.
    - intros x sub g Hx Hs Hg. pose proof (D x sub Hx Hs (sf_name g) (in_map _ _ _ Hg)) as Hn.
      assert (G : In (sf_name g) (fnames (merge_fields emb (ex ++ filter (fun x => negb (inl x) && exp x) fs)))) by (apply merge_names; auto).
      apply in_map_iff in G as (h & Eh & Hh). eauto.
    - intros h Hh. apply merge_from in Hh as [Hh|Hh]; [destruct (E h Hh) as [[]|G]; auto|].
      apply in_app_iff in Hh as [Hh|Hh]; [left; apply B2, Hh|]. apply filter_In in Hh. tauto.
  Qed.
  Lemma rune_in_spec c s : rune_in c s = true <-> In c s.
  Proof.
    unfold rune_in. rewrite existsb_exists. split; [intros (x & H & E); apply N.eqb_eq in E; subst; exact H|].
    intros H. exists c. split; [exact H|apply N.eqb_refl].
  Qed.
  Lemma inl_spread x : inl x = true <-> spread inline_embedded x.
  Proof.
    destruct (split_cons 44 (snd x)) as (name & opts & Es). pose proof (split_parts (snd x)) as Hp. rewrite Es in Hp.
    destruct (tags_meaning _ _ _ Hp) as (Hn & _ & Hi & _). unfold inlined, sf_tags, spread. rewrite Hn.
    assert (Hu : forall l, parts (snd x) l -> l = name :: opts) by (intros l H; apply parts_split in H; congruence).
    rewrite orb_true_iff, !andb_true_iff, Hi. split.
    - intros [[[H1 H2] H3]|H]; [left|right; eauto]. split; [exact H1|]. split; [exact H2|]. destruct name; [eauto|discriminate].
    - intros [(H1 & H2 & o & Ho)|(n & o & Ho & H)]; apply Hu in Ho; [left|right].
      + injection Ho as <- _. auto.
      + injection Ho as -> ->. exact H.
  Qed.
  Lemma inl_not x : inl x = false <-> ~ spread inline_embedded x.
  Proof. rewrite <- inl_spread. destruct (inl x); split; congruence. Qed.
  Lemma exp_public x : exp x = true <-> public is_upper x.
  Proof.
    unfold exported, public. destruct (sf_name x) as [|c r]; split; try discriminate.
    - intros (c & r & E & _). discriminate.
    - eauto.
    - intros (c' & r' & E & H). congruence.
  Qed.
  Lemma behind_points i j : points_to tt i j <-> behind_pointer tt i = j.
  Proof.
    unfold points_to, behind_pointer. destruct (nth_error tt i) as [[fs|e| |]|] eqn:E; split; intros H;
      try (destruct H as [H|[H _]]; congruence); try (right; split; [exact H|intros k; discriminate]).
    - destruct H as [H|[_ H]]; [congruence|]. exfalso. apply (H e). reflexivity.
    - left. congruence.
  Qed.
  Definition basic_kept (x : sfield) : bool :=
    inl x && match nth_error tt (behind_pointer tt (sf_type x)) with Some TdBasic => rune_in 46 (sf_name x) || exp x | _ => false end.
  Lemma collect_basic rec l : forall emb own emb' own', col rec l emb own = FDone (emb', own') -> own' = own ++ filter basic_kept l.
  Proof.
    induction l as [|x l IH]; intros emb ow emb' ow' H; cbn in H; [injection H as <- <-; symmetry; apply app_nil_r|].
    cbn [filter]. unfold basic_kept at 1. destruct (inl x); [|exact (IH _ _ _ _ H)].
    destruct (nth_error tt (behind_pointer tt (sf_type x))) as [[fs|e| |]|]; cbn [andb]; try exact (IH _ _ _ _ H).
    - destruct (rec (behind_pointer tt (sf_type x))); try discriminate. exact (IH _ _ _ _ H).
    - destruct (rune_in 46 (sf_name x) || exp x); [|exact (IH _ _ _ _ H)].
      rewrite (IH _ _ _ _ H), <- app_assoc. reflexivity.
  Qed.
  Lemma basic_kept_spec x : basic_kept x = true <-> spread inline_embedded x /\ (exists j, points_to tt (sf_type x) j
    /\ nth_error tt j = Some TdBasic) /\ (public is_upper x \/ In 46 (sf_name x)).
  Proof.
    unfold basic_kept. rewrite andb_true_iff, inl_spread. apply and_iff_compat_l. split.
    - intros H. destruct (nth_error tt (behind_pointer tt (sf_type x))) as [[fs|e| |]|] eqn:Eb; try discriminate. split.
      + exists (behind_pointer tt (sf_type x)). split; [apply behind_points; reflexivity|exact Eb].
      + apply orb_prop in H as [H|H]; [right; apply rune_in_spec; exact H|left; apply exp_public, H].
    - intros ((j & Hj & Hb) & H). apply behind_points in Hj. subst j. rewrite Hb. apply orb_true_iff.
      destruct H as [H|H]; [right; apply exp_public, H|left; apply rune_in_spec, H].
  Qed.
  (** everything about a result at once *)
  Lemma fields_spec : distinct_fields -> forall f i r, sfs f i = FDone r ->
    NoDup (fnames r) /\ (forall h, In h r -> candidate is_upper inline_embedded tt i h)
    /\ (forall g, candidate is_upper inline_embedded tt i g -> exists h, In h r /\ sf_name h = sf_name g)
    /\ (forall g, own is_upper inline_embedded tt i g -> In g r).
  Proof.
    intros Hd. induction f as [|f IH]; intros i r H; [discriminate|]. split; [eapply fields_nodup; eassumption|].
    pose proof H as H0. cbn in H. destruct (nth_error tt i) as [[fs|e| |]|] eqn:Et; try discriminate.
    destruct (fields_complete _ _ _ _ Hd Et H0) as (Hown & Hin & Hfrom).
    destruct (col (sfs f) fs [] []) as [[emb ow]| |] eqn:Ec; try discriminate. injection H as <-.
    pose proof (collect_basic _ _ _ _ _ _ Ec) as Eo. cbn in Eo. subst ow.
    destruct (collect_spec _ _ _ _ _ _ Ec (fun j sub E => fields_nodup Hd f j sub E) (NoDup_nil _)) as (_ & _ & _ & D & E).
    assert (Hsub : forall x j fs', In x fs -> inl x = true -> behind_pointer tt (sf_type x) = j -> nth_error tt j = Some (TdStruct fs') ->
       exists sub, inlines (sfs f) x sub).
    { clear -Ec. revert Ec. generalize (filter basic_kept fs). generalize (@nil sfield) at 1. generalize (@nil sfield).
      induction fs as [|y fs IH]; intros own0 emb0 own' Ec x j fs' Hx Hi Hb Hj; [destruct Hx|]. cbn in Ec. destruct Hx as [->|Hx].
      - rewrite Hi, Hb, Hj in Ec. destruct (sfs f j) as [sub| |] eqn:Es; try discriminate. exists sub. split; [exact Hi|]. rewrite Hb. eauto.
      - destruct (inl y); [|eapply IH; eassumption].
        destruct (nth_error tt (behind_pointer tt (sf_type y))) as [[ft|e| |]|]; try (eapply IH; eassumption).
        + destruct (sfs f (behind_pointer tt (sf_type y))); try discriminate. eapply IH; eassumption.
        + destruct (rune_in 46 (sf_name y) || exp y); eapply IH; eassumption. }
    assert (Ho : forall g, own is_upper inline_embedded tt i g <-> In g (filter basic_kept fs ++ filter (fun x => negb (inl x) && exp x) fs)).
    { intros g. rewrite in_app_iff, !filter_In, andb_true_iff, negb_true_iff, inl_not, exp_public, basic_kept_spec. unfold own. split.
      - intros (fs0 & Ht & Hx & Hc). rewrite Et in Ht. injection Ht as <-. tauto.
      - intros Hc. exists fs. tauto. }
    split; [|split].
    - intros h Hh. apply merge_from in Hh as [Hh|Hh].
      + destruct (E h Hh) as [[]|(x & sub & Hx & Hs & Hf)]. destruct Hs as (Hi & (fs' & Hj) & Hr).
        eapply cand_inner; [exact Et|exact Hx|apply inl_spread, Hi|apply behind_points; reflexivity|exact Hj|].
        destruct (IH _ _ Hr) as (_ & G & _). apply G, Hf.
      + apply cand_own, Ho, Hh.
    - intros g Hg. inversion Hg as [? ? Hg'|? fs0 x j fs' ? Ht Hx Hs Hj Hf Hc]; subst.
      + exists g. split; [|reflexivity]. apply merge_second, Ho, Hg'.
      + rewrite Et in Ht; injection Ht as <-. destruct (Hsub x j fs' Hx) as [sub Hsb]; [apply inl_spread, Hs|apply behind_points, Hj|exact Hf|].
        pose proof Hsb as (_ & _ & Hr). apply behind_points in Hj. rewrite Hj in Hr. destruct (IH _ _ Hr) as (_ & _ & G & _).
        destruct (G g Hc) as (h & Hh & Eh). destruct (Hin x sub h Hx Hsb Hh) as (k & Hk & Ek). exists k. split; [exact Hk|congruence].
    - intros g Hg. apply merge_second, Ho, Hg.
  Qed.

  (** a struct that is spread into itself *)
  Lemma fields_loop i x : nth_error tt i = Some (TdStruct [x]) -> spread inline_embedded x -> points_to tt (sf_type x) i ->
    forall f, sfs f i = FNoFuel.
  Proof.
    intros Et Hs Hp. induction f as [|f IH]; [reflexivity|]. cbn. rewrite Et. cbn. apply inl_spread in Hs. rewrite Hs.
    apply behind_points in Hp. rewrite Hp, Et, IH. reflexivity.
  Qed.
End Fields.

(** ** vendored packages *)
Lemma has_prefix_split p s : has_prefix p s = true -> s = p ++ skipn (length p) s.
Proof. unfold has_prefix. rewrite teq. intros H. rewrite <- H at 1. symmetry. apply firstn_skipn. Qed.
Lemma has_prefix_of p r : has_prefix p (p ++ r) = true.
Proof. unfold has_prefix. rewrite teq, firstn_app, Nat.sub_diag, firstn_all. apply app_nil_r. Qed.
Lemma skipn_prefix {A} (p r : list A) : skipn (length p) (p ++ r) = r.
Proof. rewrite skipn_app, skipn_all, Nat.sub_diag. reflexivity. Qed.
Lemma last_index_none p s : p <> [] -> last_index p s = None -> forall a r, s <> a ++ p ++ r.
Proof.
  intros Hp. induction s as [|c s IH]; cbn; intros H a r E.
  - destruct a; [destruct p; [congruence|discriminate]|discriminate].
  - destruct (last_index p s) eqn:El; [discriminate|]. destruct a as [|d a].
    + cbn in E. rewrite E, has_prefix_of in H. discriminate.
    + injection E as -> E. exact (IH eq_refl a r E).
Qed.
Lemma last_index_some p s q : p <> [] -> last_index p s = Some q ->
  exists a, s = a ++ p ++ q /\ forall b r, p ++ q = b ++ p ++ r -> b = [].
Proof.
  intros Hp. revert q. induction s as [|c s IH]; cbn; intros q H.
  - destruct p; [congruence|]. cbn in H. unfold has_prefix in H. cbn in H. discriminate.
  - destruct (last_index p s) as [q'|] eqn:El.
    + injection H as ->. destruct (IH q eq_refl) as (a & E & G). exists (c :: a). cbn. rewrite <- E. auto.
    + destruct (has_prefix p (c :: s)) eqn:Hh; [|discriminate]. injection H as H. exists [].
      apply has_prefix_split in Hh. rewrite H in Hh. split; [exact Hh|]. intros b r E. destruct b as [|d b]; [reflexivity|].
      exfalso. rewrite <- Hh in E. injection E as _ E. exact (last_index_none p s Hp El b r E).
Qed.
Lemma process_vendoring_spec path : unvendored path (process_vendoring path).
Proof.
  unfold process_vendoring. destruct (last_index (t' "/vendor/") path) as [q|] eqn:E.
  - left. apply last_index_some in E as (a & E & G); [eauto|discriminate].
  - right. split; [reflexivity|]. apply last_index_none; [discriminate|exact E].
Qed.
Lemma unvendored_fun path q r : unvendored path q -> unvendored path r -> q = r.
Proof.
  intros [(a & E & G)|[-> G]] [(b & E2 & G2)|[-> G2]]; try reflexivity.
  - rewrite E in E2. assert (Hab : forall a b q r, a ++ t' "/vendor/" ++ q = b ++ t' "/vendor/" ++ r ->
      (forall b r, t' "/vendor/" ++ q = b ++ t' "/vendor/" ++ r -> b = []) ->
      (forall b s, t' "/vendor/" ++ r = b ++ t' "/vendor/" ++ s -> b = []) -> q = r).
    { clear. induction a as [|x a IH]; intros b q r H Gq Gr.
      - pose proof (Gq b r H). subst b. cbn [app] in H. apply app_inv_head in H. exact H.
      - destruct b as [|y b].
        + pose proof (Gr (x :: a) q (eq_sym H)). discriminate.
        + injection H as _ H. eapply IH; eassumption. }
    eapply Hab; eassumption.
  - exfalso. exact (G2 _ _ E).
  - exfalso. exact (G _ _ E2).
Qed.

(** ** numbered names *)
Lemma numeral_inj base s n m : numeral base s n -> numeral base s m -> base <= 16 -> n = m.
Proof. intros H1 H2 Hb. pose proof (parse_digits_numeral base s n Hb H1). pose proof (parse_digits_numeral base s m Hb H2). congruence. Qed.
Lemma itoa_inj i j : itoa i = itoa j -> i = j.
Proof.
  unfold itoa. intros E. destruct (from_unsigned_spec (N.of_nat i)) as [H1 _]. destruct (from_unsigned_spec (N.of_nat j)) as [H2 _].
  rewrite E in H1. pose proof (numeral_inj _ _ _ _ H1 H2 ltac:(lia)). lia.
Qed.
Lemma itoa_nonempty i : itoa i <> [].
Proof.
  unfold itoa. destruct (from_unsigned_spec (N.of_nat i)) as [H1 _]. intros E. rewrite E in H1. inversion H1.
  match goal with H : ?a ++ [_] = [] |- _ => destruct a; discriminate end.
Qed.
Lemma numbered_inj name i j : numbered name i = numbered name j -> i = j.
Proof.
  destruct i as [|i], j as [|j]; cbn [numbered]; intros H; auto.
  - exfalso. rewrite <- (app_nil_r name) in H at 1. apply app_inv_head in H. symmetry in H. exact (itoa_nonempty _ H).
  - exfalso. rewrite <- (app_nil_r name) in H at 2. apply app_inv_head in H. exact (itoa_nonempty _ H).
  - apply app_inv_head in H. apply itoa_inj in H. exact H.
Qed.
Lemma first_free_not_taken taken name f : forall i a, first_free taken name f i = Some a ->
  taken a = false /\ exists j, (i <= j)%nat /\ a = numbered name j.
Proof.
  induction f as [|f IH]; intros i a H; [discriminate|]. cbn in H. destruct (taken (numbered name i)) eqn:E.
  - apply IH in H as (H & j & Hj & ->). split; [exact H|]. exists j. split; [lia|reflexivity].
  - injection H as <-. split; [exact E|]. exists i. auto.
Qed.
Lemma first_free_none taken name f : forall i, first_free taken name f i = None ->
  forall j, (i <= j < i + f)%nat -> taken (numbered name j) = true.
Proof.
  induction f as [|f IH]; intros i H j Hj; [lia|]. cbn in H. destruct (taken (numbered name i)) eqn:E; [|discriminate].
  destruct (Nat.eq_dec i j) as [->|]; [exact E|]. eapply IH; [exact H|lia].
Qed.
Lemma first_free_some taken name used i : (forall a, taken a = true -> In a used) ->
  exists a, first_free taken name (S (length used)) i = Some a.
Proof.
  intros Hu. destruct (first_free taken name (S (length used)) i) as [a|] eqn:E; [eauto|]. exfalso.
  pose proof (first_free_none _ _ _ _ E) as Ht.
  set (l := map (numbered name) (seq i (S (length used)))).
  assert (Hl : NoDup l).
  { apply FinFun.Injective_map_NoDup; [intros a b; apply numbered_inj|apply seq_NoDup]. }
  assert (Hi : incl l used).
  { intros a Ha. apply in_map_iff in Ha as (j & <- & Hj). apply in_seq in Hj. apply Hu, Ht. lia. }
  pose proof (NoDup_incl_length Hl Hi) as Hn. unfold l in Hn. rewrite map_length, seq_length in Hn. lia.
Qed.

Lemma lookup_in {A} k (m : list (text * A)) a : lookup k m = Some a -> In (k, a) m.
Proof.
  induction m as [|[q b] m IH]; [discriminate|]. cbn. destruct (text_eqb k q) eqn:E; [|auto].
  apply teq in E. intros H. injection H as ->. subst. auto.
Qed.
Lemma in_lookup {A} k a (m : list (text * A)) : NoDup (map fst m) -> In (k, a) m -> lookup k m = Some a.
Proof.
  induction m as [|[q b] m IH]; [contradiction|]. cbn. intros Hn [E|H]; inversion Hn; subst.
  - injection E as -> ->. rewrite text_eqb_refl. reflexivity.
  - destruct (text_eqb k q) eqn:E; [|auto]. apply teq in E. subst q. exfalso.
    match goal with K : ~ In _ _ |- _ => apply K end. apply (in_map fst) in H. exact H.
Qed.
Lemma lookup_none {A} k (m : list (text * A)) : lookup k m = None <-> ~ In k (map fst m).
Proof.
  induction m as [|[q b] m IH]; cbn; [intuition|]. destruct (text_eqb k q) eqn:E.
  - apply teq in E. subst. split; [discriminate|]. intros H. exfalso. auto.
  - apply tneq in E. rewrite IH. intuition.
Qed.
Lemma lookup_assign {A} k (a : A) m q : lookup q (assign k a m) = if text_eqb q k then Some a else lookup q m.
Proof.
  unfold assign. cbn. destruct (text_eqb q k) eqn:E; [reflexivity|]. apply tneq in E.
  induction m as [|[z b] m IH]; [reflexivity|]. cbn. destruct (text_eqb k z) eqn:E2; cbn.
  - apply teq in E2. subst z. rewrite IH. destruct (text_eqb q k) eqn:E3; [apply teq in E3; congruence|reflexivity].
  - destruct (text_eqb q z); [reflexivity|exact IH].
Qed.
Lemma assign_nodup {A} k (a : A) m : NoDup (map fst m) -> NoDup (map fst (assign k a m)).
Proof.
  intros H. unfold assign. cbn. constructor; [|apply nodup_filter; exact H].
  intros G. apply in_map_iff in G as ([q b] & E & G). apply filter_In in G as [_ G]. cbn in *. subst. rewrite text_eqb_refl in G. discriminate.
Qed.

(** ** import aliases *)
Definition good_imports (im : imports) : Prop :=
  NoDup (map fst im) /\ NoDup (map snd im) /\ Forall (fun e => snd e <> []) im.

Lemma numbered_nonempty name i : name <> [] -> numbered name i <> [].
Proof. intros H. destruct i; cbn; [exact H|]. destruct name; [congruence|discriminate]. Qed.
Lemma fix_alias_nonempty s : s <> [] -> fix_alias s <> [].
Proof.
  intros H. unfold fix_alias. destruct s as [|c s]; [congruence|]. cbn [map].
  destruct ((if (c =? 46) || (c =? 45) then 95 else c) =? 118); discriminate.
Qed.
Lemma until_slash_nonempty s : drop_slashes s <> [] -> until_slash (drop_slashes s) <> [].
Proof.
  induction s as [|c s IH]; [intros H _; exact (H eq_refl)|].
  cbn [drop_slashes]. destruct (c =? 47) eqn:E; [exact IH|]. intros _. cbn [until_slash]. rewrite E. discriminate.
Qed.
Lemma base_name_nonempty p : base_name p <> [].
Proof.
  unfold base_name. destruct p as [|c p]; [discriminate|]. pose proof (until_slash_nonempty (rev (c :: p))) as H.
  destruct (drop_slashes (rev (c :: p))) as [|x r]; [discriminate|]. specialize (H ltac:(discriminate)).
  intros E. apply (f_equal (@rev N)) in E. rewrite rev_involutive in E. auto.
Qed.

Lemma pkg_alias_total path im : good_imports im -> exists a im', pkg_alias path im = Some (a, im')
  /\ good_imports im' /\ lookup (process_vendoring path) im' = Some a /\ a <> []
  /\ (forall q b, lookup q im = Some b -> lookup q im' = Some b).
Proof.
  intros (H1 & H2 & H3). unfold pkg_alias. set (p := process_vendoring path).
  assert (Hnew : lookup p im = None ->
     exists a, first_free (fun a => existsb (fun e => text_eqb a (snd e)) im) (fix_alias (base_name p)) (S (length im)) 0 = Some a
       /\ good_imports (assign p a im) /\ lookup p (assign p a im) = Some a /\ a <> []
       /\ (forall q b, lookup q im = Some b -> lookup q (assign p a im) = Some b)).
  { intros Hp. destruct (first_free_some (fun a => existsb (fun e => text_eqb a (snd e)) im) (fix_alias (base_name p)) (map snd im) 0) as [a Ha].
    { intros a Ha. apply existsb_exists in Ha as (e & He & E). apply teq in E. subst. apply in_map, He. }
    rewrite map_length in Ha. exists a. split; [exact Ha|]. apply first_free_not_taken in Ha as (Ht & j & _ & Hj).
    assert (Hne : a <> []) by (subst a; apply numbered_nonempty, fix_alias_nonempty, base_name_nonempty).
    split; [|split; [rewrite lookup_assign, text_eqb_refl; reflexivity|split; [exact Hne|]]].
    - split; [apply assign_nodup, H1|]. split.
      + unfold assign. cbn. constructor.
        * intros G. apply in_map_iff in G as (e & E & G). apply filter_In in G as [G _].
          apply not_true_iff_false in Ht. apply Ht. apply existsb_exists. exists e. split; [exact G|]. apply teq. auto.
        * apply nodup_filter, H2.
      + constructor; [exact Hne|]. apply Forall_forall. intros e He. apply filter_In in He as [He _].
        rewrite Forall_forall in H3. apply H3, He.
    - intros q b Hq. rewrite lookup_assign. destruct (text_eqb q p) eqn:E; [|exact Hq]. apply teq in E. congruence. }
  destruct (lookup p im) as [[|c a]|] eqn:El.
  - exfalso. apply lookup_in in El. rewrite Forall_forall in H3. exact (H3 _ El eq_refl).
  - exists (c :: a), im. repeat split; auto. discriminate.
  - destruct (Hnew eq_refl) as (a & Ha & Hrest). exists a, (assign p a im). rewrite Ha. split; [reflexivity|exact Hrest].
Qed.

Lemma pkg_aliases_total paths : forall im, good_imports im -> exists l im', pkg_aliases paths im = Some (l, im')
  /\ good_imports im' /\ (forall q b, lookup q im = Some b -> lookup q im' = Some b)
  /\ Forall2 (fun p a => lookup (process_vendoring p) im' = Some a) paths l.
Proof.
  induction paths as [|p paths IH]; intros im Hg; cbn.
  - exists [], im. repeat split; auto; apply Hg.
  - destruct (pkg_alias_total p im Hg) as (a & im1 & -> & Hg1 & Hl & _ & Hk).
    destruct (IH im1 Hg1) as (l & im2 & -> & Hg2 & Hk2 & Hf). exists (a :: l), im2. repeat split; auto; try apply Hg2.
Qed.

Lemma alias_inj im p q a : good_imports im -> lookup p im = Some a -> lookup q im = Some a -> p = q.
Proof.
  intros (_ & H & _) Hp Hq. apply lookup_in in Hp, Hq. revert Hp Hq H.
  induction im as [|[x b] im IH]; cbn; [contradiction|]. intros [E1|H1] [E2|H2] Hn; inversion Hn as [|? ? Hx Hn']; subst.
  - congruence.
  - injection E1 as -> ->. exfalso. apply Hx. apply (in_map snd) in H2. exact H2.
  - injection E2 as -> ->. exfalso. apply Hx. apply (in_map snd) in H1. exact H1.
  - auto.
Qed.

Lemma aliases_unique paths im : good_imports im ->
  exists l im', pkg_aliases paths im = Some (l, im') /\
  forall i j p q a b, nth_error paths i = Some p -> nth_error paths j = Some q ->
    nth_error l i = Some a -> nth_error l j = Some b ->
    (a = b <-> exists r, unvendored p r /\ unvendored q r)
    /\ (forall r c, lookup r im = Some c -> (a = c <-> unvendored p r)).
Proof.
  intros Hg. destruct (pkg_aliases_total paths im Hg) as (l & im' & E & Hg' & Hk & Hf). exists l, im'. split; [exact E|].
  assert (Hn : forall i p a, nth_error paths i = Some p -> nth_error l i = Some a -> lookup (process_vendoring p) im' = Some a).
  { clear -Hf. induction Hf as [|p a ps l H _ IH]; intros [|i] q b Hq Hb; try discriminate; cbn in *; [congruence|eauto]. }
  intros i j p q a b Hp Hq Ha Hb. pose proof (Hn _ _ _ Hp Ha) as A. pose proof (Hn _ _ _ Hq Hb) as B. split.
  - split.
    + intros <-. exists (process_vendoring p). split; [apply process_vendoring_spec|].
      rewrite (alias_inj _ _ _ _ Hg' A B). apply process_vendoring_spec.
    + intros (r & Gp & Gq). rewrite (unvendored_fun _ _ _ (process_vendoring_spec p) Gp) in A.
      rewrite (unvendored_fun _ _ _ (process_vendoring_spec q) Gq) in B. congruence.
  - intros r c Hr. apply Hk in Hr. split.
    + intros <-. rewrite <- (alias_inj _ _ _ _ Hg' A Hr). apply process_vendoring_spec.
    + intros G. rewrite (unvendored_fun _ _ _ (process_vendoring_spec p) G) in A. congruence.
Qed.

Lemma yayamls_imports_good : good_imports yayamls_imports.
Proof.
  split; [|split]; [| |repeat constructor; discriminate].
  - repeat constructor; cbn; intuition discriminate.
  - repeat constructor; cbn; intuition discriminate.
Qed.
Lemma goyaml_imports_good : good_imports goyaml_imports.
Proof.
  split; [|split]; [| |repeat constructor; discriminate].
  - repeat constructor; cbn; intuition discriminate.
  - repeat constructor; cbn; intuition discriminate.
Qed.

(** ** function names *)
Lemma has_prefix_app p s : has_prefix p s = true <-> exists r, s = p ++ r.
Proof.
  unfold has_prefix. rewrite teq. split.
  - intros H. exists (skipn (length p) s). rewrite <- H at 1. symmetry. apply firstn_skipn.
  - intros [r ->]. rewrite firstn_app, Nat.sub_diag, firstn_all. cbn. apply app_nil_r.
Qed.

Section FunctionNames.
  Context {T : Type} (T_eqb : T -> T -> bool) (safe_name : T -> list N).
  Hypothesis T_eqb_eq : forall a b, T_eqb a b = true <-> a = b.
  Notation wish := (wished safe_name).
  Notation fname := (function_name T_eqb safe_name).

  Lemma T_eqb_neq a b : T_eqb a b = false <-> a <> b.
  Proof. rewrite <- T_eqb_eq. destruct (T_eqb a b); split; congruence. Qed.
  Lemma wished_purpose p q t u n : has_prefix (wish p t) n = true -> has_prefix (wish q u) n = true -> p = q.
  Proof.
    rewrite !has_prefix_app. intros [a ->] [b E]. apply (f_equal (fun l => nth_error l 5)) in E.
    destruct p, q; cbn in E; congruence.
  Qed.
  Lemma wished_self p t : has_prefix (wish p t) (wish p t) = true.
  Proof. apply has_prefix_app. exists []. rewrite app_nil_r. reflexivity. Qed.

  Record good_names (st : func_names) : Prop := {
    gn_one : forall p t n m, lookup n st = Some t -> lookup m st = Some t ->
      has_prefix (wish p t) n = true -> has_prefix (wish p t) m = true -> n = m;
    gn_other : forall p t n, lookup n st = Some t -> has_prefix (wish p t) n = true -> n <> wish p t ->
      exists u, lookup (wish p t) st = Some u /\ u <> t }.

  Lemma good_empty : good_names [].
  Proof. constructor; discriminate. Qed.

  Lemma name_step p t st n st' : good_names st -> fname p t st n st' ->
    good_names st' /\ lookup n st' = Some t /\ has_prefix (wish p t) n = true
    /\ (forall m u, lookup m st = Some u -> lookup m st' = Some u).
  Proof.
    intros Hg H. assert (Hnew : forall n, lookup n st = None -> has_prefix (wish p t) n = true ->
        (forall m, lookup m st = Some t -> has_prefix (wish p t) m = true -> False) ->
        (n <> wish p t -> exists u, lookup (wish p t) st = Some u /\ u <> t) ->
        good_names (assign n t st) /\ lookup n (assign n t st) = Some t /\ has_prefix (wish p t) n = true
        /\ (forall m u, lookup m st = Some u -> lookup m (assign n t st) = Some u)).
    { clear n st' H. intros n Hn Hp Ho Hw.
      assert (Hk : forall m u, lookup m st = Some u -> lookup m (assign n t st) = Some u).
      { intros m u Hm. rewrite lookup_assign. destruct (text_eqb m n) eqn:E; [apply teq in E; congruence|exact Hm]. }
      split; [|split; [rewrite lookup_assign, text_eqb_refl; reflexivity|split; [exact Hp|exact Hk]]].
      constructor.
      - intros q u a b Ha Hb Pa Pb. rewrite lookup_assign in Ha, Hb.
        destruct (text_eqb a n) eqn:Ea, (text_eqb b n) eqn:Eb.
        + apply teq in Ea, Eb. congruence.
        + apply teq in Ea. subst a. injection Ha as <-. assert (q = p) by exact (wished_purpose _ _ _ _ _ Pa Hp). subst q.
          exfalso. eapply Ho; eassumption.
        + apply teq in Eb. subst b. injection Hb as <-. assert (q = p) by exact (wished_purpose _ _ _ _ _ Pb Hp). subst q.
          exfalso. eapply Ho; eassumption.
        + eapply (gn_one _ Hg); eassumption.
      - intros q u a Ha Pa Na. rewrite lookup_assign in Ha. destruct (text_eqb a n) eqn:Ea.
        + apply teq in Ea. subst a. injection Ha as <-. assert (q = p) by exact (wished_purpose _ _ _ _ _ Pa Hp). subst q.
          destruct (Hw Na) as (v & Hv & Hne). exists v. auto.
        + destruct (gn_other _ Hg q u a Ha Pa Na) as (v & Hv & Hne). exists v. auto. }
    destruct H as [st Hl|st u n v H1 H2 H3 H4 H5|st u n H1 H2 H3 H4].
    - destruct (lookup (wish p t) st) as [u|] eqn:El.
      + apply T_eqb_eq in Hl. subst u.
        assert (Hsame : forall m, lookup m (assign (wish p t) t st) = lookup m st).
        { intros m. rewrite lookup_assign. destruct (text_eqb m (wish p t)) eqn:E; [|reflexivity]. apply teq in E. congruence. }
        split; [|rewrite Hsame; split; [exact El|split; [apply wished_self|intros m u Hm; rewrite Hsame; exact Hm]]].
        constructor.
        * intros q u a b. rewrite !Hsame. apply (gn_one _ Hg).
        * intros q u a. rewrite !Hsame. apply (gn_other _ Hg).
      + apply Hnew; [exact El|apply wished_self| |congruence].
        intros m Hm Pm. destruct (tdec m (wish p t)) as [->|Hne]; [congruence|].
        destruct (gn_other _ Hg p t m Hm Pm Hne) as (u & Hu & _). congruence.
    - apply T_eqb_eq in H4. subst v. auto.
    - apply T_eqb_neq in H2. apply first_free_not_taken in H4 as (Hf & j & Hj & ->).
      apply Hnew.
      + destruct (lookup (numbered (wish p t) j) st); [discriminate|reflexivity].
      + apply has_prefix_app. destruct j as [|j]; [lia|]. eexists. reflexivity.
      + intros m Hm Pm. specialize (H3 m t Hm Pm). apply T_eqb_neq in H3. congruence.
      + intros _. eauto.
  Qed.

  Lemma name_total p t st : NoDup (map fst st) -> exists n st', fname p t st n st' /\ NoDup (map fst st').
  Proof.
    intros Hn. destruct (lookup (wish p t) st) as [u|] eqn:El.
    - destruct (T_eqb t u) eqn:Eu.
      + eexists _, _. split; [apply fn_direct; rewrite El; exact Eu|apply assign_nodup, Hn].
      + destruct (existsb (fun e => T_eqb t (snd e) && has_prefix (wish p t) (fst e)) st) eqn:Ex.
        * apply existsb_exists in Ex as ([n v] & Hin & E). apply andb_prop in E as [E1 E2]. cbn in *.
          exists n, st. split; [|exact Hn]. eapply fn_saved; try eassumption. apply in_lookup; assumption.
        * destruct (first_free_some (fun n => match lookup n st with Some _ => true | None => false end) (wish p t) (map fst st) 1) as [n Hf].
          { intros a Ha. destruct (lookup a st) eqn:E; [|discriminate]. apply lookup_in in E. apply (in_map fst) in E. exact E. }
          rewrite map_length in Hf. eexists _, _. split; [eapply fn_fresh; try eassumption|apply assign_nodup, Hn].
          intros m v Hm Pm. destruct (T_eqb t v) eqn:E; [|reflexivity]. exfalso. apply not_true_iff_false in Ex. apply Ex.
          apply existsb_exists. exists (m, v). split; [apply lookup_in, Hm|]. cbn. rewrite E. exact Pm.
    - eexists _, _. split; [apply fn_direct; rewrite El; exact I|apply assign_nodup, Hn].
  Qed.

  Lemma names_total reqs : forall st, NoDup (map fst st) -> exists ns st', function_names T_eqb safe_name reqs st ns st'.
  Proof.
    induction reqs as [|[p t] reqs IH]; intros st Hn; [eexists _, _; constructor|].
    destruct (name_total p t st Hn) as (n & st1 & H1 & Hn1). destruct (IH st1 Hn1) as (ns & st2 & H2).
    eexists _, _. econstructor; eassumption.
  Qed.

  Lemma names_spec reqs : forall st ns st', good_names st -> function_names T_eqb safe_name reqs st ns st' ->
    good_names st' /\ (forall m u, lookup m st = Some u -> lookup m st' = Some u)
    /\ Forall2 (fun pt n => lookup n st' = Some (snd pt) /\ has_prefix (wish (fst pt) (snd pt)) n = true) reqs ns.
  Proof.
    induction reqs as [|[p t] reqs IH]; intros st ns st' Hg H; inversion H as [|? ? ? ? n st1 ns1 ? H1 H2]; subst.
    - auto.
    - destruct (name_step _ _ _ _ _ Hg H1) as (Hg1 & Hl & Hp & Hk). destruct (IH _ _ _ Hg1 H2) as (Hg2 & Hk2 & Hf).
      split; [exact Hg2|]. split; [auto|]. constructor; [|exact Hf]. cbn. auto.
  Qed.

  Lemma names_unique reqs ns st : function_names T_eqb safe_name reqs [] ns st ->
    forall i j p t q u a b, nth_error reqs i = Some (p, t) -> nth_error reqs j = Some (q, u) ->
      nth_error ns i = Some a -> nth_error ns j = Some b ->
      (a = b <-> p = q /\ t = u).
  Proof.
    intros H. destruct (names_spec _ _ _ _ good_empty H) as (Hg & _ & Hf).
    assert (Hn : forall i p t a, nth_error reqs i = Some (p, t) -> nth_error ns i = Some a ->
              lookup a st = Some t /\ has_prefix (wish p t) a = true).
    { clear -Hf. induction Hf as [|[p t] n reqs ns H _ IH]; intros [|i] q u a Hq Ha; try discriminate; cbn in *; [|eauto].
      injection Hq as -> ->. injection Ha as ->. exact H. }
    intros i j p t q u a b Hi Hj Ha Hb. destruct (Hn _ _ _ _ Hi Ha) as [A1 A2]. destruct (Hn _ _ _ _ Hj Hb) as [B1 B2]. split.
    - intros <-. split; [eapply wished_purpose; eassumption|congruence].
    - intros [<- <-]. eapply (gn_one _ Hg); eassumption.
  Qed.

  (** ** the work list *)
  Context (deps : T -> option (list T)).
  Lemma mem_In t l : mem T_eqb t l = true <-> In t l.
  Proof.
    unfold mem. rewrite existsb_exists. split.
    - intros (x & H & E). apply T_eqb_eq in E. subst. exact H.
    - intros H. exists t. split; [exact H|]. apply T_eqb_eq. reflexivity.
  Qed.
  Lemma add_spec gen l : forall pend, (forall x, In x pend -> ~ In x gen) -> NoDup pend ->
    let pend' := fold_left (add_type T_eqb gen) l pend in
    NoDup pend' /\ (forall x, In x pend' -> ~ In x gen)
    /\ (forall x, In x pend' <-> In x pend \/ (In x l /\ ~ In x gen)).
  Proof.
    induction l as [|y l IH]; intros pend Hd Hn; cbn [fold_left]; cbv zeta.
    - repeat split; auto; cbn; intuition.
    - assert (Hs : NoDup (add_type T_eqb gen pend y) /\ (forall x, In x (add_type T_eqb gen pend y) -> ~ In x gen)
               /\ (forall x, In x (add_type T_eqb gen pend y) <-> In x pend \/ (y = x /\ ~ In x gen))).
      { unfold add_type. destruct (mem T_eqb y gen) eqn:E1; [apply mem_In in E1|rewrite <- not_true_iff_false, mem_In in E1].
        - split; [exact Hn|]. split; [exact Hd|]. intros x. split; [auto|]. intros [H|[<- H]]; [auto|contradiction].
        - destruct (mem T_eqb y pend) eqn:E2; [apply mem_In in E2|rewrite <- not_true_iff_false, mem_In in E2].
          + split; [exact Hn|]. split; [exact Hd|]. intros x. split; [auto|]. intros [H|[<- H]]; auto.
          + split; [constructor; assumption|]. split; [intros x [<-|H]; auto|]. intros x. cbn. split.
            * intros [<-|H]; auto.
            * intros [H|[<- H]]; auto. }
      destruct Hs as (S1 & S2 & S3). destruct (IH _ S2 S1) as (A & B & C). split; [exact A|]. split; [exact B|].
      intros x. rewrite C, S3. cbn. intuition.
  Qed.

  Lemma generate_ok f : forall pend gen r roots, NoDup pend -> NoDup gen -> (forall x, In x pend -> ~ In x gen) ->
    (forall x, In x pend \/ In x gen -> needed deps roots x) ->
    (forall x, In x roots -> In x pend \/ In x gen) ->
    (forall x l y, In x gen -> deps x = Some l -> In y l -> In y pend \/ In y gen) ->
    (forall x, In x gen -> exists l, deps x = Some l) ->
    generate T_eqb deps f pend gen = FDone r ->
    NoDup r /\ (forall x, In x r <-> needed deps roots x) /\ (forall x, needed deps roots x -> exists l, deps x = Some l).
  Proof.
    induction f as [|f IH]; intros pend gen r roots Hn Hg Hd Hneed Hroot Hclosed Hok H; [discriminate|]. cbn in H.
    destruct pend as [|x rest].
    - injection H as <-. split; [apply NoDup_rev; exact Hg|].
      assert (Hall : forall x, needed deps roots x -> In x gen).
      { intros x Hx. induction Hx as [x Hx|x l y Hx IHx Hl Hy]; [destruct (Hroot x Hx) as [[]|G]; exact G|].
        destruct (Hclosed _ _ _ IHx Hl Hy) as [[]|G]; exact G. }
      split; [|auto]. intros x. rewrite <- in_rev. split; [auto|apply Hall].
    - destruct (deps x) as [l|] eqn:Ed; [|discriminate]. inversion Hn as [|? ? Hx Hn']; subst.
      assert (Hd' : forall y, In y rest -> ~ In y (x :: gen)).
      { intros y Hy [->|G]; [contradiction|]. exact (Hd y (or_intror Hy) G). }
      destruct (add_spec (x :: gen) l rest Hd' Hn') as (A & B & C).
      eapply (IH _ _ _ roots A); [| | | | | |exact H].
      + constructor; [apply Hd; left; reflexivity|exact Hg].
      + exact B.
      + intros y [Hy|[<-|Hy]]; [|apply Hneed; left; left; reflexivity|apply Hneed; auto].
        apply C in Hy as [Hy|[Hy _]]; [apply Hneed; left; right; exact Hy|].
        eapply need_more; [apply Hneed; left; left; reflexivity|exact Ed|exact Hy].
      + intros y Hy. destruct (Hroot y Hy) as [[<-|G]|G]; [right; left; reflexivity|left; apply C; auto|right; right; exact G].
      + assert (Hin : forall y, In y (fold_left (add_type T_eqb (x :: gen)) l rest) \/ In y (x :: gen) <-> In y rest \/ In y l \/ In y (x :: gen)).
        { intros y. rewrite C. destruct (mem T_eqb y (x :: gen)) eqn:E; [apply mem_In in E|rewrite <- not_true_iff_false, mem_In in E]; tauto. }
        intros y l' z [<-|Hy] Hl Hz; apply Hin.
        * rewrite Ed in Hl. injection Hl as <-. auto.
        * destruct (Hclosed _ _ _ Hy Hl Hz) as [[<-|G]|G]; [right; right; left; reflexivity|auto|right; right; right; exact G].
      + intros y [<-|Hy]; [eauto|auto].
  Qed.

  Lemma generate_error f : forall pend gen roots, 
    (forall x, In x pend \/ In x gen -> needed deps roots x) -> (forall x, In x pend -> ~ In x gen) -> NoDup pend ->
    generate T_eqb deps f pend gen = FError -> exists x, needed deps roots x /\ deps x = None.
  Proof.
    induction f as [|f IH]; intros pend gen roots Hneed Hd Hn H; [discriminate|]. cbn in H.
    destruct pend as [|x rest]; [discriminate|]. inversion Hn as [|? ? Hx Hn']; subst.
    destruct (deps x) as [l|] eqn:Ed; [|exists x; split; [apply Hneed; left; left; reflexivity|exact Ed]].
    assert (Hd' : forall y, In y rest -> ~ In y (x :: gen)).
    { intros y Hy [->|G]; [contradiction|]. exact (Hd y (or_intror Hy) G). }
    destruct (add_spec (x :: gen) l rest Hd' Hn') as (A & B & C).
    eapply IH; [|exact B|exact A|exact H].
    intros y [Hy|[<-|Hy]]; [|apply Hneed; left; left; reflexivity|apply Hneed; auto].
    apply C in Hy as [Hy|[Hy _]]; [apply Hneed; left; right; exact Hy|].
    eapply need_more; [apply Hneed; left; left; reflexivity|exact Ed|exact Hy].
  Qed.

  Lemma generation roots U : (forall x, needed deps roots x -> In x U) ->
    exists F, forall f, (F <= f)%nat ->
      (exists r, generate_all T_eqb deps f roots = FDone r /\ NoDup r /\ (forall x, In x r <-> needed deps roots x)
                 /\ forall x, needed deps roots x -> exists l, deps x = Some l)
      \/ (generate_all T_eqb deps f roots = FError /\ exists x, needed deps roots x /\ deps x = None).
  Proof.
    intros HU. exists (S (length U)). intros f Hf. unfold generate_all.
    destruct (add_spec [] roots [] ltac:(intros x []) (NoDup_nil _)) as (A & B & C).
    assert (Hneed : forall x, In x (fold_left (add_type T_eqb []) roots []) \/ In x [] -> needed deps roots x).
    { intros x [Hx|[]]. apply C in Hx as [[]|[Hx _]]. constructor. exact Hx. }
    assert (Hstop : generate T_eqb deps f (fold_left (add_type T_eqb []) roots []) [] <> FNoFuel).
    { (* every round takes a new needed type *)
      enough (G : forall f pend gen, NoDup pend -> NoDup gen -> (forall x, In x pend -> ~ In x gen) ->
        (forall x, In x pend \/ In x gen -> needed deps roots x) -> (length U < f + length gen)%nat -> generate T_eqb deps f pend gen <> FNoFuel).
      { apply G; auto; [constructor|cbn; lia]. }
      clear f Hf A B C Hneed. induction f as [|f IH]; intros pend gen Hn Hg Hd Hu Hf.
      - exfalso. assert (incl gen U) by (intros x Hx; auto). pose proof (NoDup_incl_length Hg H). cbn in Hf. lia.
      - cbn. destruct pend as [|x rest]; [discriminate|]. destruct (deps x) as [l|] eqn:Ed; [|discriminate].
        inversion Hn as [|? ? Hx Hn']; subst.
        assert (Hd' : forall y, In y rest -> ~ In y (x :: gen)).
        { intros y Hy [->|G]; [contradiction|]. exact (Hd y (or_intror Hy) G). }
        destruct (add_spec (x :: gen) l rest Hd' Hn') as (A & B & C).
        assert (Hxu : needed deps roots x) by (apply Hu; left; left; reflexivity).
        apply IH; auto.
        + constructor; [apply Hd; left; reflexivity|exact Hg].
        + intros y [Hy|[<-|Hy]]; auto. apply C in Hy as [Hy|[Hy _]]; [apply Hu; left; right; exact Hy|].
          eapply need_more; eassumption.
        + cbn. lia. }
    destruct (generate T_eqb deps f (fold_left (add_type T_eqb []) roots []) []) as [r| |] eqn:E; [left|right|congruence].
    - exists r. split; [reflexivity|]. eapply generate_ok; [exact A|constructor|exact B|exact Hneed| | | |exact E].
      + intros x Hx. left. apply C. right. auto.
      + intros x l y [].
      + intros x [].
    - split; [reflexivity|]. eapply generate_error; [exact Hneed|exact B|exact A|exact E].
  Qed.
End FunctionNames.

(** ** versions *)
Lemma version_spec digit s : digit 46 = false ->
  is_correct_version digit s = true <-> version_text (fun c => digit c = true) s.
Proof.
  intros Hdot. unfold is_correct_version.
  assert (H2 : forall s, version_go digit VSecond s = true <-> Forall (fun c => digit c = true) s).
  { clear s. induction s as [|c s IH]; cbn; [split; auto|]. destruct (digit c) eqn:E.
    - rewrite IH. split; [constructor; auto|]. intros H. inversion H; auto.
    - split; [discriminate|]. intros H. inversion H; congruence. }
  assert (H1 : forall s, version_go digit VDot s = true <-> s <> [] /\ Forall (fun c => digit c = true) s).
  { clear s. intros [|c s]; cbn; [split; [discriminate|intros [[] _]; reflexivity]|]. destruct (digit c) eqn:E.
    - rewrite H2. split; [split; [discriminate|constructor; auto]|]. intros [_ H]. inversion H; auto.
    - split; [discriminate|]. intros [_ H]. inversion H; congruence. }
  assert (H0 : forall s, version_go digit VFirst s = true <->
            exists a b, s = a ++ 46 :: b /\ b <> [] /\ Forall (fun c => digit c = true) a /\ Forall (fun c => digit c = true) b).
  { clear s. induction s as [|c s IH]; cbn.
    - split; [discriminate|]. intros (a & b & E & _). destruct a; discriminate.
    - destruct (c =? 46) eqn:Ec.
      + apply N.eqb_eq in Ec. subst c. rewrite H1. split.
        * intros [Hb Hf]. exists [], s. auto.
        * intros (a & b & E & Hb & Ha & Hf). destruct a as [|x a]; [injection E as <-; auto|].
          injection E as <- _. inversion Ha; congruence.
      + destruct (digit c) eqn:E.
        * rewrite IH. split.
          -- intros (a & b & -> & Hb & Ha & Hf). exists (c :: a), b. auto.
          -- intros (a & b & E2 & Hb & Ha & Hf). destruct a as [|x a]; [injection E2 as -> _; lia|].
             injection E2 as <- ->. inversion Ha; subst. exists a, b. auto.
        * split; [discriminate|]. intros (a & b & E2 & Hb & Ha & Hf).
          destruct a as [|x a]; [injection E2 as -> _; lia|]. injection E2 as <- ->. inversion Ha; congruence. }
  destruct s as [|c s]; cbn.
  - split; [discriminate|]. intros (a & b & E & _). destruct a; discriminate.
  - destruct (digit c) eqn:E.
    + rewrite H0. split.
      * intros (a & b & -> & Hb & Ha & Hf). exists (c :: a), b. repeat split; auto. discriminate.
      * intros (a & b & E2 & Hna & Hb & Ha & Hf). destruct a as [|x a]; [congruence|].
        injection E2 as <- ->. inversion Ha; subst. exists a, b. auto.
    + split; [discriminate|]. intros (a & b & E2 & Hna & Hb & Ha & Hf).
      destruct a as [|x a]; [congruence|]. injection E2 as <- ->. inversion Ha; congruence.
Qed.

(** ** module path *)
Lemma go_space_blank c : go_space c = true <-> blank c.
Proof.
  split.
  - intros H. destruct ((9 <=? c) && (c <=? 13)) eqn:E; [apply bl_ascii; lia|].
    destruct (c =? 32) eqn:E2; [replace c with 32 by lia; apply bl_space|]. apply bl_wide.
    unfold go_space in H. rewrite E, E2 in H. cbn [orb] in H. cbn [In].
    repeat (apply orb_prop in H as [H|H]); lia.
  - intros H. unfold go_space. destruct H as [c H| |c H]; [lia|reflexivity|].
    cbn [In] in H. repeat (destruct H as [<-|H]; [reflexivity|]). destruct H.
Qed.
Lemma drop_spaces_split s : exists ws, s = ws ++ drop_spaces s /\ Forall blank ws /\
  match drop_spaces s with c :: _ => ~ blank c | [] => True end.
Proof.
  induction s as [|c s (ws & E & Hb & Hd)]; cbn; [exists []; auto|].
  destruct (go_space c) eqn:Ec.
  - exists (c :: ws). cbn. rewrite <- E. split; [reflexivity|]. split; [constructor; [apply go_space_blank, Ec|exact Hb]|exact Hd].
  - exists []. split; [reflexivity|]. split; [constructor|]. rewrite <- go_space_blank. congruence.
Qed.
Lemma drop_spaces_app ws s : Forall blank ws -> drop_spaces (ws ++ s) = drop_spaces s.
Proof. induction 1 as [|c ws H _ IH]; [reflexivity|]. cbn. apply go_space_blank in H. rewrite H. exact IH. Qed.
Definition nonblank_ends (s : text) : Prop :=
  match s with c :: _ => ~ blank c | [] => True end /\ match rev s with c :: _ => ~ blank c | [] => True end.
Lemma trim_split s : exists ws1 ws2, s = ws1 ++ trim_space s ++ ws2 /\ Forall blank ws1 /\ Forall blank ws2 /\ nonblank_ends (trim_space s).
Proof.
  destruct (drop_spaces_split s) as (ws1 & E & Hb & Hd). unfold trim_space. set (d := drop_spaces s) in *.
  destruct (drop_spaces_split (rev d)) as (ws2 & E2 & Hb2 & Hd2). set (e := drop_spaces (rev d)) in *.
  exists ws1, (rev ws2). rewrite <- rev_app_distr, <- E2, rev_involutive. split; [exact E|]. split; [exact Hb|].
  split; [apply Forall_rev, Hb2|]. split; [|rewrite rev_involutive; exact Hd2].
  assert (Ed : d = rev e ++ rev ws2) by (rewrite <- rev_app_distr, <- E2, rev_involutive; reflexivity).
  destruct (rev e) as [|c r]; [exact I|]. rewrite Ed in Hd. exact Hd.
Qed.
Lemma drop_spaces_keep s : match s with c :: _ => ~ blank c | [] => True end -> drop_spaces s = s.
Proof. destruct s as [|c s]; [reflexivity|]. cbn. rewrite <- go_space_blank. destruct (go_space c); [congruence|reflexivity]. Qed.
Lemma trim_eq ws1 s ws2 : Forall blank ws1 -> Forall blank ws2 -> s <> [] -> nonblank_ends s -> trim_space (ws1 ++ s ++ ws2) = s.
Proof.
  intros H1 H2 Hs [Ha Hb]. unfold trim_space. rewrite drop_spaces_app by exact H1.
  rewrite (drop_spaces_keep (s ++ ws2)) by (destruct s; [congruence|exact Ha]).
  rewrite rev_app_distr, drop_spaces_app by (apply Forall_rev, H2).
  rewrite drop_spaces_keep by exact Hb. apply rev_involutive.
Qed.
Lemma cut_comment_prefix s : exists r, s = cut_comment s ++ r.
Proof.
  induction s as [|c s [r E]]; [exists []; reflexivity|]. cbn.
  destruct ((c =? 47) && match s with d :: _ => d =? 47 | [] => false end).
  - exists (c :: s). reflexivity.
  - exists r. cbn. rewrite <- E. reflexivity.
Qed.
Lemma cut_comment_skip x y : ~ In 47 x -> cut_comment (x ++ y) = x ++ cut_comment y.
Proof.
  induction x as [|c x IH]; intros H; [reflexivity|]. cbn. replace (c =? 47) with false by (symmetry; apply N.eqb_neq; intros ->; apply H; left; reflexivity).
  cbn. rewrite IH; [reflexivity|]. intros G. apply H. right. exact G.
Qed.
Lemma cut_comment_at x y : no_comment x -> last x 0 <> 47 -> y = [] \/ (exists c, y = 47 :: 47 :: c) -> cut_comment (x ++ y) = x.
Proof.
  intros Hn Hl Hy. induction x as [|c x IH].
  - destruct Hy as [->|[c ->]]; reflexivity.
  - assert (Hn' : no_comment x) by (intros a b E; apply (Hn (c :: a) b); rewrite E; reflexivity).
    cbn. destruct (c =? 47) eqn:Ec.
    + apply N.eqb_eq in Ec. subst c. destruct x as [|d x]; [exfalso; apply Hl; reflexivity|]. cbn [app andb].
      destruct (d =? 47) eqn:Ed; [apply N.eqb_eq in Ed; subst d; exfalso; apply (Hn [] x); reflexivity|].
      cbn [app] in IH. rewrite IH; [reflexivity|exact Hn'|exact Hl].
    + cbn [andb]. rewrite IH; [reflexivity|exact Hn'|]. destruct x; [cbn; lia|exact Hl].
Qed.
Lemma blank_not_slash ws : Forall blank ws -> ~ In 47 ws.
Proof.
  intros H G. rewrite Forall_forall in H. apply H in G. apply go_space_blank in G. discriminate.
Qed.

Section ModulePathProofs.
  Context (unquote_other : text -> option text).
  Notation mline := (module_line unquote_other).

  Lemma other_line_none s : other_line s -> mline s = None.
  Proof.
    intros H. unfold module_line. destruct (cut_comment_prefix s) as [tail Et].
    destruct (trim_split (cut_comment s)) as (w1 & w2 & E & B1 & B2 & Hends). set (l := trim_space (cut_comment s)) in *.
    destruct (has_prefix (t' "module") l) eqn:Hp; [|reflexivity]. apply has_prefix_app in Hp as [rest El].
    assert (Er : skipn 6 l = rest) by (rewrite El; reflexivity). rewrite Er.
    destruct (trim_split rest) as (v1 & v2 & E2 & V1 & V2 & _). set (path := trim_space rest) in *.
    assert (Hv1 : v1 <> [] -> False).
    { intros Hne. destruct v1 as [|c v1]; [congruence|]. 
      apply (H w1 c ((v1 ++ path ++ v2) ++ w2 ++ tail) B1); [|inversion V1; assumption].
      rewrite Et, E, El, E2. rewrite <- !app_assoc. reflexivity. }
    destruct v1 as [|c v1]; [|exfalso; apply Hv1; discriminate]. cbn [app] in E2.
    clearbody path. destruct path as [|c path]; [rewrite orb_true_r; reflexivity|].
    destruct (rev v2) as [|d r] eqn:Ev.
    - assert (v2 = []) by (rewrite <- (rev_involutive v2), Ev; reflexivity). subst v2. rewrite app_nil_r in E2.
      rewrite E2, Nat.eqb_refl. reflexivity.
    - exfalso. destruct Hends as [_ Hr]. rewrite El, E2, !rev_app_distr, Ev in Hr. cbn in Hr. apply Hr.
      apply Forall_rev in V2. rewrite Ev in V2. inversion V2; assumption.
  Qed.

  Lemma nonblank_all (p : text) : Forall (fun c => ~ blank c) p -> nonblank_ends p.
  Proof.
    intros H. split; [destruct H; auto|]. apply Forall_rev in H. destruct H; auto.
  Qed.
  Lemma module_not_blank : ~ blank 109.
  Proof. rewrite <- go_space_blank. discriminate. Qed.
  Lemma line_reads ws1 ws2 body ws3 comment : Forall blank ws1 -> Forall blank ws2 -> ws2 <> [] -> Forall blank ws3 ->
    comment = [] \/ (exists c, comment = 47 :: 47 :: c) -> body <> [] -> nonblank_ends body -> no_comment (body ++ ws3) -> last body 0 <> 47 ->
    mline (ws1 ++ t' "module" ++ ws2 ++ body ++ ws3 ++ comment) =
    match body with c :: _ => if (c =? 34) || (c =? 96) then Some (match go_unquote unquote_other body with Some p => p | None => [] end) else Some body | [] => None end.
  Proof.
    intros B1 B2 N2 B3 Hc Hb He Hn Hl. unfold module_line.
    replace (ws1 ++ t' "module" ++ ws2 ++ body ++ ws3 ++ comment) with ((ws1 ++ t' "module" ++ ws2) ++ (body ++ ws3) ++ comment)
      by (rewrite <- !app_assoc; reflexivity).
    rewrite cut_comment_skip.
    2: { rewrite !in_app_iff. intros [G|[G|G]]; [exact (blank_not_slash _ B1 G)| |exact (blank_not_slash _ B2 G)].
         cbn in G. repeat (destruct G as [G|G]; [discriminate|]). exact G. }
    rewrite cut_comment_at; [|exact Hn| |exact Hc].
    2: { destruct (exists_last Hb) as (b0 & z & Eb). destruct ws3 as [|w ws3]; [rewrite app_nil_r; exact Hl|].
         destruct (@exists_last _ (w :: ws3)) as (v0 & y & Ev); [discriminate|]. rewrite Ev, app_assoc, last_last.
         intros ->. rewrite Ev in B3. apply Forall_app in B3 as [_ B3]. inversion B3 as [|? ? Hy _]. apply go_space_blank in Hy. discriminate. }
    destruct He as [He1 He2].
    assert (Etr : trim_space ((ws1 ++ t' "module" ++ ws2) ++ body ++ ws3) = t' "module" ++ ws2 ++ body).
    { replace ((ws1 ++ t' "module" ++ ws2) ++ body ++ ws3) with (ws1 ++ (t' "module" ++ ws2 ++ body) ++ ws3)
        by (rewrite <- !app_assoc; reflexivity).
      apply trim_eq; [exact B1|exact B3|discriminate|].
      split; [exact module_not_blank|]. rewrite !rev_app_distr.
      destruct (rev body) as [|z r] eqn:Er; [|exact He2].
      exfalso. apply Hb. rewrite <- (rev_involutive body), Er. reflexivity. }
    unfold text, rune in *. rewrite !Etr.
    replace (has_prefix (t' "module") (t' "module" ++ ws2 ++ body)) with true by (symmetry; apply has_prefix_app; eexists; reflexivity).
    change (skipn 6 (t' "module" ++ ws2 ++ body)) with (ws2 ++ body).
    assert (Et : trim_space (ws2 ++ body) = body).
    { rewrite <- (app_nil_r body) at 1. apply trim_eq; auto. split; assumption. }
    rewrite Et. rewrite app_length. destruct ws2 as [|w ws2]; [congruence|]. destruct body as [|c body]; [congruence|].
    replace (Nat.eqb _ _ || Nat.eqb _ _) with false; [reflexivity|]. symmetry. apply orb_false_iff. split; apply Nat.eqb_neq; cbn [length]; lia.
  Qed.

  Lemma declares_reads line path : declares line path -> mline line = Some path.
  Proof.
    intros H. destruct H as [ws1 ws2 path ws3 comment B1 B2 N2 B3 Hc Hp Hn Hb Hq Hl|ws1 ws2 q path ws3 comment B1 B2 N2 B3 Hc Hq Hn Hb].
    - rewrite line_reads; auto; [|apply nonblank_all, Hb].
      destruct path as [|c path]; [congruence|]. destruct (Hq c path eq_refl) as (H1 & H2 & _).
      replace ((c =? 34) || (c =? 96)) with false by lia. reflexivity.
    - replace (ws1 ++ t' "module" ++ ws2 ++ q :: path ++ q :: ws3 ++ comment) with (ws1 ++ t' "module" ++ ws2 ++ (q :: path ++ [q]) ++ ws3 ++ comment)
        by (cbn; rewrite <- !app_assoc; reflexivity).
      assert (Hqs : q <> 47) by lia.
      assert (Hqb : ~ blank q) by (rewrite <- go_space_blank; destruct Hq as [-> | ->]; discriminate).
      rewrite line_reads; auto; [|discriminate| | |].
      + replace ((q =? 34) || (q =? 96)) with true by lia. unfold go_unquote. rewrite rev_app_distr. cbn [rev app].
        rewrite rev_involutive. destruct Hq as [-> | ->]; cbn [N.eqb Pos.eqb andb].
        * replace (existsb _ path) with false; [reflexivity|]. symmetry. apply not_true_iff_false. rewrite existsb_exists.
          intros (x & Hx & E). rewrite Forall_forall in Hb. destruct (Hb x Hx) as (G1 & G2 & G3 & G4).
          apply G1, go_space_blank. assert (x = 10) by lia. subst x. reflexivity.
        * replace (existsb _ path) with false; [reflexivity|]. symmetry. apply not_true_iff_false. rewrite existsb_exists.
          intros (x & Hx & E). rewrite Forall_forall in Hb. destruct (Hb x Hx) as (G1 & G2 & G3 & G4).
          apply G1, go_space_blank. assert (x = 13) by lia. subst x. reflexivity.
      + split; [exact Hqb|]. cbn [rev]. rewrite rev_app_distr. exact Hqb.
      + intros a b E.
        assert (Hbs : ~ In 47 (q :: ws3)) by (intros [G|G]; [congruence|exact (blank_not_slash _ B3 G)]).
        destruct a as [|x a]; [injection E as -> _; congruence|]. injection E as _ E. rewrite <- app_assoc in E. cbn [app] in E.
        (* the two slashes are before the closing quote *)
        revert a E. clear Hb. induction path as [|y path IH]; intros a E.
        * cbn in E. apply Hbs. unfold rune in *. rewrite E. apply in_app_iff. right. left. reflexivity.
        * destruct a as [|z a].
          -- cbn in E. injection E as -> E. destruct path as [|y path]; cbn in E; [congruence|]. injection E as -> E. apply (Hn [] path). reflexivity.
          -- injection E as -> E. eapply IH; [|exact E]. intros a' b' E'. apply (Hn (z :: a') b'). rewrite E'. reflexivity.
      + rewrite app_comm_cons, last_last. exact Hqs.
  Qed.

  Lemma cut_line_spec l rest : ~ In 10 l -> cut_line (l ++ 10 :: rest) = (l, rest).
  Proof.
    induction l as [|c l IH]; intros H; [reflexivity|]. cbn. replace (c =? 10) with false by (symmetry; apply N.eqb_neq; intros ->; apply H; left; reflexivity).
    rewrite IH; [reflexivity|]. intros G. apply H. right. exact G.
  Qed.
  Lemma cut_line_end l : ~ In 10 l -> cut_line l = (l, []).
  Proof.
    induction l as [|c l IH]; intros H; [reflexivity|]. cbn. replace (c =? 10) with false by (symmetry; apply N.eqb_neq; intros ->; apply H; left; reflexivity).
    rewrite IH; [reflexivity|]. intros G. apply H. right. exact G.
  Qed.
  Lemma declares_nonempty line path : declares line path -> line <> [].
  Proof. intros H. destruct H; intros E; apply app_eq_nil in E as [_ E]; discriminate. Qed.

  Lemma module_found before line path tail : Forall (fun l => ~ In 10 l /\ other_line l) before ->
    ~ In 10 line -> declares line path -> tail = [] \/ (exists more, tail = 10 :: more) ->
    module_path unquote_other (concat (map (fun l => l ++ [10]) before) ++ line ++ tail) = path.
  Proof.
    intros Hb Hl Hd Ht. unfold module_path.
    enough (G : forall f, (length (concat (map (fun l => l ++ [10%N]) before) ++ line ++ tail) < f)%nat ->
      module_path_go unquote_other f (concat (map (fun l => l ++ [10]) before) ++ line ++ tail) = path) by (apply G; apply Nat.lt_succ_diag_r).
    induction Hb as [|l before [Hl1 Ho] _ IH]; intros f Hf.
    - cbn [map concat app] in *. destruct f as [|f]; [lia|]. cbn [module_path_go].
      pose proof (declares_nonempty _ _ Hd) as Hne. destruct line as [|c line]; [exfalso; apply Hne; reflexivity|]. cbn [app].
      change (c :: line ++ tail) with ((c :: line) ++ tail).
      assert (Ec : exists r, cut_line ((c :: line) ++ tail) = (c :: line, r)).
      { destruct Ht as [->|[more ->]]; [rewrite app_nil_r; eexists; apply cut_line_end, Hl|eexists; apply cut_line_spec, Hl]. }
      destruct Ec as [r ->]. rewrite (declares_reads _ _ Hd). reflexivity.
    - cbn [map concat] in *. destruct f as [|f]; [lia|]. rewrite <- !app_assoc in *. cbn [app] in *. cbn [module_path_go].
      destruct (l ++ 10 :: _) as [|c s] eqn:Es; [destruct l; discriminate|]. rewrite <- Es in *. rewrite cut_line_spec by exact Hl1.
      rewrite (other_line_none _ Ho). apply IH. rewrite app_length in Hf. cbn [length] in Hf. lia.
  Qed.
End ModulePathProofs.
