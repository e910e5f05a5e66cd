(** Reads that do not fit: the generic part of C45. *)
From Verif Require Import Base Schema Values Writer Reader ReaderProofs ReaderSteps ReadSpec ReaderSpec ReadProofs DenySpec.
Local Open Scope nat_scope.

Scheme until_mut := Induction for until Sort Prop
  with until_items_mut := Induction for until_items Sort Prop
  with until_entries_mut := Induction for until_entries Sort Prop.
Combined Scheme until_all from until_mut, until_items_mut, until_entries_mut.
Scheme tries_mut := Induction for tries Sort Prop
  with tries_items_mut := Induction for tries_items Sort Prop
  with tries_entries_mut := Induction for tries_entries Sort Prop.
Combined Scheme tries_all from tries_mut, tries_items_mut, tries_entries_mut.

Section Deny.
  Context {Nd K : Type} (en : engine Nd K) (o : oracle).
  Context (map_size : nat -> nat) (val : tree -> value -> Prop).
  Context (Kinv : K -> Prop).
  Hypothesis Kbind : forall n k, Kinv k -> Kinv (en_bind en n k).
  Hypothesis Kstore : forall a k, Kinv k -> Kinv (en_store en a k).
  Context (nulls : expecter -> bool).
  Notation core := (core en o map_size val Kinv).
  Notation rep := (rep en o map_size val Kinv).
  Notation reps := (reps en o map_size val Kinv).
  Notation entries := (entries en o map_size val Kinv).
  Notation abs := (abs en Kinv).
  Notation ready := (ready en Kinv).
  Notation answers := (answers en Kinv).
  Notation unfit := (unfit o nulls).
  Notation misfit := (misfit o nulls).
  Notation until := (@until Nd o map_size val nulls).
  Notation until_items := (@until_items Nd o map_size val nulls).
  Notation until_entries := (@until_entries Nd o map_size val nulls).
  Notation tries := (@tries Nd o map_size val nulls).
  Notation tries_items := (@tries_items Nd o map_size val nulls).
  Notation tries_entries := (@tries_entries Nd o map_size val nulls).
  (** what an engine must do *)
  Hypothesis Hdeny : forall n t c, core n t -> unfit c t = true -> answers (expecter_of c) n (CDeny, false).

  Lemma unfit_reading c t : unfit c t = true -> reading c = true.
  Proof. destruct c, t; cbn; congruence. Qed.
  Lemma unfit_not_try c t : unfit c t = true -> c <> DTryNull.
  Proof. destruct c, t; cbn; congruence. Qed.
  Lemma unfit_exp c t : unfit c t = true -> expecter_of c <> ESkip /\ expecter_of c <> ERaw.
  Proof. destruct c, t; cbn; intro; split; congruence. Qed.
  Lemma misfit_reading c t x : misfit c t x -> reading c = true.
  Proof. destruct 1; [eapply unfit_reading; eassumption|]. destruct c; cbn in *; congruence. Qed.
  Lemma misfit_exp c t x : misfit c t x -> expecter_of c <> ESkip /\ expecter_of c <> ERaw.
  Proof. destruct 1; [eapply unfit_exp; eassumption|]. destruct c; cbn in *; split; congruence. Qed.

  Lemma final_null_deny e r p rest :
    r_route r = p :: rest -> en_nil en (pt_node p) = false ->
    en_visit en (r_keep r) (pt_node p) = VNullNode ->
    en_process en (r_keep r) e (pt_node p) (pt_concl p) = (CDeny, false) ->
    finds en e r (append_err en (RDeny e) (set_route (mkPoint CDeny (pt_node p) (pt_iter p) :: rest) (set_last CDeny r))).
  Proof.
    intros Hr Hn Hv Hp. split.
    - exists 2. cbn [run]. unfold current_node. rewrite Hr, Hn, Hv. unfold visit_null. rewrite Hr, Hp.
      unfold swap_point. cbn [set_last r_route]. rewrite Hr. reflexivity.
    - unfold append_err, set_fatal_error, drain. cbn. destruct (r_multi r && true), (r_fatal r), (en_drains en); reflexivity.
  Qed.

  (** ** a call that does not fit, default mode *)
  Lemma finish_denied c (x : rstate Nd K) e f : c <> DTryNull -> r_fatal x = None -> r_multi x = false -> r_deny x = Some e ->
    finish en o f c x = Done (zero_answer o c, set_deny None (set_fatal_error en e x)).
  Proof.
    intros Hc Hf Hm Hd. unfold finish, denied, has_fatal, take_deny. rewrite Hd. cbn [orb].
    unfold append_err. rewrite Hm, Hf. cbn [andb]. destruct c; try reflexivity. congruence.
  Qed.

  Lemma fatal_of (e : rerr) (x : rstate Nd K) : r_fatal (set_fatal_error en e x) = Some e.
  Proof. unfold set_fatal_error. destruct (en_drains en); reflexivity. Qed.
  Lemma fatal_deny (e : rerr) (x : rstate Nd K) : r_deny (set_fatal_error en e x) = r_deny x.
  Proof. unfold set_fatal_error. destruct (en_drains en); reflexivity. Qed.
  Lemma fatal_denies (e : rerr) (x : rstate Nd K) : r_denies (set_fatal_error en e x) = r_denies x.
  Proof. unfold set_fatal_error. destruct (en_drains en); reflexivity. Qed.

  Lemma call_fails r r1 m t s st k N c :
    clean r -> r_multi r = false -> via en (expecter_of c) r r1 -> abs r1 (s :: st, k, N) -> ready m s -> core m t ->
    unfit c t = true ->
    exists r', gives en o r c (zero_answer o c) r' /\ r_fatal r' = Some (RDeny (expecter_of c)) /\ r_denies r' = r_denies r.
  Proof.
    intros [Hfa Hde] Hmu [(S1 & S2 & S3 & S4) Hv] Ha Hr Hc Hu.
    pose proof (Hdeny _ _ _ Hc Hu) as Hans.
    pose proof (unfit_not_try _ _ Hu) as Htry.
    pose proof (unfit_reading _ _ Hu) as Hrd.
    assert (Hki : Kinv k) by apply Ha.
    set (e := expecter_of c) in *.
    assert (Hx : (exists x, finds en e r1 x /\ r_fatal x = None /\ r_multi x = false /\ r_denies x = r_denies r
                   /\ r_deny x = Some (RDeny e))
              \/ (exists x, finds en e r1 x /\ r_fatal x = Some (RDeny e) /\ r_denies x = r_denies r /\ r_deny x = None)).
    { pose proof (core_live _ _ _ _ _ _ _ Hc) as [_ Hn].
      destruct (ready_top _ _ _ _ _ _ _ _ Ha Hr) as (p & rest & Hro & Hm & Hw & Hrest & Hnd).
      pose proof Ha as (Hf & Hnd' & Hk & Hlen & _).
      destruct Hc as [m Hl Hvis H1 H2 H3 _|m txt Hl Hvis H1 H2 H3 _ _ _ _ _ _|m ch l Hl Ho Hch _ H1 H2 H3 _ _|m ch l Hl Ho Hch _ H1 H2 H3 _ _].
      - subst m. destruct (Hvis k Hki) as [Hvn|(txt & Hvt)].
        + right. eexists. split.
          * apply (final_null_deny e r1 p rest Hro Hn); [rewrite Hk; exact Hvn|].
            apply Hans; [rewrite Hk; exact Hki|exact Hw].
          * unfold append_err. cbn [r_multi set_route set_last r_fatal]. rewrite S4, Hmu, S1, Hfa. cbn [andb].
            rewrite fatal_of, fatal_denies, fatal_deny. cbn. repeat split; congruence.
        + left. eexists. split.
          * eapply (final_text en e r1 p rest txt CDeny false); auto; [rewrite Hk; exact Hvt|].
            apply Hans; [rewrite Hk; exact Hki|exact Hw].
          * cbn. repeat split; congruence.
      - left. destruct (at_text en Kinv e r1 m s st k N txt CDeny false Ha Hr Hn Hvis Hans eq_refl eq_refl)
          as (x & Hx & G1 & G2 & G3 & _ & G4 & G5). exists x. repeat split; try congruence; apply Hx.
      - left. destruct (at_complex en Kinv e r1 m s st k N ch _ false CDeny false Ha Hr Ho Hch Hans eq_refl eq_refl)
          as (x & i & N' & Hx & G1 & G2 & G3 & _ & G4 & G5). exists x. repeat split; try congruence; apply Hx.
      - left. destruct (at_complex en Kinv e r1 m s st k N ch _ false CDeny false Ha Hr Ho Hch Hans eq_refl eq_refl)
          as (x & i & N' & Hx & G1 & G2 & G3 & _ & G4 & G5). exists x. repeat split; try congruence; apply Hx. }
    destruct Hx as [(x & Hx & G1 & G2 & G3 & G4)|(x & Hx & G1 & G2 & G3)].
    - exists (set_deny None (set_fatal_error en (RDeny e) x)). split; [|split].
      + eapply gives_of; [exact Hrd|exact Hfa|apply Hv; exact Hx|]. exists 0. intros f _. apply finish_denied; assumption.
      + apply fatal_of.
      + cbn [set_deny r_denies]. rewrite fatal_denies. exact G3.
    - exists (set_deny None x). split; [|split; [exact G1|exact G2]].
      eapply gives_of; [exact Hrd|exact Hfa|apply Hv; exact Hx|]. exists 0. intros f _.
      unfold finish, denied, has_fatal, take_deny. rewrite G1, G3. destruct c; try reflexivity. congruence.
  Qed.

  Lemma call_unconvertible r r1 m s0 s st k N c :
    clean r -> via en (expecter_of c) r r1 -> abs r1 (s :: st, k, N) -> ready m s -> core m (TText s0) ->
    unconvertible o c s0 = true ->
    exists r', gives en o r c (zero_answer o c) r' /\ r_fatal r' = Some (RConvert (expecter_of c) s0) /\ r_denies r' = r_denies r.
  Proof.
    intros [Hfa Hde] [(S1 & S2 & S3 & S4) Hv] Ha Hr Hc Hu.
    assert (Hrd : reading c = true) by (destruct c; try reflexivity; discriminate Hu).
    inversion Hc; subst.
    assert (Hans : answers (expecter_of c) m (CConsume, true)).
    { destruct c; cbn in Hu; try discriminate; apply andb_true_iff in Hu as [Hu _]; cbn [expecter_of]; auto. }
    destruct (at_text en Kinv _ r1 m s st k N s0 CConsume true Ha Hr (proj2 H0) H1 Hans eq_refl eq_refl)
      as (x & Hx & G1 & G2 & G3 & Gv & G4 & G5).
    exists (set_fatal_error en (RConvert (expecter_of c) s0) x). split; [|split].
    - eapply gives_of; [exact Hrd|exact Hfa|apply Hv; exact Hx|]. exists 0. intros f _.
      assert (Hd : denied x || has_fatal x = false).
      { unfold denied, has_fatal. rewrite G5, S2, Hde, G1, S1, Hfa. reflexivity. }
      assert (Happ : append_err en (RConvert (expecter_of c) s0) x = set_fatal_error en (RConvert (expecter_of c) s0) x).
      { unfold append_err. cbn [is_deny]. rewrite andb_false_r, G1, S1, Hfa. reflexivity. }
      specialize (Gv eq_refl).
      destruct c; cbn in Hu; try discriminate; apply andb_true_iff in Hu as [_ Hu]; unfold finish; rewrite Hd;
        unfold converted; rewrite Gv;
        (match type of Hu with match ?v with _ => _ end = _ => destruct v; [discriminate|] end);
        rewrite Happ; reflexivity.
    - apply fatal_of.
    - rewrite fatal_denies. congruence.
  Qed.

  Notation serves := (serves en o).
  Notation next_is := (next_is en o map_size val Kinv).
  Notation ssteps := (ssteps en Kinv).
  Notation arrive := (arrive en o map_size val Kinv Kbind Kstore).
  Notation read_all := (read_all en o map_size val Kinv Kbind Kstore).

  Lemma call_misfit r r1 m t s st k N c x :
    clean r -> r_multi r = false -> via en (expecter_of c) r r1 -> abs r1 (s :: st, k, N) -> ready m s -> core m t ->
    misfit c t x ->
    exists r', gives en o r c (zero_answer o c) r' /\ r_fatal r' = Some x /\ r_denies r' = r_denies r.
  Proof.
    intros Hcl Hm Hv Ha Hr Hc Hx. destruct Hx as [c t Hu|c s0 Hu].
    - eapply call_fails; eassumption.
    - eapply call_unconvertible; eassumption.
  Qed.

  (** ** readings that stop *)
  Definition stop_of (r : rstate Nd K) (hs : list coll) (qs : list request) (ps : list (reply Nd)) (c : call) (x : rerr) : Prop :=
    exists r' hs' r'', serves r hs qs ps r' hs' /\ after_read r r' /\ gives en o r' c (zero_answer o c) r''
      /\ r_fatal r'' = Some x /\ r_denies r'' = r_denies r.

  Lemma stop_more r hs qs ps r1 hs1 qs2 ps2 c x :
    serves r hs qs ps r1 hs1 -> after_read r r1 -> stop_of r1 hs1 qs2 ps2 c x -> stop_of r hs (qs ++ qs2) (ps ++ ps2) c x.
  Proof.
    intros Hs Hr (r2 & hs2 & r3 & Hs2 & Hr2 & Hg & Hf & Hd).
    exists r2, hs2, r3. split; [eapply serves_app; eassumption|]. split; [eapply after_trans; eassumption|].
    split; [exact Hg|]. split; [exact Hf|]. destruct Hr as (_ & Hr & _). congruence.
  Qed.
  Lemma stop_cons r hs q p r1 hs1 qs2 ps2 c x :
    serves r hs [q] [p] r1 hs1 -> after_read r r1 -> stop_of r1 hs1 qs2 ps2 c x -> stop_of r hs (q :: qs2) (p :: ps2) c x.
  Proof. apply (stop_more r hs [q] [p]). Qed.

  Lemma after_refl (r : rstate Nd K) : clean r -> after_read r r.
  Proof. intro. repeat split; apply H. Qed.

  Lemma until_first (h : nat) t qs ps c x : until h t qs ps c x ->
    exists e, first_exp (qs ++ [QCall c]) e /\ e <> ERaw /\ e <> ESkip.
  Proof.
    destruct 1; cbn; try (eexists; split; [reflexivity|]; split; discriminate).
    eexists; split; [reflexivity|]. apply misfit_exp in H. tauto.
  Qed.

  Definition U_read (h : nat) (t : tree) (qs : list request) (ps : list (reply Nd)) (c : call) (x : rerr) : Prop :=
    forall e r hs a s n st k N,
      first_exp (qs ++ [QCall c]) e -> abs r a -> clean r -> r_multi r = false -> length hs = h ->
      ssteps e a (s :: st, k, N) -> next_is n t s ->
      stop_of r hs qs ps c x.
  Definition U_items (i0 h : nat) (l : list tree) (qs : list request) (ps : list (reply Nd)) (c : call) (x : rerr) : Prop :=
    forall r hs junk m i size ch st k N,
      abs r (junk ++ SOpen m false i ch :: st, k, N) -> Forall spent junk -> reps ch l -> clean r -> r_multi r = false ->
      length hs = h -> nth_error hs i0 = Some (CollState size i) ->
      stop_of r hs qs ps c x.
  Definition U_entries (i0 h : nat) (l : list (tree * tree)) (qs : list request) (ps : list (reply Nd)) (c : call) (x : rerr) : Prop :=
    forall r hs junk m i size ch st k N,
      abs r (junk ++ SOpen m false i ch :: st, k, N) -> Forall spent junk -> entries ch l -> clean r -> r_multi r = false ->
      length hs = h -> nth_error hs i0 = Some (CollState size i) ->
      stop_of r hs qs ps c x.

  (** the next entry of an open mapping: its key comes next, and after the key its value *)
  Lemma next_entry m i ch tk tv l : entries ch ((tk, tv) :: l) ->
    exists kn vn ch', rep kn tk /\ rep vn tv /\ entries ch' l /\ ch <> [] /\
      forall st k N e e2, e <> ESkip -> e <> ERaw -> Kinv k ->
        exists pre st' N1, ssteps e (SOpen m false i ch :: st, k, N) (SWait kn :: pre ++ SOpen m false i st' :: st, k, N1)
        /\ forall junk0 k0 N0, Forall spent junk0 -> exists post, Forall spent post /\
             ssteps e2 (junk0 ++ pre ++ SOpen m false i st' :: st, k0, N0)
                       (SWait vn :: post ++ SOpen m false i ch' :: st, k0, N0).
  Proof.
    intro He.
    inversion He as [|x kn vn sz ch0 tk0 tv0 l0 Hlx Hox Hpx Hchx Hk Hv He0
                            |kn vn ch0 tk0 tv0 l0 Hk Hv He0]; subst.
    - exists kn, vn, ch0. split; [exact Hk|]. split; [exact Hv|]. split; [exact He0|]. split; [discriminate|].
      intros st k N e e2 H1 H2 Hki. exists [SOpen x false N [vn]], ch0, (S N). split.
      + econstructor; [apply (ss_child en Kinv e m false); exact Hlx|]. cbn [bindk].
        econstructor; [eapply ss_open; eauto|].
        apply ssteps_one. apply (ss_child en Kinv e x false). eapply rep_live; eassumption.
      + intros junk0 k0 N0 Hj0. exists [SOpen x false N []]. split; [repeat constructor|].
        eapply ssteps_trans; [apply spent_steps; exact Hj0|]. apply ssteps_one.
        apply (ss_child en Kinv e2 x false). eapply rep_live; eassumption.
    - exists kn, vn, ch0. split; [exact Hk|]. split; [exact Hv|]. split; [exact He0|]. split; [discriminate|].
      intros st k N e e2 H1 H2 Hki. exists [], (vn :: ch0), N. split.
      + apply ssteps_one. apply (ss_child en Kinv e m false). eapply rep_live; eassumption.
      + intros junk0 k0 N0 Hj0. exists []. split; [constructor|].
        eapply ssteps_trans; [apply spent_steps; exact Hj0|]. apply ssteps_one.
        apply (ss_child en Kinv e2 m false). eapply rep_live; eassumption.
  Qed.

  Lemma serves_more_true r hs c n i l : nth_error hs c = Some (CollState n i) -> nth_error (r_iters r) i = Some l -> l <> [] ->
    serves r hs [QMore c] [PMore true] r hs.
  Proof. intros H1 H2 H3. pose proof (serves_more en o r hs c n i l H1 H2). destruct l; [congruence|exact H]. Qed.

  Lemma first_app qs c e : qs <> [] -> first_exp (qs ++ [QCall c]) e -> first_exp qs e.
  Proof. destruct qs; [congruence|]. auto. Qed.

  (** opening a collection *)
  Lemma open_seq e r hs a s n st k N l : e = ESequence -> abs r a -> clean r ->
    ssteps e a (s :: st, k, N) -> next_is n (TSeq l) s ->
    exists r' m i ch junk k1 N', serves r hs [asks DSequence; QSize (length hs)] [gets (AColl CollNoop); PSize (length l)]
        r' (hs ++ [CollState (length l) i])
      /\ nth_error (hs ++ [CollState (length l) i]) (length hs) = Some (CollState (length l) i)
      /\ after_read r r' /\ Forall spent junk /\ reps ch l /\ abs r' (SOpen m false i ch :: junk ++ st, k1, N').
  Proof.
    intros -> Ha Hcl Hst Hn.
    destruct (arrive _ _ _ _ _ _ _ _ _ Ha Hst Hn) as (m & s' & junk & r1 & k1 & N1 & Hc & Hr & Hj & Hv & Ha1).
    inversion Hc; subst.
    destruct (call_open en o Kinv DSequence r r1 m s' ch (length l) (junk ++ st) k1 N1 (or_introl eq_refl) Hcl Hv Ha1 Hr)
      as (r' & i & N' & Hg & Ha' & Hr'); auto.
    pose proof (serves_call en o r hs _ _ r' Hg) as Hs. cbn [colls_of mask] in Hs.
    assert (Hnth : nth_error (hs ++ [CollState (length l) i]) (length hs) = Some (CollState (length l) i)).
    { rewrite nth_error_app2 by lia. rewrite Nat.sub_diag. reflexivity. }
    pose proof (serves_size en o r' _ _ _ _ Hnth) as Hs2.
    pose proof (serves_app _ _ _ _ _ _ _ _ _ _ _ _ Hs Hs2) as Hs3.
    exists r', m, i, ch, junk, k1, N'. split; [exact Hs3|]. split; [exact Hnth|]. split; [exact Hr'|]. split; [exact Hj|].
    split; [assumption|exact Ha'].
  Qed.
  Lemma open_map e r hs a s n st k N l : e = EMapping -> abs r a -> clean r ->
    ssteps e a (s :: st, k, N) -> next_is n (TMap l) s ->
    exists r' m i ch junk k1 N', serves r hs [asks DMapping; QSize (length hs)] [gets (AColl CollNoop); PSize (map_size (length l))]
        r' (hs ++ [CollState (map_size (length l)) i])
      /\ nth_error (hs ++ [CollState (map_size (length l)) i]) (length hs) = Some (CollState (map_size (length l)) i)
      /\ after_read r r' /\ Forall spent junk /\ entries ch l /\ abs r' (SOpen m false i ch :: junk ++ st, k1, N').
  Proof.
    intros -> Ha Hcl Hst Hn.
    destruct (arrive _ _ _ _ _ _ _ _ _ Ha Hst Hn) as (m & s' & junk & r1 & k1 & N1 & Hc & Hr & Hj & Hv & Ha1).
    inversion Hc; subst.
    destruct (call_open en o Kinv DMapping r r1 m s' ch (map_size (length l)) (junk ++ st) k1 N1 (or_intror eq_refl) Hcl Hv Ha1 Hr)
      as (r' & i & N' & Hg & Ha' & Hr'); auto.
    pose proof (serves_call en o r hs _ _ r' Hg) as Hs. cbn [colls_of mask] in Hs.
    assert (Hnth : nth_error (hs ++ [CollState (map_size (length l)) i]) (length hs) = Some (CollState (map_size (length l)) i)).
    { rewrite nth_error_app2 by lia. rewrite Nat.sub_diag. reflexivity. }
    pose proof (serves_size en o r' _ _ _ _ Hnth) as Hs2.
    pose proof (serves_app _ _ _ _ _ _ _ _ _ _ _ _ Hs Hs2) as Hs3.
    exists r', m, i, ch, junk, k1, N'. split; [exact Hs3|]. split; [exact Hnth|]. split; [exact Hr'|]. split; [exact Hj|].
    split; [assumption|exact Ha'].
  Qed.

  Lemma after_multi (r r' : rstate Nd K) : after_read r r' -> r_multi r = false -> r_multi r' = false.
  Proof. intros (_ & _ & H). congruence. Qed.

  Theorem stop_all :
    (forall h t qs ps c x, until h t qs ps c x -> U_read h t qs ps c x)
    /\ (forall i h l qs ps c x, until_items i h l qs ps c x -> U_items i h l qs ps c x)
    /\ (forall i h l qs ps c x, until_entries i h l qs ps c x -> U_entries i h l qs ps c x).
  Proof.
    apply until_all.
    - (* here *)
      intros h t c x Hx e r hs a s n st k N He Ha Hcl Hmu <- Hst Hn. cbn in He. subst e.
      destruct (arrive _ _ _ _ _ _ _ _ _ Ha Hst Hn) as (m & s' & junk & r1 & k1 & N1 & Hc & Hr & Hj & Hv & Ha1).
      destruct (call_misfit r r1 m t s' (junk ++ st) k1 N1 c x Hcl Hmu Hv Ha1 Hr Hc Hx) as (r' & Hg & Hf & Hd).
      exists r, hs, r'. split; [apply serves_nil|]. split; [apply after_refl; exact Hcl|]. auto.
    - (* try *)
      intros h t qs ps c x Ht Hun IH e r hs a s n st k N He Ha Hcl Hmu Hlen Hst Hn. cbn in He. subst e.
      destruct (arrive _ _ _ _ _ _ _ _ _ Ha Hst Hn) as (m & s' & junk & r1 & k1 & N1 & Hc & Hr & Hj & Hv & Ha1).
      destruct (call_not_null en o map_size val Kinv r r1 m t s' (junk ++ st) k1 N1 Ht Hcl Hv Ha1 Hr Hc) as (r' & s'' & N' & Hg & Ha' & Hr2 & Hr').
      destruct (until_first _ _ _ _ _ _ Hun) as (e & He & _).
      pose proof (serves_call en o r hs _ _ r' Hg) as Hs. cbn in Hs. rewrite app_nil_r in Hs.
      eapply stop_cons; [exact Hs|exact Hr'|].
      eapply (IH e r' hs _ s'' m (junk ++ st) k1 N' He Ha' (after_clean _ _ Hr') (after_multi _ _ Hr' Hmu) Hlen
                     (ssteps_refl _ _ e _) (or_intror (conj Hc Hr2))).
    - (* sequence *)
      intros h l qs ps c x Hun IH e r hs a s n st k N He Ha Hcl Hmu <- Hst Hn. cbn in He.
      destruct (open_seq e r hs a s n st k N l (eq_sym He) Ha Hcl Hst Hn)
        as (r' & m & i & ch & junk & k1 & N' & Hs & Hnth & Hr' & Hj & Hreps & Ha').
      eapply (stop_more r hs [_; _] [_; _]); [exact Hs|exact Hr'|].
      eapply (IH r' _ [] m i (length l) ch (junk ++ st) k1 N' Ha'); auto; [eapply after_clean; eassumption|eapply after_multi; eassumption|].
      rewrite app_length. cbn. lia.
    - (* mapping *)
      intros h l qs ps c x Hun IH e r hs a s n st k N He Ha Hcl Hmu <- Hst Hn. cbn in He.
      destruct (open_map e r hs a s n st k N l (eq_sym He) Ha Hcl Hst Hn)
        as (r' & m & i & ch & junk & k1 & N' & Hs & Hnth & Hr' & Hj & Hreps & Ha').
      eapply (stop_more r hs [_; _] [_; _]); [exact Hs|exact Hr'|].
      eapply (IH r' _ [] m i (map_size (length l)) ch (junk ++ st) k1 N' Ha'); auto; [eapply after_clean; eassumption|eapply after_multi; eassumption|].
      rewrite app_length. cbn. lia.
    - (* this item *)
      intros i0 h t l qs ps c x Hun IH r hs junk m i size ch st k N Ha Hj Hreps Hcl Hmu Hlen Hnth.
      inversion Hreps as [|n ns t0 ts Hn Hns]; subst.
      pose proof (serves_more_true r hs i0 size i (n :: ns) Hnth (abs_open_iter _ _ _ _ _ _ _ _ _ _ _ Ha) ltac:(discriminate)) as Hs.
      destruct (until_first _ _ _ _ _ _ Hun) as (e & He & _).
      eapply stop_cons; [exact Hs|apply after_refl; exact Hcl|].
      eapply (IH e r hs _ (SWait n) n (SOpen m false i ns :: st) k N He Ha Hcl Hmu eq_refl); [|left; auto].
      eapply ssteps_trans; [apply spent_steps; exact Hj|]. apply ssteps_one.
      apply (ss_child en Kinv e m false). eapply rep_live; eassumption.
    - (* a later item *)
      intros i0 h t l qs ps h1 qs' ps' c x Hread Hun IH r hs junk m i size ch st k N Ha Hj Hreps Hcl Hmu Hlen Hnth.
      inversion Hreps as [|n ns t0 ts Hn Hns]; subst.
      pose proof (serves_more_true r hs i0 size i (n :: ns) Hnth (abs_open_iter _ _ _ _ _ _ _ _ _ _ _ Ha) ltac:(discriminate)) as Hs.
      destruct (reads_first _ _ _ _ _ _ _ _ Hread) as (e & He & _).
      destruct (proj1 read_all _ _ _ _ _ Hread e r hs _ (SWait n) n (SOpen m false i ns :: st) k N He Ha Hcl eq_refl)
        as (junk2 & r2 & hs2 & k2 & N2 & Hs2 & Hj2 & Ha2 & Hr2 & Hl2 & more2 & ->).
      { eapply ssteps_trans; [apply spent_steps; exact Hj|]. apply ssteps_one.
        apply (ss_child en Kinv e m false). eapply rep_live; eassumption. }
      { left. auto. }
      eapply stop_cons; [exact Hs|apply after_refl; exact Hcl|].
      eapply stop_more; [exact Hs2|exact Hr2|].
      eapply (IH r2 (hs ++ more2) junk2 m i size ns st k2 N2 Ha2 Hj2 Hns (after_clean _ _ Hr2) (after_multi _ _ Hr2 Hmu) Hl2).
      rewrite nth_error_app1; [exact Hnth|]. apply nth_error_Some. congruence.
    - (* this key *)
      intros i0 h tk tv l qs ps c x Hun IH r hs junk m i size ch st k N Ha Hj Hent Hcl Hmu Hlen Hnth.
      destruct (next_entry m i ch tk tv l Hent) as (kn & vn & ch' & Hk & Hv & He' & Hne & Hsteps).
      pose proof (serves_more_true r hs i0 size i ch Hnth (abs_open_iter _ _ _ _ _ _ _ _ _ _ _ Ha) Hne) as Hs.
      destruct (until_first _ _ _ _ _ _ Hun) as (e & He & Hraw & Hskip).
      assert (Hki : Kinv k) by apply Ha.
      destruct (Hsteps st k N e e Hskip Hraw Hki) as (pre & st' & N1 & Hst1 & _).
      eapply stop_cons; [exact Hs|apply after_refl; exact Hcl|].
      eapply (IH e r hs _ (SWait kn) kn _ k N1 He Ha Hcl Hmu Hlen); [|left; auto].
      eapply ssteps_trans; [apply spent_steps; exact Hj|exact Hst1].
    - (* this value *)
      intros i0 h tk tv l qs ps h1 qs' ps' c x Hread Hns Hun IH r hs junk m i size ch st k N Ha Hj Hent Hcl Hmu Hlen Hnth.
      destruct (next_entry m i ch tk tv l Hent) as (kn & vn & ch' & Hk & Hv & He' & Hne & Hsteps).
      pose proof (serves_more_true r hs i0 size i ch Hnth (abs_open_iter _ _ _ _ _ _ _ _ _ _ _ Ha) Hne) as Hs.
      destruct (reads_first _ _ _ _ _ _ _ _ Hread) as (e & He & Hraw & Hskip).
      destruct (until_first _ _ _ _ _ _ Hun) as (e2 & He2 & Hraw2 & Hskip2).
      assert (Hki : Kinv k) by apply Ha.
      destruct (Hsteps st k N e e2 (Hskip Hns) Hraw Hki) as (pre & st' & N1 & Hst1 & Hst2).
      destruct (proj1 read_all _ _ _ _ _ Hread e r hs _ (SWait kn) kn _ k N1 He Ha Hcl Hlen
                  (ssteps_trans _ _ _ _ _ _ (spent_steps _ _ e junk _ k N Hj) Hst1) (or_introl (conj eq_refl Hk)))
        as (junk2 & r2 & hs2 & k2 & N2 & Hs2 & Hj2 & Ha2 & Hr2 & Hl2 & more2 & ->).
      destruct (Hst2 junk2 k2 N2 Hj2) as (post & Hpost & Hst3).
      eapply stop_cons; [exact Hs|apply after_refl; exact Hcl|].
      eapply stop_more; [exact Hs2|exact Hr2|].
      eapply (IH e2 r2 (hs ++ more2) _ (SWait vn) vn _ k2 N2 He2 Ha2 (after_clean _ _ Hr2) (after_multi _ _ Hr2 Hmu) Hl2 Hst3).
      left. auto.
    - (* a later entry *)
      intros i0 h tk tv l qs ps h1 qs' ps' h2 qs'' ps'' c x Hread Hns Hread2 Hun IH r hs junk m i size ch st k N Ha Hj Hent Hcl Hmu Hlen Hnth.
      destruct (next_entry m i ch tk tv l Hent) as (kn & vn & ch' & Hk & Hv & He' & Hne & Hsteps).
      pose proof (serves_more_true r hs i0 size i ch Hnth (abs_open_iter _ _ _ _ _ _ _ _ _ _ _ Ha) Hne) as Hs.
      destruct (reads_first _ _ _ _ _ _ _ _ Hread) as (e & He & Hraw & Hskip).
      destruct (reads_first _ _ _ _ _ _ _ _ Hread2) as (e2 & He2 & _).
      assert (Hki : Kinv k) by apply Ha.
      destruct (Hsteps st k N e e2 (Hskip Hns) Hraw Hki) as (pre & st' & N1 & Hst1 & Hst2).
      destruct (proj1 read_all _ _ _ _ _ Hread e r hs _ (SWait kn) kn _ k N1 He Ha Hcl Hlen
                  (ssteps_trans _ _ _ _ _ _ (spent_steps _ _ e junk _ k N Hj) Hst1) (or_introl (conj eq_refl Hk)))
        as (junk2 & r2 & hs2 & k2 & N2 & Hs2 & Hj2 & Ha2 & Hr2 & Hl2 & more2 & ->).
      destruct (Hst2 junk2 k2 N2 Hj2) as (post & Hpost & Hst3).
      destruct (proj1 read_all _ _ _ _ _ Hread2 e2 r2 (hs ++ more2) _ (SWait vn) vn _ k2 N2 He2 Ha2 (after_clean _ _ Hr2) Hl2 Hst3
                  (or_introl (conj eq_refl Hv)))
        as (junk3 & r3 & hs3 & k3 & N3 & Hs3 & Hj3 & Ha3 & Hr3 & Hl3 & more3 & ->).
      rewrite app_assoc in Ha3.
      eapply stop_cons; [exact Hs|apply after_refl; exact Hcl|].
      eapply stop_more; [exact Hs2|exact Hr2|]. eapply stop_more; [exact Hs3|exact Hr3|].
      eapply (IH r3 ((hs ++ more2) ++ more3) (junk3 ++ post) m i size ch' st k3 N3 Ha3); auto.
      + apply Forall_app; auto.
      + eapply after_clean; eassumption.
      + eapply after_multi; [eassumption|]. eapply after_multi; eassumption.
      + rewrite <- app_assoc. rewrite nth_error_app1; [exact Hnth|]. apply nth_error_Some. congruence.
  Qed.

  Lemma stop_stops r qs ps c x : r_denies r = [] -> stop_of r [] qs ps c x -> stops_reading en o r qs ps c x.
  Proof.
    intros Hd (r' & hs' & r'' & (F & rs & Hrs & Hs) & ((Hfa & Hde) & Hds & _) & (F' & HF') & Hf & Hd2).
    exists rs, hs', (max F F'). split; [exact Hrs|]. intros f Hle. exists r', r''.
    split; [apply Hs; lia|]. cbn. rewrite Hfa, Hds, Hf, Hd2, Hd. split; [reflexivity|]. split; [apply HF'; lia|reflexivity].
  Qed.

  Theorem stop_node n t k qs ps c x : Kinv k -> rep n t ->
    until 0 t qs ps c x -> stops_reading en o (r_new k false n) qs ps c x.
  Proof.
    intros Hk Hn Hun. destruct (until_first _ _ _ _ _ _ Hun) as (e & He & _).
    apply stop_stops; [reflexivity|].
    eapply (proj1 stop_all _ _ _ _ _ _ Hun e (r_new k false n) [] ([SWait n], k, 0) (SWait n) n [] k 0 He);
      [|split; reflexivity|reflexivity|reflexivity|constructor|left; auto].
    cbn. repeat split; auto; repeat constructor.
  Qed.

  (** ** readings that go on *)
  (** with the option that collects denials nulls must be texts *)
  Hypothesis Hnull : forall n e, core n TNull -> nulls e = true ->
    exists s, forall k, Kinv k -> en_visit en k n = VTexter s None.

  Lemma finish_collected c (x : rstate Nd K) e f : c <> DTryNull -> r_multi x = true -> r_deny x = Some (RDeny e) ->
    finish en o f c x = Done (zero_answer o c, set_deny None (set_denies (r_denies x ++ [RDeny e]) x)).
  Proof.
    intros Hc Hm Hd. unfold finish, denied, has_fatal, take_deny. rewrite Hd. cbn [orb].
    unfold append_err. rewrite Hm. cbn [andb is_deny]. destruct c; try reflexivity. congruence.
  Qed.

  Definition tried (es : list rerr) (r r' : rstate Nd K) : Prop :=
    clean r' /\ r_denies r' = r_denies r ++ es /\ r_multi r' = true.

  Lemma call_denied r r1 m t s st k N c :
    clean r -> r_multi r = true -> via en (expecter_of c) r r1 -> abs r1 (s :: st, k, N) -> ready m s -> core m t ->
    unfit c t = true ->
    exists r' s' N', gives en o r c (zero_answer o c) r' /\ tried [RDeny (expecter_of c)] r r'
      /\ abs r' (s' :: st, k, N') /\ ready m s'.
  Proof.
    intros [Hfa Hde] Hmu [(S1 & S2 & S3 & S4) Hv] Ha Hr Hc Hu.
    pose proof (Hdeny _ _ _ Hc Hu) as Hans.
    pose proof (unfit_not_try _ _ Hu) as Htry.
    pose proof (unfit_reading _ _ Hu) as Hrd.
    assert (Hki : Kinv k) by apply Ha.
    set (e := expecter_of c) in *.
    assert (Hx : exists x s' N', finds en e r1 x /\ r_fatal x = None /\ r_multi x = true /\ r_denies x = r_denies r
                   /\ r_deny x = Some (RDeny e) /\ abs x (s' :: st, k, N') /\ ready m s').
    { pose proof (core_live _ _ _ _ _ _ _ Hc) as [_ Hn].
      assert (Htext : forall txt, (forall k, Kinv k -> en_visit en k m = VTexter txt None) ->
                exists x s' N', finds en e r1 x /\ r_fatal x = None /\ r_multi x = true /\ r_denies x = r_denies r
                   /\ r_deny x = Some (RDeny e) /\ abs x (s' :: st, k, N') /\ ready m s').
      { intros txt Hvis.
        destruct (at_text en Kinv e r1 m s st k N txt CDeny false Ha Hr Hn Hvis Hans eq_refl eq_refl)
          as (x & Hx & G1 & G2 & G3 & _ & (s' & G4 & G5) & G6).
        exists x, s', N. repeat split; try congruence; try apply Hx; try apply G5; apply G4. }
      inversion Hc as [m' Hl Hvis H1 H2 H3 _|m' txt Hl Hvis H1 H2 H3 _ _ _ _ _ _|m' ch l Hl Ho Hch _ H1 H2 H3 _ _|m' ch l Hl Ho Hch _ H1 H2 H3 _ _]; subst.
      - assert (Hnl : nulls e = true) by (unfold e; destruct c; cbn in Hu |- *; try discriminate; exact Hu).
        destruct (Hnull m e Hc Hnl) as (txt & Ht). eapply Htext; exact Ht.
      - eapply Htext; exact Hvis.
      - destruct (at_complex en Kinv e r1 m s st k N ch _ false CDeny false Ha Hr Ho Hch Hans eq_refl eq_refl)
          as (x & i & N' & Hx & G1 & G2 & G3 & _ & (s' & G4 & G5) & G6).
        exists x, s', N'. repeat split; try congruence; try apply Hx; try apply G5; apply G4.
      - destruct (at_complex en Kinv e r1 m s st k N ch _ false CDeny false Ha Hr Ho Hch Hans eq_refl eq_refl)
          as (x & i & N' & Hx & G1 & G2 & G3 & _ & (s' & G4 & G5) & G6).
        exists x, s', N'. repeat split; try congruence; try apply Hx; try apply G5; apply G4. }
    destruct Hx as (x & s' & N' & Hx & G1 & G2 & G3 & G4 & G5 & G6).
    exists (set_deny None (set_denies (r_denies x ++ [RDeny e]) x)), s', N'. split; [|split; [|split; [exact G5|exact G6]]].
    - eapply gives_of; [exact Hrd|exact Hfa|apply Hv; exact Hx|]. exists 0. intros f _. apply finish_collected; assumption.
    - repeat split; cbn; congruence.
  Qed.

  Definition try_of (r : rstate Nd K) (hs : list coll) (qs : list request) (ps : list (reply Nd))
      (h' : nat) (es : list rerr) (st : list (seg (Nd := Nd))) : Prop :=
    exists junk r' hs' k' N', serves r hs qs ps r' hs' /\ Forall spent junk /\ abs r' (junk ++ st, k', N')
      /\ tried es r r' /\ length hs' = h' /\ (exists more, hs' = hs ++ more).

  Lemma tried_trans es1 es2 r r1 r2 : tried es1 r r1 -> tried es2 r1 r2 -> tried (es1 ++ es2) r r2.
  Proof. intros (_ & H1 & _) (? & H2 & ?). repeat split; try apply H; try assumption. rewrite H2, H1, app_assoc. reflexivity. Qed.
  Lemma tried_after (r r' : rstate Nd K) : r_multi r = true -> after_read r r' -> tried [] r r'.
  Proof. intros Hm (H1 & H2 & H3). repeat split; try apply H1; [rewrite app_nil_r; exact H2|congruence]. Qed.
  Lemma tried_refl (r : rstate Nd K) : clean r -> r_multi r = true -> tried [] r r.
  Proof. intros H1 H2. apply tried_after; [exact H2|]. apply after_refl. exact H1. Qed.

  Lemma try_more r hs qs ps r1 hs1 qs2 ps2 h' es1 es2 st :
    serves r hs qs ps r1 hs1 -> tried es1 r r1 -> (exists more, hs1 = hs ++ more) ->
    try_of r1 hs1 qs2 ps2 h' es2 st -> try_of r hs (qs ++ qs2) (ps ++ ps2) h' (es1 ++ es2) st.
  Proof.
    intros Hs Hr (more & ->) (junk & r2 & hs2 & k & N & Hs2 & Hj & Ha & Hr2 & Hl & more2 & ->).
    exists junk, r2, ((hs ++ more) ++ more2), k, N. split; [eapply serves_app; eassumption|].
    split; [exact Hj|]. split; [exact Ha|]. split; [eapply tried_trans; eassumption|]. split; [exact Hl|].
    exists (more ++ more2). rewrite app_assoc. reflexivity.
  Qed.
  Lemma try_cons r hs q p r1 hs1 qs2 ps2 h' es1 es2 st :
    serves r hs [q] [p] r1 hs1 -> tried es1 r r1 -> (exists more, hs1 = hs ++ more) ->
    try_of r1 hs1 qs2 ps2 h' es2 st -> try_of r hs (q :: qs2) (p :: ps2) h' (es1 ++ es2) st.
  Proof. apply (try_more r hs [q] [p]). Qed.

  Lemma try_junk r hs qs ps h' es junk st : Forall spent junk ->
    try_of r hs qs ps h' es (junk ++ st) -> try_of r hs qs ps h' es st.
  Proof.
    intros Hj (junk1 & r' & hs' & k' & N' & Hs & Hj1 & Ha & H). exists (junk1 ++ junk), r', hs', k', N'.
    split; [exact Hs|]. split; [apply Forall_app; auto|]. rewrite <- app_assoc. split; [exact Ha|exact H].
  Qed.

  Lemma tries_first (h : nat) t qs ps h' es : tries h t qs ps h' es ->
    exists e, first_exp qs e /\ e <> ERaw /\ (not_skip qs -> e <> ESkip).
  Proof.
    destruct 1; cbn; try (eexists; split; [reflexivity|]; split; [discriminate|]; intros; try discriminate; contradiction).
    - eapply reads_first; eassumption.
    - eexists; split; [reflexivity|]. apply unfit_exp in H. tauto.
  Qed.

  Definition T_read (h : nat) (t : tree) (qs : list request) (ps : list (reply Nd)) (h' : nat) (es : list rerr) : Prop :=
    forall e r hs a s n st k N,
      first_exp qs e -> abs r a -> clean r -> r_multi r = true -> length hs = h ->
      ssteps e a (s :: st, k, N) -> next_is n t s ->
      try_of r hs qs ps h' es st.
  Definition T_items (i0 h : nat) (l : list tree) (qs : list request) (ps : list (reply Nd)) (h' : nat) (es : list rerr) : Prop :=
    forall r hs junk m i size ch st k N,
      abs r (junk ++ SOpen m false i ch :: st, k, N) -> Forall spent junk -> reps ch l -> clean r -> r_multi r = true ->
      length hs = h -> nth_error hs i0 = Some (CollState size i) ->
      try_of r hs qs ps h' es (SOpen m false i [] :: st).
  Definition T_entries (i0 h : nat) (l : list (tree * tree)) (qs : list request) (ps : list (reply Nd)) (h' : nat) (es : list rerr) : Prop :=
    forall r hs junk m i size ch st k N,
      abs r (junk ++ SOpen m false i ch :: st, k, N) -> Forall spent junk -> entries ch l -> clean r -> r_multi r = true ->
      length hs = h -> nth_error hs i0 = Some (CollState size i) ->
      try_of r hs qs ps h' es (SOpen m false i [] :: st).

  Lemma tried_clean es r r' : tried es r r' -> clean r'.
  Proof. intros (H & _). exact H. Qed.
  Lemma tried_multi es r r' : tried es r r' -> r_multi r' = true.
  Proof. intros (_ & _ & H). exact H. Qed.

  Theorem try_all :
    (forall h t qs ps h' es, tries h t qs ps h' es -> T_read h t qs ps h' es)
    /\ (forall i h l qs ps h' es, tries_items i h l qs ps h' es -> T_items i h l qs ps h' es)
    /\ (forall i h l qs ps h' es, tries_entries i h l qs ps h' es -> T_entries i h l qs ps h' es).
  Proof.
    apply tries_all.
    - (* as it is *)
      intros h t qs ps h' Hread e r hs a s n st k N He Ha Hcl Hmu Hlen Hst Hn.
      destruct (proj1 read_all _ _ _ _ _ Hread e r hs a s n st k N He Ha Hcl Hlen Hst Hn)
        as (junk & r' & hs' & k' & N' & Hs & Hj & Ha' & Hr & Hl & Hm).
      exists junk, r', hs', k', N'. split; [exact Hs|]. split; [exact Hj|]. split; [exact Ha'|].
      split; [apply tried_after; assumption|]. auto.
    - (* a denied call *)
      intros h t c qs ps h' es Hu Ht IH e r hs a s n st k N He Ha Hcl Hmu Hlen Hst Hn. cbn in He. subst e.
      destruct (arrive _ _ _ _ _ _ _ _ _ Ha Hst Hn) as (m & s' & junk & r1 & k1 & N1 & Hc & Hr & Hj & Hv & Ha1).
      destruct (call_denied r r1 m t s' (junk ++ st) k1 N1 c Hcl Hmu Hv Ha1 Hr Hc Hu) as (r' & s'' & N' & Hg & Hr' & Ha' & Hr2).
      destruct (tries_first _ _ _ _ _ _ Ht) as (e & He & _).
      pose proof (serves_call en o r hs _ _ r' Hg) as Hs.
      apply (try_junk _ _ _ _ _ _ junk); [exact Hj|].
      eapply (try_cons r hs _ _ _ _ _ _ _ [_]); [exact Hs|exact Hr'|eexists; reflexivity|].
      eapply (IH e r' (hs ++ colls_of (zero_answer o c)) _ s'' m (junk ++ st) k1 N' He Ha' (tried_clean _ _ _ Hr')
                (tried_multi _ _ _ Hr')); [|apply ssteps_refl|right; split; assumption].
      rewrite app_length. lia.
    - (* try *)
      intros h t qs ps h' es Ht Htr IH e r hs a s n st k N He Ha Hcl Hmu Hlen Hst Hn. cbn in He. subst e.
      destruct (arrive _ _ _ _ _ _ _ _ _ Ha Hst Hn) as (m & s' & junk & r1 & k1 & N1 & Hc & Hr & Hj & Hv & Ha1).
      destruct (call_not_null en o map_size val Kinv r r1 m t s' (junk ++ st) k1 N1 Ht Hcl Hv Ha1 Hr Hc) as (r' & s'' & N' & Hg & Ha' & Hr2 & Hr').
      apply (tried_after _ _ Hmu) in Hr'.
      destruct (tries_first _ _ _ _ _ _ Htr) as (e & He & _).
      pose proof (serves_call en o r hs _ _ r' Hg) as Hs. cbn in Hs. rewrite app_nil_r in Hs.
      apply (try_junk _ _ _ _ _ _ junk); [exact Hj|].
      eapply (try_cons r hs _ _ _ _ _ _ _ []); [exact Hs|exact Hr'|exists []; rewrite app_nil_r; reflexivity|].
      eapply (IH e r' hs _ s'' m (junk ++ st) k1 N' He Ha' (tried_clean _ _ _ Hr') (tried_multi _ _ _ Hr') Hlen
                     (ssteps_refl _ _ e _) (or_intror (conj Hc Hr2))).
    - (* sequence *)
      intros h l qs ps h' es Hun IH e r hs a s n st k N He Ha Hcl Hmu <- Hst Hn. cbn in He.
      destruct (open_seq e r hs a s n st k N l (eq_sym He) Ha Hcl Hst Hn)
        as (r' & m & i & ch & junk & k1 & N' & Hs & Hnth & Hr' & Hj & Hreps & Ha').
      apply (tried_after _ _ Hmu) in Hr'.
      apply (try_junk _ _ _ _ _ _ (SOpen m false i [] :: junk)); [constructor; [constructor|exact Hj]|].
      eapply (try_more r hs [_; _] [_; _] _ _ _ _ _ []); [exact Hs|exact Hr'|eexists; reflexivity|].
      eapply (IH r' _ [] m i (length l) ch (junk ++ st) k1 N' Ha'); auto; [eapply tried_clean; eassumption|eapply tried_multi; eassumption|].
      rewrite app_length. cbn. lia.
    - (* mapping *)
      intros h l qs ps h' es Hun IH e r hs a s n st k N He Ha Hcl Hmu <- Hst Hn. cbn in He.
      destruct (open_map e r hs a s n st k N l (eq_sym He) Ha Hcl Hst Hn)
        as (r' & m & i & ch & junk & k1 & N' & Hs & Hnth & Hr' & Hj & Hreps & Ha').
      apply (tried_after _ _ Hmu) in Hr'.
      apply (try_junk _ _ _ _ _ _ (SOpen m false i [] :: junk)); [constructor; [constructor|exact Hj]|].
      eapply (try_more r hs [_; _] [_; _] _ _ _ _ _ []); [exact Hs|exact Hr'|eexists; reflexivity|].
      eapply (IH r' _ [] m i (map_size (length l)) ch (junk ++ st) k1 N' Ha'); auto; [eapply tried_clean; eassumption|eapply tried_multi; eassumption|].
      rewrite app_length. cbn. lia.
    - (* no items *)
      intros c h r hs junk m i size ch st k N Ha Hj Hreps Hcl Hmu <- Hnth. inversion Hreps; subst.
      pose proof (serves_more en o r hs c size i [] Hnth (abs_open_iter _ _ _ _ _ _ _ _ _ _ _ Ha)) as Hs.
      exists junk, r, hs, k, N. split; [exact Hs|]. split; [exact Hj|]. split; [exact Ha|].
      split; [apply tried_refl; assumption|]. split; [reflexivity|]. exists []. rewrite app_nil_r. reflexivity.
    - (* item *)
      intros i0 h t l qs ps h1 es qs' ps' h2 es' Htr IH1 Hitems IH2 r hs junk m i size ch st k N Ha Hj Hreps Hcl Hmu Hlen Hnth.
      inversion Hreps as [|n ns t0 ts Hn Hns]; subst.
      pose proof (serves_more_true r hs i0 size i (n :: ns) Hnth (abs_open_iter _ _ _ _ _ _ _ _ _ _ _ Ha) ltac:(discriminate)) as Hs.
      destruct (tries_first _ _ _ _ _ _ Htr) as (e & He & _).
      destruct (IH1 e r hs _ (SWait n) n (SOpen m false i ns :: st) k N He Ha Hcl Hmu eq_refl)
        as (junk2 & r2 & hs2 & k2 & N2 & Hs2 & Hj2 & Ha2 & Hr2 & Hl2 & more2 & ->).
      { eapply ssteps_trans; [apply spent_steps; exact Hj|]. apply ssteps_one.
        apply (ss_child en Kinv e m false). eapply rep_live; eassumption. }
      { left. auto. }
      eapply (try_cons r hs _ _ _ _ _ _ _ []); [exact Hs|apply tried_refl; assumption|exists []; rewrite app_nil_r; reflexivity|].
      eapply try_more; [exact Hs2|exact Hr2|eexists; reflexivity|].
      eapply (IH2 r2 (hs ++ more2) junk2 m i size ns st k2 N2 Ha2 Hj2 Hns (tried_clean _ _ _ Hr2) (tried_multi _ _ _ Hr2) Hl2).
      rewrite nth_error_app1; [exact Hnth|]. apply nth_error_Some. congruence.
    - (* no entries *)
      intros c h r hs junk m i size ch st k N Ha Hj Hreps Hcl Hmu <- Hnth. inversion Hreps; subst.
      pose proof (serves_more en o r hs c size i [] Hnth (abs_open_iter _ _ _ _ _ _ _ _ _ _ _ Ha)) as Hs.
      exists junk, r, hs, k, N. split; [exact Hs|]. split; [exact Hj|]. split; [exact Ha|].
      split; [apply tried_refl; assumption|]. split; [reflexivity|]. exists []. rewrite app_nil_r. reflexivity.
    - (* entry *)
      intros i0 h tk tv l qs ps h1 es qs' ps' h2 es' qs'' ps'' h3 es'' Hread IH1 Hns Hread2 IH2 Hun IH r hs junk m i size ch st k N Ha Hj Hent Hcl Hmu Hlen Hnth.
      destruct (next_entry m i ch tk tv l Hent) as (kn & vn & ch' & Hk & Hv & He' & Hne & Hsteps).
      pose proof (serves_more_true r hs i0 size i ch Hnth (abs_open_iter _ _ _ _ _ _ _ _ _ _ _ Ha) Hne) as Hs.
      destruct (tries_first _ _ _ _ _ _ Hread) as (e & He & Hraw & Hskip).
      destruct (tries_first _ _ _ _ _ _ Hread2) as (e2 & He2 & _).
      assert (Hki : Kinv k) by apply Ha.
      destruct (Hsteps st k N e e2 (Hskip Hns) Hraw Hki) as (pre & st' & N1 & Hst1 & Hst2).
      destruct (IH1 e r hs _ (SWait kn) kn _ k N1 He Ha Hcl Hmu Hlen
                  (ssteps_trans _ _ _ _ _ _ (spent_steps _ _ e junk _ k N Hj) Hst1) (or_introl (conj eq_refl Hk)))
        as (junk2 & r2 & hs2 & k2 & N2 & Hs2 & Hj2 & Ha2 & Hr2 & Hl2 & more2 & ->).
      destruct (Hst2 junk2 k2 N2 Hj2) as (post & Hpost & Hst3).
      destruct (IH2 e2 r2 (hs ++ more2) _ (SWait vn) vn _ k2 N2 He2 Ha2 (tried_clean _ _ _ Hr2) (tried_multi _ _ _ Hr2) Hl2 Hst3
                  (or_introl (conj eq_refl Hv)))
        as (junk3 & r3 & hs3 & k3 & N3 & Hs3 & Hj3 & Ha3 & Hr3 & Hl3 & more3 & ->).
      rewrite app_assoc in Ha3.
      eapply (try_cons r hs _ _ _ _ _ _ _ []); [exact Hs|apply tried_refl; assumption|exists []; rewrite app_nil_r; reflexivity|].
      eapply try_more; [exact Hs2|exact Hr2|eexists; reflexivity|].
      eapply try_more; [exact Hs3|exact Hr3|eexists; reflexivity|].
      eapply (IH r3 ((hs ++ more2) ++ more3) (junk3 ++ post) m i size ch' st k3 N3 Ha3); auto.
      + apply Forall_app; auto.
      + eapply tried_clean; eassumption.
      + eapply tried_multi; eassumption.
      + rewrite <- app_assoc. rewrite nth_error_app1; [exact Hnth|]. apply nth_error_Some. congruence.
  Qed.

  Lemma at_end_denied c r junk k N : reading c = true -> clean r -> Forall spent junk ->
    abs r (junk, k, N) ->
    exists r', gives en o r c (zero_answer o c) r' /\ r_fatal r' = Some REnd /\ r_denies r' = r_denies r.
  Proof.
    intros Hc [Hfa Hde] Hj Ha.
    destruct (spent_reaches en Kinv (expecter_of c) junk Hj r k N Ha) as (r1 & Hr1 & (S1 & S2 & S3 & S4) & Hx).
    pose proof (final_end en (expecter_of c) r1 Hr1) as Hend.
    assert (Happ : append_err en REnd r1 = set_fatal_error en REnd r1).
    { unfold append_err. rewrite andb_false_r, S1, Hfa. reflexivity. }
    rewrite Happ in Hend.
    pose proof (fatal_of REnd r1) as Hfx. pose proof (fatal_deny REnd r1) as Hfx3. pose proof (fatal_denies REnd r1) as Hfx4.
    rewrite S2, Hde in Hfx3. rewrite S3 in Hfx4.
    set (x := set_fatal_error en REnd r1) in *. clearbody x.
    assert (Ht : take_deny en x = x).
    { unfold take_deny. rewrite Hfx3. clear Happ Hend. destruct x; cbn in *; subst; reflexivity. }
    exists x. split; [|split; assumption].
    destruct (Hx _ Hend) as (f0 & H0). exists f0. intros f Hle.
    pose proof (run_le en _ _ _ _ _ _ Hle H0) as H.
    unfold do_call, has_fatal. rewrite Hfa. destruct c; try discriminate; rewrite H; cbn [obind];
      unfold finish, has_fatal; rewrite Hfx; rewrite ?orb_true_r, ?Ht; reflexivity.
  Qed.

  Lemma try_done r qs ps h es st : r_denies r = [] -> Forall spent st -> try_of r [] qs ps h es st ->
    done_trying en o r qs ps h es.
  Proof.
    intros Hd Hst (junk & r' & hs' & k' & N' & (F & rs & Hrs & Hs) & Hj & Ha & Hr & Hl & _).
    exists rs, hs', F. split; [exact Hrs|]. split; [exact Hl|]. intros f Hf. exists r'. split; [apply Hs; exact Hf|].
    pose proof Hr as ((Hfa & Hde) & Hds & _). rewrite Hd in Hds. cbn [app] in Hds. split.
    - cbn. rewrite Hfa, Hds. reflexivity.
    - intros c Hc.
      destruct (at_end_denied c r' (junk ++ st) k' N' Hc (conj Hfa Hde)) as (r'' & (F' & HF') & G1 & G2); auto.
      { apply Forall_app. auto. }
      exists F'. intros f' Hf'. exists r''. split; [apply HF'; exact Hf'|]. cbn. rewrite G1, G2, Hds. reflexivity.
  Qed.

  Theorem try_node n t k qs ps h es : Kinv k -> rep n t ->
    tries 0 t qs ps h es -> done_trying en o (r_new k true n) qs ps h es.
  Proof.
    intros Hk Hn Htr. destruct (tries_first _ _ _ _ _ _ Htr) as (e & He & _).
    eapply (try_done _ _ _ _ _ []); [reflexivity|constructor|].
    eapply (proj1 try_all _ _ _ _ _ _ Htr e (r_new k true n) [] ([SWait n], k, 0) (SWait n) n [] k 0 He);
      [|split; reflexivity|reflexivity|reflexivity|constructor|left; auto].
    cbn. repeat split; auto; repeat constructor.
  Qed.
End Deny.
