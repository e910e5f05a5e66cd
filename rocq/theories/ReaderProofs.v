(** Facts about the generic reader: errors. *)
From Verif Require Import Base Schema Values Writer Reader ReaderSpec.
Local Open Scope nat_scope.

Lemma obind_done {A B} (x : outcome A) (f : A -> outcome B) b :
  obind x f = Done b -> exists a, x = Done a /\ f a = Done b.
Proof. destruct x; cbn; intro H; try discriminate. eauto. Qed.

Section Errors.
  Context {Nd K : Type} (en : engine Nd K) (o : oracle).

  (** what any step of the visiting functions leaves alone *)
  Definition keeps (r r' : rstate Nd K) : Prop :=
    r_multi r' = r_multi r
    /\ (r_multi r = false -> r_denies r' = r_denies r)
    /\ (forall x, r_fatal r = Some x -> r_fatal r' = Some x).

  Lemma keeps_refl r : keeps r r.
  Proof. repeat split; auto. Qed.
  Lemma keeps_trans a b c : keeps a b -> keeps b c -> keeps a c.
  Proof.
    intros (H1 & H2 & H3) (G1 & G2 & G3); repeat split; try congruence; auto.
    intro Hm. rewrite G2; auto. rewrite H1; exact Hm.
  Qed.

  Lemma keeps_same (r r' : rstate Nd K) :
    r_multi r' = r_multi r -> r_denies r' = r_denies r -> r_fatal r' = r_fatal r -> keeps r r'.
  Proof. intros H1 H2 H3. repeat split; auto. intros x Hx. congruence. Qed.

  Lemma keeps_append_err x r : keeps r (append_err en x r).
  Proof.
    unfold append_err, set_fatal_error. destruct (r_multi r && is_deny x) eqn:E.
    - apply andb_prop in E as [E1 _]. repeat split; auto. congruence.
    - destruct (r_fatal r) eqn:F; [apply keeps_refl|].
      destruct (en_drains en); repeat split; cbn; auto; congruence.
  Qed.

  Lemma swap_fields (p : point Nd) (r : rstate Nd K) :
    r_multi (swap_point p r) = r_multi r /\ r_denies (swap_point p r) = r_denies r
    /\ r_fatal (swap_point p r) = r_fatal r.
  Proof. unfold swap_point. destruct (r_route r); auto. Qed.

  Ltac same := apply keeps_same; unfold extracting, swap_point;
    repeat match goal with |- context [match ?x with _ => _ end] => destruct x end; reflexivity.

  Lemma keeps_extracting x c s r r1 : keeps r r1 -> keeps r (extracting x c s r1).
  Proof. intro H. eapply keeps_trans; [exact H|]. unfold extracting. destruct x; same. Qed.

  Lemma keeps_texter e n s r r' : visit_texter en e n s r = Done r' -> keeps r r'.
  Proof.
    unfold visit_texter. destruct (r_route r) as [|p ps] eqn:E; [discriminate|].
    destruct (en_process en (r_keep r) e n (pt_concl p)) as [c x]. intro H; injection H as <-.
    apply keeps_extracting.
    destruct c; try same. eapply keeps_trans; [|apply keeps_append_err]. same.
  Qed.

  Lemma keeps_null e n r r' : visit_null en e n r = Done r' -> keeps r r'.
  Proof.
    unfold visit_null. destruct (r_route r) as [|p ps] eqn:E; [discriminate|].
    destruct (en_process en (r_keep r) e n (pt_concl p)) as [c x]. intro H; injection H as <-.
    apply keeps_extracting.
    destruct c; try same.
    - eapply keeps_trans; [|apply keeps_append_err]. same.
    - eapply keeps_trans; [|apply keeps_append_err]. same.
  Qed.

  Lemma keeps_run e fuel : forall t r r', run en e fuel t r = Done r' -> keeps r r'.
  Proof.
    induction fuel as [|f IH]; intros t r r' H; [discriminate|].
    destruct t as [|n|i bind]; cbn [run] in H.
    - destruct (current_node en r) as [n|].
      + eapply IH; exact H.
      + injection H as <-. apply keeps_append_err.
    - destruct (en_visit en (r_keep r) n) as [ch size bind|s [a|]| |[m|a]|m| |]; try discriminate.
      + destruct (r_route r) as [|p ps] eqn:Er; [discriminate|].
        set (pr := if is_unknown (pt_concl p) then _ else _) in H.
        assert (Hk : keeps r (snd pr)) by (unfold pr; destruct (is_unknown (pt_concl p)); same).
        destruct pr as [it r1]; cbn [snd] in Hk.
        destruct (en_process en (r_keep r1) e (pt_node p) (pt_concl p)) as [c x].
        set (r2 := swap_point _ _) in H.
        assert (Hk2 : keeps r r2) by (eapply keeps_trans; [exact Hk|unfold r2; same]).
        clearbody r2. clear Hk.
        apply obind_done in H as (r3 & H3 & H).
        assert (Hk3 : keeps r2 r3).
        { destruct c; try discriminate; try (injection H3 as <-; same).
          - injection H3 as <-. apply keeps_append_err.
          - destruct it as [i|]; [|discriminate].
            apply obind_done in H3 as (r4 & H4 & H3). apply IH in H4.
            destruct (iter_empty i r4 && is_continue (r_last r4)).
            + apply IH in H3. eapply keeps_trans; [exact H4|]. eapply keeps_trans; [|exact H3]. same.
            + injection H3 as <-. exact H4. }
        eapply keeps_trans; [exact Hk2|]. eapply keeps_trans; [exact Hk3|].
        destruct it; [injection H as <-; same|]. destruct x; [discriminate|]. injection H as <-. apply keeps_refl.
      + eapply keeps_trans; [|eapply keeps_texter; exact H]. same.
      + eapply keeps_texter; exact H.
      + eapply keeps_null; exact H.
      + apply IH in H. eapply keeps_trans; [|exact H]. same.
      + injection H as <-. apply keeps_append_err.
      + eapply IH; exact H.
      + injection H as <-. apply keeps_refl.
    - destruct (is_continue (r_last r)); [|injection H as <-; apply keeps_refl].
      destruct (iter_left i r) as [|n rest]; [injection H as <-; apply keeps_refl|].
      set (r1 := if bind then _ else _) in H.
      assert (Hk : keeps r r1) by (unfold r1; destruct bind; same).
      clearbody r1. eapply keeps_trans; [exact Hk|].
      destruct (en_valid en n).
      + apply obind_done in H as (r2 & H2 & H). apply IH in H2. apply IH in H.
        eapply keeps_trans; [|exact H]. eapply keeps_trans; [|exact H2]. same.
      + apply IH in H. exact H.
  Qed.

  Lemma keeps_take_deny r : keeps r (take_deny en r).
  Proof.
    unfold take_deny. destruct (r_deny r) as [d|]; [|same].
    eapply keeps_trans; [apply (keeps_append_err d)|]. same.
  Qed.

  Lemma keeps_finish fuel c r a r' : finish en o fuel c r = Done (a, r') -> keeps r r'.
  Proof.
    intro H. unfold finish in H.
    assert (Hconv : forall A (v : option A) mk, converted en o c v mk r = Done (a, r') -> keeps r r').
    { intros A v mk. unfold converted. destruct v; intro G; injection G as _ <-;
        [apply keeps_refl|apply keeps_append_err]. }
    destruct c; try (destruct (denied r || has_fatal r);
      [injection H as _ <-; apply keeps_take_deny|]);
      try (eapply Hconv; exact H);
      try (injection H as _ <-; first [apply keeps_refl | same]).
    - destruct (has_fatal r); [injection H as _ <-; apply keeps_refl|].
      destruct (r_deny r); injection H as _ <-; [same|apply keeps_refl].
    - destruct (r_route r) as [|p ps]; [injection H as _ <-; apply keeps_refl|].
      apply obind_done in H as ([v k] & _ & H). cbn in H. destruct v; injection H as _ <-; [same|].
      eapply keeps_trans; [|apply keeps_append_err]. same.
    - destruct (r_route r) as [|p ps]; [discriminate|].
      apply obind_done in H as ([v k] & _ & H). cbn in H. destruct v; injection H as _ <-; [same|].
      eapply keeps_trans; [|apply keeps_append_err]. same.
  Qed.

  Lemma keeps_call fuel c r a r' : do_call en o fuel c r = Done (a, r') -> keeps r r'.
  Proof.
    intro H. unfold do_call in H.
    destruct c; try (destruct (has_fatal r); [injection H as _ <-; apply keeps_refl|];
      apply obind_done in H as (r1 & H1 & H); apply keeps_run in H1; apply keeps_finish in H;
      eapply keeps_trans; eassumption).
    - injection H as _ <-. destruct (r_fatal r) eqn:E; [apply keeps_refl|].
      unfold set_fatal_error. destruct (en_drains en); repeat split; cbn; auto; congruence.
    - injection H as _ <-. apply keeps_refl.
  Qed.

  Lemma keeps_request fuel q s p s' : do_request en o fuel q s = Done (p, s') -> keeps (fst s) (fst s').
  Proof.
    destruct s as [r hs], q as [c|h|h]; cbn; intro H; apply obind_done in H as (x & Hx & H).
    - injection H as _ <-. cbn. destruct x. eapply keeps_call; exact Hx.
    - injection H as _ <-. apply keeps_refl.
    - injection H as _ <-. apply keeps_refl.
  Qed.

  Lemma keeps_requests fuel qs : forall s ps s',
    do_requests en o fuel qs s = Done (ps, s') -> keeps (fst s) (fst s').
  Proof.
    induction qs as [|q qs IH]; intros s ps s' H; cbn in H.
    - injection H as _ <-. apply keeps_refl.
    - apply obind_done in H as ([p s1] & H1 & H). apply obind_done in H as ([ps2 s2] & H2 & H).
      injection H as _ <-. cbn in *. apply keeps_request in H1. apply IH in H2.
      eapply keeps_trans; eauto.
  Qed.

  Definition fatal_list (r : rstate Nd K) : list rerr := match r_fatal r with Some x => [x] | None => [] end.

  (** a fatal error blocks every call *)
  Lemma stuck_call fuel c r x : r_fatal r = Some x ->
    do_call en o fuel c r = Done (match c with DError => AErrors (fatal_list r ++ r_denies r) | _ => zero_answer o c end, r).
  Proof. intro H. destruct c; cbn; unfold has_fatal, fatal_list; rewrite ?H; reflexivity. Qed.

  Lemma stuck_requests fuel qs : forall s x ps s',
    r_fatal (fst s) = Some x ->
    do_requests en o fuel qs s = Done (ps, s') ->
    fst s' = fst s /\ Forall2 (stuck_reply o (fatal_list (fst s) ++ r_denies (fst s))) qs ps.
  Proof.
    induction qs as [|q qs IH]; intros s x ps s' Hx H; cbn in H.
    - injection H as <- <-. split; [reflexivity|constructor].
    - apply obind_done in H as ([p s1] & H1 & H). apply obind_done in H as ([ps2 s2] & H2 & H).
      injection H as <- <-. cbn [fst snd] in *.
      assert (Hs : fst s1 = fst s /\ stuck_reply o (fatal_list (fst s) ++ r_denies (fst s)) q p).
      { destruct s as [r hs]. destruct q as [c|h|h]; cbn in H1; apply obind_done in H1 as (y & Hy & H1);
          injection H1 as <- <-; cbn in *; [|auto|auto].
        rewrite (stuck_call fuel c r x Hx) in Hy. injection Hy as <-. cbn.
        split; [reflexivity|]. destruct c; reflexivity. }
      destruct Hs as [Hs1 Hs2].
      assert (Hx1 : r_fatal (fst s1) = Some x) by (rewrite Hs1; exact Hx).
      destruct (IH s1 x ps2 s2 Hx1 H2) as [G1 G2]. rewrite Hs1 in G1, G2.
      split; [exact G1|]. constructor; assumption.
  Qed.

  Lemma do_requests_app fuel qs1 : forall qs2 s ps s',
    do_requests en o fuel (qs1 ++ qs2) s = Done (ps, s') ->
    exists ps1 s1 ps2, do_requests en o fuel qs1 s = Done (ps1, s1)
      /\ do_requests en o fuel qs2 s1 = Done (ps2, s') /\ ps = ps1 ++ ps2 /\ length ps1 = length qs1.
  Proof.
    induction qs1 as [|q qs1 IH]; intros qs2 s ps s' H.
    - exists [], s, ps. auto.
    - cbn in H. apply obind_done in H as ([p s1] & H1 & H). apply obind_done in H as ([psr s2] & H2 & H).
      injection H as <- <-. cbn [fst snd] in *.
      apply IH in H2 as (ps1 & s3 & ps2 & G1 & G2 & -> & Hl).
      exists (p :: ps1), s3, ps2. cbn. rewrite H1. cbn. rewrite G1. cbn. repeat split; auto.
  Qed.

  (** C22, single-error mode *)
  Lemma errors_stick fuel keep tree qs1 qs2 ps1 es ps2 s' :
    do_requests en o fuel (qs1 ++ QCall DError :: qs2) (r_new keep false tree, [])
      = Done (ps1 ++ PAnswer (AErrors es) :: ps2, s') ->
    length ps1 = length qs1 -> es <> [] ->
    Forall2 (stuck_reply o es) qs2 ps2.
  Proof.
    intros H Hlen Hes.
    apply do_requests_app in H as (pa & s1 & pb & H1 & H2 & Hps & Hla).
    assert (Heq : pa = ps1 /\ PAnswer (AErrors es) :: ps2 = pb).
    { clear -Hps Hla Hlen. rewrite <- Hlen in Hla. clear Hlen. revert pa Hps Hla.
      induction ps1 as [|x ps1 IH]; intros [|y pa] H Hl; try discriminate; [auto|].
      cbn in *. injection H as -> H. injection Hl as Hl. destruct (IH _ H Hl). split; congruence. }
    destruct Heq as [-> <-]. clear Hps.
    pose proof (keeps_requests _ _ _ _ _ H1) as (Hm & Hd & _). cbn in Hm, Hd. specialize (Hd eq_refl).
    cbn in H2. destruct s1 as [r hs]. cbn in *.
    apply obind_done in H2 as ([psx sx] & H2 & H). injection H as He Hp _. cbn in Hp, H2. subst psx.
    assert (Hf : exists x, r_fatal r = Some x).
    { destruct (r_fatal r); [eauto|]. rewrite Hd in He. cbn in He. subst es. congruence. }
    destruct Hf as [x Hx].
    pose proof (fun G => stuck_requests fuel qs2 _ x ps2 sx G H2) as Hs. cbn in Hs.
    specialize (Hs Hx) as [_ Hs]. unfold fatal_list in Hs. rewrite He in Hs. exact Hs.
  Qed.

  (** in either mode, once the fatal error is set *)
  Lemma fatal_sticks fuel qs s x ps s' :
    r_fatal (fst s) = Some x -> do_requests en o fuel qs s = Done (ps, s') ->
    fst s' = fst s /\ Forall2 (stuck_reply o (x :: r_denies (fst s))) qs ps.
  Proof. intros Hx H. pose proof (stuck_requests _ _ _ _ _ _ Hx H) as G. unfold fatal_list in G. rewrite Hx in G. exact G. Qed.
End Errors.
