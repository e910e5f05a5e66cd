(** Proofs about the comparator. *)
From Coq Require Import String.
From Verif Require Import Base Ast Comparator ComparatorSpec.
Local Open Scope nat_scope.

(** ** what a walker still sends *)
Definition word_of (n : node) : list word :=
  match node_type n, texter n with
  | Some k, Some s => [Named k s]
  | Some k, None => [Kind k]
  | None, _ => []
  end.
Lemma words_accept n : words n = match accept n with Sends cs => word_of n ++ flat_map words cs | _ => [] end.
Proof.
  destruct n as [|ty|l|p1 p2|s|s|s|c i|s q|p1 p2|i|l|l|p1 p2|]; try reflexivity; cbn.
  - destruct p1, p2; cbn; rewrite ?app_nil_r; reflexivity.
  - destruct p1, p2; cbn; rewrite ?app_nil_r; reflexivity.
  - destruct p1, p2; cbn; rewrite ?app_nil_r; reflexivity.
Qed.
Lemma word_of_single n cs : accept n = Sends cs -> exists w, word_of n = [w].
Proof. destruct n; cbn; intros H; try discriminate; eexists; reflexivity. Qed.

Definition out (w : walker) : list word := match w with Walking l => flat_map words l | _ => [] end.

Lemma teqb a b : text_eqb a b = true <-> a = b. Proof. apply text_eqb_eq. Qed.
Lemma keqb a b : ntype_eqb a b = true <-> a = b.
Proof. split; [|intros ->; destruct b; reflexivity]. destruct a, b; cbn; intro H; congruence. Qed.
Lemma compare_words f s csf css : accept f = Sends csf -> accept s = Sends css ->
  compare_nodes (Some f) (Some s) = true <-> word_of f = word_of s.
Proof.
  intros Hf Hs. unfold compare_nodes, word_of.
  destruct (node_type f) as [kf|] eqn:Ef; [|destruct f; discriminate].
  destruct (node_type s) as [ks|] eqn:Es; [|destruct s; discriminate].
  rewrite andb_true_iff, keqb. split.
  - intros [-> H]. destruct (texter f) eqn:Tf, (texter s) eqn:Ts; try discriminate; try reflexivity.
    + apply teqb in H. subst. reflexivity.
    + exfalso. destruct f; try discriminate; destruct s; try discriminate; cbn in Ef, Es; congruence.
  - destruct (texter f) eqn:Tf, (texter s) eqn:Ts; intro E; try discriminate; injection E as -> ; split; auto.
    subst. apply teqb. reflexivity.
Qed.

(** ** states that can be reached *)
Definition fine (n : node) : Prop := n <> NNil /\ no_nil_elements n.
Definition fine_walker (w : walker) : Prop := match w with Walking l => Forall fine l | Ended => True | Crashed => False end.

Lemma fine_present a b : no_nil_elements a -> no_nil_elements b -> Forall fine (filter (fun n => negb (is_nil n)) [a; b]).
Proof.
  intros Ha Hb.
  assert (H : forall n l, no_nil_elements n -> Forall fine l -> Forall fine (if negb (is_nil n) then n :: l else l)).
  { intros n l Hn Hl. destruct (is_nil n) eqn:E; cbn; [exact Hl|]. constructor; [|exact Hl]. split; [|exact Hn].
    intros ->. discriminate. }
  apply (H a _ Ha), (H b _ Hb). constructor.
Qed.
Lemma fine_children n cs : no_nil_elements n -> accept n = Sends cs -> Forall fine cs.
Proof.
  intros Hn H. destruct Hn; cbn [accept] in H; try discriminate; injection H as <-;
    try constructor; try assumption; apply fine_present; assumption.
Qed.

Lemma walks_fine a a' : fine_walker a -> walks a a' -> fine_walker a' /\ out a' = out a.
Proof.
  intros Hf H. destruct H as [n l Hn|n l Hn|]; cbn in *.
  - inversion Hf; subst. split; [assumption|]. rewrite (words_accept n), Hn. reflexivity.
  - inversion Hf as [|? ? [H1 H2]]; subst. destruct n; try discriminate. congruence.
  - auto.
Qed.
Lemma gives_fine a x a' : fine_walker a -> gives a x a' -> fine_walker a'
  /\ match x with
     | Some n => out a = word_of n ++ out a' /\ exists cs, accept n = Sends cs
     | None => a = Ended /\ a' = Ended
     end.
Proof.
  intros Hf H. destruct H as [n cs l Hn|]; cbn in *; [|auto].
  inversion Hf as [|? ? [H1 H2]]; subst. split.
  - apply Forall_app. split; [eapply fine_children; eassumption|assumption].
  - split; [|eauto]. rewrite (words_accept n), Hn, flat_map_app, app_assoc. reflexivity.
Qed.

(** the answer that is due *)
Definition due (r : Prop) (s : cstate) : Prop :=
  fine_walker (c_first s) /\ fine_walker (c_second s) /\
  match c_main s with
  | Recv1 => (r <-> out (c_first s) = out (c_second s))
  | Recv2 (Some n) => (exists cs, accept n = Sends cs) /\ (r <-> word_of n ++ out (c_first s) = out (c_second s))
  | Recv2 None => c_first s = Ended /\ (r <-> [] = out (c_second s))
  | Drain1 b => (r <-> b = true)
  | Drain2 b => c_first s = Ended /\ (r <-> b = true)
  | Returned b => c_first s = Ended /\ c_second s = Ended /\ (r <-> b = true)
  end.

Lemma due_step r s s' : due r s -> cstep s s' -> due r s'.
Proof.
  intros (Hf1 & Hf2 & Hm) H. destruct H as [m a a' b H|m a b b' H|a x a' b H|x a b y b' H|q a n a' b H|q a b H|q a b n b' H|q a b H];
    cbn in *; unfold due; cbn.
  - destruct (walks_fine _ _ Hf1 H) as [Hf E]. split; [exact Hf|]. split; [exact Hf2|].
    destruct m as [|[n|]|q|q|q]; rewrite ?E; try exact Hm.
    + destruct Hm as [-> _]; inversion H.
    + destruct Hm as [-> _]; inversion H.
    + destruct Hm as [-> _]; inversion H.
  - destruct (walks_fine _ _ Hf2 H) as [Hf E]. split; [exact Hf1|]. split; [exact Hf|].
    destruct m as [|[n|]|q|q|q]; rewrite ?E; try exact Hm. destruct Hm as (_ & -> & _); inversion H.
  - destruct (gives_fine _ _ _ Hf1 H) as [Hf E]. split; [exact Hf|]. split; [exact Hf2|].
    destruct x as [n|].
    + destruct E as [E Hs]. split; [exact Hs|]. rewrite <- E. exact Hm.
    + destruct E as [E1 E2]. split; [exact E2|]. rewrite E1 in Hm. exact Hm.
  - destruct (gives_fine _ _ _ Hf2 H) as [Hf E]. split; [exact Hf1|]. split; [exact Hf|].
    destruct x as [n|], y as [z|]; cbn [after_receives].
    + destruct Hm as [[csn Hn] Hm]. destruct E as [E [csz Hz]]. rewrite E in Hm.
      destruct (word_of_single _ _ Hn) as [wn En]. destruct (word_of_single _ _ Hz) as [wz Ez].
      destruct (compare_nodes (Some n) (Some z)) eqn:Ec; cbn.
      * apply (compare_words n z _ _ Hn Hz) in Ec. rewrite Hm, Ec. split; [apply app_inv_head|congruence].
      * rewrite Hm. split; [|discriminate]. intros Eq. exfalso.
        assert (Hc : compare_nodes (Some n) (Some z) = true); [|congruence].
        apply (compare_words n z _ _ Hn Hz). rewrite En, Ez in *. cbn in Eq. congruence.
    + destruct Hm as [[csn Hn] Hm]. destruct E as [E1 E2]. subst. cbn in *.
      destruct (word_of_single _ _ Hn) as [wn En]. rewrite En in Hm. rewrite Hm. split; discriminate.
    + destruct Hm as [-> Hm]. destruct E as [E [csz Hz]]. destruct (word_of_single _ _ Hz) as [wz Ez].
      rewrite E, Ez in Hm. cbn in *. rewrite Hm. split; discriminate.
    + destruct Hm as [-> Hm]. destruct E as [E1 E2]. subst. cbn in *. rewrite Hm. split; reflexivity.
  - destruct (gives_fine _ _ _ Hf1 H) as [Hf E]. auto.
  - destruct (gives_fine _ _ _ Hf1 H) as [Hf [E _]]. auto.
  - destruct (gives_fine _ _ _ Hf2 H) as [Hf E]. auto.
  - destruct (gives_fine _ _ _ Hf2 H) as [Hf [E _]]. destruct Hm as [H1 H2]. auto.
Qed.

Lemma words_nil_first first second : first <> NNil -> second <> NNil -> no_nil_elements first -> no_nil_elements second ->
  due (words first = words second) (mkC Recv1 (Walking [first]) (Walking [second])).
Proof.
  intros N1 N2 H1 H2. unfold due. cbn. repeat split; try (repeat constructor; assumption); rewrite !app_nil_r; auto.
Qed.

Lemma due_steps r n s s' : due r s -> csteps n s s' -> due r s'.
Proof. intros H G. induction G as [|n s s1 s2 G1 G2 IH]; [exact H|]. apply IH. eapply due_step; eassumption. Qed.

(** ** never stuck *)
Lemma walker_moves w : fine_walker w -> w <> Ended ->
  (exists w', walks w w') \/ (exists n w', gives w (Some n) w').
Proof.
  intros Hf He. destruct w as [[|n l]| |]; [left; eexists; constructor| |congruence|destruct Hf].
  destruct (accept n) eqn:E; [left; eexists; apply w_silent; exact E|right; eexists _, _; econstructor; exact E|].
  left; eexists; eapply w_crash; exact E.
Qed.
Lemma goes_on r s : due r s -> (exists s', cstep s s') \/ (exists b, s = mkC (Returned b) Ended Ended).
Proof.
  intros (H1 & H2 & Hm). destruct s as [m a b]; cbn in *.
  assert (Da : a = Ended \/ a <> Ended) by (destruct a; [right|left|right]; congruence).
  assert (Db : b = Ended \/ b <> Ended) by (destruct b; [right|left|right]; congruence).
  destruct m as [|x|q|q|q].
  - left. destruct Da as [->|Da]; [eexists; apply c_recv1; constructor|].
    destruct (walker_moves a H1 Da) as [[w' Hw]|(n & w' & Hw)]; eexists; [apply c_walk1|apply c_recv1]; exact Hw.
  - left. destruct Db as [->|Db]; [eexists; apply c_recv2; constructor|].
    destruct (walker_moves b H2 Db) as [[w' Hw]|(n & w' & Hw)]; eexists; [apply c_walk2|apply c_recv2]; exact Hw.
  - left. destruct Da as [->|Da]; [eexists; apply c_drained1; constructor|].
    destruct (walker_moves a H1 Da) as [[w' Hw]|(n & w' & Hw)]; eexists; [apply c_walk1|eapply c_drain1]; exact Hw.
  - left. destruct Db as [->|Db]; [eexists; apply c_drained2; constructor|].
    destruct (walker_moves b H2 Db) as [[w' Hw]|(n & w' & Hw)]; eexists; [apply c_walk2|eapply c_drain2]; exact Hw.
  - right. destruct Hm as (-> & -> & _). eauto.
Qed.

(** ** finitely many steps *)
Fixpoint size (n : node) : nat :=
  match n with
  | NStream l | NSequence l | NMapping l => S (list_sum (map size l))
  | NContent a b | NEntry a b | NProperties a b => S (size a + size b)
  | _ => 1
  end.
Definition wsize (w : walker) : nat := match w with Walking l => S (list_sum (map size l)) | _ => 0 end.
Definition mrank (m : caller) : nat :=
  match m with Recv1 => 4 | Recv2 (Some _) => 4 | Recv2 None => 3 | Drain1 _ => 2 | Drain2 _ => 1 | Returned _ => 0 end.
Definition csize (s : cstate) : nat := mrank (c_main s) + wsize (c_first s) + wsize (c_second s).

Lemma sum_app l l' : list_sum (map size (l ++ l')) = list_sum (map size l) + list_sum (map size l').
Proof. rewrite map_app, list_sum_app. reflexivity. Qed.
Lemma size_children n cs : accept n = Sends cs -> list_sum (map size cs) < size n.
Proof.
  assert (P : forall a b, list_sum (map size (filter (fun n => negb (is_nil n)) [a; b])) <= size a + size b).
  { intros a b. cbn. destruct (is_nil a), (is_nil b); cbn; lia. }
  destruct n; cbn [accept]; intros H; try discriminate; injection H as <-; cbn [size map list_sum fold_right]; try lia.
  - rewrite (Nat.add_comm (size n1)). apply Nat.lt_succ_r, P.
  - apply Nat.lt_succ_r, P.
  - apply Nat.lt_succ_r, P.
Qed.
Lemma sum_cons n l : list_sum (map size (n :: l)) = size n + list_sum (map size l).
Proof. reflexivity. Qed.
Lemma size_pos n : 0 < size n. Proof. destruct n; cbn; lia. Qed.
Lemma walks_size a a' : walks a a' -> wsize a' < wsize a.
Proof. intros H. destruct H as [n l _|n l _|]; cbn [wsize]; rewrite ?sum_cons; try (pose proof (size_pos n)); lia. Qed.
Lemma gives_size a n a' : gives a (Some n) a' -> wsize a' < wsize a.
Proof.
  intros H. remember (Some n) as x. destruct H as [k cs l Hk|]; [|discriminate].
  cbn [wsize]. rewrite sum_app, sum_cons. pose proof (size_children _ _ Hk). lia.
Qed.
Lemma gives_closed a a' : gives a None a' -> a = Ended /\ a' = Ended.
Proof. intros H. inversion H; auto. Qed.

Lemma step_size s s' : cstep s s' -> csize s' < csize s.
Proof.
  intros H. destruct H as [m a a' b H|m a b b' H|a x a' b H|x a b y b' H|q a n a' b H|q a b H|q a b n b' H|q a b H]; unfold csize; cbn [c_main c_first c_second mrank].
  - apply walks_size in H. lia.
  - apply walks_size in H. lia.
  - destruct x as [n|]; [apply gives_size in H; lia|]. apply gives_closed in H as [-> ->]. cbn. lia.
  - destruct y as [n|].
    + apply gives_size in H.
      assert (mrank (after_receives x (Some n)) <= match x with Some _ => 4 | None => 2 end).
      { destruct x; cbn [after_receives]; [destruct (compare_nodes _ _); cbn; lia|cbn; lia]. }
      destruct x; lia.
    + apply gives_closed in H as [-> ->]. cbn [wsize]. destruct x as [n|]; cbn; lia.
  - apply gives_size in H. lia.
  - lia.
  - apply gives_size in H. lia.
  - lia.
Qed.
Lemma steps_size n s s' : csteps n s s' -> csize s' + n <= csize s.
Proof. induction 1 as [|n s s1 s2 H1 H2 IH]; [lia|]. apply step_size in H1. lia. Qed.

(** ** together *)
Definition agree (first second : node) : Prop :=
  (first = NNil /\ second = NNil) \/ (first <> NNil /\ second <> NNil /\ words first = words second).

Lemma is_nil_eq n : is_nil n = true <-> n = NNil. Proof. destruct n; cbn; split; congruence. Qed.
Lemma start_due first second : no_nil_elements first -> no_nil_elements second -> due (agree first second) (c_start first second).
Proof.
  intros H1 H2. unfold c_start, agree.
  destruct (is_nil first) eqn:E1; [apply is_nil_eq in E1|assert (N1 : first <> NNil) by (intro; subst; discriminate)];
  (destruct (is_nil second) eqn:E2; [apply is_nil_eq in E2|assert (N2 : second <> NNil) by (intro; subst; discriminate)]); cbn.
  1-3: unfold due; cbn; repeat split; auto; intuition congruence.
  destruct (words_nil_first first second N1 N2 H1 H2) as (F1 & F2 & Hm). split; [exact F1|]. split; [exact F2|].
  cbn [c_main] in *. rewrite <- Hm. intuition.
Qed.

Lemma comparison_progress first second n s : no_nil_elements first -> no_nil_elements second ->
  csteps n (c_start first second) s ->
  (exists s', cstep s s') \/ (exists b, s = mkC (Returned b) Ended Ended).
Proof. intros H1 H2 H. eapply goes_on. exact (due_steps _ _ _ _ (start_due _ _ H1 H2) H). Qed.
Lemma comparison_answer first second n s b : no_nil_elements first -> no_nil_elements second ->
  csteps n (c_start first second) s -> c_main s = Returned b ->
  c_first s = Ended /\ c_second s = Ended /\ (b = true <-> agree first second).
Proof.
  intros H1 H2 H Hr. destruct (due_steps _ _ _ _ (start_due _ _ H1 H2) H) as (_ & _ & Hm). rewrite Hr in Hm.
  destruct Hm as (A & B & C). repeat split; auto; apply C.
Qed.
Lemma comparison_bounded first second : exists bound, forall n s, csteps n (c_start first second) s -> n <= bound.
Proof. exists (csize (c_start first second)). intros n s H. apply steps_size in H. lia. Qed.

(** an answer does come: every maximal run ends with one *)
Lemma comparison_finishes first second : no_nil_elements first -> no_nil_elements second ->
  exists n b, csteps n (c_start first second) (mkC (Returned b) Ended Ended) /\ (b = true <-> agree first second).
Proof.
  intros H1 H2. pose proof (start_due _ _ H1 H2) as Hd. remember (c_start first second) as s eqn:Es. clear Es.
  remember (csize s) as k eqn:Ek. revert s Hd Ek. induction k as [k IH] using lt_wf_ind. intros s Hd Ek.
  destruct (goes_on _ _ Hd) as [[s' Hs]|[b ->]].
  - pose proof (step_size _ _ Hs) as Hlt. destruct (IH (csize s') ltac:(lia) s' (due_step _ _ _ Hd Hs) eq_refl) as (n & b & Hn & Hb).
    exists (S n), b. split; [econstructor; eassumption|exact Hb].
  - exists 0, b. split; [constructor|]. destruct Hd as (_ & _ & _ & _ & H). cbn in H. symmetry. exact H.
Qed.

(** ** which trees agree *)
Lemma alike_words a : forall b, alike a b -> words a = words b.
Proof.
  assert (Hl : forall l, Forall (fun a => forall b, alike a b -> words a = words b) l ->
          forall l2, Forall2 alike l l2 -> flat_map words l = flat_map words l2).
  { induction 1 as [|x l Hx Hl IH]; intros l2 H2; inversion H2; subst; [reflexivity|]. cbn. f_equal; auto. }
  induction a using node_ind'; intros b Hb; inversion Hb; subst; cbn; try reflexivity; f_equal; auto; f_equal; auto.
Qed.

Lemma same_form_length a : forall b, same_form a b -> length (words a) = length (words b).
Proof.
  assert (Hl : forall l, Forall (fun a => forall b, same_form a b -> length (words a) = length (words b)) l ->
          forall l2, Forall2 same_form l l2 -> length (flat_map words l) = length (flat_map words l2)).
  { induction 1 as [|x l Hx Hl IH]; intros l2 H2; inversion H2; subst; [reflexivity|]. cbn. rewrite !app_length. f_equal; auto. }
  induction a using node_ind'; intros b Hb; inversion Hb; subst; cbn; rewrite ?app_length; auto.
Qed.
Lemma app_split {A} (a b c d : list A) : length a = length b -> a ++ c = b ++ d -> a = b /\ c = d.
Proof.
  revert b. induction a as [|x a IH]; intros [|y b] Hl H; try discriminate; [auto|].
  injection H as -> H. destruct (IH b) as [-> ->]; auto.
Qed.
Lemma same_form_alike a : forall b, same_form a b -> words a = words b -> alike a b.
Proof.
  assert (Hl : forall l, Forall (fun a => forall b, same_form a b -> words a = words b -> alike a b) l ->
          forall l2, Forall2 same_form l l2 -> flat_map words l = flat_map words l2 -> Forall2 alike l l2).
  { induction 1 as [|x l Hx Hl IH]; intros l2 H2 E; inversion H2; subst; [constructor|]. cbn in E.
    apply app_split in E as [E1 E2]; [|apply same_form_length; assumption]. constructor; auto. }
  induction a using node_ind'; intros b Hb E; inversion Hb; subst; cbn in E; try (constructor; fail);
    try (injection E as E); subst; try (constructor; auto; fail);
    (apply app_split in E as [E1 E2]; [|apply same_form_length; assumption]; constructor; auto).
Qed.
