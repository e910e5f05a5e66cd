From Coq Require Import ZifyBool ZifyNat.
From Verif Require Import Base Token Balance BalanceSpec.

(** ** stack machine on lists, top first *)
Inductive mach := Bad | Stk (st : list ttype).

Definition mstep (m : mach) (x : ttype) : mach :=
  match m with
  | Bad => Bad
  | Stk st =>
      match x with
      | TSequenceStart => Stk (TSequenceStart :: st)
      | TMappingStart => Stk (TMappingStart :: st)
      | TSequenceEnd => match st with TSequenceStart :: st' => Stk st' | _ => Bad end
      | TMappingEnd => match st with TMappingStart :: st' => Stk st' | _ => Bad end
      | _ => m
      end
  end.
Definition mrun (m : mach) (s : list ttype) : mach := fold_left mstep s m.

Lemma mrun_bad s : mrun Bad s = Bad.
Proof. induction s; [reflexivity|exact IHs]. Qed.

Lemma mrun_app m a b : mrun m (a ++ b) = mrun (mrun m a) b.
Proof. apply fold_left_app. Qed.

Lemma mstep_nonbracket st x : ~ is_bracket x -> mstep (Stk st) x = Stk st.
Proof.
  intro H. destruct x; try reflexivity; exfalso; apply H; eexists;
    [left|right|left|right]; constructor.
Qed.

Lemma bracket_dec x : {c | bracket_pair x c} + {o | bracket_pair o x} + {~ is_bracket x}.
Proof.
  destruct x;
    try (right; intros [y [H|H]]; inversion H; fail);
    left; [left|right|left|right]; eexists; constructor.
Qed.

Lemma balanced_run s : balanced s -> forall st, mrun (Stk st) s = Stk st.
Proof.
  induction 1 as [|x s Hx Hs IH|o c s1 s2 Hp H1 IH1 H2 IH2]; intro st; [reflexivity| |].
  - change (mrun (mstep (Stk st) x) s = Stk st). rewrite mstep_nonbracket by exact Hx. apply IH.
  - change (mrun (mstep (Stk st) o) (s1 ++ c :: s2) = Stk st).
    assert (Ho : mstep (Stk st) o = Stk (o :: st)) by (destruct Hp; reflexivity).
    rewrite Ho, mrun_app, IH1.
    change (mrun (mstep (Stk (o :: st)) c) s2 = Stk st).
    assert (Hc : mstep (Stk (o :: st)) c = Stk st) by (destruct Hp; reflexivity).
    rewrite Hc. apply IH2.
Qed.

Lemma balanced_app a b : balanced a -> balanced b -> balanced (a ++ b).
Proof.
  induction 1 as [|x s Hx Hs IH|o c s1 s2 Hp H1 IH1 H2 IH2]; intro Hb; [exact Hb| |].
  - cbn. constructor; auto.
  - cbn. rewrite <- app_assoc. cbn. apply bal_pair; auto.
Qed.

(** a string that brings the stack [st] to [st'] consists of balanced pieces separated by the
    closers of [st] popped and the openers of [st'] pushed *)
Inductive opened : list ttype -> list ttype -> Prop :=
| op_nil s : balanced s -> opened [] s
| op_cons o c st s1 s2 : bracket_pair o c -> opened st s1 -> balanced s2 ->
                         opened (o :: st) (s1 ++ o :: s2).

Lemma opened_app st s b : opened st s -> balanced b -> opened st (s ++ b).
Proof.
  destruct 1 as [s Hs|o c st s1 s2 Hp H1 H2]; intro Hb.
  - constructor. apply balanced_app; assumption.
  - rewrite <- app_assoc. cbn. econstructor; [exact Hp|exact H1|apply balanced_app; assumption].
Qed.

Lemma run_opened s : forall st, mrun (Stk []) s = Stk st -> opened st s.
Proof.
  induction s as [|x s IH] using rev_ind; intros st H.
  - injection H as <-. constructor. constructor.
  - rewrite mrun_app in H. destruct (mrun (Stk []) s) as [|st0] eqn:E; [discriminate|].
    specialize (IH st0 eq_refl). change (mstep (Stk st0) x = Stk st) in H.
    destruct (bracket_dec x) as [[[c Hc]|[o Ho]]|Hx].
    + assert (st = x :: st0) by (destruct Hc; cbn in H; congruence). subst st.
      econstructor; [exact Hc|exact IH|constructor].
    + assert (st0 = o :: st).
      { destruct Ho; cbn in H; destruct st0 as [|[] st0']; congruence. }
      subst st0. inversion IH as [|o' c' st' s1 s2 Hp H1 H2 Heq]; subst.
      rewrite <- app_assoc. cbn.
      apply opened_app; [exact H1|].
      replace (o :: s2 ++ [x]) with (o :: s2 ++ x :: []) by reflexivity.
      apply bal_pair; [exact Ho|exact H2|constructor].
    + rewrite mstep_nonbracket in H by exact Hx. injection H as <-.
      apply opened_app; [exact IH|]. constructor; [exact Hx|constructor].
Qed.

Lemma opened_completable st : forall s, opened st s -> completable s.
Proof.
  induction st as [|o st IH]; intros s H; inversion H as [s' Hs|o' c st' s1 s2 Hp H1 H2]; subst.
  - exists []. rewrite app_nil_r. exact Hs.
  - assert (Hx : opened st (s1 ++ o :: s2 ++ [c])).
    { apply opened_app; [exact H1|]. apply bal_pair; [exact Hp|exact H2|constructor]. }
    destruct (IH _ Hx) as (s' & Hs'). exists (c :: s').
    rewrite <- app_assoc in *. cbn in *. rewrite <- app_assoc in *. exact Hs'.
Qed.

Lemma balanced_iff_run s : balanced s <-> mrun (Stk []) s = Stk [].
Proof.
  split; [intro H; apply balanced_run; exact H|].
  intro H. apply run_opened in H. inversion H; assumption.
Qed.

Lemma completable_iff_run s : completable s <-> exists st, mrun (Stk []) s = Stk st.
Proof.
  split.
  - intros (s' & H). apply balanced_run with (st := []) in H. rewrite mrun_app in H.
    destruct (mrun (Stk []) s) as [|st]; [rewrite mrun_bad in H; discriminate|eauto].
  - intros (st & H). eapply opened_completable, run_opened, H.
Qed.

Lemma innermost_iff_run s o :
  innermost_open s o <-> exists st, mrun (Stk []) s = Stk (o :: st).
Proof.
  split.
  - intros (s1 & s2 & -> & (c & Hp) & H1 & H2).
    apply completable_iff_run in H1 as (st & H1). exists st.
    rewrite mrun_app, H1. change (mrun (mstep (Stk st) o) s2 = Stk (o :: st)).
    replace (mstep (Stk st) o) with (Stk (o :: st)) by (destruct Hp; reflexivity).
    apply balanced_run. exact H2.
  - intros (st & H). apply run_opened in H.
    inversion H as [|o' c st' s1 s2 Hp H1 H2]; subst.
    exists s1, s2. split; [reflexivity|]. split; [eauto|].
    split; [eapply opened_completable; exact H1|exact H2].
Qed.

(** ** the checker implements the stack machine *)
Definition wf (b : checker) : Prop :=
  bc_pairs b = flow_pairs /\ bc_len b <= length (bc_arr b).

Definition abs (b : checker) : mach :=
  if bc_bad b then Bad else Stk (rev (bc_stack b)).

Lemma stack_length b : bc_len b <= length (bc_arr b) -> length (bc_stack b) = bc_len b.
Proof. intro H. unfold bc_stack. apply firstn_length_le. exact H. Qed.

Lemma last_opt_rev {A} (l : list A) : last_opt l = match rev l with [] => None | x :: _ => Some x end.
Proof. reflexivity. Qed.

Lemma firstn_write arr len x :
  len <= length arr -> firstn (len + 1) (bc_write arr len x) = firstn len arr ++ [x].
Proof.
  intro H. unfold bc_write.
  rewrite firstn_app, firstn_length_le by exact H.
  rewrite (firstn_all2 (n := len + 1)) by (rewrite firstn_length_le; lia).
  replace (len + 1 - len) with 1 by lia. reflexivity.
Qed.

Lemma length_write arr len x :
  len <= length arr -> len + 1 <= length (bc_write arr len x).
Proof.
  intro H. unfold bc_write. rewrite app_length, firstn_length_le by exact H. cbn. lia.
Qed.

Lemma firstn_pred_removelast {A} (arr : list A) len l x :
  firstn len arr = l ++ [x] -> len <= length arr -> firstn (len - 1) arr = l.
Proof.
  intros H Hl.
  assert (Hlen : len = length l + 1).
  { apply (f_equal (@length A)) in H. rewrite firstn_length_le, app_length in H by exact Hl.
    cbn in H. lia. }
  replace (len - 1) with (Nat.min (len - 1) len) by lia.
  rewrite <- firstn_firstn, H, firstn_app. subst len.
  replace (length l + 1 - 1) with (length l) by lia.
  rewrite firstn_all, Nat.sub_diag. cbn. apply app_nil_r.
Qed.

Lemma add_abs b x :
  wf b ->
  wf (snd (bc_add b x)) /\ abs (snd (bc_add b x)) = mstep (abs b) x /\
  fst (bc_add b x) = match mstep (abs b) x with Bad => false | Stk _ => true end.
Proof.
  intros [Hp Hl]. destruct b as [pairs arr len bad]. cbn in Hp, Hl. subst pairs.
  unfold bc_add, abs. cbn [bc_bad bc_pairs bc_arr bc_len].
  destruct bad; [cbn; repeat split; auto|].
  unfold bc_stack. cbn [bc_arr bc_len].
  rewrite last_opt_rev.
  destruct (rev (firstn len arr)) as [|top st] eqn:Er.
  - (* empty stack *)
    assert (Hlen : len = 0).
    { apply (f_equal (@length _)) in Er. rewrite rev_length, firstn_length_le in Er by exact Hl.
      exact Er. }
    subst len.
    destruct x; cbn -[firstn bc_write Nat.add]; repeat split; cbn -[firstn bc_write Nat.add];
      auto; try (apply length_write; exact Hl).
  - assert (Hfn : firstn len arr = rev st ++ [top]).
    { rewrite <- (rev_involutive (firstn len arr)), Er. reflexivity. }
    assert (Hpop : rev (firstn (len - 1) arr) = st).
    { erewrite firstn_pred_removelast by eassumption. apply rev_involutive. }
    assert (Hpush : forall y, rev (firstn (len + 1) (bc_write arr len y)) = y :: top :: st).
    { intro y. rewrite firstn_write by exact Hl. rewrite rev_app_distr, Er. reflexivity. }
    assert (Hw : forall y, len + 1 <= length (bc_write arr len y)) by (intro; apply length_write; exact Hl).
    destruct x; destruct top; cbn -[firstn bc_write Nat.add Nat.sub];
      repeat split; cbn -[firstn bc_write Nat.add Nat.sub];
      unfold bc_stack; cbn -[firstn bc_write Nat.add Nat.sub];
      rewrite ?Er, ?Hpush, ?Hpop; auto; lia.
Qed.

Lemma adds_abs ts : forall b, wf b -> wf (bc_adds b ts) /\ abs (bc_adds b ts) = mrun (abs b) ts.
Proof.
  unfold bc_adds, mrun.
  induction ts as [|x ts IH]; intros b Hb; [auto|].
  cbn [fold_left]. destruct (add_abs b x Hb) as (H1 & H2 & _). rewrite <- H2. apply IH. exact H1.
Qed.

Lemma wf_new : wf (bc_new flow_pairs).
Proof. split; cbn; auto. Qed.

Lemma adds_new ts :
  wf (bc_adds (bc_new flow_pairs) ts) /\ abs (bc_adds (bc_new flow_pairs) ts) = mrun (Stk []) ts.
Proof. apply (adds_abs ts (bc_new flow_pairs) wf_new). Qed.

Lemma is_balanced_iff ts :
  bc_is_balanced (bc_adds (bc_new flow_pairs) ts) = true <-> balanced ts.
Proof.
  destruct (adds_new ts) as [[Hp Hl] Ha]. rewrite balanced_iff_run, <- Ha.
  unfold bc_is_balanced, abs. destruct (bc_bad _); cbn; [split; discriminate|].
  rewrite Nat.eqb_eq. split.
  - intro H. unfold bc_stack. rewrite H. reflexivity.
  - intro H. injection H as H. apply (f_equal (@length _)) in H.
    rewrite rev_length, stack_length in H by exact Hl. exact H.
Qed.

Lemma add_result_iff ts x :
  fst (bc_add (bc_adds (bc_new flow_pairs) ts) x) = true <-> completable (ts ++ [x]).
Proof.
  destruct (adds_new ts) as [Hw Ha]. destruct (add_abs _ x Hw) as (_ & _ & H).
  rewrite H, completable_iff_run, mrun_app, <- Ha. cbn.
  destruct (mstep _ x) as [|st].
  - split; [discriminate|]. intros (st & E). discriminate.
  - split; [eauto|reflexivity].
Qed.

Lemma peek_iff ts o :
  completable ts ->
  bc_peek (bc_adds (bc_new flow_pairs) ts) = Some o <-> innermost_open ts o.
Proof.
  intro Hc. destruct (adds_new ts) as [Hw Ha]. rewrite innermost_iff_run, <- Ha.
  apply completable_iff_run in Hc as (st & Hst). rewrite Hst in Ha.
  unfold bc_peek, abs in *. destruct (bc_bad _); [discriminate|]. injection Ha as Ha.
  rewrite last_opt_rev, Ha. destruct st as [|y st].
  - split; [discriminate|]. intros (st & E). discriminate.
  - split; [intro E; injection E as ->; eauto|]. intros (st' & E). injection E as -> _. reflexivity.
Qed.

(** ** mementos *)
(** all further observations *)
Fixpoint bc_observe (b : checker) (ts : list ttype) : list (bool * bool * option ttype) :=
  match ts with
  | [] => [(true, bc_is_balanced b, bc_peek b)]
  | x :: ts' => (fst (bc_add b x), bc_is_balanced b, bc_peek b) :: bc_observe (snd (bc_add b x)) ts'
  end.

Definition same (a b : checker) : Prop :=
  bc_pairs a = bc_pairs b /\ bc_bad a = bc_bad b /\ bc_stack a = bc_stack b /\
  bc_len a = bc_len b /\ bc_len a <= length (bc_arr a) /\ bc_len b <= length (bc_arr b).

Lemma same_add a b x : same a b ->
  fst (bc_add a x) = fst (bc_add b x) /\ same (snd (bc_add a x)) (snd (bc_add b x)).
Proof.
  destruct a as [pa aa la ba], b as [pb ab lb bb].
  intros (H1 & H2 & H3 & H4 & H5 & H6).
  unfold bc_stack in H3. cbn in H1, H2, H3, H4, H5, H6. subst pb bb lb.
  unfold bc_add. cbn [bc_bad bc_pairs bc_arr bc_len]. unfold bc_stack. cbn [bc_arr bc_len].
  rewrite <- H3. destruct ba; [cbn; split; [reflexivity|unfold same, bc_stack; cbn; auto 10]|].
  assert (Hpop : firstn (la - 1) aa = firstn (la - 1) ab).
  { replace (la - 1) with (Nat.min (la - 1) la) by lia.
    rewrite <- !firstn_firstn, H3. reflexivity. }
  destruct (bc_is_closer pa x); destruct (bc_closer_of pa x);
    destruct (last_opt (firstn la aa)) as [top|]; cbn [negb andb fst snd];
    try (match goal with |- context [if (ttype_eqb ?u ?v) then _ else _] => destruct (ttype_eqb u v) end);
    try (match goal with |- context [negb (ttype_eqb ?u ?v)] => destruct (ttype_eqb u v) end);
    cbn [negb andb fst snd]; (split; [reflexivity|]); unfold same, bc_stack;
    cbn [bc_bad bc_pairs bc_arr bc_len];
    repeat split; auto; rewrite ?firstn_write by assumption; rewrite ?H3; auto;
    try (apply length_write; assumption); lia.
Qed.

Lemma same_observe ts : forall a b, same a b -> bc_observe a ts = bc_observe b ts.
Proof.
  assert (Hb : forall a b, same a b -> bc_is_balanced a = bc_is_balanced b /\ bc_peek a = bc_peek b).
  { intros a b (H1 & H2 & H3 & H4 & _). unfold bc_is_balanced, bc_peek.
    rewrite H2, H3, H4. auto. }
  induction ts as [|x ts IH]; intros a b H; cbn [bc_observe];
    destruct (Hb a b H) as [-> ->]; [reflexivity|].
  destruct (same_add a b x H) as [-> Hs]. f_equal. apply IH. exact Hs.
Qed.

(** between save and restore: first tokens that never close a bracket open at the save, then
    tokens that open nothing *)
Definition is_opener (x : ttype) : bool :=
  match x with TSequenceStart | TMappingStart => true | _ => false end.

(** running [ts] from stack [u ++ base] where [u] is what [ts'] opened *)
Lemma mrun_frame ts : forall st base st', mrun (Stk st) ts = Stk st' ->
  mrun (Stk (st ++ base)) ts = Stk (st' ++ base).
Proof.
  induction ts as [|x ts IH]; intros st base st' H; [cbn in *; congruence|].
  change (mrun (mstep (Stk st) x) ts = Stk st') in H.
  change (mrun (mstep (Stk (st ++ base)) x) ts = Stk (st' ++ base)).
  destruct (mstep (Stk st) x) as [|st1] eqn:E; [rewrite mrun_bad in H; discriminate|].
  replace (mstep (Stk (st ++ base)) x) with (Stk (st1 ++ base)); [apply IH; exact H|].
  destruct x; cbn in *; try congruence;
    try (injection E as <-; reflexivity);
    try (destruct st as [|[] st0]; cbn in *; congruence).
Qed.

Lemma add_keeps_cells b x n :
  wf b -> n <= bc_len b -> firstn n (bc_arr (snd (bc_add b x))) = firstn n (bc_arr b) /\
                            n <= length (bc_arr (snd (bc_add b x))).
Proof.
  intros [Hp Hl] Hn. destruct b as [pairs arr len bad]. cbn in Hp, Hl, Hn. subst pairs.
  unfold bc_add. cbn [bc_bad bc_pairs bc_arr bc_len].
  destruct bad; [cbn; split; [reflexivity|lia]|].
  assert (Hw : forall y, firstn n (bc_write arr len y) = firstn n arr).
  { intro y. unfold bc_write. rewrite firstn_app, firstn_length_le by exact Hl.
    replace (n - len) with 0 by lia. cbn. rewrite app_nil_r, firstn_firstn.
    f_equal. lia. }
  assert (Hw2 : forall y, n <= length (bc_write arr len y)).
  { intro y. pose proof (length_write arr len y Hl). lia. }
  repeat match goal with |- context [if ?c then _ else _] => destruct c end;
    cbn; split; auto; lia.
Qed.

Lemma add_keeps_cells_nonopener b x :
  wf b -> is_opener x = false -> bc_arr (snd (bc_add b x)) = bc_arr b.
Proof.
  intros [Hp Hl] Hx. destruct b as [pairs arr len bad]. cbn in Hp, Hl. subst pairs.
  unfold bc_add. cbn [bc_bad bc_pairs bc_arr bc_len].
  destruct bad; [reflexivity|].
  destruct x; try discriminate Hx; cbn;
    repeat match goal with |- context [if ?c then _ else _] => destruct c end; reflexivity.
Qed.

Lemma adds_nonopeners ts : forall b, wf b -> forallb (fun x => negb (is_opener x)) ts = true ->
  bc_arr (bc_adds b ts) = bc_arr b.
Proof.
  unfold bc_adds. induction ts as [|x ts IH]; intros b Hb H; [reflexivity|].
  cbn [forallb fold_left] in *. apply andb_prop in H as [Hx H].
  destruct (add_abs b x Hb) as (Hb' & _).
  rewrite IH by assumption. apply (add_keeps_cells_nonopener b x Hb).
  destruct (is_opener x); [discriminate|reflexivity].
Qed.

Lemma adds_keep_prefix ts : forall b n,
  wf b -> n <= bc_len b ->
  (forall k, n <= bc_len (bc_adds b (firstn k ts))) ->
  firstn n (bc_arr (bc_adds b ts)) = firstn n (bc_arr b) /\ n <= length (bc_arr (bc_adds b ts)).
Proof.
  unfold bc_adds. induction ts as [|x ts IH]; intros b n Hb Hn Hk.
  - cbn. destruct Hb. split; [reflexivity|lia].
  - cbn [fold_left]. destruct (add_abs b x Hb) as (Hb' & _).
    destruct (add_keeps_cells b x n Hb Hn) as [H1 H2].
    destruct (IH (snd (bc_add b x)) n Hb') as [H3 H4].
    + specialize (Hk 1). cbn in Hk. exact Hk.
    + intro k. specialize (Hk (S k)). cbn in Hk. exact Hk.
    + split; [congruence|exact H4].
Qed.

Lemma completable_prefix_len b ts1 :
  wf b -> bc_bad b = false -> completable ts1 ->
  forall k, bc_len b <= bc_len (bc_adds b (firstn k ts1)) /\ bc_bad (bc_adds b ts1) = false.
Proof.
  intros Hb Hbad Hc k.
  assert (Hk : forall t1, completable t1 ->
            bc_len b <= bc_len (bc_adds b t1) /\ bc_bad (bc_adds b t1) = false).
  { intros t1 Ht. apply completable_iff_run in Ht as (st & Hst).
    destruct (adds_abs t1 b Hb) as [[_ Hl] Ha].
    unfold abs in Ha at 2. rewrite Hbad in Ha.
    apply (mrun_frame t1 [] (rev (bc_stack b)) st) in Hst. cbn [app] in Hst.
    rewrite Hst in Ha. unfold abs in Ha.
    destruct (bc_bad (bc_adds b t1)); [discriminate|]. injection Ha as Ha.
    split; [|reflexivity].
    apply (f_equal (@length _)) in Ha. rewrite app_length, !rev_length in Ha.
    rewrite stack_length in Ha by exact Hl.
    rewrite stack_length in Ha by (destruct Hb; assumption). lia. }
  split; [|apply Hk; exact Hc].
  apply Hk. destruct Hc as (s' & Hs'). exists (skipn k ts1 ++ s').
  rewrite app_assoc, firstn_skipn. exact Hs'.
Qed.

Lemma restore_same ts0 ts1 ts2 :
  completable ts1 -> forallb (fun x => negb (is_opener x)) ts2 = true ->
  let b := bc_adds (bc_new flow_pairs) ts0 in
  forall more,
    bc_observe (bc_set_memento (bc_adds b (ts1 ++ ts2)) (bc_memento b)) more = bc_observe b more.
Proof.
  intros Hc Hno b more. apply same_observe.
  destruct (adds_new ts0) as [Hw _]. fold b in Hw.
  assert (Hkeep : firstn (bc_len b) (bc_arr (bc_adds b (ts1 ++ ts2))) =
                  firstn (bc_len b) (bc_arr b) /\
                  bc_len b <= length (bc_arr (bc_adds b (ts1 ++ ts2)))).
  { unfold bc_adds. rewrite fold_left_app.
    fold (bc_adds b ts1). fold (bc_adds (bc_adds b ts1) ts2).
    destruct (adds_abs ts1 b Hw) as [Hw1 _].
    rewrite (adds_nonopeners ts2 _ Hw1 Hno).
    destruct (bc_bad b) eqn:Hbad.
    - assert (Hs : forall ts, bc_adds b ts = b).
      { unfold bc_adds. induction ts as [|x ts IH]; [reflexivity|]. cbn.
        unfold bc_add at 2. rewrite Hbad. exact IH. }
      rewrite Hs. split; [reflexivity|]. destruct Hw; assumption.
    - apply adds_keep_prefix; auto. intro k. apply completable_prefix_len; auto. }
  destruct Hkeep as [Hk1 Hk2]. destruct Hw as [Hp Hl].
  unfold same, bc_set_memento, bc_memento, bc_stack. cbn [bc_pairs bc_bad bc_arr bc_len mem_size mem_bad].
  rewrite Nat.min_l by exact Hk2.
  destruct (adds_abs (ts1 ++ ts2) b (conj Hp Hl)) as [[Hp2 _] _].
  repeat split; auto; congruence.
Qed.

(** ** dead ends *)
Local Open Scope Z_scope.

Lemma pos_eqb_refl p : pos_eqb p p = true.
Proof. unfold pos_eqb. rewrite !N.eqb_refl. reflexivity. Qed.

Lemma pos_eqb_sym p q : pos_eqb p q = pos_eqb q p.
Proof. unfold pos_eqb. rewrite (N.eqb_sym (row p)), (N.eqb_sym (column p)). reflexivity. Qed.

Lemma pos_eqb_eq p q : pos_eqb p q = true -> p = q.
Proof.
  unfold pos_eqb. destruct p, q. cbn. intro H. apply andb_prop in H as [H1 H2].
  apply N.eqb_eq in H1, H2. congruence.
Qed.

Lemma wrap8_small z : -128 <= z <= 127 -> wrap8 z = z.
Proof. unfold wrap8. intro H. rewrite Z.mod_small by lia. lia. Qed.

Definition df_state (f : finder) (ps : list position) : finder :=
  fold_left (fun f p => snd (df_mark f p)) ps f.

Lemma occurrences_snoc p ps q :
  occurrences p (ps ++ [q]) = (occurrences p ps + if pos_eqb p q then 1 else 0)%nat.
Proof.
  unfold occurrences. rewrite filter_app, app_length. cbn. unfold pos_eqb.
  destruct (_ && _); reflexivity.
Qed.

Lemma df_count ps : (forall p, (occurrences p ps <= 127)%nat) ->
  forall q, df_state df_new ps q = Z.of_nat (occurrences q ps).
Proof.
  induction ps as [|p ps IH] using rev_ind; intros H q; [reflexivity|].
  assert (IHq : forall q, df_state df_new ps q = Z.of_nat (occurrences q ps)).
  { apply IH. intro r. specialize (H r). rewrite occurrences_snoc in H. lia. }
  unfold df_state in *. rewrite fold_left_app. cbn.
  rewrite occurrences_snoc. rewrite (pos_eqb_sym q p).
  destruct (pos_eqb p q) eqn:E.
  - apply pos_eqb_eq in E. subst q. rewrite IHq.
    specialize (H p). rewrite occurrences_snoc, pos_eqb_refl in H.
    rewrite wrap8_small by lia. lia.
  - rewrite IHq. lia.
Qed.

Lemma df_marks_app f a b : df_marks f (a ++ b) = (df_marks f a ++ df_marks (df_state f a) b)%list.
Proof.
  revert f; induction a as [|p a IH]; intro f; [reflexivity|].
  cbn [app df_marks]. destruct (df_mark f p) as [r f'] eqn:E. cbn [app]. f_equal.
  rewrite IH. unfold df_state. cbn [fold_left]. rewrite E. reflexivity.
Qed.

(** while no dead end has been reported no position has been marked more than 64 times *)
Lemma df_no_true_count ps :
  (~ In true (df_marks df_new ps)) -> forall p, (occurrences p ps <= 64)%nat.
Proof.
  induction ps as [|q ps IH] using rev_ind; intros H p; [cbn; lia|].
  rewrite df_marks_app in H. cbn in H.
  assert (Hps : ~ In true (df_marks df_new ps)) by (intro Hc; apply H, in_or_app; left; exact Hc).
  specialize (IH Hps).
  rewrite occurrences_snoc. destruct (pos_eqb p q) eqn:E; [|specialize (IH p); lia].
  apply pos_eqb_eq in E. subst q.
  assert (Hc : df_state df_new ps p = Z.of_nat (occurrences p ps)).
  { apply df_count. intro r. specialize (IH r). lia. }
  assert (Hm : dead_end_threshold <? wrap8 (df_state df_new ps p + 1) = false).
  { destruct (dead_end_threshold <? _) eqn:Ed; [|reflexivity].
    exfalso. apply H, in_or_app. right. left. reflexivity. }
  rewrite Hc in Hm. pose proof (IH p) as Hle.
  rewrite wrap8_small in Hm by lia. unfold dead_end_threshold in Hm. lia.
Qed.

Lemma df_exact ps p :
  (~ In true (df_marks df_new ps)) ->
  last (df_marks df_new (ps ++ [p])) false = true <-> (occurrences p ps >= 64)%nat.
Proof.
  intro H. pose proof (df_no_true_count ps H) as Hle.
  rewrite df_marks_app. cbn. rewrite last_last.
  rewrite df_count by (intro r; specialize (Hle r); lia).
  specialize (Hle p). rewrite wrap8_small by lia. unfold dead_end_threshold. lia.
Qed.

(** ** a single pair whose two symbols are the same *)
Lemma same_symbol_state x ts :
  let b := bc_adds (bc_new [(x, x)]) ts in
  bc_pairs b = [(x, x)] /\ bc_bad b = false /\
  (bc_stack b = if Nat.odd (length (filter (ttype_eqb x) ts)) then [x] else []) /\
  bc_len b = length (bc_stack b).
Proof.
  induction ts as [|y ts IH] using rev_ind; [repeat split|].
  cbn zeta in *. unfold bc_adds in *. rewrite fold_left_app. cbn [fold_left].
  set (b := fold_left _ ts _) in *. destruct IH as (P & B & S & L).
  rewrite filter_app, app_length. cbn [filter].
  unfold bc_add. rewrite B, P, S. cbn [bc_is_closer existsb snd bc_closer_of fold_left fst].
  rewrite (Bool.orb_false_r).
  destruct (ttype_eqb x y) eqn:E.
  - assert (x = y) by (clear - E; destruct x, y; (reflexivity || discriminate E)). subst y. cbn [length].
    rewrite (Nat.add_1_r (length (filter _ ts))), Nat.odd_succ, <- Nat.negb_odd.
    destruct (Nat.odd (length (filter (ttype_eqb x) ts))) eqn:O; cbn [last_opt andb negb].
    + unfold last_opt. cbn. rewrite E. cbn. rewrite E. cbn.
      unfold bc_stack. cbn. rewrite L, S. cbn. repeat split; auto.
    + unfold last_opt. cbn. unfold bc_stack, bc_write. cbn.
      rewrite L, S. cbn. repeat split; auto.
  - cbn [length]. rewrite Nat.add_0_r. cbn [andb]. unfold bc_stack. cbn. repeat split; auto.
Qed.

Lemma same_symbol_iff x ts :
  bc_is_balanced (bc_adds (bc_new [(x, x)]) ts) = true <->
  Nat.even (length (filter (ttype_eqb x) ts)) = true.
Proof.
  destruct (same_symbol_state x ts) as (P & B & S & L).
  unfold bc_is_balanced. rewrite B, L, S, <- Nat.negb_odd.
  destruct (Nat.odd _); cbn; intuition congruence.
Qed.
