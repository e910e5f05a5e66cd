(** Reading trees: the generic part of C23. *)
From Verif Require Import Base Schema Values Writer Reader ReaderProofs ReaderSteps ReadSpec ReaderSpec.
Local Open Scope nat_scope.

Scheme reads_mut := Induction for reads Sort Prop
  with reads_items_mut := Induction for reads_items Sort Prop
  with reads_entries_mut := Induction for reads_entries Sort Prop.
Combined Scheme reads_all from reads_mut, reads_items_mut, reads_entries_mut.

Section Read.
  Context {Nd K : Type} (en : engine Nd K) (o : oracle).
  Context (map_size : nat -> nat) (val : tree -> value -> Prop).
  Context (Kinv : K -> Prop).
  Hypothesis Kbind : forall n k, Kinv k -> Kinv (en_bind en n k).
  Hypothesis Kstore : forall a k, Kinv k -> Kinv (en_store en a k).

  Definition live (n : Nd) : Prop := en_valid en n = true /\ en_nil en n = false.
  Definition waiting (c : concl) : Prop := c = CUnknown \/ c = CDeny.
  Definition open_ok (n : Nd) (bind : bool) : Prop :=
    en_nil en n = false
    /\ (forall k, Kinv k -> exists ch size, en_visit en k n = VComplex ch size bind)
    /\ (forall e k c, Kinv k -> c = CMatch \/ c = CContinue -> en_process en k e n c = (CContinue, false)).
  Definition passes (e : expecter) (n : Nd) : Prop :=
    forall k, Kinv k -> en_process en k e n CUnknown = (CContinue, false).
  Definition answers (e : expecter) (n : Nd) (v : concl * bool) : Prop :=
    forall k c, Kinv k -> waiting c -> en_process en k e n c = v.
  Definition has_children (n : Nd) (ch : list Nd) (size : nat) (bind : bool) : Prop :=
    forall k, Kinv k -> en_visit en k n = VComplex ch size bind.

  (** a tag, an anchor or nothing *)
  Inductive leaf : Nd -> Prop :=
  | leaf_invalid n : en_valid en n = false -> leaf n
  | leaf_text n s st : live n -> (forall k, Kinv k -> en_visit en k n = VTexter s st) ->
      (forall e, passes e n) -> leaf n.
  (** the properties of a node *)
  Inductive props : Nd -> Prop :=
  | props_invalid n : en_valid en n = false -> props n
  | props_some n a b size : live n -> open_ok n false -> (forall e, passes e n) ->
      has_children n [a; b] size false -> leaf a -> leaf b -> props n.

  Definition any_gives (n : Nd) (t : tree) : Prop :=
    forall v k, Kinv k -> val t v ->
      exists F k', Kinv k' /\ forall f, F <= f -> en_any en f k n = Done (inl v, k').

  Inductive core : Nd -> tree -> Prop :=
  | core_null n : live n ->
      (forall k, Kinv k -> en_visit en k n = VNullNode \/ exists s, en_visit en k n = VTexter s None) ->
      answers ENull n (CConsume, false) -> answers ESkip n (CConsume, false) -> answers EAny n (CMatch, false) ->
      any_gives n TNull -> core n TNull
  | core_text n s : live n ->
      (forall k, Kinv k -> en_visit en k n = VTexter s None) ->
      answers ENull n (CDeny, false) -> answers ESkip n (CConsume, false) -> answers EAny n (CMatch, false) ->
      answers EString n (CConsume, true) ->
      (sc_is_integer s = true -> answers EInteger n (CConsume, true)) ->
      (sc_is_boolean s = true -> answers EBoolean n (CConsume, true)) ->
      (sc_is_float s = true -> answers EFloat n (CConsume, true)) ->
      (sc_is_timestamp o s = true -> answers ETimestamp n (CConsume, true)) ->
      any_gives n (TText s) -> core n (TText s)
  | core_seq n ch l : live n -> open_ok n false ->
      has_children n ch (length l) false -> reps ch l ->
      answers ENull n (CDeny, false) -> answers ESkip n (CConsume, false) -> answers EAny n (CMatch, false) ->
      answers ESequence n (CMatch, true) ->
      any_gives n (TSeq l) -> core n (TSeq l)
  | core_map n ch l : live n -> open_ok n false ->
      has_children n ch (map_size (length l)) false -> entries ch l ->
      answers ENull n (CDeny, false) -> answers ESkip n (CConsume, false) -> answers EAny n (CMatch, false) ->
      answers EMapping n (CMatch, true) ->
      any_gives n (TMap l) -> core n (TMap l)
  with rep : Nd -> tree -> Prop :=
  | rep_core n t : core n t -> rep n t
  | rep_wrap n p c size t : live n -> open_ok n true -> (forall e, passes e n) ->
      has_children n [p; c] size true -> props p -> rep c t -> rep n t
  with reps : list Nd -> list tree -> Prop :=
  | reps_nil : reps [] []
  | reps_cons n ns t ts : rep n t -> reps ns ts -> reps (n :: ns) (t :: ts)
  with entries : list Nd -> list (tree * tree) -> Prop :=
  | entries_nil : entries [] []
  | entries_node x k v size ch tk tv l : live x -> open_ok x false ->
      (forall e, e <> ESkip -> e <> ERaw -> passes e x) ->
      has_children x [k; v] size false -> rep k tk -> rep v tv -> entries ch l ->
      entries (x :: ch) ((tk, tv) :: l)
  | entries_flat k v ch tk tv l : rep k tk -> rep v tv -> entries ch l ->
      entries (k :: v :: ch) ((tk, tv) :: l).

  (** ** routes as stacks of pending nodes *)
  Inductive seg :=
  | SWait (n : Nd)
  | SDenied (n : Nd) (it : option (nat * list Nd))
  | SOpen (n : Nd) (bind : bool) (i : nat) (left : list Nd).

  Definition seg_id (s : seg) : list nat :=
    match s with SOpen _ _ i _ | SDenied _ (Some (i, _)) => [i] | _ => [] end.
  Definition seg_ids (l : list seg) : list nat := flat_map seg_id l.

  Inductive pt_abs (its : list (list Nd)) : point Nd -> seg -> Prop :=
  | PA_wait n : pt_abs its (mkPoint CUnknown n None) (SWait n)
  | PA_denied n : pt_abs its (mkPoint CDeny n None) (SDenied n None)
  | PA_denied_some n i l : nth_error its i = Some l ->
      pt_abs its (mkPoint CDeny n (Some i)) (SDenied n (Some (i, l)))
  | PA_open n b i l c : open_ok n b -> c = CMatch \/ c = CContinue -> nth_error its i = Some l ->
      pt_abs its (mkPoint c n (Some i)) (SOpen n b i l).

  Definition astate := (list seg * K * nat)%type.
  Definition abs (r : rstate Nd K) (a : astate) : Prop :=
    let '(st, k, N) := a in
    Forall2 (pt_abs (r_iters r)) (r_route r) st /\ NoDup (seg_ids st) /\ r_keep r = k
    /\ length (r_iters r) = N /\ Kinv k.

  Lemma pt_abs_id its p s i : pt_abs its p s -> In i (seg_id s) -> exists l, nth_error its i = Some l.
  Proof. destruct 1; cbn; intros Hin; try contradiction; destruct Hin as [<-|[]]; eauto. Qed.
  Lemma abs_id_lt its ps st i : Forall2 (pt_abs its) ps st -> In i (seg_ids st) -> i < length its.
  Proof.
    induction 1; cbn; [contradiction|]. intro Hi. apply in_app_or in Hi as [Hi|Hi]; auto.
    destruct (pt_abs_id _ _ _ _ H Hi) as (ll & Hl). apply nth_error_Some. congruence.
  Qed.
  (** changes of iterators that are not used *)
  Lemma pt_abs_frame its its' p s :
    (forall i, In i (seg_id s) -> nth_error its' i = nth_error its i) -> pt_abs its p s -> pt_abs its' p s.
  Proof.
    intros Hf H. destruct H; constructor; auto; rewrite Hf; auto; cbn; auto.
  Qed.
  Lemma abs_frame its its' ps st :
    (forall i, In i (seg_ids st) -> nth_error its' i = nth_error its i) ->
    Forall2 (pt_abs its) ps st -> Forall2 (pt_abs its') ps st.
  Proof.
    intros Hf H. induction H; constructor.
    - eapply pt_abs_frame; [|eassumption]. intros i Hi. apply Hf. cbn. apply in_or_app. auto.
    - apply IHForall2. intros i Hi. apply Hf. cbn. apply in_or_app. auto.
  Qed.

  Definition bindk (b : bool) (n : Nd) (k : K) : K := if b then en_bind en n k else k.
  Lemma bindk_inv b n k : Kinv k -> Kinv (bindk b n k).
  Proof. destruct b; cbn; auto. Qed.
  Definition storek (st : option text) (k : K) : K := match st with Some a => en_store en a k | None => k end.
  Lemma storek_inv st k : Kinv k -> Kinv (storek st k).
  Proof. destruct st; cbn; auto. Qed.

  (** ** silent steps *)
  Inductive sstep (e : expecter) : astate -> astate -> Prop :=
  | ss_exhausted n b i st k N : sstep e (SOpen n b i [] :: st, k, N) (st, k, N)
  | ss_invalid n b i x l st k N : en_valid en x = false ->
      sstep e (SOpen n b i (x :: l) :: st, k, N) (SOpen n b i l :: st, bindk b x k, N)
  | ss_text n b i x l st k N s sto : live x ->
      (forall k, Kinv k -> en_visit en k x = VTexter s sto) -> passes e x ->
      sstep e (SOpen n b i (x :: l) :: st, k, N) (SOpen n b i l :: st, storek sto (bindk b x k), N)
  | ss_child n b i x l st k N : live x ->
      sstep e (SOpen n b i (x :: l) :: st, k, N) (SWait x :: SOpen n b i l :: st, bindk b x k, N)
  | ss_open n b ch size st k N : open_ok n b -> has_children n ch size b -> passes e n ->
      sstep e (SWait n :: st, k, N) (SOpen n b N ch :: st, k, S N).

  Inductive ssteps (e : expecter) : astate -> astate -> Prop :=
  | ssteps_refl a : ssteps e a a
  | ssteps_step a b c : sstep e a b -> ssteps e b c -> ssteps e a c.
  Lemma ssteps_trans e a b c : ssteps e a b -> ssteps e b c -> ssteps e a c.
  Proof. induction 1; auto. intro. econstructor; eauto. Qed.
  Lemma ssteps_one e a b : sstep e a b -> ssteps e a b.
  Proof. intro. econstructor; [eassumption|constructor]. Qed.

  Definition same_rest (r r' : rstate Nd K) : Prop :=
    r_fatal r' = r_fatal r /\ r_deny r' = r_deny r /\ r_denies r' = r_denies r /\ r_multi r' = r_multi r.

  Lemma opened_of e k n b i c : open_ok n b -> c = CMatch \/ c = CContinue -> Kinv k ->
    opened en e k (mkPoint c n (Some i)) b i.
  Proof.
    intros (H1 & H2 & H3) Hc Hk. unfold opened. cbn. repeat split; auto.
    - destruct Hc as [-> | ->]; reflexivity.
  Qed.

  Lemma nth_of_error {A} (l : list (list A)) i x : nth_error l i = Some x -> nth i l [] = x.
  Proof. intro H. apply nth_error_nth. exact H. Qed.

  Lemma iters_frame its i l st ps :
    ~ In i (seg_ids st) -> Forall2 (pt_abs its) ps st -> Forall2 (pt_abs (iters_set its i l)) ps st.
  Proof.
    intros Hi H. eapply abs_frame; [|exact H]. intros j Hj. apply iters_set_other. intro; subst; contradiction.
  Qed.

  Lemma advance_iters i b x l (r : rstate Nd K) : r_iters (advance en i b x l r) = iters_set (r_iters r) i l.
  Proof. unfold advance. destruct b; reflexivity. Qed.
  Lemma advance_keep i b x l (r : rstate Nd K) : r_keep (advance en i b x l r) = bindk b x (r_keep r).
  Proof. unfold advance. destruct b; reflexivity. Qed.
  Lemma advance_same i b x l (r : rstate Nd K) : same_rest r (advance en i b x l r).
  Proof. unfold advance. destruct b; repeat split. Qed.

  Lemma sstep_sound e a a' r :
    abs r a -> sstep e a a' ->
    exists r', abs r' a' /\ same_rest r r' /\ (forall x, finds en e r' x -> finds en e r x).
  Proof.
    intros Ha Hs. destruct Hs; cbn in Ha; destruct Ha as (Hf & Hnd & Hk & Hlen & Hki).
    - (* exhausted *)
      inversion Hf as [|p s ps st' Hp Hrest Hr Heq]; subst. inversion Hp; subst.
      cbn in Hnd. inversion Hnd; subst.
      exists (set_route ps (set_last CContinue r)). split; [|split].
      + cbn. repeat split; auto.
      + repeat split.
      + intros x [Hx Hl]. split; [|exact Hl].
        eapply step_exhausted; [symmetry; exact Hr|eapply opened_of; eauto| |exact Hx].
        unfold iter_left. eapply nth_of_error; eassumption.
    - (* invalid *)
      inversion Hf as [|p s ps st' Hp Hrest Hr Heq]; subst. inversion Hp; subst.
      cbn in Hnd. inversion Hnd; subst.
      eexists. split; [|split]; [| |intros y [Hy Hl]; split; [|exact Hl];
        eapply (step_invalid en e r _ ps b i x l);
        [symmetry; exact Hr|eapply opened_of; eauto|unfold iter_left; eapply nth_of_error; eassumption
        |assumption| |exact Hy]].
      + cbn. rewrite advance_route, advance_iters, advance_keep. cbn.
        repeat split; auto.
        * constructor; [|apply iters_frame; assumption].
          constructor; auto. eapply iters_set_same; eassumption.
        * apply iters_set_length.
        * apply bindk_inv; assumption.
      + unfold advance. destruct b; repeat split.
      + rewrite advance_keep. apply opened_of; auto using bindk_inv.
    - (* text *)
      inversion Hf as [|p s' ps st' Hp Hrest Hr Heq]; subst. inversion Hp; subst.
      cbn in Hnd. inversion Hnd; subst. destruct H as [Hv Hnil].
      exists (set_keep (storek sto (bindk b x (r_keep r)))
                (advance en i b x l (entered {| pt_concl := c; pt_node := n; pt_iter := Some i |} ps r))).
      split; [|split].
      + cbn. rewrite advance_route, advance_iters. cbn. repeat split; auto.
        * constructor; [|apply iters_frame; assumption].
          constructor; auto. eapply iters_set_same; eassumption.
        * apply iters_set_length.
        * apply storek_inv, bindk_inv; assumption.
      + unfold advance. destruct b; repeat split.
      + intros y [Hy Hl]. split; [|exact Hl].
        eapply (step_text en e r _ ps b i x l s sto);
          [symmetry; exact Hr|eapply opened_of; eauto|unfold iter_left; eapply nth_of_error; eassumption
          |assumption| | | |].
        * rewrite advance_keep. apply H0. apply bindk_inv. assumption.
        * rewrite advance_keep. cbn [entered set_route set_last r_keep].
          change (match sto with Some a => en_store en a (bindk b x (r_keep r)) | None => bindk b x (r_keep r) end)
            with (storek sto (bindk b x (r_keep r))).
          apply H1. apply storek_inv, bindk_inv; assumption.
        * rewrite advance_keep. cbn [entered set_route set_last r_keep].
          change (match sto with Some a => en_store en a (bindk b x (r_keep r)) | None => bindk b x (r_keep r) end)
            with (storek sto (bindk b x (r_keep r))).
          apply opened_of; auto. apply storek_inv, bindk_inv; assumption.
        * rewrite advance_keep. exact Hy.
    - (* child *)
      inversion Hf as [|p s' ps st' Hp Hrest Hr Heq]; subst. inversion Hp; subst.
      cbn in Hnd. inversion Hnd; subst. destruct H as [Hv Hnil].
      exists (push_point x (advance en i b x l (entered {| pt_concl := c; pt_node := n; pt_iter := Some i |} ps r))).
      split; [|split].
      + cbn. rewrite advance_route, advance_iters, advance_keep. cbn. repeat split; auto.
        * constructor; [constructor|]. constructor; [|apply iters_frame; assumption].
          constructor; auto. eapply iters_set_same; eassumption.
        * apply iters_set_length.
        * apply bindk_inv; assumption.
      + unfold advance. destruct b; repeat split.
      + intros y Hy.
        eapply (step_child en e r _ ps b i x l);
          [symmetry; exact Hr|eapply opened_of; eauto|unfold iter_left; eapply nth_of_error; eassumption
          |assumption|assumption|exact Hy].
    - (* open *)
      inversion Hf as [|p s' ps st' Hp Hrest Hr Heq]; subst. inversion Hp; subst.
      eexists. split; [|split]; [| |intros y [Hy Hl]; split; [|exact Hl];
        eapply (step_open en e r n ps ch size b);
        [symmetry; exact Hr|apply H| | | |exact Hy]].
      + cbn. repeat split; auto.
        * constructor.
          -- constructor; auto. rewrite nth_error_app2 by lia. rewrite Nat.sub_diag. reflexivity.
          -- eapply abs_frame; [|exact Hrest]. intros j Hj. rewrite nth_error_app1; [reflexivity|].
             eapply abs_id_lt; eassumption.
        * cbn in Hnd. constructor; [|exact Hnd]. intro Hin.
          pose proof (abs_id_lt _ _ _ _ Hrest Hin). lia.
        * rewrite app_length. cbn. lia.
      + repeat split.
      + apply H0. assumption.
      + apply H1. assumption.
      + apply H; auto.
  Qed.

  Lemma same_rest_trans a b c : same_rest a b -> same_rest b c -> same_rest a c.
  Proof. intros (? & ? & ? & ?) (? & ? & ? & ?). repeat split; congruence. Qed.

  Lemma ssteps_sound e a a' : ssteps e a a' -> forall r, abs r a ->
    exists r', abs r' a' /\ same_rest r r' /\ (forall x, finds en e r' x -> finds en e r x).
  Proof.
    induction 1; intros r Ha.
    - exists r. split; [exact Ha|]. split; [repeat split|]. auto.
    - destruct (sstep_sound e a b r Ha H) as (r1 & Ha1 & Hs1 & Hx1).
      destruct (IHssteps r1 Ha1) as (r2 & Ha2 & Hs2 & Hx2).
      exists r2. split; [exact Ha2|]. split; [eapply same_rest_trans; eassumption|]. auto.
  Qed.

  (** ** unwrapping *)
  Inductive spent : seg -> Prop := spent_open n b i : spent (SOpen n b i []).

  Definition node_seg (n : Nd) (s : seg) : Prop :=
    s = SWait n \/ s = SDenied n None
    \/ exists i ch, s = SDenied n (Some (i, ch)) /\ exists size b, has_children n ch size b.

  Lemma leaf_step e n b i x l st k N : leaf x -> Kinv k ->
    exists k', Kinv k' /\ ssteps e (SOpen n b i (x :: l) :: st, k, N) (SOpen n b i l :: st, k', N).
  Proof.
    intros Hx Hk. destruct Hx as [x Hx|x s sto Hl Hv Hp].
    - exists (bindk b x k). split; [apply bindk_inv, Hk|]. apply ssteps_one. constructor. exact Hx.
    - exists (storek sto (bindk b x k)). split; [apply storek_inv, bindk_inv, Hk|].
      apply ssteps_one. eapply ss_text; eauto.
  Qed.

  Lemma props_step e n b i x l st k N : props x -> Kinv k ->
    exists k' N', Kinv k' /\ ssteps e (SOpen n b i (x :: l) :: st, k, N) (SOpen n b i l :: st, k', N').
  Proof.
    intros Hx Hk. destruct Hx as [x Hx|x a c size Hl Ho Hp Hc Hla Hlb].
    - exists (bindk b x k), N. split; [apply bindk_inv, Hk|]. apply ssteps_one. constructor. exact Hx.
    - pose proof (bindk_inv b x k Hk) as Hk1.
      destruct (leaf_step e x false N a [c] (SOpen n b i l :: st) (bindk b x k) (S N) Hla Hk1) as (k2 & Hk2 & S2).
      destruct (leaf_step e x false N c [] (SOpen n b i l :: st) k2 (S N) Hlb Hk2) as (k3 & Hk3 & S3).
      exists k3, (S N). split; [exact Hk3|].
      econstructor; [apply ss_child; exact Hl|].
      econstructor; [eapply ss_open; eauto|].
      eapply ssteps_trans; [exact S2|]. eapply ssteps_trans; [exact S3|].
      apply ssteps_one. constructor.
  Qed.

  Lemma core_live n t : core n t -> live n.
  Proof. destruct 1; assumption. Qed.
  Lemma rep_live n t : rep n t -> live n.
  Proof. destruct 1; [eapply core_live; eassumption|assumption]. Qed.

  Lemma unwrap : forall n t, rep n t -> forall e st k N, Kinv k ->
    exists m junk k' N', core m t /\ Forall spent junk /\ Kinv k'
      /\ ssteps e (SWait n :: st, k, N) (SWait m :: junk ++ st, k', N').
  Proof.
    fix IH 3. intros n t Hr e st k N Hk. destruct Hr as [n t Hc|n p c size t Hl Ho Hp Hch Hpr Hrc].
    - exists n, [], k, N. repeat split; auto. constructor.
    - destruct (props_step e n true N p [c] st k (S N) Hpr Hk) as (k2 & N2 & Hk2 & S2).
      destruct (IH c t Hrc e (SOpen n true N [] :: st) (bindk true c k2) N2 (bindk_inv _ _ _ Hk2))
        as (m & junk & k3 & N3 & Hm & Hj & Hk3 & S3).
      exists m, (junk ++ [SOpen n true N []]), k3, N3. split; [exact Hm|]. split; [|split].
      + apply Forall_app. split; [exact Hj|]. repeat constructor.
      + exact Hk3.
      + econstructor; [eapply ss_open; eauto|]. eapply ssteps_trans; [exact S2|].
        econstructor; [apply ss_child; eapply rep_live; exact Hrc|].
        rewrite <- app_assoc. exact S3.
  Qed.

  (** ** what a call does at a node *)
  (** the current point is at node [m], not yet read *)
  Definition ready (m : Nd) (s : seg) : Prop :=
    s = SWait m
    \/ (s = SDenied m None /\ forall k, Kinv k -> exists txt, en_visit en k m = VTexter txt None)
    \/ (exists i ch size b, s = SDenied m (Some (i, ch)) /\ has_children m ch size b).

  Definition clean (r : rstate Nd K) : Prop := r_fatal r = None /\ r_deny r = None.

  Lemma clean_same r r' : clean r -> same_rest r r' -> clean r'.
  Proof. intros [H1 H2] (G1 & G2 & _). split; congruence. Qed.


  Lemma do_call_finds c r x : reading c = true -> r_fatal r = None -> finds en (expecter_of c) r x ->
    exists F, forall f, F <= f -> do_call en o f c r = finish en o f c x.
  Proof.
    intros Hc Hf [(f0 & H0) _]. exists f0. intros f Hle.
    pose proof (run_le en _ _ _ _ _ _ Hle H0) as H.
    unfold do_call, has_fatal. rewrite Hf. destruct c; try discriminate; rewrite H; reflexivity.
  Qed.

  (** the top point of a route whose top segment is ready *)
  Lemma ready_top r m s st k N : abs r (s :: st, k, N) -> ready m s ->
    exists p rest, r_route r = p :: rest /\ pt_node p = m /\ waiting (pt_concl p)
      /\ Forall2 (pt_abs (r_iters r)) rest st /\ NoDup (seg_ids st).
  Proof.
    intros (Hf & Hnd & _) Hr. inversion Hf as [|p s' ps st' Hp Hrest Heq1 Heq2]; subst.
    exists p, ps. split; [reflexivity|].
    assert (NoDup (seg_ids st)).
    { cbn in Hnd. destruct Hr as [-> | [[-> _] | (i & ch & size & b & -> & _)]]; cbn in Hnd; auto.
      inversion Hnd; assumption. }
    destruct Hr as [-> | [[-> _] | (i & ch & size & b & -> & _)]]; inversion Hp; subst; cbn;
      repeat split; auto; unfold waiting; auto.
  Qed.

  Lemma at_text e r m s st k N txt c x :
    abs r (s :: st, k, N) -> ready m s -> en_nil en m = false ->
    (forall k, Kinv k -> en_visit en k m = VTexter txt None) ->
    answers e m (c, x) -> is_continue c = false -> is_unknown c = false ->
    exists r', finds en e r r' /\ r_fatal r' = r_fatal r /\ r_denies r' = r_denies r /\ r_multi r' = r_multi r
      /\ (x = true -> r_value r' = txt)
      /\ match c with
         | CConsume => abs r' (st, k, N) /\ r_deny r' = r_deny r
         | CDeny => (exists s', ready m s' /\ abs r' (s' :: st, k, N)) /\ r_deny r' = Some (RDeny e)
         | _ => abs r' (s :: st, k, N) /\ r_deny r' = r_deny r
         end.
  Proof.
    intros Ha Hr Hn Hv Hans Hc Hu.
    destruct (ready_top _ _ _ _ _ _ Ha Hr) as (p & rest & Hro & Hm & Hw & Hrest & Hnd).
    pose proof Ha as (Hf & Hnd' & Hk & Hlen & Hki). subst m.
    eexists. split.
    - eapply final_text; [exact Hro|exact Hn| | |exact Hc|exact Hu].
      + apply Hv. rewrite Hk. exact Hki.
      + apply Hans; [rewrite Hk; exact Hki|exact Hw].
    - destruct c; try discriminate.
      + destruct x; cbn; repeat split; auto; congruence.
      + destruct x; cbn; repeat split; auto; congruence.
      + assert (Hs : exists s', ready (pt_node p) s'
                 /\ pt_abs (r_iters r) (mkPoint CDeny (pt_node p) (pt_iter p)) s'
                 /\ NoDup (seg_ids (s' :: st))).
        { destruct Hr as [-> | [[-> Hx] | (i & ch & size & b & -> & Hch)]].
          - exists (SDenied (pt_node p) None). split; [|split].
            + right; left. split; [reflexivity|]. intros; eauto.
            + rewrite Hro in Hf. inversion Hf; subst. inversion H2; subst. cbn. constructor.
            + exact Hnd.
          - exists (SDenied (pt_node p) None). split; [|split].
            + right; left. split; [reflexivity|]. intros; eauto.
            + rewrite Hro in Hf. inversion Hf; subst. inversion H2; subst. cbn. constructor.
            + exact Hnd.
          - exfalso. specialize (Hch k Hki). rewrite Hv in Hch by exact Hki. discriminate. }
        destruct Hs as (s' & Hs1 & Hs2 & Hs3).
        destruct x; cbn; repeat split; auto; try congruence;
          (exists s'; split; [exact Hs1|]; repeat split; auto).
  Qed.

  Lemma at_null e r m s st k N c x :
    abs r (s :: st, k, N) -> ready m s -> en_nil en m = false ->
    en_visit en k m = VNullNode ->
    answers e m (c, x) -> c = CConsume \/ c = CMatch ->
    exists r', finds en e r r' /\ r_fatal r' = r_fatal r /\ r_denies r' = r_denies r /\ r_multi r' = r_multi r
      /\ match c with
         | CConsume => abs r' (st, k, N) /\ r_deny r' = r_deny r
         | _ => abs r' (s :: st, k, N) /\ r_deny r' = r_deny r
         end.
  Proof.
    intros Ha Hr Hn Hv Hans Hc.
    destruct (ready_top _ _ _ _ _ _ Ha Hr) as (p & rest & Hro & Hm & Hw & Hrest & Hnd).
    pose proof Ha as (Hf & Hnd' & Hk & Hlen & Hki). subst m.
    eexists. split.
    - eapply final_null; [exact Hro|exact Hn| | |exact Hc].
      + rewrite Hk. exact Hv.
      + apply Hans; [rewrite Hk; exact Hki|exact Hw].
    - destruct Hc as [-> | ->]; destruct x; cbn; repeat split; auto.
  Qed.

  Lemma at_complex e r m s st k N ch size b c x :
    abs r (s :: st, k, N) -> ready m s -> open_ok m b ->
    has_children m ch size b ->
    answers e m (c, x) -> is_continue c = false -> is_unknown c = false ->
    exists r' i N', finds en e r r' /\ r_fatal r' = r_fatal r /\ r_denies r' = r_denies r /\ r_multi r' = r_multi r
      /\ (x = true -> r_coll r' = CollState size i)
      /\ match c with
         | CConsume => abs r' (st, k, N') /\ r_deny r' = r_deny r
         | CDeny => (exists s', ready m s' /\ abs r' (s' :: st, k, N')) /\ r_deny r' = Some (RDeny e)
         | _ => abs r' (SOpen m b i ch :: st, k, N') /\ r_deny r' = r_deny r
         end.
  Proof.
    intros Ha Hr Ho Hch Hans Hc Hu.
    destruct (ready_top _ _ _ _ _ _ Ha Hr) as (p & rest & Hro & Hm & Hw & Hrest & Hnd).
    pose proof Ha as (Hf & Hnd' & Hk & Hlen & Hki). subst m.
    assert (Hp : exists i its', (Some i, set_iters its' r) = (if is_unknown (pt_concl p)
                then (Some (length (r_iters r)), set_iters (r_iters r ++ [ch]) r) else (pt_iter p, r))
              /\ nth_error its' i = Some ch /\ Forall2 (pt_abs its') rest st /\ ~ In i (seg_ids st)).
    { rewrite Hro in Hf. destruct Hr as [-> | [[-> Hx] | (i & ch' & size' & b' & -> & Hch')]];
        inversion Hf; subst; inversion H2; subst.
      - cbn [is_unknown pt_concl]. exists (length (r_iters r)), (r_iters r ++ [ch]). split; [reflexivity|].
        split; [rewrite nth_error_app2 by lia; rewrite Nat.sub_diag; reflexivity|]. split.
        + eapply abs_frame; [|exact Hrest]. intros j Hj. rewrite nth_error_app1; [reflexivity|].
          eapply abs_id_lt; eassumption.
        + intro Hin. pose proof (abs_id_lt _ _ _ _ Hrest Hin). lia.
      - exfalso. cbn in *. destruct (Hx (r_keep r) Hki) as (txt & Hx'). rewrite Hch in Hx' by exact Hki. discriminate.
      - cbn [is_unknown pt_concl pt_iter]. exists i, (r_iters r). split; [|split; [|split]].
        + destruct r; reflexivity.
        + cbn in Hch'. specialize (Hch' (r_keep r) Hki). specialize (Hch (r_keep r) Hki). cbn in *. congruence.
        + exact Hrest.
        + cbn in Hnd'. inversion Hnd'; assumption. }
    destruct Hp as (i & its' & Hit & Hi & Hrest' & Hni).
    eexists _, i, (length its'). split.
    - eapply final_complex; [exact Hro|apply Ho| | |exact Hit|eauto|exact Hc|exact Hu].
      + apply Hch. rewrite Hk. exact Hki.
      + apply Hans; [rewrite Hk; exact Hki|exact Hw].
    - destruct c; try discriminate.
      + destruct x; cbn; repeat split; auto; try congruence;
          try (constructor; [|exact Hrest']; constructor; auto);
          try (constructor; assumption).
      + destruct x; cbn; repeat split; auto; congruence.
      + assert (Hs : exists s', ready (pt_node p) s'
                 /\ pt_abs its' (mkPoint CDeny (pt_node p) (Some i)) s'
                 /\ NoDup (seg_ids (s' :: st))).
        { exists (SDenied (pt_node p) (Some (i, ch))). split; [|split].
          - right; right. eauto 6.
          - constructor. exact Hi.
          - cbn. constructor; assumption. }
        destruct Hs as (s' & Hs1 & Hs2 & Hs3).
        destruct x; cbn; repeat split; auto; try congruence;
          (exists s'; split; [exact Hs1|]; repeat split; auto).
  Qed.

  (** ** calls at a node of a tree *)
  Definition gives (r : rstate Nd K) (c : call) (a : answer Nd) (r' : rstate Nd K) : Prop :=
    exists F, forall f, F <= f -> do_call en o f c r = Done (a, r').

  Lemma gives_of c r x a r' : reading c = true -> r_fatal r = None -> finds en (expecter_of c) r x ->
    (exists F, forall f, F <= f -> finish en o f c x = Done (a, r')) -> gives r c a r'.
  Proof.
    intros Hc Hf Hx (F2 & H2). destruct (do_call_finds c r x Hc Hf Hx) as (F1 & H1).
    exists (max F1 F2). intros f Hle. rewrite H1 by lia. apply H2. lia.
  Qed.

  Lemma finish_consumed c x r : denied x = false -> has_fatal x = false ->
    (forall f, finish en o f c x = r) -> exists F : nat, forall f, F <= f -> finish en o f c x = r.
  Proof. intros _ _ H. exists 0. intros; apply H. Qed.

  Definition after_read (r r' : rstate Nd K) : Prop :=
    clean r' /\ r_denies r' = r_denies r /\ r_multi r' = r_multi r.

  Lemma not_fatal (r : rstate Nd K) : r_fatal r = None -> has_fatal r = false.
  Proof. unfold has_fatal. intros ->. reflexivity. Qed.
  Lemma not_denied (r : rstate Nd K) : r_deny r = None -> denied r = false.
  Proof. unfold denied. intros ->. reflexivity. Qed.

  (** r1 is reached silently from r *)
  Definition via (e : expecter) (r r1 : rstate Nd K) : Prop :=
    same_rest r r1 /\ forall x, finds en e r1 x -> finds en e r x.

  (** skipping *)
  Lemma call_skip r r1 m t s st k N :
    clean r -> via ESkip r r1 -> abs r1 (s :: st, k, N) -> ready m s -> core m t ->
    exists r' N', gives r DSkip AUnit r' /\ abs r' (st, k, N') /\ after_read r r'.
  Proof.
    intros [Hfa Hde] [(S1 & S2 & S3 & S4) Hv] Ha Hr Hc.
    assert (Hx : exists x N', finds en ESkip r1 x /\ abs x (st, k, N') /\ r_fatal x = None /\ r_deny x = None
              /\ r_denies x = r_denies r /\ r_multi x = r_multi r).
    { pose proof (core_live _ _ Hc) as [_ Hn].
      assert (Hki : Kinv k) by apply Ha.
      destruct Hc as [m Hl Hvis H1 H2 H3 _|m txt Hl Hvis H1 H2 _ _ _ _ _ _ _|m ch l Hl Ho Hch _ H1 H2 _ _ _|m ch l Hl Ho Hch _ H1 H2 _ _ _].
      - destruct (Hvis k Hki) as [Hvn|(txt & Hvt)].
        + destruct (at_null ESkip r1 m s st k N CConsume false Ha Hr Hn Hvn H2 (or_introl eq_refl))
            as (x & Hx & G1 & G2 & G3 & G4 & G5). exists x, N. repeat split; try congruence; try apply Hx; apply G4.
        + destruct (ready_top _ _ _ _ _ _ Ha Hr) as (p & rest & Hro & Hm & Hw & Hrest & Hnd).
          pose proof Ha as (Hf & Hnd' & Hk & Hlen & _). subst m.
          eexists _, N. split.
          * eapply (final_text en ESkip r1 p rest txt CConsume false); auto; [rewrite Hk; exact Hvt|].
            apply H2; [rewrite Hk; exact Hki|exact Hw].
          * cbn. repeat split; auto; congruence.
      - destruct (at_text ESkip r1 m s st k N txt CConsume false Ha Hr Hn Hvis H2 eq_refl eq_refl)
          as (x & Hx & G1 & G2 & G3 & _ & G4 & G5). exists x, N. repeat split; try congruence; try apply Hx; apply G4.
      - destruct (at_complex ESkip r1 m s st k N ch _ false CConsume false Ha Hr Ho Hch H2 eq_refl eq_refl)
          as (x & i & N' & Hx & G1 & G2 & G3 & _ & G4 & G5). exists x, N'. repeat split; try congruence; try apply Hx; apply G4.
      - destruct (at_complex ESkip r1 m s st k N ch _ false CConsume false Ha Hr Ho Hch H2 eq_refl eq_refl)
          as (x & i & N' & Hx & G1 & G2 & G3 & _ & G4 & G5). exists x, N'. repeat split; try congruence; try apply Hx; apply G4. }
    destruct Hx as (x & N' & Hx & Hax & G1 & G2 & G3 & G4).
    exists x, N'. split; [|split; [exact Hax|repeat split; assumption]].
    eapply gives_of; [reflexivity|exact Hfa|apply Hv; exact Hx|].
    exists 0. intros f _. unfold finish. rewrite not_denied, not_fatal by assumption. reflexivity.
  Qed.

  (** TryNull *)
  Lemma call_null r r1 m s st k N :
    clean r -> via ENull r r1 -> abs r1 (s :: st, k, N) -> ready m s -> core m TNull ->
    exists r' N', gives r DTryNull (ABool true) r' /\ abs r' (st, k, N') /\ after_read r r'.
  Proof.
    intros [Hfa Hde] [(S1 & S2 & S3 & S4) Hv] Ha Hr Hc.
    assert (Hx : exists x, finds en ENull r1 x /\ abs x (st, k, N) /\ r_fatal x = None /\ r_deny x = None
              /\ r_denies x = r_denies r /\ r_multi x = r_multi r).
    { pose proof (core_live _ _ Hc) as [_ Hn].
      assert (Hki : Kinv k) by apply Ha.
      inversion Hc as [m' Hl Hvis H1 H2 H3 _| | |]; subst m'.
      destruct (Hvis k Hki) as [Hvn|(txt & Hvt)].
      + destruct (at_null ENull r1 m s st k N CConsume false Ha Hr Hn Hvn H1 (or_introl eq_refl))
          as (x & Hx & G1 & G2 & G3 & G4 & G5). exists x. repeat split; try congruence; try apply Hx; apply G4.
      + destruct (ready_top _ _ _ _ _ _ Ha Hr) as (p & rest & Hro & Hm & Hw & Hrest & Hnd).
        pose proof Ha as (Hf & Hnd' & Hk & Hlen & _). subst m.
        eexists. split.
        * eapply (final_text en ENull r1 p rest txt CConsume false); auto; [rewrite Hk; exact Hvt|].
          apply H1; [rewrite Hk; exact Hki|exact Hw].
        * cbn. repeat split; auto; congruence. }
    destruct Hx as (x & Hx & Hax & G1 & G2 & G3 & G4).
    exists x, N. split; [|split; [exact Hax|repeat split; assumption]].
    eapply gives_of; [reflexivity|exact Hfa|apply Hv; exact Hx|].
    exists 0. intros f _. unfold finish. rewrite not_fatal, G2 by assumption. reflexivity.
  Qed.

  Lemma call_not_null r r1 m t s st k N : t <> TNull ->
    clean r -> via ENull r r1 -> abs r1 (s :: st, k, N) -> ready m s -> core m t ->
    exists r' s' N', gives r DTryNull (ABool false) r' /\ abs r' (s' :: st, k, N') /\ ready m s' /\ after_read r r'.
  Proof.
    intros Ht [Hfa Hde] [(S1 & S2 & S3 & S4) Hv] Ha Hr Hc.
    assert (Hx : exists x s' N', finds en ENull r1 x /\ abs x (s' :: st, k, N') /\ ready m s'
              /\ r_fatal x = None /\ r_deny x = Some (RDeny ENull)
              /\ r_denies x = r_denies r /\ r_multi x = r_multi r).
    { pose proof (core_live _ _ Hc) as [_ Hn].
      destruct Hc as [m Hl Hvis H1 H2 H3 _|m txt Hl Hvis H1 H2 _ _ _ _ _ _ _|m ch l Hl Ho Hch _ H1 H2 _ _ _|m ch l Hl Ho Hch _ H1 H2 _ _ _];
        [congruence| | |].
      - destruct (at_text ENull r1 m s st k N txt CDeny false Ha Hr Hn Hvis H1 eq_refl eq_refl)
          as (x & Hx & G1 & G2 & G3 & _ & (s' & G4 & G5) & G6).
        exists x, s', N. repeat split; try congruence; try apply Hx; try apply G5; apply G4.
      - destruct (at_complex ENull r1 m s st k N ch _ false CDeny false Ha Hr Ho Hch H1 eq_refl eq_refl)
          as (x & i & N' & Hx & G1 & G2 & G3 & _ & (s' & G4 & G5) & G6).
        exists x, s', N'. repeat split; try congruence; try apply Hx; try apply G5; apply G4.
      - destruct (at_complex ENull r1 m s st k N ch _ false CDeny false Ha Hr Ho Hch H1 eq_refl eq_refl)
          as (x & i & N' & Hx & G1 & G2 & G3 & _ & (s' & G4 & G5) & G6).
        exists x, s', N'. repeat split; try congruence; try apply Hx; try apply G5; apply G4. }
    destruct Hx as (x & s' & N' & Hx & Hax & Hs' & G1 & G2 & G3 & G4).
    exists (set_deny None x), s', N'. split; [|split; [exact Hax|split; [exact Hs'|repeat split; assumption]]].
    eapply gives_of; [reflexivity|exact Hfa|apply Hv; exact Hx|].
    exists 0. intros f _. unfold finish. rewrite not_fatal, G2 by assumption. reflexivity.
  Qed.

  (** scalars *)
  Lemma call_scalar c r r1 m s txt st k N a : reading c = true ->
    clean r -> via (expecter_of c) r r1 -> abs r1 (s :: st, k, N) -> ready m s ->
    en_nil en m = false -> (forall k, Kinv k -> en_visit en k m = VTexter txt None) ->
    answers (expecter_of c) m (CConsume, true) ->
    (forall f x, r_value x = txt -> denied x = false -> has_fatal x = false -> finish en o f c x = Done (a, x)) ->
    exists r' N', gives r c a r' /\ abs r' (st, k, N') /\ after_read r r'.
  Proof.
    intros Hread [Hfa Hde] [(S1 & S2 & S3 & S4) Hv] Ha Hr Hn Hvis Hans Hfin.
    destruct (at_text _ r1 m s st k N txt CConsume true Ha Hr Hn Hvis Hans eq_refl eq_refl)
      as (x & Hx & G1 & G2 & G3 & Gv & G4 & G5).
    exists x, N. split; [|split; [exact G4|repeat split; congruence]].
    eapply gives_of; [exact Hread|exact Hfa|apply Hv; exact Hx|].
    exists 0. intros f _. apply Hfin; auto; [apply not_denied|apply not_fatal]; congruence.
  Qed.

  (** Any *)
  Lemma call_any r r1 m t v s st k N :
    clean r -> via EAny r r1 -> abs r1 (s :: st, k, N) -> ready m s -> core m t -> val t v ->
    exists r' k' N', gives r DAny (AAny v) r' /\ abs r' (st, k', N') /\ after_read r r'.
  Proof.
    intros [Hfa Hde] [(S1 & S2 & S3 & S4) Hv] Ha Hr Hc Hval.
    assert (Hki : Kinv k) by apply Ha.
    assert (Hx : exists x s' N', finds en EAny r1 x /\ abs x (s' :: st, k, N') /\ r_fatal x = None /\ r_deny x = None
              /\ r_denies x = r_denies r /\ r_multi x = r_multi r /\ (exists p rest, r_route x = p :: rest /\ pt_node p = m)
              /\ NoDup (seg_ids st)).
    { pose proof (core_live _ _ Hc) as [_ Hn].
      destruct (ready_top _ _ _ _ _ _ Ha Hr) as (p & rest & Hro & Hm & Hw & Hrest & Hnd).
      pose proof Ha as (Hf & Hnd' & Hk & Hlen & _).
      destruct Hc as [m Hl Hvis H1 H2 H3 _|m txt Hl Hvis H1 H2 H3 _ _ _ _ _ _|m ch l Hl Ho Hch _ H1 H2 H3 _ _|m ch l Hl Ho Hch _ H1 H2 H3 _ _].
      - destruct (Hvis k Hki) as [Hvn|(txt & Hvt)]; subst m; eexists _, s, N; split.
        + eapply (final_null en EAny r1 p rest CMatch false); auto; [rewrite Hk; exact Hvn|].
          apply H3; [rewrite Hk; exact Hki|exact Hw].
        + cbn. repeat split; auto; try congruence. eauto.
        + eapply (final_text en EAny r1 p rest txt CMatch false); auto; [rewrite Hk; exact Hvt|].
          apply H3; [rewrite Hk; exact Hki|exact Hw].
        + cbn. repeat split; auto; try congruence. eauto.
      - subst m. eexists _, s, N. split.
        + eapply (final_text en EAny r1 p rest txt CMatch false); auto.
          * apply Hvis. rewrite Hk; exact Hki.
          * apply H3; [rewrite Hk; exact Hki|exact Hw].
        + cbn. repeat split; auto; try congruence. eauto.
      - destruct (at_complex EAny r1 m s st k N ch _ false CMatch false Ha Hr Ho Hch H3 eq_refl eq_refl)
          as (x & i & N' & Hx & G1 & G2 & G3 & _ & G4 & G5).
        exists x, (SOpen m false i ch), N'. split; [exact Hx|]. split; [exact G4|].
        repeat split; try congruence.
        destruct G4 as (Hfx & _). inversion Hfx; subst. inversion H5; subst. eauto.
      - destruct (at_complex EAny r1 m s st k N ch _ false CMatch false Ha Hr Ho Hch H3 eq_refl eq_refl)
          as (x & i & N' & Hx & G1 & G2 & G3 & _ & G4 & G5).
        exists x, (SOpen m false i ch), N'. split; [exact Hx|]. split; [exact G4|].
        repeat split; try congruence.
        destruct G4 as (Hfx & _). inversion Hfx; subst. inversion H5; subst. eauto. }
    destruct Hx as (x & s' & N' & Hx & Hax & G1 & G2 & G3 & G4 & (p & rest & Hro & Hm) & Hnd).
    assert (Hany : any_gives m t) by (destruct Hc; assumption).
    destruct (Hany v k Hki Hval) as (F & k' & Hk' & HF).
    exists (pop_point (set_keep k' x)), k', N'. split; [|split].
    - eapply gives_of; [reflexivity|exact Hfa|apply Hv; exact Hx|].
      exists F. intros f Hle. unfold finish. rewrite not_denied, not_fatal by assumption. cbn [orb].
      rewrite Hro, Hm. destruct Hax as (_ & _ & -> & _). rewrite HF by exact Hle. cbn. reflexivity.
    - destruct Hax as (Hfx & Hndx & Hkx & Hlx & _). cbn. rewrite Hro in *. inversion Hfx; subst.
      cbn. repeat split; auto.
    - repeat split; assumption.
  Qed.

  (** collections *)
  Lemma call_open c r r1 m s ch size st k N : c = DSequence \/ c = DMapping ->
    clean r -> via (expecter_of c) r r1 -> abs r1 (s :: st, k, N) -> ready m s -> open_ok m false ->
    has_children m ch size false -> answers (expecter_of c) m (CMatch, true) ->
    exists r' i N', gives r c (AColl (CollState size i)) r' /\ abs r' (SOpen m false i ch :: st, k, N') /\ after_read r r'.
  Proof.
    intros Hc [Hfa Hde] [(S1 & S2 & S3 & S4) Hv] Ha Hr Ho Hch Hans.
    destruct (at_complex _ r1 m s st k N ch _ false CMatch true Ha Hr Ho Hch Hans eq_refl eq_refl)
      as (x & i & N' & Hx & G1 & G2 & G3 & Gc & G4 & G5).
    exists x, i, N'. split; [|split; [exact G4|repeat split; congruence]].
    eapply gives_of; [destruct Hc as [-> | ->]; reflexivity|exact Hfa|apply Hv; exact Hx|].
    exists 0. intros f _. unfold finish.
    rewrite not_denied, not_fatal by congruence. rewrite Gc by reflexivity.
    destruct Hc as [-> | ->]; reflexivity.
  Qed.

  (** ** requests *)
  Definition serves (r : rstate Nd K) (hs : list coll) (qs : list request) (ps : list (reply Nd))
      (r' : rstate Nd K) (hs' : list coll) : Prop :=
    exists F rs, map mask rs = ps /\ forall f, F <= f -> do_requests en o f qs (r, hs) = Done (rs, (r', hs')).

  Lemma serves_nil r hs : serves r hs [] [] r hs.
  Proof. exists 0, []. split; [reflexivity|]. reflexivity. Qed.

  Lemma serves_app r hs qs ps r1 hs1 qs2 ps2 r2 hs2 :
    serves r hs qs ps r1 hs1 -> serves r1 hs1 qs2 ps2 r2 hs2 -> serves r hs (qs ++ qs2) (ps ++ ps2) r2 hs2.
  Proof.
    intros (F1 & rs1 & E1 & H1) (F2 & rs2 & E2 & H2). exists (max F1 F2), (rs1 ++ rs2). split.
    - rewrite map_app. congruence.
    - intros f Hle. specialize (H1 f ltac:(lia)). specialize (H2 f ltac:(lia)).
      clear E1 E2. revert r hs rs1 H1. induction qs as [|q qs IH]; intros r hs rs1 H1.
      + cbn in H1. injection H1 as <- <- <-. exact H2.
      + cbn in H1 |- *. apply obind_done in H1 as ([p s1] & Hp & H1). rewrite Hp. cbn [obind fst snd] in *.
        apply obind_done in H1 as ([rs s2] & Hrs & H1). injection H1 as <- ->. cbn [fst snd] in *.
        destruct s1 as [r' hs']. rewrite (IH _ _ _ Hrs). reflexivity.
  Qed.

  Lemma serves_call r hs c a r' :
    gives r c a r' -> serves r hs [QCall c] [mask (PAnswer a)] r' (hs ++ colls_of a).
  Proof.
    intros (F & H). exists F, [PAnswer a]. split; [reflexivity|].
    intros f Hle. cbn. rewrite H by exact Hle. reflexivity.
  Qed.

  Lemma serves_size r hs h n i : nth_error hs h = Some (CollState n i) -> serves r hs [QSize h] [PSize n] r hs.
  Proof.
    intro H. exists 0, [PSize n]. split; [reflexivity|]. intros f _. cbn.
    rewrite (nth_error_nth hs h CollNil H). reflexivity.
  Qed.
  Lemma serves_more r hs h n i l : nth_error hs h = Some (CollState n i) -> nth_error (r_iters r) i = Some l ->
    serves r hs [QMore h] [PMore (match l with [] => false | _ => true end)] r hs.
  Proof.
    intros H Hl. exists 0, [PMore (match l with [] => false | _ => true end)].
    split; [reflexivity|]. intros f _. cbn. rewrite (nth_error_nth hs h CollNil H). cbn. unfold iter_empty, iter_left.
    rewrite (nth_of_error _ _ _ Hl). destruct l; reflexivity.
  Qed.

  (** the iterator of an open segment *)
  Lemma abs_open_iter r junk n b i l st k N : abs r (junk ++ SOpen n b i l :: st, k, N) ->
    nth_error (r_iters r) i = Some l.
  Proof.
    intros (Hf & _). apply Forall2_app_inv_r in Hf as (ps1 & ps2 & _ & Hf & _).
    inversion Hf; subst. inversion H2; subst. assumption.
  Qed.

  Lemma spent_steps e junk st k N : Forall spent junk -> ssteps e (junk ++ st, k, N) (st, k, N).
  Proof.
    induction 1; cbn; [constructor|]. destruct H. econstructor; [constructor|assumption].
  Qed.

  (** The start of reading a node: [n] is what comes next for the first call's expecter. *)
  Definition first_exp (qs : list request) (e : expecter) : Prop :=
    match qs with QCall c :: _ => expecter_of c = e | _ => False end.

  Definition next_is (n : Nd) (t : tree) (s : seg) : Prop := (s = SWait n /\ rep n t) \/ (core n t /\ ready n s).

  Lemma arrive e r a s n t st k N : abs r a -> ssteps e a (s :: st, k, N) -> next_is n t s ->
    exists m s' junk r1 k1 N1, core m t /\ ready m s' /\ Forall spent junk /\ via e r r1
      /\ abs r1 (s' :: junk ++ st, k1, N1).
  Proof.
    intros Ha Hs Hn. destruct Hn as [[-> Hr]|[Hc Hr]].
    - destruct (ssteps_sound _ _ _ Hs r Ha) as (r0 & Ha0 & _ & _).
      assert (Hki : Kinv k) by apply Ha0.
      destruct (unwrap _ _ Hr e st k N Hki) as (m & junk & k' & N' & Hm & Hj & Hk' & S2).
      destruct (ssteps_sound _ _ _ (ssteps_trans _ _ _ _ Hs S2) r Ha) as (r1 & Ha1 & Hsame & Hx).
      exists m, (SWait m), junk, r1, k', N'. split; [exact Hm|]. split; [left; reflexivity|]. split; [exact Hj|].
      split; [split; assumption|exact Ha1].
    - destruct (ssteps_sound _ _ _ Hs r Ha) as (r1 & Ha1 & Hsame & Hx).
      exists n, s, [], r1, k, N. split; [exact Hc|]. split; [exact Hr|]. split; [constructor|].
      split; [split; assumption|exact Ha1].
  Qed.

  Definition outcome_of (r : rstate Nd K) (hs : list coll) (qs : list request) (ps : list (reply Nd))
      (h' : nat) (st : list seg) : Prop :=
    exists junk r' hs' k' N', serves r hs qs ps r' hs' /\ Forall spent junk /\ abs r' (junk ++ st, k', N')
      /\ after_read r r' /\ length hs' = h' /\ (exists more, hs' = hs ++ more).

  Definition P_read (h : nat) (t : tree) (qs : list request) (ps : list (reply Nd)) (h' : nat) : Prop :=
    forall e r hs a s n st k N,
      first_exp qs e -> abs r a -> clean r -> length hs = h ->
      ssteps e a (s :: st, k, N) -> next_is n t s ->
      outcome_of r hs qs ps h' st.

  Definition P_items (c h : nat) (l : list tree) (qs : list request) (ps : list (reply Nd)) (h' : nat) : Prop :=
    forall r hs junk m i size ch st k N,
      abs r (junk ++ SOpen m false i ch :: st, k, N) -> Forall spent junk -> reps ch l -> clean r ->
      length hs = h -> nth_error hs c = Some (CollState size i) ->
      outcome_of r hs qs ps h' (SOpen m false i [] :: st).

  Definition P_entries (c h : nat) (l : list (tree * tree)) (qs : list request) (ps : list (reply Nd)) (h' : nat) : Prop :=
    forall r hs junk m i size ch st k N,
      abs r (junk ++ SOpen m false i ch :: st, k, N) -> Forall spent junk -> entries ch l -> clean r ->
      length hs = h -> nth_error hs c = Some (CollState size i) ->
      outcome_of r hs qs ps h' (SOpen m false i [] :: st).

  Lemma via_consumed st r hs c a r' junk k N : gives r c a r' -> colls_of a = [] ->
    Forall spent junk -> abs r' (junk ++ st, k, N) -> after_read r r' ->
    outcome_of r hs [QCall c] [mask (PAnswer a)] (length hs) st.
  Proof.
    intros Hg Hc Hj Ha Hr. pose proof (serves_call r hs c a r' Hg) as Hs. rewrite Hc, app_nil_r in Hs.
    exists junk, r', hs, k, N. split; [exact Hs|]. split; [exact Hj|]. split; [exact Ha|]. split; [exact Hr|].
    split; [reflexivity|]. exists []. rewrite app_nil_r. reflexivity.
  Qed.

  Lemma after_trans r r1 r2 : after_read r r1 -> after_read r1 r2 -> after_read r r2.
  Proof. intros (? & ? & ?) (? & ? & ?). repeat split; try apply H2; congruence. Qed.

  Lemma outcome_more r hs qs ps r1 hs1 qs2 ps2 h' st :
    serves r hs qs ps r1 hs1 -> after_read r r1 -> (exists more, hs1 = hs ++ more) ->
    outcome_of r1 hs1 qs2 ps2 h' st -> outcome_of r hs (qs ++ qs2) (ps ++ ps2) h' st.
  Proof.
    intros Hs Hr (more & ->) (junk & r2 & hs2 & k & N & Hs2 & Hj & Ha & Hr2 & Hl & more2 & ->).
    exists junk, r2, ((hs ++ more) ++ more2), k, N. split; [eapply serves_app; eassumption|].
    split; [exact Hj|]. split; [exact Ha|]. split; [eapply after_trans; eassumption|]. split; [exact Hl|].
    exists (more ++ more2). rewrite app_assoc. reflexivity.
  Qed.

  Lemma reads_first (h : nat) t qs ps h' : reads (Nd := Nd) o map_size val h t qs ps h' ->
    exists e, first_exp qs e /\ e <> ERaw /\ (not_skip qs -> e <> ESkip).
  Proof.
    destruct 1; cbn; try (eexists; split; [reflexivity|]; split; [discriminate|]; intros; try discriminate; contradiction).
  Qed.

  Lemma after_clean r r' : after_read r r' -> clean r'.
  Proof. intros (H & _). exact H. Qed.

  Theorem read_all :
    (forall h t qs ps h', reads o map_size val h t qs ps h' -> P_read h t qs ps h')
    /\ (forall c h l qs ps h', reads_items o map_size val c h l qs ps h' -> P_items c h l qs ps h')
    /\ (forall c h l qs ps h', reads_entries o map_size val c h l qs ps h' -> P_entries c h l qs ps h').
  Proof.
    apply reads_all.
    - (* null *)
      intros h e r hs a s n st k N He Ha Hcl <- Hst Hn. cbn in He. subst e.
      destruct (arrive _ _ _ _ _ _ _ _ _ Ha Hst Hn) as (m & s' & junk & r1 & k1 & N1 & Hc & Hr & Hj & Hv & Ha1).
      destruct (call_null r r1 m s' (junk ++ st) k1 N1 Hcl Hv Ha1 Hr Hc) as (r' & N' & Hg & Ha' & Hr').
      eapply via_consumed in Hg; eauto.
    - (* try *)
      intros h t qs ps h' Ht Hreads IH e r hs a s n st k N He Ha Hcl Hlen Hst Hn. cbn in He. subst e.
      destruct (arrive _ _ _ _ _ _ _ _ _ Ha Hst Hn) as (m & s' & junk & r1 & k1 & N1 & Hc & Hr & Hj & Hv & Ha1).
      destruct (call_not_null r r1 m t s' (junk ++ st) k1 N1 Ht Hcl Hv Ha1 Hr Hc) as (r' & s'' & N' & Hg & Ha' & Hr2 & Hr').
      destruct (reads_first _ _ _ _ _ Hreads) as (e & He & _).
      pose proof (serves_call r hs _ _ r' Hg) as Hs. cbn in Hs. rewrite app_nil_r in Hs.
      specialize (IH e r' hs _ s'' m (junk ++ st) k1 N' He Ha' (after_clean _ _ Hr') Hlen
                     (ssteps_refl e _) (or_intror (conj Hc Hr2))).
      destruct IH as (junk2 & r2 & hs2 & k2 & N2 & Hs2 & Hj2 & Ha2 & Hr3 & Hl2 & Hm2).
      eapply (outcome_more r hs [_] [_] r' hs); [exact Hs|exact Hr'|exists []; rewrite app_nil_r; reflexivity|].
      exists (junk2 ++ junk), r2, hs2, k2, N2. rewrite <- app_assoc.
      split; [exact Hs2|]. split; [apply Forall_app; auto|]. split; [exact Ha2|]. split; [exact Hr3|]. auto.
    - (* string *)
      intros h txt e r hs a s n st k N He Ha Hcl <- Hst Hn. cbn in He. subst e.
      destruct (arrive _ _ _ _ _ _ _ _ _ Ha Hst Hn) as (m & s' & junk & r1 & k1 & N1 & Hc & Hr & Hj & Hv & Ha1).
      inversion Hc; subst.
      destruct (call_scalar DString r r1 m s' txt (junk ++ st) k1 N1 (AText txt)) as (r' & N' & Hg & Ha' & Hr'); auto; try apply H0.
      { intros f x <- E1 E2. unfold finish. rewrite E1, E2. reflexivity. }
      eapply via_consumed in Hg; eauto.
    - (* integer *)
      intros h txt bits z Hi Hz e r hs a s n st k N He Ha Hcl <- Hst Hn. cbn in He. subst e.
      destruct (arrive _ _ _ _ _ _ _ _ _ Ha Hst Hn) as (m & s' & junk & r1 & k1 & N1 & Hc & Hr & Hj & Hv & Ha1).
      inversion Hc; subst.
      destruct (call_scalar (DInteger bits) r r1 m s' txt (junk ++ st) k1 N1 (AInt z)) as (r' & N' & Hg & Ha' & Hr'); auto; try apply H0.
      { intros f x <- E1 E2. unfold finish. rewrite E1, E2. cbn. rewrite Hz. reflexivity. }
      eapply via_consumed in Hg; eauto.
    - (* unsigned *)
      intros h txt bits z Hi Hz e r hs a s n st k N He Ha Hcl <- Hst Hn. cbn in He. subst e.
      destruct (arrive _ _ _ _ _ _ _ _ _ Ha Hst Hn) as (m & s' & junk & r1 & k1 & N1 & Hc & Hr & Hj & Hv & Ha1).
      inversion Hc; subst.
      destruct (call_scalar (DUnsigned bits) r r1 m s' txt (junk ++ st) k1 N1 (AUint z)) as (r' & N' & Hg & Ha' & Hr'); auto; try apply H0.
      { intros f x <- E1 E2. unfold finish. rewrite E1, E2. cbn. rewrite Hz. reflexivity. }
      eapply via_consumed in Hg; eauto.
    - (* boolean *)
      intros h txt z Hz e r hs a s n st k N He Ha Hcl <- Hst Hn. cbn in He. subst e.
      destruct (arrive _ _ _ _ _ _ _ _ _ Ha Hst Hn) as (m & s' & junk & r1 & k1 & N1 & Hc & Hr & Hj & Hv & Ha1).
      inversion Hc; subst.
      destruct (call_scalar DBoolean r r1 m s' txt (junk ++ st) k1 N1 (ABool z)) as (r' & N' & Hg & Ha' & Hr'); auto; try apply H0.
      { apply H7. unfold sc_is_boolean, sc_to_boolean in *. rewrite Hz. reflexivity. }
      { intros f x <- E1 E2. unfold finish. rewrite E1, E2. cbn. rewrite Hz. reflexivity. }
      eapply via_consumed in Hg; eauto.
    - (* float *)
      intros h txt bits z Hi Hz e r hs a s n st k N He Ha Hcl <- Hst Hn. cbn in He. subst e.
      destruct (arrive _ _ _ _ _ _ _ _ _ Ha Hst Hn) as (m & s' & junk & r1 & k1 & N1 & Hc & Hr & Hj & Hv & Ha1).
      inversion Hc; subst.
      destruct (call_scalar (DFloat bits) r r1 m s' txt (junk ++ st) k1 N1 (AFloat z)) as (r' & N' & Hg & Ha' & Hr'); auto; try apply H0.
      { intros f x <- E1 E2. unfold finish. rewrite E1, E2. cbn. rewrite Hz. reflexivity. }
      eapply via_consumed in Hg; eauto.
    - (* timestamp *)
      intros h txt z Hz e r hs a s n st k N He Ha Hcl <- Hst Hn. cbn in He. subst e.
      destruct (arrive _ _ _ _ _ _ _ _ _ Ha Hst Hn) as (m & s' & junk & r1 & k1 & N1 & Hc & Hr & Hj & Hv & Ha1).
      inversion Hc; subst.
      destruct (call_scalar DTimestamp r r1 m s' txt (junk ++ st) k1 N1 (ATime z)) as (r' & N' & Hg & Ha' & Hr'); auto; try apply H0.
      { apply H9. unfold sc_is_timestamp. rewrite Hz. reflexivity. }
      { intros f x <- E1 E2. unfold finish. rewrite E1, E2. cbn. rewrite Hz. reflexivity. }
      eapply via_consumed in Hg; eauto.
    - (* skip *)
      intros h t e r hs a s n st k N He Ha Hcl <- Hst Hn. cbn in He. subst e.
      destruct (arrive _ _ _ _ _ _ _ _ _ Ha Hst Hn) as (m & s' & junk & r1 & k1 & N1 & Hc & Hr & Hj & Hv & Ha1).
      destruct (call_skip r r1 m t s' (junk ++ st) k1 N1 Hcl Hv Ha1 Hr Hc) as (r' & N' & Hg & Ha' & Hr').
      eapply via_consumed in Hg; eauto.
    - (* any *)
      intros h t v Hval e r hs a s n st k N He Ha Hcl <- Hst Hn. cbn in He. subst e.
      destruct (arrive _ _ _ _ _ _ _ _ _ Ha Hst Hn) as (m & s' & junk & r1 & k1 & N1 & Hc & Hr & Hj & Hv & Ha1).
      destruct (call_any r r1 m t v s' (junk ++ st) k1 N1 Hcl Hv Ha1 Hr Hc Hval) as (r' & k' & N' & Hg & Ha' & Hr').
      eapply via_consumed in Hg; eauto.
    - (* sequence *)
      intros h l qs ps h' Hitems IH e r hs a s n st k N He Ha Hcl <- Hst Hn. cbn in He. subst e.
      destruct (arrive _ _ _ _ _ _ _ _ _ Ha Hst Hn) as (m & s' & junk & r1 & k1 & N1 & Hc & Hr & Hj & Hv & Ha1).
      inversion Hc; subst.
      destruct (call_open DSequence r r1 m s' ch (length l) (junk ++ st) k1 N1 (or_introl eq_refl) Hcl Hv Ha1 Hr)
        as (r' & i & N' & Hg & Ha' & Hr'); auto.
      pose proof (serves_call r hs _ _ r' Hg) as Hs. cbn [colls_of mask] in Hs.
      assert (Hnth : nth_error (hs ++ [CollState (length l) i]) (length hs) = Some (CollState (length l) i)).
      { rewrite nth_error_app2 by lia. rewrite Nat.sub_diag. reflexivity. }
      pose proof (serves_size r' _ _ _ _ Hnth) as Hs2.
      pose proof (serves_app _ _ _ _ _ _ _ _ _ _ Hs Hs2) as Hs3.
      eapply (outcome_more r hs _ _ r' _ _ _ _ _ Hs3 Hr'); [eexists; reflexivity|].
      specialize (IH r' (hs ++ [CollState (length l) i]) [] m i (length l) ch (junk ++ st) k1 N' Ha' ltac:(constructor) H3 (after_clean _ _ Hr')
                     ltac:(rewrite app_length; cbn; lia) Hnth).
      destruct IH as (junk2 & r2 & hs2 & k2 & N2 & Hs4 & Hj2 & Ha2 & Hr3 & Hl2 & Hm2).
      exists (junk2 ++ SOpen m false i [] :: junk), r2, hs2, k2, N2. rewrite <- app_assoc.
      split; [exact Hs4|]. split.
      { apply Forall_app; split; [assumption|]. constructor; [constructor|assumption]. }
      split; [exact Ha2|]. split; [exact Hr3|]. auto.
    - (* mapping *)
      intros h l qs ps h' Hitems IH e r hs a s n st k N He Ha Hcl <- Hst Hn. cbn in He. subst e.
      destruct (arrive _ _ _ _ _ _ _ _ _ Ha Hst Hn) as (m & s' & junk & r1 & k1 & N1 & Hc & Hr & Hj & Hv & Ha1).
      inversion Hc; subst.
      destruct (call_open DMapping r r1 m s' ch (map_size (length l)) (junk ++ st) k1 N1 (or_intror eq_refl) Hcl Hv Ha1 Hr)
        as (r' & i & N' & Hg & Ha' & Hr'); auto.
      pose proof (serves_call r hs _ _ r' Hg) as Hs. cbn [colls_of mask] in Hs.
      assert (Hnth : nth_error (hs ++ [CollState (map_size (length l)) i]) (length hs) = Some (CollState (map_size (length l)) i)).
      { rewrite nth_error_app2 by lia. rewrite Nat.sub_diag. reflexivity. }
      pose proof (serves_size r' _ _ _ _ Hnth) as Hs2.
      pose proof (serves_app _ _ _ _ _ _ _ _ _ _ Hs Hs2) as Hs3.
      eapply (outcome_more r hs _ _ r' _ _ _ _ _ Hs3 Hr'); [eexists; reflexivity|].
      specialize (IH r' (hs ++ [CollState (map_size (length l)) i]) [] m i (map_size (length l)) ch (junk ++ st) k1 N' Ha' ltac:(constructor) H3 (after_clean _ _ Hr')
                     ltac:(rewrite app_length; cbn; lia) Hnth).
      destruct IH as (junk2 & r2 & hs2 & k2 & N2 & Hs4 & Hj2 & Ha2 & Hr3 & Hl2 & Hm2).
      exists (junk2 ++ SOpen m false i [] :: junk), r2, hs2, k2, N2. rewrite <- app_assoc.
      split; [exact Hs4|]. split.
      { apply Forall_app; split; [assumption|]. constructor; [constructor|assumption]. }
      split; [exact Ha2|]. split; [exact Hr3|]. auto.
    - (* no items *)
      intros c h r hs junk m i size ch st k N Ha Hj Hreps Hcl <- Hnth. inversion Hreps; subst.
      pose proof (serves_more r hs c size i [] Hnth (abs_open_iter _ _ _ _ _ _ _ _ _ Ha)) as Hs.
      exists junk, r, hs, k, N. split; [exact Hs|]. split; [exact Hj|]. split; [exact Ha|].
      split; [repeat split; apply Hcl|]. split; [reflexivity|]. exists []. rewrite app_nil_r. reflexivity.
    - (* item *)
      intros c h t l qs ps h1 qs' ps' h2 Hread IH1 Hitems IH2 r hs junk m i size ch st k N Ha Hj Hreps Hcl <- Hnth.
      inversion Hreps as [|n ns t0 ts Hn Hns]; subst.
      pose proof (serves_more r hs c size i (n :: ns) Hnth (abs_open_iter _ _ _ _ _ _ _ _ _ Ha)) as Hs.
      destruct (reads_first _ _ _ _ _ Hread) as (e & He & _).
      specialize (IH1 e r hs _ (SWait n) n (SOpen m false i ns :: st) k N He Ha Hcl eq_refl).
      destruct IH1 as (junk2 & r2 & hs2 & k2 & N2 & Hs2 & Hj2 & Ha2 & Hr2 & Hl2 & more2 & ->).
      { eapply ssteps_trans; [apply spent_steps; exact Hj|]. apply ssteps_one.
        apply (ss_child e m false). eapply rep_live; eassumption. }
      { left. auto. }
      specialize (IH2 r2 (hs ++ more2) junk2 m i size ns st k2 N2 Ha2 Hj2 Hns (after_clean _ _ Hr2) Hl2).
      destruct IH2 as (junk3 & r3 & hs3 & k3 & N3 & Hs3 & Hj3 & Ha3 & Hr3 & Hl3 & more3 & ->).
      { rewrite nth_error_app1; [exact Hnth|]. apply nth_error_Some. congruence. }
      change (QMore c :: qs ++ qs') with ([QMore c] ++ qs ++ qs').
      change (PMore true :: ps ++ ps') with ([PMore true] ++ ps ++ ps').
      exists junk3, r3, ((hs ++ more2) ++ more3), k3, N3.
      split; [eapply serves_app; [exact Hs|]; eapply serves_app; eassumption|].
      split; [exact Hj3|]. split; [exact Ha3|]. split; [eapply after_trans; eassumption|]. split; [exact Hl3|].
      exists (more2 ++ more3). rewrite app_assoc. reflexivity.
    - (* no entries *)
      intros c h r hs junk m i size ch st k N Ha Hj Hreps Hcl <- Hnth. inversion Hreps; subst.
      pose proof (serves_more r hs c size i [] Hnth (abs_open_iter _ _ _ _ _ _ _ _ _ Ha)) as Hs.
      exists junk, r, hs, k, N. split; [exact Hs|]. split; [exact Hj|]. split; [exact Ha|].
      split; [repeat split; apply Hcl|]. split; [reflexivity|]. exists []. rewrite app_nil_r. reflexivity.
    - (* entry *)
      intros c h tk tv l qs ps h1 qs' ps' h2 qs'' ps'' h3 Hrk IHk Hns Hrv IHv Hent IH2
        r hs junk m i size ch st k N Ha Hj Hreps Hcl <- Hnth.
      destruct (reads_first _ _ _ _ _ Hrk) as (e & He & Hraw & Hskip).
      destruct (reads_first _ _ _ _ _ Hrv) as (e2 & He2 & _).
      assert (Hx : exists pre ch' st' n2,
                 entries ch' l /\ rep n2 tv /\
                 outcome_of r hs (QMore c :: qs) (PMore true :: ps) h1 (pre ++ SOpen m false i st' :: st) /\
                 (forall junk0 k0 N0, Forall spent junk0 -> exists post, Forall spent post /\
                    ssteps e2 (junk0 ++ pre ++ SOpen m false i st' :: st, k0, N0)
                              (SWait n2 :: post ++ SOpen m false i ch' :: st, k0, N0))).
      { inversion Hreps as [|x kn vn sz ch0 tk0 tv0 l0 Hlx Hox Hpx Hchx Hk Hv He0
                            |kn vn ch0 tk0 tv0 l0 Hk Hv He0]; subst.
        - pose proof (serves_more r hs c size i (x :: ch0) Hnth (abs_open_iter _ _ _ _ _ _ _ _ _ Ha)) as Hs.
          exists [SOpen x false N [vn]], ch0, ch0, vn. split; [exact He0|]. split; [exact Hv|]. split.
          + apply (outcome_more r hs [_] [_] r hs _ _ _ _ Hs);
              [repeat split; apply Hcl|exists []; rewrite app_nil_r; reflexivity|].
            eapply (IHk e r hs _ (SWait kn) kn); [exact He|exact Ha|exact Hcl|reflexivity| |left; auto].
            eapply ssteps_trans; [apply spent_steps; exact Hj|].
            econstructor; [apply (ss_child e m false); exact Hlx|]. cbn [bindk].
            econstructor; [eapply ss_open; eauto|].
            apply ssteps_one. apply (ss_child e x false). eapply rep_live; eassumption.
          + intros junk0 k0 N0 Hj0. exists [SOpen x false N []]. split; [repeat constructor|].
            eapply ssteps_trans; [apply spent_steps; exact Hj0|]. apply ssteps_one.
            apply (ss_child e2 x false). eapply rep_live; eassumption.
        - pose proof (serves_more r hs c size i (kn :: vn :: ch0) Hnth (abs_open_iter _ _ _ _ _ _ _ _ _ Ha)) as Hs.
          exists [], ch0, (vn :: ch0), vn. split; [exact He0|]. split; [exact Hv|]. split.
          + apply (outcome_more r hs [_] [_] r hs _ _ _ _ Hs);
              [repeat split; apply Hcl|exists []; rewrite app_nil_r; reflexivity|].
            eapply (IHk e r hs _ (SWait kn) kn); [exact He|exact Ha|exact Hcl|reflexivity| |left; auto].
            eapply ssteps_trans; [apply spent_steps; exact Hj|].
            apply ssteps_one. apply (ss_child e m false). eapply rep_live; eassumption.
          + intros junk0 k0 N0 Hj0. exists []. split; [constructor|].
            eapply ssteps_trans; [apply spent_steps; exact Hj0|]. apply ssteps_one.
            apply (ss_child e2 m false). eapply rep_live; eassumption. }
      destruct Hx as (pre & ch' & st' & n2 & Hent' & Hn2 & Hok & Hsteps).
      destruct Hok as (junk1 & r1 & hs1 & k1 & N1 & Hs1 & Hj1 & Ha1 & Hr1 & Hl1 & more1 & ->).
      destruct (Hsteps junk1 k1 N1 Hj1) as (post & Hpost & Hst1).
      destruct (IHv e2 r1 (hs ++ more1) _ (SWait n2) n2 _ k1 N1 He2 Ha1 (after_clean _ _ Hr1) Hl1 Hst1
                  (or_introl (conj eq_refl Hn2)))
        as (junk2 & r2 & hs2 & k2 & N2 & Hs2 & Hj2 & Ha2 & Hr2 & Hl2 & more2 & ->).
      rewrite app_assoc in Ha2.
      destruct (IH2 r2 ((hs ++ more1) ++ more2) (junk2 ++ post) m i size ch' st k2 N2 Ha2
                  ltac:(apply Forall_app; auto) Hent' (after_clean _ _ Hr2) Hl2)
        as (junk3 & r3 & hs3 & k3 & N3 & Hs3 & Hj3 & Ha3 & Hr3 & Hl3 & more3 & ->).
      { rewrite <- app_assoc. rewrite nth_error_app1; [exact Hnth|]. apply nth_error_Some. congruence. }
      exists junk3, r3, (((hs ++ more1) ++ more2) ++ more3), k3, N3.
      split.
      { change (QMore c :: qs ++ qs' ++ qs'') with ((QMore c :: qs) ++ qs' ++ qs'').
        change (PMore true :: ps ++ ps' ++ ps'') with ((PMore true :: ps) ++ ps' ++ ps'').
        eapply serves_app; [exact Hs1|]. eapply serves_app; eassumption. }
      split; [exact Hj3|]. split; [exact Ha3|].
      split; [eapply after_trans; [exact Hr1|]; eapply after_trans; eassumption|]. split; [exact Hl3|].
      exists (more1 ++ more2 ++ more3). rewrite !app_assoc. reflexivity.
  Qed.

  (** ** the end of the document *)
  Lemma spent_reaches e junk : Forall spent junk -> forall r k N, abs r (junk, k, N) ->
    exists r1, r_route r1 = [] /\ same_rest r r1 /\ forall x, reaches en e r1 x -> reaches en e r x.
  Proof.
    induction 1 as [|s l Hs Hl IH]; intros r k N Ha.
    - exists r. destruct Ha as (Hf & _). inversion Hf. repeat split; auto.
    - destruct Hs as [n b i]. destruct Ha as (Hf & Hnd & Hk & Hlen & Hki).
      inversion Hf as [|p s ps st' Hp Hrest Hr Heq]; subst. inversion Hp; subst.
      cbn in Hnd. inversion Hnd; subst.
      destruct (IH (set_route ps (set_last CContinue r)) (r_keep r) (length (r_iters r))) as (r1 & Q1 & Q2 & H3').
      { cbn. repeat split; auto. }
      exists r1. split; [exact Q1|]. split; [exact Q2|]. intros x Hx.
      eapply step_exhausted; [symmetry; exact Hr|eapply opened_of; eauto| |apply H3'; exact Hx].
      unfold iter_left. eapply nth_of_error; eassumption.
  Qed.

  Lemma at_end c r junk k N : reading c = true -> clean r -> r_denies r = [] -> Forall spent junk ->
    abs r (junk, k, N) ->
    exists r', gives r c (zero_answer o c) r' /\ r_fatal r' = Some REnd /\ r_denies r' = [].
  Proof.
    intros Hc [Hfa Hde] Hds Hj Ha.
    destruct (spent_reaches (expecter_of c) junk Hj r k N Ha) as (r1 & Hr1 & (S1 & S2 & S3 & S4) & Hx).
    pose proof (final_end en (expecter_of c) r1 Hr1) as Hend.
    assert (Happ : append_err en REnd r1 = set_fatal_error en REnd r1).
    { unfold append_err. rewrite andb_false_r, S1, Hfa. reflexivity. }
    rewrite Happ in Hend.
    assert (Hfx : r_fatal (set_fatal_error en REnd r1) = Some REnd).
    { unfold set_fatal_error. destruct (en_drains en); reflexivity. }
    assert (Hfx3 : r_deny (set_fatal_error en REnd r1) = None).
    { unfold set_fatal_error. destruct (en_drains en); cbn; congruence. }
    assert (Hfx4 : r_denies (set_fatal_error en REnd r1) = []).
    { unfold set_fatal_error. destruct (en_drains en); cbn; congruence. }
    set (x := set_fatal_error en REnd r1) in *. clearbody x.
    assert (Ht : take_deny en x = x).
    { unfold take_deny. rewrite Hfx3. clear Happ Hend. destruct x; cbn in *; subst; reflexivity. }
    exists x. split; [|split; assumption].
    destruct (Hx _ Hend) as (f0 & H0). exists f0. intros f Hle.
    pose proof (run_le en _ _ _ _ _ _ Hle H0) as H.
    unfold do_call, has_fatal. rewrite Hfa. destruct c; try discriminate; rewrite H; cbn [obind];
      unfold finish, has_fatal; rewrite Hfx; rewrite ?orb_true_r, ?Ht; reflexivity.
  Qed.

  Lemma docs_read h l qs ps h' : reads_docs o map_size val h l qs ps h' ->
    forall r hs junk m i ch st k N,
      abs r (junk ++ SOpen m false i ch :: st, k, N) -> Forall spent junk -> reps ch l -> clean r ->
      length hs = h -> outcome_of r hs qs ps h' (SOpen m false i [] :: st).
  Proof.
    induction 1 as [h|h t l qs ps h1 qs' ps' h2 Hread Hrest IH];
      intros r hs junk m i ch st k N Ha Hj Hreps Hcl Hlen; inversion Hreps as [|n ns t0 ts Hn Hns]; subst.
    - exists junk, r, hs, k, N. split; [apply serves_nil|]. split; [exact Hj|]. split; [exact Ha|].
      split; [repeat split; apply Hcl|]. split; [reflexivity|]. exists []. rewrite app_nil_r. reflexivity.
    - destruct (reads_first _ _ _ _ _ Hread) as (e & He & _).
      destruct (proj1 read_all _ _ _ _ _ Hread e r hs _ (SWait n) n (SOpen m false i ns :: st) k N He Ha Hcl eq_refl)
        as (junk2 & r2 & hs2 & k2 & N2 & Hs2 & Hj2 & Ha2 & Hr2 & Hl2 & more2 & ->).
      { eapply ssteps_trans; [apply spent_steps; exact Hj|]. apply ssteps_one.
        apply (ss_child e m false). eapply rep_live; eassumption. }
      { left. auto. }
      eapply outcome_more; [exact Hs2|exact Hr2|eauto|].
      eapply IH; eauto using after_clean.
  Qed.

  Lemma outcome_done r qs ps h st : r_denies r = [] -> Forall spent st -> outcome_of r [] qs ps h st ->
    done_reading en o r qs ps h.
  Proof.
    intros Hd Hst (junk & r' & hs' & k' & N' & (F & rs & Hrs & Hs) & Hj & Ha & Hr & Hl & _).
    exists rs, hs', F. split; [exact Hrs|]. split; [exact Hl|]. intros f Hf. exists r'. split; [apply Hs; exact Hf|].
    pose proof Hr as ((Hfa & Hde) & Hds & _). rewrite Hd in Hds. split.
    - cbn. rewrite Hfa, Hds. reflexivity.
    - intros c Hc.
      destruct (at_end c r' (junk ++ st) k' N' Hc (conj Hfa Hde) Hds) as (r'' & (F' & HF') & G1 & G2); auto.
      { apply Forall_app. auto. }
      exists F'. intros f' Hf'. exists r''. split; [apply HF'; exact Hf'|]. cbn. rewrite G1, G2. reflexivity.
  Qed.

  Theorem read_node multi n t k qs ps h : Kinv k -> rep n t ->
    reads o map_size val 0 t qs ps h -> done_reading en o (r_new k multi n) qs ps h.
  Proof.
    intros Hk Hn Hread. destruct (reads_first _ _ _ _ _ Hread) as (e & He & _).
    eapply (outcome_done _ _ _ _ []); [reflexivity|constructor|].
    eapply (proj1 read_all _ _ _ _ _ Hread e (r_new k multi n) [] ([SWait n], k, 0) (SWait n) n [] k 0 He);
      [|split; reflexivity|reflexivity|constructor|left; auto].
    cbn. repeat split; auto; repeat constructor.
  Qed.

  Theorem read_stream multi x ch size t l k qs ps h1 qs' ps' h : Kinv k -> open_ok x false ->
    (forall e, e <> ESkip -> e <> ERaw -> passes e x) -> has_children x ch size false -> reps ch (t :: l) ->
    reads o map_size val 0 t qs ps h1 -> not_skip qs -> reads_docs o map_size val h1 l qs' ps' h ->
    done_reading en o (r_new k multi x) (qs ++ qs') (ps ++ ps') h.
  Proof.
    intros Hk Ho Hpass Hch Hreps Hread Hskip Hdocs. inversion Hreps as [|n ns t0 ts Hn Hns]; subst.
    destruct (reads_first _ _ _ _ _ Hread) as (e & He & Hraw & Hsk).
    eapply (outcome_done _ _ _ _ [SOpen x false 0 []]); [reflexivity|repeat constructor|].
    destruct (proj1 read_all _ _ _ _ _ Hread e (r_new k multi x) [] ([SWait x], k, 0) (SWait n) n
                [SOpen x false 0 ns] k 1 He)
      as (junk2 & r2 & hs2 & k2 & N2 & Hs2 & Hj2 & Ha2 & Hr2 & Hl2 & more2 & Hm2).
    { cbn. repeat split; auto; repeat constructor. }
    { split; reflexivity. }
    { reflexivity. }
    { econstructor; [eapply ss_open; eauto|]. apply ssteps_one. apply (ss_child e x false). eapply rep_live; eassumption. }
    { left; auto. }
    eapply outcome_more; [exact Hs2|exact Hr2|eauto|].
    eapply docs_read; eauto using after_clean.
  Qed.
End Read.
