(** The generated decoders return, on goyaml, for documents without aliases. *)
From Coq Require Import ZifyBool ZifyNat.
From Verif Require Import Base Schema Values Ast Writer AnyBuilder Reader GBuilder GReader
  ReadSpec CursorSpec CursorProofs CursorRun GenCode GenSpec GenProofs.
Local Open Scope nat_scope.

Local Opaque sc_is_integer sc_to_integer sc_to_unsigned sc_is_boolean sc_to_boolean sc_is_float sc_is_timestamp any_value.

(** ** nodes that are left to read *)
Fixpoint weight (d : ytree) : nat :=
  match d with
  | YNull _ | YText _ => 1
  | YSeq l | YMap l => S (fold_right (fun y m => weight y + m) 0 l)
  end.
Definition weights (l : list ytree) : nat := fold_right (fun y m => weight y + m) 0 l.
Definition frames (fs : list (nat * list ytree)) : nat := fold_right (fun f m => weights (snd f) + m) 0 fs.
Definition left_in (u : cursor) : nat :=
  match cu_held u with Some d => weight d | None => 0 end + frames (cu_open u).

Lemma weight_pos d : 1 <= weight d.
Proof. destruct d; cbn; lia. Qed.

Definition frame_ok (sizes : list nat) (f : nat * list ytree) : Prop :=
  exists n, nth_error sizes (fst f) = Some n /\ length (snd f) <= n.
Definition ok (u : cursor) : Prop :=
  cu_multi u = false /\ (cu_fatal u <> None -> cu_held u = None /\ cu_open u = []) /\ Forall (frame_ok (cu_sizes u)) (cu_open u).
Definition grows (u u' : cursor) : Prop := exists more, cu_sizes u' = cu_sizes u ++ more.
Definition step (u u' : cursor) : Prop := ok u' /\ grows u u' /\ left_in u' <= left_in u.
Definition progress (u u' : cursor) : Prop := cu_fatal u' <> None \/ left_in u' < left_in u.

Lemma grows_refl u : grows u u. Proof. exists []. rewrite app_nil_r. reflexivity. Qed.
Lemma grows_same u u' : cu_sizes u' = cu_sizes u -> grows u u'. Proof. intro H. exists []. rewrite app_nil_r. exact H. Qed.
Lemma grows_trans a b c : grows a b -> grows b c -> grows a c.
Proof. intros [x Hx] [y Hy]. exists (x ++ y). rewrite Hy, Hx, app_assoc. reflexivity. Qed.
Lemma grows_nth u u' h n : grows u u' -> nth_error (cu_sizes u) h = Some n -> nth_error (cu_sizes u') h = Some n.
Proof. intros [x ->] H. rewrite nth_error_app1; [exact H|]. apply nth_error_Some. congruence. Qed.
Lemma step_refl u : ok u -> step u u. Proof. intro H. split; [exact H|]. split; [apply grows_refl|lia]. Qed.
Lemma step_trans a b c : step a b -> step b c -> step a c.
Proof. intros (H1 & H2 & H3) (G1 & G2 & G3). split; [exact G1|]. split; [eapply grows_trans; eassumption|lia]. Qed.
Lemma fatal_left u : ok u -> cu_fatal u <> None -> left_in u = 0.
Proof. intros (_ & H & _) Hf. destruct (H Hf) as [E1 E2]. unfold left_in. rewrite E1, E2. reflexivity. Qed.
(** progress first, or progress later *)
Lemma fatal_stays u u' : ok u' -> cu_fatal u' <> None -> progress u u'. Proof. intros _ H. left. exact H. Qed.

Lemma more_left h u : ok u -> cursor_more h u = true ->
  cu_fatal u = None /\ 1 <= left_in u /\ exists n, nth_error (cu_sizes u) h = Some n /\ 1 <= n.
Proof.
  intros (_ & Hf & Ho) H. unfold cursor_more in H. apply existsb_exists in H as ([h' l] & Hin & H). cbn in H.
  apply andb_true_iff in H as [E Hl]. apply Nat.eqb_eq in E. subst h'. destruct l as [|d l]; [discriminate|].
  split; [|split].
  - destruct (cu_fatal u); [|reflexivity]. destruct Hf as [_ Hf]; [discriminate|]. rewrite Hf in Hin. contradiction.
  - unfold left_in. clear -Hin. pose proof (weight_pos d). induction (cu_open u) as [|f fs IH]; [contradiction|].
    cbn [frames fold_right]. destruct Hin as [->|Hin]; cbn; [lia|]. specialize (IH Hin). unfold frames in IH. lia.
  - rewrite Forall_forall in Ho. destruct (Ho _ Hin) as (n & H1 & H2). cbn in H1, H2. exists n. split; [exact H1|lia].
Qed.

Section Calls.
  Context {Nd : Type} (o : oracle).
  Notation ccall := (cursor_call (Nd := Nd) o).

  Lemma next_ok u d fs : ok u -> cu_fatal u = None -> next u = Some (d, fs) ->
    left_in u = weight d + frames fs /\ Forall (frame_ok (cu_sizes u)) fs.
  Proof.
    intros (_ & _ & Ho) Hf. unfold next, left_in. destruct (cu_held u) as [d'|].
    - intros [= <- <-]. split; [reflexivity|exact Ho].
    - induction (cu_open u) as [|[h l] gs IH]; [discriminate|]. inversion Ho as [|? ? Hh Ho']; subst. destruct l as [|d' l]; cbn [next_item].
      + intro H. destruct (IH Ho' H) as [E1 E2]. split; [|exact E2]. cbn in *. exact E1.
      + intros [= -> <-]. split; [cbn; lia|]. constructor; [|exact Ho']. destruct Hh as (n & H1 & H2). exists n. cbn in *. split; [exact H1|lia].
  Qed.

  Lemma failed_step e u : ok u -> step u (failed e u) /\ cu_fatal (failed e u) <> None.
  Proof.
    intros (H1 & H2 & H3). split; [|discriminate]. split; [|split; [apply grows_same; reflexivity|unfold left_in; cbn; lia]].
    split; [exact H1|]. split; [intros _; split; reflexivity|constructor].
  Qed.
  Lemma numbered_step c n u u' : step u u' -> step u (numbered c n u').
  Proof.
    intros (H1 & H2 & H3). unfold numbered. destruct (opening c); [|split; [exact H1|split; assumption]].
    split; [|split; [|exact H3]].
    - destruct H1 as (G1 & G2 & G3). split; [exact G1|]. split; [exact G2|]. cbn. eapply Forall_impl; [|exact G3].
      intros f (m & E & L). exists m. split; [|exact L]. rewrite nth_error_app1; [exact E|]. apply nth_error_Some. congruence.
    - destruct H2 as [more ->]. exists (more ++ [n]). cbn. rewrite app_assoc. reflexivity.
  Qed.
  Lemma numbered_fatal c n u : cu_fatal (numbered c n u) = cu_fatal u.
  Proof. unfold numbered. destruct (opening c); reflexivity. Qed.
  Lemma numbered_left c n u : left_in (numbered c n u) = left_in u.
  Proof. unfold numbered. destruct (opening c); reflexivity. Qed.
  Lemma numbered_held c n u : cu_held (numbered c n u) = cu_held u.
  Proof. unfold numbered. destruct (opening c); reflexivity. Qed.

  Lemma consumed_step u d fs : ok u -> cu_fatal u = None -> next u = Some (d, fs) ->
    step u (at_place None fs u) /\ left_in (at_place None fs u) < left_in u.
  Proof.
    intros Hok Hf Hn. destruct (next_ok u d fs Hok Hf Hn) as [E H]. pose proof (weight_pos d). destruct Hok as (H1 & H2 & H3).
    assert (Hl : left_in (at_place None fs u) = frames fs) by reflexivity.
    split; [|lia]. split; [|split; [apply grows_same; reflexivity|lia]].
    split; [exact H1|]. split; [cbn; congruence|exact H].
  Qed.

  (** every call but TryNull reads a node or fails *)
  Definition result (u u' : cursor) : Prop := step u u' /\ progress u u' /\ (cu_fatal u' <> None \/ cu_held u' = None).
  Lemma failed_result c n e u : ok u -> result u (numbered c n (failed e u)).
  Proof.
    intro H. destruct (failed_step e u H) as [H1 H2]. split; [apply numbered_step; exact H1|].
    split; left; rewrite numbered_fatal; exact H2.
  Qed.
  Lemma consumed_result c n u d fs : ok u -> cu_fatal u = None -> next u = Some (d, fs) -> result u (numbered c n (at_place None fs u)).
  Proof.
    intros H1 H2 H3. destruct (consumed_step u d fs H1 H2 H3) as [G1 G2]. split; [apply numbered_step; exact G1|].
    split; right; [rewrite numbered_left; exact G2|rewrite numbered_held; reflexivity].
  Qed.
  Lemma text_result c b s u d fs : ok u -> cu_fatal u = None -> next u = Some (d, fs) ->
    result u (snd (let (a, u') := text_call (Nd := Nd) o c b s d fs u in (a, numbered c 0 u'))).
  Proof.
    intros H1 H2 H3. unfold text_call. destruct (reads_text o c b s) as [[a|]|]; cbn [snd].
    - eapply consumed_result; eassumption.
    - apply failed_result. exact H1.
    - unfold deny. rewrite (proj1 H1). apply failed_result. exact H1.
  Qed.
  Lemma open_result c l u d fs : opening c = true -> ok u -> cu_fatal u = None -> next u = Some (d, fs) ->
    (d = YSeq l \/ d = YMap l) -> result u (numbered c (length l) (at_place None ((length (cu_sizes u), l) :: fs) u)).
  Proof.
    intros Hc H1 H2 H3 Hd. destruct (next_ok u d fs H1 H2 H3) as [E H].
    assert (Hw : weight d = S (weights l)) by (destruct Hd as [-> | ->]; reflexivity).
    unfold result, numbered. rewrite Hc. destruct H1 as (G1 & G2 & G3).
    assert (Hl : left_in (at_place None ((length (cu_sizes u), l) :: fs) u) < left_in u).
    { replace (left_in (at_place None ((length (cu_sizes u), l) :: fs) u)) with (weights l + frames fs) by reflexivity. lia. }
    split; [|split; right; [exact Hl|reflexivity]].
    split; [|split; [exists [length l]; reflexivity|apply Nat.lt_le_incl; exact Hl]].
    split; [exact G1|]. split; [cbn; congruence|]. cbn. constructor.
    - exists (length l). cbn. rewrite nth_error_app2, Nat.sub_diag by lia. split; [reflexivity|lia].
    - eapply Forall_impl; [|exact H]. intros f (m & E1 & L). exists m. split; [|exact L].
      rewrite nth_error_app1; [exact E1|]. apply nth_error_Some. congruence.
  Qed.

  Lemma ccall_result c u : reading c = true -> c <> DTryNull -> usual (QCall c) = true -> ok u -> result u (snd (ccall c u)).
  Proof.
    intros Hc Ht Hu Hok. unfold cursor_call. destruct (cu_fatal u) as [e|] eqn:Hf.
    - assert (H : result u (numbered c 0 u)).
      { split; [apply numbered_step; apply step_refl; exact Hok|]. split; left; rewrite numbered_fatal, Hf; discriminate. }
      destruct c; try discriminate; try congruence; exact H.
    - destruct (next u) as [[d fs]|] eqn:Hn.
      + pose proof (consumed_result c 0 u d fs Hok Hf Hn) as Hcons.
        pose proof (fun e => failed_result c 0 e u Hok) as Hfail.
        assert (Hdeny : result u (numbered c 0 (deny c d fs u))) by (unfold deny; rewrite (proj1 Hok); apply Hfail).
        pose proof (fun b s => text_result c b s u d fs Hok Hf Hn) as Htext.
        destruct c; try discriminate; try congruence; try exact Hcons;
          try (destruct (any_value o d); [exact Hcons|apply Hfail]);
          destruct d; try (apply Htext); try (exact Hdeny); (eapply open_result; eauto).
      + pose proof (failed_result c 0 REnd u Hok) as H. destruct c; try discriminate; try congruence; exact H.
  Qed.

  (** TryNull takes a null, or leaves things as they are *)
  Lemma try_result u : ok u ->
    step u (snd (ccall DTryNull u)) /\ (yes (fst (ccall DTryNull u)) = true -> progress u (snd (ccall DTryNull u))).
  Proof.
    intro Hok. unfold cursor_call. destruct (cu_fatal u) as [e|] eqn:Hf.
    - cbn [fst snd]. split; [apply step_refl; exact Hok|discriminate].
    - destruct (next u) as [[d fs]|] eqn:Hn.
      + destruct (next_ok u d fs Hok Hf Hn) as [E H].
        assert (Hheld : step u (at_place (Some d) fs u)).
        { destruct Hok as (H1 & H2 & H3). split; [|split; [apply grows_same; reflexivity|]].
          2: { replace (left_in (at_place (Some d) fs u)) with (weight d + frames fs) by reflexivity. lia. }
          split; [exact H1|]. split; [cbn; congruence|exact H]. }
        destruct d; cbn [fst snd]; (split; [|intro Hy; try discriminate Hy]); try exact Hheld.
        * eapply consumed_step; eassumption.
        * right. eapply consumed_step; eassumption.
      + cbn [fst snd]. destruct (failed_step REnd u Hok). split; [assumption|]. intro; left; assumption.
  Qed.
End Calls.

(** ** values of the right shape *)
Section Shape.
  Context (x : externs) (tb : structs).
  Inductive shaped : gotype -> goval -> Prop :=
  | sh_array e l : Forall (shaped e) l -> shaped (TyArray (length l) e) (GoArray l)
  | sh_struct i l : Forall2 (fun d v => shaped (fl_type d) v) (fields_of tb i) l -> shaped (TyStruct i) (GoStruct l)
  | sh_ptr e v : shaped e v -> shaped (TyPtr e) (GoPtr v)
  | sh_nil e : shaped (TyPtr e) GoNil
  | sh_other t v : match t with TyArray _ _ | TyStruct _ | TyPtr _ => False | _ => True end -> shaped t v.

  Lemma typed_shaped v : forall t, typed tb t v -> shaped t v.
  Proof.
    induction v using goval_ind'; intros t Ht; inversion Ht; subst; try (apply sh_other; exact I).
    - destruct t; try discriminate; try (apply sh_other; exact I). apply sh_nil.
    - apply sh_array. rewrite Forall_forall in *. intros w Hw. apply H; auto.
    - apply sh_ptr. apply IHv. assumption.
    - apply sh_struct. unfold fields_of. rewrite (nth_error_nth _ _ _ H1). clear -H H4.
      induction H4; [constructor|]. inversion H; subst. constructor; auto.
  Qed.
  Lemma zero_shaped v : forall t, zeroval x tb t v -> shaped t v.
  Proof.
    induction v using goval_ind'; intros t Ht; inversion Ht; subst; try (apply sh_other; exact I).
    - destruct t; try discriminate; try (apply sh_other; exact I). apply sh_nil.
    - apply sh_array. rewrite Forall_forall in *. intros w Hw. apply H; auto.
    - apply sh_struct. unfold fields_of. rewrite (nth_error_nth _ _ _ H1). clear -H H3.
      induction H3; [constructor|]. inversion H; subst. constructor; auto.
  Qed.
  Lemma known_zero t : sensible x tb -> known tb t -> exists z, zeroval x tb t z.
  Proof.
    intro Hs. induction t; cbn [known]; intro Hk; try (eexists; constructor; reflexivity).
    - destruct (IHt Hk) as [z Hz]. exists (GoArray (repeat z n)). rewrite <- (repeat_length z n) at 1. constructor.
      apply Forall_forall. intros w Hw. apply repeat_spec in Hw. congruence.
    - destruct (nth_error tb i) as [fs|] eqn:E; [|apply nth_error_None in E; lia]. apply (Hs i fs E).
  Qed.
  Lemma set_nth_nth {A} (l : list A) : forall i j a, nth_error (set_nth l i a) j = if i =? j then option_map (fun _ => a) (nth_error l j) else nth_error l j.
  Proof.
    induction l as [|y l IH]; intros i j a.
    - destruct i, j; cbn; try reflexivity. destruct (_ =? _); reflexivity.
    - destruct i, j; cbn; try reflexivity. apply IH.
  Qed.
  Lemma set_nth_length {A} (l : list A) : forall i a, length (set_nth l i a) = length l.
  Proof. induction l; intros [|i] b; cbn; auto. Qed.
  Lemma set_nth_all {A} (P : A -> Prop) l : forall i a, Forall P l -> P a -> Forall P (set_nth l i a).
  Proof. induction l; intros [|i] b Hl Hb; cbn; auto; inversion Hl; subst; constructor; auto. Qed.
  Lemma set_nth_all2 {A B} (R : A -> B -> Prop) l m : Forall2 R l m -> forall i b, (forall a, nth_error l i = Some a -> R a b) ->
    Forall2 R l (set_nth m i b).
  Proof.
    induction 1 as [|y z l m Hyz Hlm IH]; intros [|i] b Hb; cbn; constructor; auto.
  Qed.
  Lemma all2_nth {A B} (R : A -> B -> Prop) l m : Forall2 R l m -> forall i a, nth_error l i = Some a ->
    exists b, nth_error m i = Some b /\ R a b.
  Proof. induction 1 as [|y z l m Hyz Hlm IH]; intros [|i] a Ha; try discriminate; [injection Ha as <-; exists z; auto|apply IH; exact Ha]. Qed.
  Lemma case_of_nth key fs : forall i j d, case_of key fs i = Some (j, d) -> i <= j /\ nth_error fs (j - i) = Some d.
  Proof.
    induction fs as [|e fs IH]; intros i j d; [discriminate|]. cbn [case_of]. destruct (_ && _).
    - intros [= <- <-]. rewrite Nat.sub_diag. split; [lia|reflexivity].
    - intro H. destruct (IH (S i) j d H) as [H1 H2]. split; [lia|]. replace (j - i) with (S (j - S i)) by lia. exact H2.
  Qed.
End Shape.

Section Ev.
  Context {Nd : Type} (o : oracle).

  (** from some fuel on *)
  Definition ev {A} (p : nat -> prog Nd A) (u : cursor) (v : A) (u' : cursor) : Prop :=
    exists F, forall f, F <= f -> crun o (p f) u = Done (v, u').
  Lemma ev_ret {A} (v : A) u : ev (fun _ => Ret v) u v u.
  Proof. exists 0. reflexivity. Qed.
  Lemma ev_bind {A B} (p : nat -> prog Nd A) (k : nat -> A -> prog Nd B) u a u1 b u2 :
    ev p u a u1 -> ev (fun f => k f a) u1 b u2 -> ev (fun f => bind (p f) (k f)) u b u2.
  Proof.
    intros [F HF] [G HG]. exists (max F G). intros f Hf. rewrite crun_bind, HF by lia. cbn [obind fst snd]. apply HG. lia.
  Qed.
  Lemma ev_call {A} c (k : nat -> answer Nd -> prog Nd A) u b u2 : opening c = false -> usual (QCall c) = true ->
    ev (fun f => k f (fst (cursor_call o c u))) (snd (cursor_call (Nd := Nd) o c u)) b u2 -> ev (fun f => Call c (k f)) u b u2.
  Proof. intros H1 H2 [F HF]. exists F. intros f Hf. cbn [crun]. rewrite H1, H2. apply HF. exact Hf. Qed.
  Lemma ev_open {A} c (k : nat -> nat -> prog Nd A) u b u2 : opening c = true ->
    ev (fun f => k f (length (cu_sizes u))) (snd (cursor_call (Nd := Nd) o c u)) b u2 -> ev (fun f => Open c (k f)) u b u2.
  Proof. intros H1 [F HF]. exists F. intros f Hf. cbn [crun]. rewrite H1. apply HF. exact Hf. Qed.
  Lemma ev_size {A} h n (k : nat -> nat -> prog Nd A) u b u2 : nth_error (cu_sizes u) h = Some n ->
    ev (fun f => k f n) u b u2 -> ev (fun f => Size h (k f)) u b u2.
  Proof. intros H1 [F HF]. exists F. intros f Hf. cbn [crun]. rewrite H1. apply HF. exact Hf. Qed.
  Lemma ev_option {A} (a : nat -> option A) v u : (exists F, forall f, F <= f -> a f = Some v) -> ev (fun f => of_option (a f)) u v u.
  Proof. intros [F HF]. exists F. intros f Hf. rewrite (HF f Hf). reflexivity. Qed.
  Lemma ev_eq {A} (p q : nat -> prog Nd A) u v u' : (forall f, p f = q f) -> ev p u v u' -> ev q u v u'.
  Proof. intros H [F HF]. exists F. intros f Hf. rewrite <- H. apply HF. exact Hf. Qed.
  Lemma ev_S {A} (p : nat -> prog Nd A) u v u' : ev (fun f => p (S f)) u v u' -> ev p u v u'.
  Proof. intros [F HF]. exists (S F). intros [|f] Hf; [lia|]. apply HF. lia. Qed.

  (** loops *)
  Lemma loop_ends {A} (Inv : A -> Prop) h sz cond (body : nat -> A -> prog Nd A) n :
    (forall a u, Inv a -> cond a = true -> ok u -> left_in u <= n -> cursor_more h u = true -> nth_error (cu_sizes u) h = Some sz ->
       exists a' u', ev (fun f => body f a) u a' u' /\ step u u' /\ progress u u' /\ Inv a') ->
    forall a u, Inv a -> ok u -> left_in u <= n -> nth_error (cu_sizes u) h = Some sz ->
      exists a' u', (exists F, forall f g, F <= f -> F <= g -> crun o (while f h cond (body g) a) u = Done (a', u')) /\ step u u' /\ Inv a'.
  Proof.
    intro Hb. assert (Hall : forall m a u, left_in u <= m -> Inv a -> ok u -> left_in u <= n -> nth_error (cu_sizes u) h = Some sz ->
      exists a' u', (exists F, forall f g, F <= f -> F <= g -> crun o (while f h cond (body g) a) u = Done (a', u')) /\ step u u' /\ Inv a').
    2: { intros a u. apply (Hall (left_in u)). lia. }
    induction m as [m IH] using lt_wf_ind. intros a u Hm Ha Hok Hn Hsz.
    destruct (cursor_more h u && cond a) eqn:E.
    - apply andb_true_iff in E as [E1 E2]. destruct (Hb a u Ha E2 Hok Hn E1 Hsz) as (a1 & u1 & (F1 & HF1) & Hs & Hp & Ha1).
      destruct (more_left h u Hok E1) as (_ & Hl & _).
      assert (Hu1 : left_in u1 < left_in u) by (destruct Hp as [Hp|Hp]; [rewrite (fatal_left u1) by (apply Hs || exact Hp); lia|exact Hp]).
      destruct (IH (left_in u1) ltac:(lia) a1 u1 (le_n _) Ha1 (proj1 Hs) ltac:(lia)) as (a2 & u2 & (F2 & HF2) & Hs2 & Ha2).
      { eapply grows_nth; [apply Hs|exact Hsz]. }
      exists a2, u2. split; [|split; [eapply step_trans; eassumption|exact Ha2]].
      exists (S (max F1 F2)). intros [|f] g Hf Hg; [lia|]. cbn [while crun]. rewrite Hsz, E1, E2. cbn [andb].
      rewrite crun_bind, HF1 by lia. cbn [obind fst snd]. apply HF2; lia.
    - exists a, u. split; [|split; [apply step_refl; exact Hok|exact Ha]]. exists 1. intros [|f] g Hf Hg; [lia|].
      cbn [while crun]. rewrite Hsz, E. reflexivity.
  Qed.
End Ev.

Section Term.
  Context {Nd : Type} (o : oracle) (x : externs) (tb : structs) (omitempty strict : bool).
  Hypothesis Htb : sensible x tb.
  Notation dec := (decode (Nd := Nd) x tb omitempty strict).
  Notation ccall := (cursor_call (Nd := Nd) o).
  Notation ev := (ev (Nd := Nd) o).

  Definition ends (t : gotype) (n : nat) : Prop :=
    forall om cur u, shaped tb t cur -> ok u -> left_in u <= n ->
      exists v u', ev (fun f => dec f om t cur) u v u' /\ step u u' /\ progress u u' /\ shaped tb t v.

  Lemma zero_ev t u : known tb t -> exists z, ev (fun f => of_option (zero x tb f t)) u z u /\ shaped tb t z.
  Proof.
    intro Hk. destruct (known_zero x tb t Htb Hk) as [z Hz]. exists z. split; [|eapply zero_shaped; exact Hz].
    apply ev_option. apply zeroval_zero. exact Hz.
  Qed.

  Lemma progress_then u u1 u2 : step u u1 -> step u1 u2 -> progress u u1 -> (cu_fatal u1 <> None -> cu_fatal u2 <> None) -> progress u u2.
  Proof. intros (_ & _ & H1) (_ & _ & H2) [Hp|Hp] Hf; [left; auto|right; lia]. Qed.
  Lemma then_progress u u1 u2 : step u u1 -> progress u1 u2 -> progress u u2.
  Proof. intros (_ & _ & H) [Hp|Hp]; [left; exact Hp|right; lia]. Qed.
  (** a fatal cursor has nothing left, so that what follows cannot undo the progress *)
  Lemma kept u u1 u2 : 1 <= left_in u -> step u u1 -> step u1 u2 -> progress u u1 -> left_in u2 < left_in u.
  Proof.
    intros Hl (Hok & _ & H1) (_ & _ & H2) [Hp|Hp]; [|lia]. rewrite (fatal_left u1 Hok Hp) in H2. lia.
  Qed.

  Lemma fatal_forever {A} (p : prog Nd A) : forall u v u', crun o p u = Done (v, u') -> cu_fatal u <> None -> cu_fatal u' <> None.
  Proof.
    assert (Hcall : forall c u, cu_fatal u <> None -> cu_fatal (snd (ccall c u)) <> None).
    { intros c u Hf. unfold cursor_call. destruct (cu_fatal u) as [e|] eqn:E; [|congruence].
      destruct c; cbn [snd]; rewrite ?numbered_fatal, ?E; try discriminate. }
    induction p as [a|c k IH|c k IH|h k IH|h k IH|e k IH| |]; intros u v u' H Hf; cbn [crun] in H; try discriminate.
    - injection H as <- <-. exact Hf.
    - destruct (_ || _); [discriminate|]. eapply IH; [exact H|]. apply Hcall. exact Hf.
    - destruct (opening c); [|discriminate]. eapply IH; [exact H|]. apply Hcall. exact Hf.
    - destruct (nth_error _ _); [|discriminate]. eapply IH; eassumption.
    - destruct (nth_error _ _); [|discriminate]. eapply IH; eassumption.
    - destruct e as [e|].
      + eapply IH; [exact H|]. apply (Hcall (DAddError e)). exact Hf.
      + destruct (cu_fatal u) eqn:E; [|congruence]. eapply IH; [exact H|]. congruence.
  Qed.
  Lemma ev_fatal {A} (p : nat -> prog Nd A) u v u' : ev p u v u' -> cu_fatal u <> None -> cu_fatal u' <> None.
  Proof. intros [F HF]. exact (fatal_forever _ _ _ _ (HF F (le_n _))). Qed.

  (** a call that reads, and a value made of its answer *)
  Lemma simple_ends {A} c (k : answer Nd -> A) u : reading c = true -> c <> DTryNull -> opening c = false -> usual (QCall c) = true -> ok u ->
    exists v u', ev (fun _ => Call c (fun a => Ret (k a))) u v u' /\ step u u' /\ progress u u'.
  Proof.
    intros H1 H2 H3 H4 Hok. destruct (ccall_result (Nd := Nd) o c u H1 H2 H4 Hok) as (Hs & Hp & _).
    exists (k (fst (ccall c u))), (snd (ccall c u)). split; [|split; [exact Hs|exact Hp]].
    apply (ev_call o c (fun _ a => Ret (k a))); [exact H3|exact H4|]. apply ev_ret.
  Qed.

  (** after TryNull *)
  Lemma null_or_ends {A} (P : A -> Prop) (v0 : A) (p : nat -> prog Nd A) u : ok u -> P v0 ->
    (forall u1, ok u1 -> left_in u1 <= left_in u -> exists v u', ev p u1 v u' /\ step u1 u' /\ progress u1 u' /\ P v) ->
    exists v u', ev (fun f => Call DTryNull (fun a => if yes a then Ret v0 else p f)) u v u' /\ step u u' /\ progress u u' /\ P v.
  Proof.
    intros Hok H0 Hp. destruct (try_result (Nd := Nd) o u Hok) as [Hs Hy].
    destruct (yes (fst (ccall DTryNull u))) eqn:Ey.
    - exists v0, (snd (ccall DTryNull u)). split; [|split; [exact Hs|split; [apply Hy; reflexivity|exact H0]]].
      apply (ev_call o DTryNull (fun f a => if yes a then Ret v0 else p f)); [reflexivity|reflexivity|]. rewrite Ey. apply ev_ret.
    - destruct (Hp (snd (ccall DTryNull u))) as (v & u' & H1 & H2 & H3 & H4); [apply Hs|apply Hs|].
      exists v, u'. split; [|split; [eapply step_trans; eassumption|split; [eapply then_progress; eassumption|exact H4]]].
      apply (ev_call o DTryNull (fun f a => if yes a then Ret v0 else p f)); [reflexivity|reflexivity|]. rewrite Ey. exact H1.
  Qed.

  Lemma open_sizes c u : opening c = true -> length (cu_sizes u) < length (cu_sizes (snd (ccall c u))).
  Proof.
    intro Hc.
    assert (Hn : forall n v, cu_sizes v = cu_sizes u -> length (cu_sizes u) < length (cu_sizes (numbered c n v))).
    { intros n v E. unfold numbered. rewrite Hc. cbn. rewrite E, app_length. cbn. lia. }
    assert (Hd : forall d fs, cu_sizes (deny c d fs u) = cu_sizes u) by (intros; unfold deny; destruct (cu_multi u); reflexivity).
    assert (Ht : forall b s d fs, length (cu_sizes u) < length (cu_sizes (snd (let (a, u') := text_call (Nd := Nd) o c b s d fs u in (a, numbered c 0 u'))))).
    { intros b s d fs. unfold text_call. destruct (reads_text o c b s) as [[a|]|]; cbn [snd]; apply Hn; auto. }
    unfold cursor_call. destruct c; try discriminate Hc;
      (destruct (cu_fatal u); [apply Hn; reflexivity|]);
      (destruct (next u) as [[d fs]|]; [|apply Hn; reflexivity]);
      destruct d; try apply Ht; cbn [snd]; apply Hn; auto.
  Qed.

  (** opening a collection and looping over it *)
  Lemma open_loop {A} (Inv : nat -> A -> Prop) c cond (body : nat -> A -> prog Nd A) (a0 : nat -> A) u : opening c = true -> ok u ->
    (forall sz, Inv sz (a0 sz)) ->
    (forall h sz a u1, Inv sz a -> 1 <= sz -> cond a = true -> ok u1 -> 1 <= left_in u1 -> left_in u1 < left_in u -> cursor_more h u1 = true ->
       exists a' u', ev (fun f => body f a) u1 a' u' /\ step u1 u' /\ progress u1 u' /\ Inv sz a') ->
    exists a' u' sz, ev (fun f => Open c (fun h => Size h (fun n => while f h cond (body f) (a0 n)))) u a' u' /\ step u u' /\ progress u u' /\ Inv sz a'
      /\ ev (fun f => Open c (fun h => while f h cond (body f) (a0 sz))) u a' u'.
  Proof.
    intros Hc Hok H0 Hb.
    destruct (ccall_result (Nd := Nd) o c u) as (Hs & Hp & _);
      [destruct c; try discriminate; reflexivity|destruct c; discriminate|destruct c; try discriminate; reflexivity|exact Hok|].
    set (u1 := snd (ccall c u)) in *.
    assert (Hsz : exists sz, nth_error (cu_sizes u1) (length (cu_sizes u)) = Some sz).
    { assert (Hg : length (cu_sizes u) < length (cu_sizes u1)).
      { unfold u1. apply open_sizes. exact Hc. }
      destruct (nth_error (cu_sizes u1) (length (cu_sizes u))) as [sz|] eqn:E; [exists sz; reflexivity|]. apply nth_error_None in E. lia. }
    destruct Hsz as [sz Hsz].
    destruct (loop_ends (Nd := Nd) o (Inv sz) (length (cu_sizes u)) sz cond body (left_in u1)) with (a := a0 sz) (u := u1)
      as (a' & u' & (F & HF) & Hs2 & Ha'); [|apply H0|apply Hs|lia|exact Hsz|].
    { intros a u2 Ha Hca Hok2 Hl Hm Hz. destruct (more_left _ _ Hok2 Hm) as (_ & Hl2 & m & Hm1 & Hm2).
      apply (Hb (length (cu_sizes u)) sz); auto; [congruence|].
      destruct Hp as [Hp|Hp]; [|lia]. rewrite (fatal_left u1 (proj1 Hs) Hp) in Hl. lia. }
    exists a', u', sz. split; [|split; [eapply step_trans; eassumption|split; [|split; [exact Ha'|]]]].
    - apply (ev_open o c (fun f h => Size h (fun n => while f h cond (body f) (a0 n)))); [exact Hc|]. fold u1.
      apply (ev_size o _ sz (fun f n => while f (length (cu_sizes u)) cond (body f) (a0 n))); [exact Hsz|].
      exists F. intros f Hf. apply HF; exact Hf.
    - eapply progress_then; [exact Hs|exact Hs2|exact Hp|]. exact (fatal_forever _ _ _ _ (HF F F (le_n _) (le_n _))).
    - apply (ev_open o c (fun f h => while f h cond (body f) (a0 sz))); [exact Hc|]. fold u1.
      exists F. intros f Hf. apply HF; exact Hf.
  Qed.

  Ltac scalar c k := intros om cur u _ Hok _;
    destruct (simple_ends c k u ltac:(reflexivity) ltac:(discriminate) ltac:(reflexivity) ltac:(reflexivity) Hok) as (v & u' & H1 & H2 & H3);
    exists v, u'; (split; [apply ev_S; exact H1|]); (split; [exact H2|]); (split; [exact H3|]); apply sh_other; exact I.

  Lemma text_ends k n : ends (TyText k) n.
  Proof.
    intros om cur u _ Hok _.
    destruct (ccall_result (Nd := Nd) o DString u eq_refl ltac:(discriminate) eq_refl Hok) as (Hs & Hp & Hh).
    set (u1 := snd (ccall DString u)) in *.
    assert (H : exists v u', ev (fun _ => match x_unmarshal x k (txt (fst (ccall DString u))) with
                                     | Some m => AddErr None (Ret (GoText m)) | None => AddErr (Some (RUser 0)) (Ret cur) end) u1 v u' /\ step u1 u').
    { destruct (x_unmarshal _ _ _) as [m|].
      - destruct (cu_fatal u1) as [e|] eqn:Ef.
        + exists (GoText m), u1. split; [|apply step_refl; apply Hs]. exists 0. intros f _. cbn [crun]. rewrite Ef. reflexivity.
        + destruct Hh as [Hh|Hh]; [congruence|]. exists (GoText m), (emptied u1). split.
          * exists 0. intros f _. cbn [crun]. rewrite Ef, Hh. reflexivity.
          * destruct Hs as ((G1 & G2 & G3) & _). split; [|split; [apply grows_same; reflexivity|]].
            -- split; [exact G1|]. split; [cbn; congruence|]. cbn. clear -G3. induction G3 as [|f fs (m & E & L) G IH]; cbn; constructor; [|exact IH].
               exists m. cbn. split; [exact E|lia].
            -- unfold left_in. cbn [emptied cu_held cu_open]. apply Nat.add_le_mono_l. clear. induction (cu_open u1) as [|f fs IH]; [apply le_n|].
               change (frames (map (fun f => (fst f, [])) fs) <= weights (snd f) + frames fs). lia.
      - exists cur, (snd (ccall (DAddError (RUser 0)) u1)). split; [exists 0; reflexivity|]. cbn [cursor_call snd].
        destruct (cu_fatal u1); [apply step_refl; apply Hs|]. apply failed_step. apply Hs. }
    destruct H as (v & u' & Hv & Hs2). exists v, u'. split; [|split; [eapply step_trans; eassumption|split]].
    - apply ev_S. cbn [decode]. apply (ev_call o DString (fun _ a => match x_unmarshal x k (txt a) with
                                     | Some m => AddErr None (Ret (GoText m)) | None => AddErr (Some (RUser 0)) (Ret cur) end)); [reflexivity..|exact Hv].
    - eapply progress_then; [exact Hs|exact Hs2|exact Hp|]. eapply ev_fatal. exact Hv.
    - apply sh_other. exact I.
  Qed.

  Theorem all_end n : forall t, known tb t -> ends t n.
  Proof.
    induction n as [n IHn] using lt_wf_ind. induction t; intro Hk.
    - scalar DString (fun a : answer Nd => GoString (txt a)).
    - scalar DBoolean (fun a : answer Nd => GoBool (yes a)).
    - scalar (DInteger bits) (fun a : answer Nd => GoInt (int a)).
    - scalar (DUnsigned bits) (fun a : answer Nd => GoUint (uint a)).
    - scalar (DFloat bits) (fun a : answer Nd => GoFloat (flo a)).
    - apply text_ends.
    - (* bytes *)
      intros om cur u _ Hok _.
      destruct (null_or_ends (fun _ => True) GoNil (fun _ => Call DString (fun a => Ret (GoBytes (txt a)))) u Hok I) as (v & u' & H1 & H2 & H3 & _).
      { intros u1 Hok1 _. destruct (simple_ends DString (fun a => GoBytes (txt a)) u1 eq_refl ltac:(discriminate) eq_refl eq_refl Hok1) as (v & u' & G1 & G2 & G3).
        exists v, u'. auto. }
      exists v, u'. split; [apply ev_S; exact H1|]. split; [exact H2|]. split; [exact H3|]. apply sh_other. exact I.
    - (* slice *)
      intros om cur u _ Hok Hn. cbn [known] in Hk.
      destruct (null_or_ends (fun _ => True) GoNil
        (fun f => bind (Open DSequence (fun h => Size h (fun _ => while f h (fun _ => true)
                      (fun l => bind (of_option (zero x tb f t)) (fun z => bind (dec f om t z) (fun v => Ret (l ++ [v])))) []))) (fun l => Ret (GoSlice l))) u Hok I)
        as (v & u' & H1 & H2 & H3 & _).
      { intros u1 Hok1 Hl1.
        destruct (open_loop (fun _ (_ : list goval) => True) DSequence (fun _ => true)
          (fun f l => bind (of_option (zero x tb f t)) (fun z => bind (dec f om t z) (fun v => Ret (l ++ [v])))) (fun _ => []) u1 eq_refl Hok1 (fun _ => I))
          as (l & u2 & sz & G1 & G2 & G3 & _).
        - intros h sz l u2 _ _ _ Hok2 Hp Hl _. destruct (zero_ev t u2 Hk) as (z & Hz & Hsh).
          destruct (IHn (left_in u2) ltac:(lia) t Hk om z u2 Hsh Hok2 (le_n _)) as (v & u3 & E1 & E2 & E3 & _).
          exists (l ++ [v]), u3. split; [|split; [exact E2|split; [exact E3|exact I]]].
          eapply (ev_bind o _ (fun f z => bind (dec f om t z) (fun v => Ret (l ++ [v])))); [exact Hz|].
          eapply (ev_bind o _ (fun _ v => Ret (l ++ [v]))); [exact E1|]. apply ev_ret.
        - exists (GoSlice l), u2. split; [|auto].
          eapply (ev_bind o _ (fun _ l => Ret (GoSlice l))); [exact G1|]. apply ev_ret. }
      exists v, u'. split; [apply ev_S; exact H1|]. split; [exact H2|]. split; [exact H3|]. apply sh_other. exact I.
    - (* array *)
      intros om cur u Hsh Hok Hn. cbn [known] in Hk. inversion Hsh as [e l Hl E1 E2| | | |]; subst; [|contradiction].
      set (body := fun f (s : nat * list goval) => bind (of_option (Nd := Nd) (nth_error (snd s) (fst s))) (fun z =>
                     bind (dec f om t z) (fun v => Ret (S (fst s), set_nth (snd s) (fst s) v)))).
      destruct (null_or_ends (fun v => exists m, v = GoArray m /\ length m = length l /\ Forall (shaped tb t) m) (GoArray l)
        (fun f => bind (Open DSequence (fun h => while f h (fun s => fst s <? length l) (body f) (0, l))) (fun s => Ret (GoArray (snd s)))) u Hok)
        as (v & u' & H1 & H2 & H3 & m & -> & Hm1 & Hm2).
      { exists l. auto. }
      { intros u1 Hok1 Hl1.
        destruct (open_loop (fun _ (s : nat * list goval) => length (snd s) = length l /\ Forall (shaped tb t) (snd s)) DSequence
          (fun s => fst s <? length l) body (fun _ => (0, l)) u1 eq_refl Hok1) as (s & u2 & sz & _ & G2 & G3 & (G4 & G5) & G1).
        - intros _. split; [reflexivity|exact Hl].
        - intros h sz [j m] u2 (Hj1 & Hj2) _ Hc Hok2 Hp Hl2 _. cbn [fst snd] in *. apply Nat.ltb_lt in Hc.
          destruct (nth_error m j) as [z|] eqn:Ez; [|apply nth_error_None in Ez; lia].
          assert (Hz : shaped tb t z) by (rewrite Forall_forall in Hj2; apply Hj2; eapply nth_error_In; exact Ez).
          destruct (IHn (left_in u2) ltac:(lia) t Hk om z u2 Hz Hok2 (le_n _)) as (v & u3 & E1 & E2 & E3 & Hv).
          exists (S j, set_nth m j v), u3. split; [|split; [exact E2|split; [exact E3|split; cbn [snd]]]].
          + unfold body. cbn [fst snd]. rewrite Ez.
            eapply (ev_bind o (fun _ => Ret z) (fun f z => bind (dec f om t z) (fun v => Ret (S j, set_nth m j v)))); [apply ev_ret|].
            eapply (ev_bind o _ (fun _ v => Ret (S j, set_nth m j v))); [exact E1|]. apply ev_ret.
          + rewrite set_nth_length. exact Hj1.
          + apply set_nth_all; assumption.
        - exists (GoArray (snd s)), u2. split; [|split; [exact G2|split; [exact G3|exists (snd s); auto]]].
          eapply (ev_bind o _ (fun _ s => Ret (GoArray (snd s)))); [exact G1|]. apply ev_ret. }
      exists (GoArray m), u'. split; [apply ev_S; exact H1|]. split; [exact H2|]. split; [exact H3|]. rewrite <- Hm1. apply sh_array. exact Hm2.
    - (* pointer *)
      intros om cur u Hsh Hok Hn. cbn [known] in Hk.
      destruct (null_or_ends (shaped tb (TyPtr t)) GoNil
        (fun f => bind (match cur with GoPtr v => Ret v | _ => of_option (zero x tb f t) end) (fun z =>
                     bind (dec f om t z) (fun v => Ret (GoPtr v)))) u Hok) as (v & u' & H1 & H2 & H3 & H4).
      { apply sh_nil. }
      { intros u1 Hok1 Hl1.
        assert (Hz : exists z, ev (fun f => match cur with GoPtr v => Ret v | _ => of_option (zero x tb f t) end) u1 z u1 /\ shaped tb t z).
        { inversion Hsh; subst; try contradiction; [exists v; split; [apply ev_ret|assumption]|apply zero_ev; exact Hk]. }
        destruct Hz as (z & Hz & Hzs).
        destruct (IHt Hk om z u1 Hzs Hok1 ltac:(lia)) as (v & u2 & E1 & E2 & E3 & Hv).
        exists (GoPtr v), u2. split; [|split; [exact E2|split; [exact E3|apply sh_ptr; exact Hv]]].
        eapply (ev_bind o _ (fun f z => bind (dec f om t z) (fun v => Ret (GoPtr v)))); [exact Hz|].
        eapply (ev_bind o _ (fun _ v => Ret (GoPtr v))); [exact E1|]. apply ev_ret. }
      exists v, u'. split; [apply ev_S; exact H1|]. split; [exact H2|]. split; [exact H3|exact H4].
    - (* map *)
      intros om cur u _ Hok Hn. cbn [known] in Hk. destruct Hk as [Hk1 Hk2].
      set (body := fun f (m : goval) => bind (of_option (Nd := Nd) (zero x tb f t1)) (fun zk =>
                          bind (of_option (zero x tb f t2)) (fun ze =>
                          bind (dec f om t1 zk) (fun key =>
                          bind (dec f om t2 ze) (fun v =>
                          match m with
                          | GoMap l => Ret (GoMap (go_assign key v l))
                          | _ => Crash
                          end))))).
      destruct (null_or_ends (fun _ => True) GoNil
        (fun f => Open DMapping (fun h => Size h (fun n => while f h (fun _ => true) (body f) (if om && (n =? 0) then GoNil else GoMap [])))) u Hok I)
        as (v & u' & H1 & H2 & H3 & _).
      { intros u1 Hok1 Hl1.
        destruct (open_loop (fun sz (m : goval) => sz = 0 \/ exists l, m = GoMap l) DMapping (fun _ => true) body
          (fun n => if om && (n =? 0) then GoNil else GoMap []) u1 eq_refl Hok1) as (m & u2 & sz & G1 & G2 & G3 & _).
        - intro sz. destruct sz; [left; reflexivity|]. right. exists []. rewrite andb_false_r. reflexivity.
        - intros h sz m u2 Hm Hsz _ Hok2 Hp Hl2 _. destruct Hm as [->|[l ->]]; [lia|].
          destruct (zero_ev t1 u2 Hk1) as (zk & Hzk & Hshk). destruct (zero_ev t2 u2 Hk2) as (ze & Hze & Hshe).
          destruct (IHn (left_in u2) ltac:(lia) t1 Hk1 om zk u2 Hshk Hok2 (le_n _)) as (key & u3 & E1 & E2 & E3 & _).
          destruct (IHn (left_in u3) ltac:(destruct E2 as (_ & _ & E2); lia) t2 Hk2 om ze u3 Hshe (proj1 E2) (le_n _)) as (v & u4 & E4 & E5 & E6 & _).
          exists (GoMap (go_assign key v l)), u4. split; [|split; [eapply step_trans; eassumption|split; [eapply then_progress; eassumption|right; eauto]]].
          unfold body.
          eapply (ev_bind o _ (fun f zk => bind (of_option (zero x tb f t2)) (fun ze => bind (dec f om t1 zk) (fun key =>
                          bind (dec f om t2 ze) (fun v => Ret (GoMap (go_assign key v l))))))); [exact Hzk|].
          eapply (ev_bind o _ (fun f ze => bind (dec f om t1 zk) (fun key =>
                          bind (dec f om t2 ze) (fun v => Ret (GoMap (go_assign key v l)))))); [exact Hze|].
          eapply (ev_bind o _ (fun f key => bind (dec f om t2 ze) (fun v => Ret (GoMap (go_assign key v l))))); [exact E1|].
          eapply (ev_bind o _ (fun f v => Ret (GoMap (go_assign key v l)))); [exact E4|]. apply ev_ret.
        - exists m, u2. split; [exact G1|]. split; [exact G2|]. split; [exact G3|exact I]. }
      exists v, u'. split; [apply ev_S; exact H1|]. split; [exact H2|]. split; [exact H3|]. apply sh_other. exact I.
    - (* struct *)
      intros om cur u Hsh Hok Hn.
      assert (Hfields : Forall (fun d => known tb (fl_type d)) (fields_of tb i)).
      { cbn [known] in Hk. destruct (nth_error tb i) as [fs|] eqn:E; [|apply nth_error_None in E; lia].
        unfold fields_of. rewrite (nth_error_nth _ _ _ E). apply (Htb i fs E). }
      set (body := fun f s => Call DString (fun key : answer Nd => Call DTryNull (fun a =>
                       if yes a then Ret s
                       else match case_of (txt key) (fields_of tb i) 0 with
                            | Some (j, d) =>
                                bind (of_option (nth_error (elems s) j)) (fun z =>
                                bind (dec f (omitempty || fl_omitempty d) (fl_type d) z) (fun v =>
                                Ret (GoStruct (set_nth (elems s) j v))))
                            | None =>
                                if strict then AddErr (Some (RUser 1)) (Ret s)
                                else Call DSkip (fun _ => Ret s)
                            end))).
      destruct (try_result (Nd := Nd) o u Hok) as [Hs0 _]. set (u0 := snd (ccall DTryNull u)) in *.
      assert (Hcur : exists c0, ev (fun f => if yes (fst (ccall DTryNull u)) then of_option (zero x tb f (TyStruct i)) else Ret cur) u0 c0 u0
                /\ shaped tb (TyStruct i) c0).
      { destruct (yes _); [apply zero_ev; exact Hk|]. exists cur. split; [apply ev_ret|exact Hsh]. }
      destruct Hcur as (c0 & Hc0 & Hsh0).
      destruct (open_loop (fun _ s => shaped tb (TyStruct i) s) DMapping (fun _ => true) body (fun _ => c0) u0 eq_refl (proj1 Hs0) (fun _ => Hsh0))
        as (v & u' & sz & _ & G2 & G3 & G4 & G1).
      + intros h sz s u1 Hs _ _ Hok1 Hp1 Hl1 _.
        destruct (ccall_result (Nd := Nd) o DString u1 eq_refl ltac:(discriminate) eq_refl Hok1) as (Hs2 & Hp2 & _).
        set (u2 := snd (ccall DString u1)) in *.
        destruct (try_result (Nd := Nd) o u2 (proj1 Hs2)) as [Hs3 _]. set (u3 := snd (ccall DTryNull u2)) in *.
        pose proof (step_trans _ _ _ Hs2 Hs3) as Hs13.
        pose proof (kept _ _ _ Hp1 Hs2 Hs3 Hp2) as Hl3.
        assert (Hrest : exists s' u4, ev (fun f => if yes (fst (ccall DTryNull u2)) then Ret s
                       else match case_of (txt (fst (ccall DString u1))) (fields_of tb i) 0 with
                            | Some (j, d) =>
                                bind (of_option (nth_error (elems s) j)) (fun z =>
                                bind (dec f (omitempty || fl_omitempty d) (fl_type d) z) (fun v =>
                                Ret (GoStruct (set_nth (elems s) j v))))
                            | None =>
                                if strict then AddErr (Some (RUser 1)) (Ret s)
                                else Call DSkip (fun _ => Ret s)
                            end) u3 s' u4 /\ step u3 u4 /\ shaped tb (TyStruct i) s').
        { destruct (yes (fst (ccall DTryNull u2))).
          - exists s, u3. split; [apply ev_ret|]. split; [apply step_refl; apply Hs3|exact Hs].
          - destruct (case_of _ _ _) as [[j d]|] eqn:Ec.
            + apply case_of_nth in Ec as [_ Ec]. rewrite Nat.sub_0_r in Ec.
              inversion Hs as [|? l Hl| | |]; subst; [|contradiction]. cbn [elems].
              destruct (all2_nth _ _ _ Hl j d Ec) as (z & Ez & Hz). rewrite Ez.
              assert (Hd : known tb (fl_type d)) by (rewrite Forall_forall in Hfields; apply Hfields; eapply nth_error_In; exact Ec).
              destruct (IHn (left_in u3) ltac:(destruct Hs0 as (_ & _ & Hs0); lia) (fl_type d) Hd (omitempty || fl_omitempty d) z u3 Hz (proj1 Hs3) (le_n _))
                as (v & u4 & E1 & E2 & _ & Hv).
              exists (GoStruct (set_nth l j v)), u4. split; [|split; [exact E2|]].
              * eapply (ev_bind o (fun _ => Ret z) (fun f z => bind (dec f (omitempty || fl_omitempty d) (fl_type d) z) (fun v => Ret (GoStruct (set_nth l j v)))));
                  [apply ev_ret|].
                eapply (ev_bind o _ (fun _ v => Ret (GoStruct (set_nth l j v)))); [exact E1|]. apply ev_ret.
              * apply sh_struct. apply set_nth_all2; [exact Hl|]. intros a Ha. congruence.
            + destruct strict.
              * exists s, (snd (ccall (DAddError (RUser 1)) u3)). split; [exists 0; reflexivity|]. split; [|exact Hs].
                cbn [cursor_call snd]. destruct (cu_fatal u3); [apply step_refl; apply Hs3|]. apply failed_step. apply Hs3.
              * exists s, (snd (ccall DSkip u3)). split; [|split; [|exact Hs]].
                -- apply (ev_call o DSkip (fun _ _ => Ret s)); [reflexivity..|]. apply ev_ret.
                -- apply (ccall_result (Nd := Nd) o DSkip u3 eq_refl ltac:(discriminate) eq_refl (proj1 Hs3)). }
        destruct Hrest as (s' & u4 & Hev & Hs4 & Hsh4). exists s', u4. split; [|split; [eapply step_trans; eassumption|split; [|exact Hsh4]]].
        * unfold body. apply (ev_call o DString (fun f key => Call DTryNull (fun a =>
                       if yes a then Ret s
                       else match case_of (txt key) (fields_of tb i) 0 with
                            | Some (j, d) =>
                                bind (of_option (nth_error (elems s) j)) (fun z =>
                                bind (dec f (omitempty || fl_omitempty d) (fl_type d) z) (fun v =>
                                Ret (GoStruct (set_nth (elems s) j v))))
                            | None =>
                                if strict then AddErr (Some (RUser 1)) (Ret s)
                                else Call DSkip (fun _ => Ret s)
                            end))); [reflexivity..|].
          apply (ev_call o DTryNull (fun f a =>
                       if yes a then Ret s
                       else match case_of (txt (fst (ccall DString u1))) (fields_of tb i) 0 with
                            | Some (j, d) =>
                                bind (of_option (nth_error (elems s) j)) (fun z =>
                                bind (dec f (omitempty || fl_omitempty d) (fl_type d) z) (fun v =>
                                Ret (GoStruct (set_nth (elems s) j v))))
                            | None =>
                                if strict then AddErr (Some (RUser 1)) (Ret s)
                                else Call DSkip (fun _ => Ret s)
                            end)); [reflexivity..|exact Hev].
        * right. exact (kept _ _ _ Hp1 Hs13 Hs4 (or_intror Hl3)).
      + exists v, u'. split; [|split; [eapply step_trans; eassumption|split; [eapply then_progress; eassumption|exact G4]]].
        apply ev_S. cbn [decode].
        apply (ev_call o DTryNull (fun f a => bind (if yes a then of_option (zero x tb f (TyStruct i)) else Ret cur) (fun cur =>
              Open DMapping (fun h => while f h (fun _ => true) (body f) cur)))); [reflexivity..|]. fold u0.
        eapply (ev_bind o _ (fun f cur => Open DMapping (fun h => while f h (fun _ => true) (body f) cur))); [exact Hc0|exact G1].
  Qed.

  Theorem top_ends t cur u : known tb t -> typed tb t cur -> ok u ->
    exists v u', ev (fun f => decode_top x tb omitempty strict f t cur) u v u' /\ ok u'.
  Proof.
    intros Hk Ht Hok. pose proof (typed_shaped tb cur t Ht) as Hsh.
    assert (H : exists v u', ev (fun f => dec f omitempty t cur) u v u' /\ ok u').
    { destruct (all_end (left_in u) t Hk omitempty cur u Hsh Hok (le_n _)) as (v & u' & H1 & H2 & _). exists v, u'. split; [exact H1|apply H2]. }
    destruct (null_or_ends (fun _ => True) cur (fun f => dec f omitempty t cur) u Hok I) as (v & u' & H1 & H2 & _).
    { intros u1 Hok1 _. destruct (all_end (left_in u1) t Hk omitempty cur u1 Hsh Hok1 (le_n _)) as (v & u' & G1 & G2 & G3 & _). exists v, u'. auto. }
    destruct t; try (exists v, u'; split; [exact H1|apply H2]). exact H.
  Qed.
End Term.

(** The generated function for goyaml returns, whatever the document is. *)
Theorem g_decode_ends x tb omitempty strict o marshal t z g n d :
  sensible x tb -> known tb t -> typed tb t z -> unfolds g n d ->
  exists v s F, forall f, F <= f -> g_decode x tb omitempty strict o marshal false f t z g n = Done (v, s).
Proof.
  intros H1 H2 H3 H4.
  assert (Hok : ok (cursor_start false d)).
  { split; [reflexivity|]. split; [cbn; congruence|constructor]. }
  destruct (top_ends (Nd := gref) o x tb omitempty strict H1 t z (cursor_start false d) H2 H3 Hok) as (v & u' & (F & HF) & _).
  destruct (run_sim o marshal g (decode_top x tb omitempty strict F t z) _ v u' (HF F (le_n _)) (r_new g false n) [] (sim_start o marshal g false n d H4))
    as (r' & hs' & F2 & _ & HF2).
  exists v, (r', hs'), (max F F2). intros f Hf. unfold g_decode.
  eapply ple_interp; [|apply HF2; lia]. apply decode_top_mono. lia.
Qed.
