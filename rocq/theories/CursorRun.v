(** Programs that use a Decoder, run on a cursor. *)
From Verif Require Import Base Schema Values Writer AnyBuilder Reader GBuilder GReader ReaderProofs ReaderSteps
  ReadSpec ReaderSpec DocSpec ReadProofs CursorSpec CursorAny CursorProofs GenCode.
Local Open Scope nat_scope.

Section Run.
  Context {Nd : Type} (o : oracle).

  (** AddError(nil) *)
  Definition emptied (u : cursor) : cursor :=
    mkCursor (cu_held u) (map (fun f => (fst f, [])) (cu_open u)) (cu_sizes u) (cu_multi u) (cu_fatal u) (cu_denies u).

  Fixpoint crun {A} (p : prog Nd A) (u : cursor) {struct p} : outcome (A * cursor) :=
    match p with
    | Ret a => Done (a, u)
    | Call c k =>
        if opening c || negb (usual (QCall c)) then NoFuel
        else crun (k (fst (cursor_call o c u))) (snd (cursor_call (Nd := Nd) o c u))
    | Open c k =>
        if opening c then crun (k (length (cu_sizes u))) (snd (cursor_call (Nd := Nd) o c u)) else NoFuel
    | Size h k => match nth_error (cu_sizes u) h with Some n => crun (k n) u | None => Panics end
    | More h k => match nth_error (cu_sizes u) h with Some _ => crun (k (cursor_more h u)) u | None => Panics end
    | AddErr (Some e) k => crun k (snd (cursor_call (Nd := Nd) o (DAddError e) u))
    | AddErr None k =>
        match cu_fatal u, cu_held u with
        | Some _, _ => crun k u
        | None, None => crun k (emptied u)
        | None, Some _ => NoFuel
        end
    | Stop => NoFuel
    | Crash => Panics
    end.

  Local Opaque sc_is_integer sc_to_integer sc_to_unsigned sc_is_boolean sc_to_boolean sc_is_float sc_is_timestamp.
  Lemma text_plain c b s d fs u : opening c = false -> colls_of (fst (text_call (Nd := Nd) o c b s d fs u)) = [].
  Proof.
    intro H. unfold text_call. destruct (reads_text o c b s) as [[a|]|] eqn:E; cbn [fst].
    - destruct c; try discriminate H; cbv beta iota delta [reads_text] in E; try discriminate E;
        repeat match type of E with
               | (if ?x then _ else _) = _ => destruct x
               | Some (option_map _ ?x) = _ => destruct x; cbn [option_map] in E
               end; try discriminate E; injection E as <-; reflexivity.
    - destruct c; try discriminate H; reflexivity.
    - destruct c; try discriminate H; reflexivity.
  Qed.
  Local Opaque text_call any_value.
  Lemma call_plain c u : opening c = false -> colls_of (fst (cursor_call (Nd := Nd) o c u)) = [].
  Proof.
    intro H.
    assert (Hz : colls_of (zero_answer (Nd := Nd) o c) = []) by (destruct c; try discriminate H; reflexivity).
    assert (Ht : forall b s d fs, colls_of (fst (let (a, u') := text_call (Nd := Nd) o c b s d fs u in (a, numbered c 0 u'))) = []).
    { intros b s d fs. pose proof (text_plain c b s d fs u H) as E. destruct (text_call o c b s d fs u). exact E. }
    destruct c; try discriminate H; try (exact eq_refl); unfold cursor_call;
      (destruct (cu_fatal u); [exact Hz|]); (destruct (next u) as [[d fs]|]; [|exact Hz]);
      destruct d; try (exact Hz); try apply Ht; try exact eq_refl; destruct (any_value o _); exact eq_refl.
  Qed.

  Local Transparent text_call any_value.

  Lemma crun_bind {A B} (p : prog Nd A) (k : A -> prog Nd B) : forall u,
    crun (bind p k) u = obind (crun p u) (fun y => crun (k (fst y)) (snd y)).
  Proof.
    induction p; intro u; cbn; auto.
    - destruct (_ || _); [reflexivity|]. apply H.
    - destruct (opening c); [|reflexivity]. apply H.
    - destruct (nth_error _ _); [|reflexivity]. apply H.
    - destruct (nth_error _ _); [|reflexivity]. apply H.
    - destruct e; [|destruct (cu_fatal u); [|destruct (cu_held u); [reflexivity|]]]; apply IHp.
  Qed.

  (** ** programs with more fuel *)
  Inductive ple {A} : prog Nd A -> prog Nd A -> Prop :=
  | ple_stop q : ple Stop q
  | ple_crash : ple Crash Crash
  | ple_ret a : ple (Ret a) (Ret a)
  | ple_call c k k' : (forall a, ple (k a) (k' a)) -> ple (Call c k) (Call c k')
  | ple_open c k k' : (forall a, ple (k a) (k' a)) -> ple (Open c k) (Open c k')
  | ple_size c k k' : (forall a, ple (k a) (k' a)) -> ple (Size c k) (Size c k')
  | ple_more c k k' : (forall a, ple (k a) (k' a)) -> ple (More c k) (More c k')
  | ple_add e k k' : ple k k' -> ple (AddErr e k) (AddErr e k').

  Lemma ple_refl {A} (p : prog Nd A) : ple p p.
  Proof. induction p; constructor; auto. Qed.
  Lemma ple_bind {A B} (p q : prog Nd A) (k k' : A -> prog Nd B) : ple p q -> (forall a, ple (k a) (k' a)) -> ple (bind p k) (bind q k').
  Proof. intros H Hk. induction H; cbn; try constructor; auto. Qed.
  Lemma ple_while {A} f : forall f' h cond (body body' : A -> prog Nd A) a, f <= f' -> (forall a, ple (body a) (body' a)) ->
    ple (while f h cond body a) (while f' h cond body' a).
  Proof.
    induction f as [|f IH]; intros f' h cond body body' a Hf Hb; [constructor|]. destruct f' as [|f']; [lia|].
    cbn [while]. constructor. intros b. destruct (b && cond a); [|constructor]. apply ple_bind; [apply Hb|].
    intro a'. apply IH; [lia|exact Hb].
  Qed.
  Lemma ple_option {A} (a b : option A) : (a = None \/ a = b) -> ple (of_option a) (of_option b).
  Proof. intros [->| ->]; [constructor|apply ple_refl]. Qed.
End Run.

Lemma ple_interp {Nd K A} (en : engine Nd K) o f (p q : prog Nd A) : ple p q -> forall s y,
  interp en o f p s = Done y -> interp en o f q s = Done y.
Proof.
  induction 1; intros s y; cbn; try discriminate; auto.
  - destruct (do_call _ _ _ _ _) as [[? ?]| |]; cbn; try discriminate. apply H0.
  - destruct (do_call _ _ _ _ _) as [[? ?]| |]; cbn; try discriminate. apply H0.
  - destruct (coll_size _) as [?| |]; cbn; try discriminate. apply H0.
  - destruct (coll_more _ _) as [?| |]; cbn; try discriminate. apply H0.
  - destruct e; apply IHple.
Qed.

Section Decode.
  Context {Nd : Type} (x : externs) (tb : structs) (omitempty strict : bool).

  Lemma zero_mono f : forall t f', f <= f' -> zero x tb f t = None \/ zero x tb f t = zero x tb f' t.
  Proof.
    induction f as [|f IH]; intros t f' Hf; [left; reflexivity|]. destruct f' as [|f']; [lia|].
    destruct t; try (right; reflexivity).
    - cbn [zero]. destruct n; [right; reflexivity|]. destruct (IH t f' ltac:(lia)) as [->| ->]; [left|right]; reflexivity.
    - cbn [zero].
      assert (H : forall l, (fix go (l : list field) := match l with [] => Some [] | d :: l' => match zero x tb f (fl_type d), go l' with Some z, Some zs => Some (z :: zs) | _, _ => None end end) l = None
        \/ (fix go (l : list field) := match l with [] => Some [] | d :: l' => match zero x tb f (fl_type d), go l' with Some z, Some zs => Some (z :: zs) | _, _ => None end end) l
           = (fix go (l : list field) := match l with [] => Some [] | d :: l' => match zero x tb f' (fl_type d), go l' with Some z, Some zs => Some (z :: zs) | _, _ => None end end) l).
      { induction l as [|d l IHl]; [right; reflexivity|]. destruct (IH (fl_type d) f' ltac:(lia)) as [->| ->]; [left; reflexivity|].
        destruct IHl as [->| ->]; [|right; reflexivity]. left. destruct (zero x tb f' (fl_type d)); reflexivity. }
      destruct (H (fields_of tb i)) as [->| ->]; [left|right]; reflexivity.
  Qed.

  Lemma decode_mono f : forall om t cur f', f <= f' ->
    ple (decode (Nd := Nd) x tb omitempty strict f om t cur) (decode x tb omitempty strict f' om t cur).
  Proof.
    induction f as [|f IH]; intros om t cur f' Hf; [constructor|]. destruct f' as [|f']; [lia|].
    assert (Hle : f <= f') by lia.
    assert (Hz : forall t, ple (Nd := Nd) (of_option (zero x tb f t)) (of_option (zero x tb f' t))).
    { intro t0. apply ple_option. apply zero_mono. exact Hle. }
    destruct t; try apply ple_refl; cbn [decode].
    - constructor. intro a. destruct (yes a); [constructor|]. constructor. intro h. constructor. intros _.
      apply ple_bind; [|intro; constructor]. apply ple_while; [exact Hle|]. intro l. apply ple_bind; [apply Hz|].
      intro z. apply ple_bind; [apply IH; exact Hle|]. intro; constructor.
    - constructor. intro a. destruct (yes a); [constructor|]. constructor. intro h.
      apply ple_bind; [|intro; constructor]. apply ple_while; [exact Hle|]. intro l. apply ple_bind; [apply ple_refl|].
      intro z. apply ple_bind; [apply IH; exact Hle|]. intro; constructor.
    - constructor. intro a. destruct (yes a); [constructor|]. apply ple_bind; [destruct cur; try apply Hz; constructor|].
      intro z. apply ple_bind; [apply IH; exact Hle|]. intro; constructor.
    - constructor. intro a. destruct (yes a); [constructor|]. constructor. intro h. constructor. intro n.
      apply ple_while; [exact Hle|]. intro m. apply ple_bind; [apply Hz|]. intro zk. apply ple_bind; [apply Hz|]. intro ze.
      apply ple_bind; [apply IH; exact Hle|]. intro key. apply ple_bind; [apply IH; exact Hle|]. intro v. apply ple_refl.
    - constructor. intro a. apply ple_bind.
      { destruct (yes a); [|constructor]. apply ple_option. exact (zero_mono f (TyStruct i) f' Hle). }
      intro c. constructor. intro h. apply ple_while; [exact Hle|]. intro s. constructor. intro key. constructor. intro b.
      destruct (yes b); [constructor|]. destruct (case_of _ _ _) as [[j d]|]; [|apply ple_refl].
      apply ple_bind; [apply ple_refl|]. intro z. apply ple_bind; [apply IH; exact Hle|]. intro; constructor.
  Qed.
  Lemma decode_top_mono f t cur f' : f <= f' ->
    ple (decode_top (Nd := Nd) x tb omitempty strict f t cur) (decode_top x tb omitempty strict f' t cur).
  Proof.
    intro H. unfold decode_top. destruct t; try (constructor; intro a; destruct (yes a); [constructor|]); apply decode_mono; exact H.
  Qed.
End Decode.

Section G.
  Context (o : oracle) (marshal : graph -> gref -> text + list N) (g : graph).
  Let en := g_engine marshal o.
  Notation sim := (sim o marshal g).

  Lemma drain_nth (l : list (point gref)) : forall its i y, nth_error its i = Some y ->
    nth_error (drain_list l its) i = Some [] \/ nth_error (drain_list l its) i = Some y.
  Proof.
    induction l as [|p l IH]; intros its i y H; cbn; [right; exact H|]. destruct (pt_iter p) as [j|]; [|apply IH; exact H].
    destruct (Nat.eq_dec j i) as [->|Hn].
    - left. apply drain_keeps. eapply iters_set_same; eassumption.
    - apply IH. rewrite iters_set_other; assumption.
  Qed.
  Lemma drain_length (l : list (point gref)) : forall its, length (drain_list l its) = length its.
  Proof.
    induction l as [|p l IH]; intro its; [reflexivity|]. cbn [drain_list fold_left]. etransitivity; [apply IH|]. destruct (pt_iter p); [|reflexivity].
    apply iters_set_length.
  Qed.

  (** draining a reader *)
  Definition empty_seg (s : seg (Nd := gref)) : seg (Nd := gref) :=
    match s with
    | SOpen n b i _ => SOpen n b i []
    | SDenied n (Some (i, _)) => SDenied n (Some (i, []))
    | _ => s
    end.
  Notation inv := (fun k : graph => k = g).
  Lemma empty_ids st : seg_ids (map empty_seg st) = seg_ids st.
  Proof. induction st as [|s st IH]; [reflexivity|]. cbn. unfold seg_ids in IH. rewrite IH. destruct s as [|n [[i l]|]|]; reflexivity. Qed.
  Lemma pts_drain its its' ps st : Forall2 (pt_abs en inv its) ps st ->
    (forall p i y, In p ps -> pt_iter p = Some i -> nth_error its i = Some y -> nth_error its' i = Some []) ->
    Forall2 (pt_abs en inv its') ps (map empty_seg st).
  Proof.
    induction 1 as [|p s ps st Hp Hps IH]; intro H; [constructor|]. cbn [map]. constructor.
    - inversion Hp; subst; cbn [empty_seg]; constructor; auto; eapply H; (left; reflexivity) || (reflexivity) || eassumption.
    - apply IH. intros q i y Hq. apply H. right. exact Hq.
  Qed.
  Lemma drain_abs r st k N : abs en inv r (st, k, N) -> abs en inv (drain r) (map empty_seg st, k, N).
  Proof.
    intros (H1 & H2 & H3 & H4 & H5). unfold drain. cbn. split; [|split; [|split; [exact H3|split; [|exact H5]]]].
    - eapply pts_drain; [exact H1|]. intros p i y Hp Hi Hy. exact (drain_all _ _ _ _ _ Hp Hi Hy).
    - rewrite empty_ids. exact H2.
    - rewrite <- H4. apply drain_length.
  Qed.
  Lemma sim_emptied r hs u : sim r hs u -> cu_fatal u = None -> cu_held u = None -> sim (drain r) hs (emptied u).
  Proof.
    intros (H1 & H2 & H3 & H4 & H5 & H6 & H7) Hf Hh. unfold CursorProofs.sim in *. cbn. rewrite Hf in *. unfold places in H7. rewrite Hh in H7.
    destruct H7 as (st & N & Ha & Hst). repeat split; auto.
    - intros h size i Hi. destruct (H6 h size i Hi) as [H|H].
      + left. cbn. apply (drain_keeps (r_route r)). exact H.
      + right. rewrite map_map. exact H.
    - rewrite Hh. exists (map empty_seg st), N. split; [apply drain_abs; exact Ha|].
      clear -Hst. induction Hst as [|s f st fs Hs Hst IH]; [constructor|]. cbn [map]. constructor; [|exact IH].
      destruct s; try contradiction. destruct Hs as (Hb & Hh & _). cbn. split; [exact Hb|]. split; [exact Hh|constructor].
  Qed.

  (** a run on the cursor is a run of the reader *)
  Theorem run_sim {A} (p : prog gref A) : forall u v u', crun o p u = Done (v, u') -> forall r hs, sim r hs u ->
    exists r' hs' F, sim r' hs' u' /\ forall f, F <= f -> interp en o f p (r, hs) = Done (v, (r', hs')).
  Proof.
    induction p as [a|c k IH|c k IH|h k IH|h k IH|e k IH| |]; intros u v u' H r hs Hs; cbn [crun] in H; try discriminate.
    - injection H as <- <-. exists r, hs, 0. split; [exact Hs|]. reflexivity.
    - destruct (opening c || negb (usual (QCall c))) eqn:E; [discriminate|]. apply orb_false_iff in E as [E1 E2].
      destruct (sim_call o marshal g r hs u c) as (a & r1 & (F1 & HF1) & Hm & Hs1);
        [intros ->; discriminate|intros ->; discriminate|exact Hs|].
      assert (Ea : a = fst (cursor_call o c u)).
      { pose proof (call_plain (Nd := gref) o c u E1) as Hp. destruct a; cbn in Hm; injection Hm as Hm; auto.
        rewrite <- Hm in Hp. discriminate Hp. }
      rewrite <- Ea in H. destruct (IH a _ _ _ H r1 _ Hs1) as (r2 & hs2 & F2 & Hs2 & HF2).
      exists r2, hs2, (max F1 F2). split; [exact Hs2|]. intros f Hf. cbn [interp fst snd].
      unfold en; rewrite (HF1 f ltac:(lia)). cbn [obind fst snd]. apply HF2. lia.
    - destruct (opening c) eqn:E; [|discriminate].
      destruct (sim_call o marshal g r hs u c) as (a & r1 & (F1 & HF1) & Hm & Hs1);
        [intros ->; discriminate|intros ->; discriminate|exact Hs|].
      replace (length (cu_sizes u)) with (length hs) in H by (eapply f2_length; apply Hs).
      destruct (IH _ _ _ _ H r1 _ Hs1) as (r2 & hs2 & F2 & Hs2 & HF2).
      exists r2, hs2, (max F1 F2). split; [exact Hs2|]. intros f Hf. cbn [interp fst snd].
      unfold en; rewrite (HF1 f ltac:(lia)). cbn [obind fst snd]. apply HF2. lia.
    - pose proof (sim_coll o marshal g r hs u h Hs) as Hc. destruct (nth_error (cu_sizes u) h) as [n|]; [|discriminate].
      destruct Hc as [Hc _]. destruct (IH _ _ _ _ H r hs Hs) as (r2 & hs2 & F2 & Hs2 & HF2).
      exists r2, hs2, F2. split; [exact Hs2|]. intros f Hf. cbn [interp fst snd]. rewrite Hc. cbn [obind]. apply HF2. exact Hf.
    - pose proof (sim_coll o marshal g r hs u h Hs) as Hc. destruct (nth_error (cu_sizes u) h) as [n|]; [|discriminate].
      destruct Hc as [_ Hc]. destruct (IH _ _ _ _ H r hs Hs) as (r2 & hs2 & F2 & Hs2 & HF2).
      exists r2, hs2, F2. split; [exact Hs2|]. intros f Hf. cbn [interp fst snd]. rewrite Hc. cbn [obind]. apply HF2. exact Hf.
    - destruct e as [e|].
      + destruct (sim_call o marshal g r hs u (DAddError e)) as (a & r1 & (F1 & HF1) & Hm & Hs1); [discriminate..|exact Hs|].
        assert (Ea : a = AUnit) by (destruct a; discriminate Hm || reflexivity). subst a.
        cbn [colls_of] in Hs1. rewrite app_nil_r in Hs1.
        destruct (IH _ _ _ H r1 hs Hs1) as (r2 & hs2 & F2 & Hs2 & HF2).
        exists r2, hs2, (max F1 F2). split; [exact Hs2|]. intros f Hf. cbn [interp fst snd].
        unfold en; rewrite (HF1 f ltac:(lia)). cbn [obind fst snd]. apply HF2. lia.
      + assert (Hr : r_fatal r = cu_fatal u) by apply Hs. destruct (cu_fatal u) as [e|] eqn:Ef.
        * destruct (IH _ _ _ H r hs Hs) as (r2 & hs2 & F2 & Hs2 & HF2). exists r2, hs2, F2. split; [exact Hs2|]. intros f Hf.
          cbn [interp fst snd]. unfold add_nil_error, has_fatal. rewrite Hr. apply HF2. exact Hf.
        * destruct (cu_held u) as [d|] eqn:Eh; [discriminate|].
          destruct (IH _ _ _ H _ hs (sim_emptied r hs u Hs Ef Eh)) as (r2 & hs2 & F2 & Hs2 & HF2). exists r2, hs2, F2.
          split; [exact Hs2|]. intros f Hf. cbn [interp fst snd]. unfold add_nil_error, has_fatal. rewrite Hr. apply HF2. exact Hf.
  Qed.
End G.
