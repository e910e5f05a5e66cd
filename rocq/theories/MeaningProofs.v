(** The generated decoders compute the meaning of the document (goyaml). *)
From Coq Require Import ZifyBool ZifyNat.
From Verif Require Import Base Schema Values Ast Writer AnyBuilder Reader GBuilder GReader
  ReadSpec CursorSpec CursorProofs CursorRun GenCode GenSpec GenProofs CursorDecode MeaningSpec.
Local Open Scope nat_scope.

Local Opaque sc_is_integer sc_to_integer sc_to_unsigned sc_is_boolean sc_to_boolean sc_is_float sc_is_timestamp any_value.

Lemma position_case key fs : forall i, case_of key fs i =
  option_map (fun j => (i + j, nth j fs (mkField [] TyString true false))) (position key fs).
Proof.
  induction fs as [|d fs IH]; intro i; [reflexivity|]. cbn [case_of position]. destruct (_ && _).
  - cbn. rewrite Nat.add_0_r. reflexivity.
  - rewrite IH. destruct (position key fs) as [j|]; [|reflexivity]. cbn. rewrite Nat.add_succ_r. reflexivity.
Qed.
Lemma position_lt key fs : forall j, position key fs = Some j -> j < length fs.
Proof.
  induction fs as [|d fs IH]; intros j; [discriminate|]. cbn [position]. destruct (_ && _); [intros [= <-]; cbn; lia|].
  destruct (position key fs) as [k|]; [|discriminate]. cbn. intros [= <-]. specialize (IH k eq_refl). lia.
Qed.
Lemma replace_set {A} (l : list A) : forall j v, j < length l -> set_nth l j v = replace l j v.
Proof.
  induction l as [|y l IH]; intros [|j] v H; cbn in *; try lia; [reflexivity|]. unfold replace in *. cbn.
  rewrite IH by lia. reflexivity.
Qed.
Lemma set_nth_mid {A} (a : list A) z b v : set_nth (a ++ z :: b) (length a) v = a ++ v :: b.
Proof. induction a as [|y a IH]; [reflexivity|]. cbn. rewrite IH. reflexivity. Qed.
Lemma nth_error_mid {A} (a : list A) z b : nth_error (a ++ z :: b) (length a) = Some z.
Proof. induction a as [|y a IH]; [reflexivity|]. exact IH. Qed.

(** ** places of the cursor *)
Definition fine (u : cursor) : Prop := cu_fatal u = None /\ cu_multi u = false /\ cu_denies u = [].
Definition below (n : nat) (fs : list (nat * list ytree)) : Prop := Forall (fun f => fst f < n) fs.
Definition used (lo hi : nat) (es : list (nat * list ytree)) : Prop :=
  Forall (fun f => snd f = [] /\ lo <= fst f < hi) es.

(** [d] is read next, then the collections [fs] *)
Definition ready (u : cursor) (d : ytree) (fs : list (nat * list ytree)) : Prop :=
  fine u /\ next u = Some (d, fs) /\ below (length (cu_sizes u)) fs.
(** something was read completely *)
Definition passed (u : cursor) (fs : list (nat * list ytree)) (u' : cursor) : Prop :=
  fine u' /\ cu_held u' = None /\ grows u u' /\
  exists es, cu_open u' = es ++ fs /\ used (length (cu_sizes u)) (length (cu_sizes u')) es.
(** in a loop over the collection number [h] *)
Definition inside (h : nat) (l : list ytree) (fs : list (nat * list ytree)) (u : cursor) : Prop :=
  fine u /\ cu_held u = None /\ h < length (cu_sizes u) /\ below h fs /\
  exists es, cu_open u = es ++ (h, l) :: fs /\ used (S h) (length (cu_sizes u)) es.

Lemma used_next lo hi es fs : used lo hi es -> next_item (es ++ fs) = next_item fs.
Proof.
  induction 1 as [|[h l] es [E _] H IH]; [reflexivity|]. cbn in E. subst l. exact IH.
Qed.
Lemma used_app lo hi a b : used lo hi a -> used lo hi b -> used lo hi (a ++ b).
Proof. intros. apply Forall_app. split; assumption. Qed.
Lemma used_wider lo hi lo' hi' es : lo' <= lo -> hi <= hi' -> used lo hi es -> used lo' hi' es.
Proof. intros H1 H2. apply Forall_impl. intros f [E L]. split; [exact E|lia]. Qed.
Lemma below_wider n n' fs : n <= n' -> below n fs -> below n' fs.
Proof. intro H. apply Forall_impl. intros; lia. Qed.
Lemma grows_length u u' : grows u u' -> length (cu_sizes u) <= length (cu_sizes u').
Proof. intros [more ->]. rewrite app_length. lia. Qed.

Lemma more_app h a b : existsb (fun f : nat * list ytree => (fst f =? h) && match snd f with [] => false | _ => true end) (a ++ b)
  = existsb (fun f : nat * list ytree => (fst f =? h) && match snd f with [] => false | _ => true end) a
    || existsb (fun f : nat * list ytree => (fst f =? h) && match snd f with [] => false | _ => true end) b.
Proof. apply existsb_app. Qed.
Lemma inside_more h l fs u : inside h l fs u -> cursor_more h u = match l with [] => false | _ => true end.
Proof.
  intros (_ & _ & _ & Hfs & es & E & He). unfold cursor_more. rewrite E, more_app.
  replace (existsb _ es) with false.
  2: { symmetry. clear -He. induction He as [|[k m] es [E1 _] H IH]; [reflexivity|]. cbn in *. subst m. rewrite andb_false_r. exact IH. }
  cbn. rewrite Nat.eqb_refl. replace (existsb _ fs) with false; [destruct l; reflexivity|].
  symmetry. clear -Hfs. induction Hfs as [|[k m] fs E H IH]; [reflexivity|]. cbn in *.
  replace (k =? h) with false by (symmetry; apply Nat.eqb_neq; lia). exact IH.
Qed.
Lemma inside_size h l fs u : inside h l fs u -> exists n, nth_error (cu_sizes u) h = Some n.
Proof.
  intros (_ & _ & Hh & _). destruct (nth_error (cu_sizes u) h) as [n|] eqn:E; [exists n; reflexivity|].
  apply nth_error_None in E. lia.
Qed.
Lemma inside_ready h d l fs u : inside h (d :: l) fs u -> ready u d ((h, l) :: fs).
Proof.
  intros (H1 & H2 & H3 & H4 & es & E & He). split; [exact H1|]. split.
  - unfold next. rewrite H2, E, (used_next _ _ _ _ He). reflexivity.
  - constructor; [exact H3|]. eapply below_wider; [|exact H4]. lia.
Qed.
Lemma inside_step h l0 l fs u u' : inside h l0 fs u -> passed u ((h, l) :: fs) u' -> inside h l fs u'.
Proof.
  intros (H1 & H2 & H3 & H4 & _) (G1 & G2 & G3 & es & E & He). pose proof (grows_length _ _ G3).
  split; [exact G1|]. split; [exact G2|]. split; [lia|]. split; [exact H4|]. exists es. split; [exact E|].
  eapply used_wider; [| |exact He]; lia.
Qed.
Lemma inside_done u h fs u' : grows u u' -> length (cu_sizes u) <= h -> inside h [] fs u' -> passed u fs u'.
Proof.
  intros Hg Hh (H1 & H2 & H3 & H4 & es & E & He). split; [exact H1|]. split; [exact H2|]. split; [exact Hg|].
  exists (es ++ [(h, [])]). rewrite <- app_assoc. split; [exact E|]. apply used_app; [eapply used_wider; [| |exact He]; lia|].
  repeat constructor; cbn; lia.
Qed.
Lemma passed_here u d fs : ready u d fs -> passed u fs (at_place None fs u).
Proof.
  intros (H1 & _ & H2). split; [exact H1|]. split; [reflexivity|]. split; [apply grows_same; reflexivity|]. exists []. split; [reflexivity|constructor].
Qed.
Lemma passed_from u u1 fs u' : cu_sizes u1 = cu_sizes u -> passed u1 fs u' -> passed u fs u'.
Proof. unfold passed, grows. intros ->. tauto. Qed.
Lemma ready_held u d fs : ready u d fs -> ready (at_place (Some d) fs u) d fs.
Proof. intros (H1 & _ & H2). split; [exact H1|]. split; [reflexivity|exact H2]. Qed.
(** two things read one after the other *)
Lemma passed_ready u d fs h l u' : passed u ((h, d :: l) :: fs) u' -> below (length (cu_sizes u)) ((h, d :: l) :: fs) ->
  ready u' d ((h, l) :: fs).
Proof.
  intros (H1 & H2 & H3 & es & E & He) Hb. split; [exact H1|]. split.
  - unfold next. rewrite H2, E, (used_next _ _ _ _ He). reflexivity.
  - pose proof (grows_length _ _ H3). inversion Hb; subst. constructor; [cbn in *; lia|]. eapply below_wider; [|eassumption]. lia.
Qed.
Lemma passed_trans u a h l fs u1 u2 : passed u ((h, a) :: fs) u1 -> passed u1 ((h, l) :: fs) u2 -> passed u ((h, l) :: fs) u2.
Proof.
  intros (_ & _ & G1 & _) (H1 & H2 & H3 & es & E & He). split; [exact H1|]. split; [exact H2|].
  split; [eapply grows_trans; eassumption|]. exists es. split; [exact E|]. pose proof (grows_length _ _ G1).
  eapply used_wider; [| |exact He]; lia.
Qed.

Section Run.
  Context {Nd : Type} (o : oracle).
  Notation ccall := (cursor_call (Nd := Nd) o).

  Lemma fatal_same {A} (p : prog Nd A) e : forall u v u', crun o p u = Done (v, u') -> cu_fatal u = Some e -> cu_fatal u' = Some e.
  Proof.
    assert (Hcall : forall c u, cu_fatal u = Some e -> cu_fatal (snd (ccall c u)) = Some e).
    { intros c u Hf. unfold cursor_call. rewrite Hf. destruct c; cbn [snd]; rewrite ?numbered_fatal; exact Hf. }
    induction p as [a|c k IH|c k IH|h k IH|h k IH|e0 k IH| |]; intros u v u' H Hf; cbn [crun] in H; try discriminate.
    - injection H as <- <-. exact Hf.
    - destruct (_ || _); [discriminate|]. eapply IH; [exact H|]. apply Hcall. exact Hf.
    - destruct (opening c); [|discriminate]. eapply IH; [exact H|]. apply Hcall. exact Hf.
    - destruct (nth_error _ _); [|discriminate]. eapply IH; eassumption.
    - destruct (nth_error _ _); [|discriminate]. eapply IH; eassumption.
    - destruct e0 as [e0|].
      + eapply IH; [exact H|]. apply (Hcall (DAddError e0)). exact Hf.
      + rewrite Hf in H. eapply IH; eassumption.
  Qed.
  Lemma denies_same {A} (p : prog Nd A) : forall u v u', crun o p u = Done (v, u') -> cu_multi u = false ->
    cu_denies u' = cu_denies u /\ cu_multi u' = false.
  Proof.
    assert (Hnum : forall c n u, cu_denies (numbered c n u) = cu_denies u /\ cu_multi (numbered c n u) = cu_multi u)
      by (intros c n u; unfold numbered; destruct (opening c); auto).
    assert (Hcall : forall c u, cu_multi u = false -> cu_denies (snd (ccall c u)) = cu_denies u /\ cu_multi (snd (ccall c u)) = false).
    { intros c u Hm.
      assert (Hd : forall d fs, cu_denies (numbered c 0 (deny c d fs u)) = cu_denies u /\ cu_multi (numbered c 0 (deny c d fs u)) = false).
      { intros d fs. destruct (Hnum c 0 (deny c d fs u)) as [-> ->]. unfold deny. rewrite Hm. auto. }
      assert (Ht : forall b s d fs, let y := (let (a, u) := text_call (Nd := Nd) o c b s d fs u in (a, numbered c 0 u)) in
        cu_denies (snd y) = cu_denies u /\ cu_multi (snd y) = false).
      { intros b s d fs. unfold text_call. destruct (reads_text o c b s) as [[a|]|]; cbn [snd]; [| |apply Hd].
        - destruct (Hnum c 0 (at_place None fs u)) as [-> ->]. auto.
        - destruct (Hnum c 0 (failed (RConvert (expecter_of c) s) u)) as [-> ->]. auto. }
      assert (H0 : forall n v, cu_denies v = cu_denies u -> cu_multi v = false -> cu_denies (numbered c n v) = cu_denies u /\ cu_multi (numbered c n v) = false).
      { intros n v E1 E2. destruct (Hnum c n v) as [-> ->]. auto. }
      unfold cursor_call. destruct (cu_fatal u); destruct c; try (split; auto; fail); try (apply H0; auto);
        destruct (next u) as [[d fs]|]; try (apply H0; auto); try (split; auto; fail);
        destruct d; try apply Ht; try apply Hd; try (split; auto; fail); try (apply H0; auto);
        try (destruct (any_value o _); split; auto). }
    induction p as [a|c k IH|c k IH|h k IH|h k IH|e0 k IH| |]; intros u v u' H Hm; cbn [crun] in H; try discriminate.
    - injection H as <- <-. auto.
    - destruct (_ || _); [discriminate|]. destruct (Hcall c u Hm) as [E1 E2]. rewrite <- E1. eapply IH; [exact H|exact E2].
    - destruct (opening c); [|discriminate]. destruct (Hcall c u Hm) as [E1 E2]. rewrite <- E1. eapply IH; [exact H|exact E2].
    - destruct (nth_error _ _); [|discriminate]. eapply IH; eassumption.
    - destruct (nth_error _ _); [|discriminate]. eapply IH; eassumption.
    - destruct e0 as [e0|].
      + destruct (Hcall (DAddError e0) u Hm) as [E1 E2]. rewrite <- E1. eapply IH; [exact H|exact E2].
      + destruct (cu_fatal u); [eapply IH; eassumption|]. destruct (cu_held u); [discriminate|]. exact (IH _ _ _ H Hm).
  Qed.
  Lemma bind_done {A B} (p : prog Nd A) (k : A -> prog Nd B) u y : crun o (bind p k) u = Done y ->
    exists a u1, crun o p u = Done (a, u1) /\ crun o (k a) u1 = Done y.
  Proof.
    rewrite crun_bind. destruct (crun o p u) as [[a u1]| |]; cbn; try discriminate. intro H. exists a, u1. auto.
  Qed.

  (** ** single calls *)
  Lemma try_null u d fs : ready u d fs -> ccall DTryNull u =
    if null_doc d then (ABool true, at_place None fs u) else (ABool false, at_place (Some d) fs u).
  Proof.
    intros ((Hf & _) & Hn & _). unfold cursor_call. rewrite Hf, Hn. destruct d; reflexivity.
  Qed.

  Definition reads_as (m : meaning) (u : cursor) (fs : list (nat * list ytree)) (v : goval) (u' : cursor) : Prop :=
    match m with
    | Gives w => v = w /\ passed u fs u'
    | Wrong e => cu_fatal u' = Some e
    | Odd => True
    end.

  Lemma scalar_call {A : Type} (c : call) (e : expecter) (is : text -> bool) (to : text -> option A) (mk : A -> goval) (mka : A -> answer Nd) (un : answer Nd -> A) u d fs v u' : ready u d fs ->
    opening c = false -> usual (QCall c) = true -> expecter_of c = e ->
    (forall a, un (mka a) = a) ->
    (c <> DString -> forall b s, reads_text o c b s = if is s then Some (option_map mka (to s)) else None) ->
    match c with DInteger _ | DUnsigned _ | DBoolean | DFloat _ => True | _ => False end ->
    crun o (Call c (fun a => Ret (mk (un a)))) u = Done (v, u') ->
    reads_as (as_scalar e is to mk d) u fs v u'.
  Proof.
    intros Hr H1 H2 He Hun Ht Hc H. cbn [crun] in H. rewrite H1, H2 in H. cbn [orb negb] in H. injection H as <- <-.
    pose proof Hr as ((Hf & Hm & _) & Hn & _).
    assert (Hs : forall b s, reads_text o c b s = if is s then Some (option_map mka (to s)) else None)
      by (apply Ht; intros ->; exact Hc).
    assert (E : ccall c u = match d with
               | YNull s => let (a, u) := text_call (Nd := Nd) o c true s d fs u in (a, numbered c 0 u)
               | YText s => let (a, u) := text_call (Nd := Nd) o c false s d fs u in (a, numbered c 0 u)
               | _ => (zero_answer o c, numbered c 0 (deny c d fs u))
               end).
    { unfold cursor_call. rewrite Hf, Hn. destruct c; try contradiction; destruct d; reflexivity. }
    rewrite E. unfold text_call, numbered, deny. rewrite H1, Hm, He.
    assert (Htext : forall b s, reads_as (if is s then match to s with Some w => Gives (mk w) | None => Wrong (RConvert e s) end else Wrong (RDeny e)) u fs
      (mk (un (fst (match reads_text (Nd := Nd) o c b s with
                    | Some (Some a) => (a, at_place None fs u)
                    | Some None => (zero_answer o c, failed (RConvert e s) u)
                    | None => (zero_answer o c, failed (RDeny e) u) end))))
      (snd (match reads_text (Nd := Nd) o c b s with
                    | Some (Some a) => (a, at_place None fs u)
                    | Some None => (zero_answer o c, failed (RConvert e s) u)
                    | None => (zero_answer o c, failed (RDeny e) u) end))).
    { intros b s. rewrite Hs. destruct (is s); [|reflexivity]. destruct (to s) as [w|]; [|reflexivity].
      cbn. split; [rewrite Hun; reflexivity|]. eapply passed_here; eassumption. }
    destruct d; try reflexivity.
    - specialize (Htext true s). destruct (reads_text o c true s) as [[a|]|]; exact Htext.
    - specialize (Htext false s). destruct (reads_text o c false s) as [[a|]|]; exact Htext.
  Qed.
  Lemma string_call u d fs : ready u d fs -> ccall DString u =
    match d with YText s => (AText s, at_place None fs u) | _ => (AText [], failed (RDeny EString) u) end.
  Proof.
    intros ((Hf & Hm & _) & Hn & _). unfold cursor_call. rewrite Hf, Hn. unfold text_call, deny. rewrite Hm. destruct d; reflexivity.
  Qed.
  Lemma open_call c u d fs : ready u d fs -> opening c = true ->
    snd (ccall c u) = match c, d with
                      | DSequence, YSeq l | DMapping, YMap l =>
                          numbered c (length l) (at_place None ((length (cu_sizes u), l) :: fs) u)
                      | _, _ => numbered c 0 (failed (RDeny (expecter_of c)) u)
                      end.
  Proof.
    intros ((Hf & Hm & _) & Hn & _) Hc. unfold cursor_call. rewrite Hf, Hn. unfold text_call, deny. rewrite Hm.
    destruct c; try discriminate Hc; destruct d; reflexivity.
  Qed.
  Lemma open_inside c n l u d fs : ready u d fs -> opening c = true ->
    inside (length (cu_sizes u)) l fs (numbered c n (at_place None ((length (cu_sizes u), l) :: fs) u)).
  Proof.
    intros (H1 & _ & H2) Hc. unfold numbered. rewrite Hc. split; [exact H1|]. split; [reflexivity|]. cbn. rewrite app_length. cbn.
    split; [lia|]. split; [exact H2|]. exists []. split; [reflexivity|constructor].
  Qed.
  Lemma open_grows c n l u fs : grows u (numbered c n (at_place None ((length (cu_sizes u), l) :: fs) u)).
  Proof. unfold numbered. destruct (opening c); [exists [n]; reflexivity|apply grows_same; reflexivity]. Qed.
End Run.

Section Main.
  Context {Nd : Type} (o : oracle) (x : externs) (tb : structs) (omitempty strict : bool) (zero_of : gotype -> goval).
  Hypothesis Htb : sensible x tb.
  Hypothesis Htexts : no_texts tb.
  Hypothesis Hz : zeros x tb zero_of.
  Notation dec := (decode (Nd := Nd) x tb omitempty strict).
  Notation means := (means x tb omitempty strict o zero_of).
  Notation ccall := (cursor_call (Nd := Nd) o).
  Notation run := (crun (Nd := Nd) o).

  Definition right (m : meaning) (t : gotype) (u : cursor) (fs : list (nat * list ytree)) (v : goval) (u' : cursor) : Prop :=
    reads_as m u fs v u' /\ (forall w, m = Gives w -> shaped tb t v).
  Definition all_right (f : nat) : Prop := forall d om t cur u fs v u',
    shaped tb t cur -> known tb t -> no_text t = true -> ready u d fs -> run (dec f om t cur) u = Done (v, u') ->
    right (means d om t cur) t u fs v u'.

  Lemma zero_run f t u y : known tb t -> run (of_option (zero x tb f t)) u = Done y -> y = (zero_of t, u) /\ shaped tb t (zero_of t).
  Proof.
    intros Hk H. pose proof (Hz t Hk) as Hzt. split; [|eapply zero_shaped; exact Hzt].
    destruct (zeroval_zero x tb _ t Hzt) as [F HF].
    destruct (zero_mono x tb f t (max f F)) as [E|E]; [lia| |].
    - rewrite E in H. discriminate.
    - rewrite E, HF in H by lia. injection H as <-. reflexivity.
  Qed.

  (** what follows a TryNull that says no *)
  Lemma null_or_right {A} (v0 : A) (p : prog Nd A) u d fs y : ready u d fs ->
    run (Call DTryNull (fun a => if yes a then Ret v0 else p)) u = Done y ->
    if null_doc d then y = (v0, at_place None fs u)
    else run p (at_place (Some d) fs u) = Done y /\ ready (at_place (Some d) fs u) d fs.
  Proof.
    intros Hr H. cbn [crun opening usual negb orb] in H. rewrite (try_null o u d fs Hr) in H.
    destruct (null_doc d); cbn [fst snd yes] in H; [|split; [exact H|apply ready_held; exact Hr]].
    injection H as <-. reflexivity.
  Qed.
  Lemma right_null t u d fs v : ready u d fs -> shaped tb t v -> right (Gives v) t u fs v (at_place None fs u).
  Proof. intros Hr Hs. split; [|intros; exact Hs]. split; [reflexivity|]. eapply passed_here; eassumption. Qed.
  Lemma right_held m t u d fs v u' : right m t (at_place (Some d) fs u) fs v u' -> right m t u fs v u'.
  Proof. intros [H1 H2]. split; [|exact H2]. destruct m; exact H1. Qed.

  (** ** loops *)
  Lemma while_step {A} f h cond (body : A -> prog Nd A) a l fs u y : inside h l fs u ->
    run (while f h cond body a) u = Done y ->
    exists f', f = S f' /\
    if match l with [] => false | _ => true end && cond a then
      exists a1 u1, run (body a) u = Done (a1, u1) /\ run (while f' h cond body a1) u1 = Done y
    else y = (a, u).
  Proof.
    intros Hi H. destruct f as [|f]; [discriminate|]. exists f. split; [reflexivity|]. cbn [while crun] in H.
    destruct (inside_size _ _ _ _ Hi) as [n Hn]. rewrite Hn, (inside_more _ _ _ _ Hi) in H.
    destruct (_ && _); [apply bind_done; exact H|]. injection H as <-. reflexivity.
  Qed.

  Section Slice.
  Context (f : nat) (IH : all_right f) (om : bool) (e : gotype) (Hk : known tb e) (Hn : no_text e = true).
  Lemma slice_loop : forall l g h fs got u got' u', inside h l fs u ->
    run (while g h (fun _ => true) (fun l => bind (of_option (zero x tb f e)) (fun z =>
                                bind (dec f om e z) (fun v => Ret (l ++ [v])))) got) u = Done (got', u') ->
    match slice_of (fun d' => means d' om e (zero_of e)) l got with
    | Gives w => GoSlice got' = w /\ inside h [] fs u' /\ grows u u'
    | Wrong err => cu_fatal u' = Some err
    | Odd => True
    end.
  Proof.
    induction l as [|d l IHl]; intros g h fs got u got' u' Hi H;
      destruct (while_step _ _ _ _ _ _ _ _ _ Hi H) as (g' & -> & H'); cbn [andb] in H'.
    - injection H' as <- <-. cbn. split; [reflexivity|]. split; [exact Hi|apply grows_refl].
    - destruct H' as (a1 & u1 & H1 & H2). apply bind_done in H1 as (z & uz & E1 & H1).
      destruct (zero_run _ _ _ _ Hk E1) as [[= -> ->] Hs]. apply bind_done in H1 as (v & uv & E2 & E3).
      cbn [crun] in E3. injection E3 as <- <-.
      pose proof (IH d om e _ _ _ _ _ Hs Hk Hn (inside_ready _ _ _ _ _ Hi) E2) as [Hr _].
      cbn [slice_of]. destruct (means d om e (zero_of e)) as [w|err|]; cbn [and_then].
      + destruct Hr as [-> Hp]. specialize (IHl _ _ _ _ _ _ _ (inside_step _ _ _ _ _ _ Hi Hp) H2).
        destruct (slice_of _ _ _); auto. destruct IHl as (G1 & G2 & G3). split; [exact G1|]. split; [exact G2|].
        eapply grows_trans; [apply Hp|exact G3].
      + eapply fatal_same; [exact H2|exact Hr].
      + exact I.
  Qed.
  End Slice.

  Section Array.
  Context (f : nat) (IH : all_right f) (om : bool) (e : gotype) (Hk : known tb e) (Hn : no_text e = true) (n : nat).
  Lemma array_loop : forall l g h fs got old u s' u', inside h l fs u -> length got + length old = n -> Forall (shaped tb e) (got ++ old) ->
    run (while g h (fun s => fst s <? n)
                        (fun s => bind (of_option (nth_error (snd s) (fst s))) (fun z =>
                                  bind (dec f om e z) (fun v =>
                                  Ret (S (fst s), set_nth (snd s) (fst s) v)))) (length got, got ++ old)) u = Done (s', u') ->
    match array_of (fun d' => means d' om e) l got old with
    | Gives w => GoArray (snd s') = w /\ inside h [] fs u' /\ grows u u' /\ shaped tb (TyArray n e) w
    | Wrong err => cu_fatal u' = Some err
    | Odd => True
    end.
  Proof.
    induction l as [|d l IHl]; intros g h fs got old u s' u' Hi Hl Hsh H;
      destruct (while_step _ _ _ _ _ _ _ _ _ Hi H) as (g' & -> & H'); cbn [andb] in H'.
    - injection H' as -> ->. cbn. split; [reflexivity|]. split; [exact Hi|]. split; [apply grows_refl|].
      rewrite <- Hl, <- app_length. apply sh_array. exact Hsh.
    - cbn [array_of]. destruct old as [|z old]; [exact I|]. cbn in Hl.
      replace (fst (length got, got ++ z :: old) <? n) with true in H' by (symmetry; cbn [fst]; apply Nat.ltb_lt; lia).
      destruct H' as (a1 & u1 & H1 & H2). cbn [fst snd] in H1. rewrite nth_error_mid in H1. cbn [of_option bind] in H1.
      apply bind_done in H1 as (v & uv & E2 & E3). cbn [crun] in E3. injection E3 as <- <-. rewrite set_nth_mid in H2.
      assert (Hsz : shaped tb e z) by (rewrite Forall_forall in Hsh; apply Hsh; apply in_or_app; right; left; reflexivity).
      pose proof (IH d om e _ _ _ _ _ Hsz Hk Hn (inside_ready _ _ _ _ _ Hi) E2) as [Hr Hv].
      destruct (means d om e z) as [w|err|]; cbn [and_then].
      + destruct Hr as [-> Hp]. specialize (Hv w eq_refl).
        assert (Hsh' : Forall (shaped tb e) ((got ++ [w]) ++ old)).
        { apply Forall_app in Hsh as [Ha Hb]. inversion Hb; subst. apply Forall_app. split; [|assumption]. apply Forall_app. split; auto. }
        specialize (IHl g' h fs (got ++ [w]) old _ s' u' (inside_step _ _ _ _ _ _ Hi Hp)).
        rewrite app_length in IHl. cbn [length] in IHl. replace (length got + 1) with (S (length got)) in IHl by lia.
        rewrite <- app_assoc in IHl. cbn [app] in IHl. rewrite <- app_assoc in Hsh'. cbn [app] in Hsh'.
        specialize (IHl ltac:(lia) Hsh' H2).
        destruct (array_of _ _ _ _); auto. destruct IHl as (G1 & G2 & G3 & G4). split; [exact G1|]. split; [exact G2|]. split; [|exact G4].
        eapply grows_trans; [apply Hp|exact G3].
      + eapply fatal_same; [exact H2|exact Hr].
      + exact I.
  Qed.
  End Array.

  (** lists of entries, two by two *)
  Lemma two_by_two {A} (P : list A -> Prop) : P [] -> (forall k, P [k]) -> (forall k d l, P l -> P (k :: d :: l)) -> forall l, P l.
  Proof.
    intros H0 H1 H2 l. enough (H : P l /\ forall k, P (k :: l)) by apply H.
    induction l as [|k l [IH1 IH2]]; [split; auto|]. split; [apply IH2|]. intro k'. apply H2. exact IH1.
  Qed.

  Section Map.
  Context (f : nat) (IH : all_right f) (om : bool) (k e : gotype) (Hkk : known tb k) (Hke : known tb e) (Hnk : no_text k = true) (Hne : no_text e = true).
  Lemma map_loop : forall l g h fs got u v u', inside h l fs u ->
    run (while g h (fun _ => true)
                (fun m => bind (of_option (zero x tb f k)) (fun zk =>
                          bind (of_option (zero x tb f e)) (fun ze =>
                          bind (dec f om k zk) (fun key =>
                          bind (dec f om e ze) (fun v =>
                          match m with
                          | GoMap l => Ret (GoMap (go_assign key v l))
                          | _ => Crash
                          end))))) (GoMap got)) u = Done (v, u') ->
    match map_of (fun d' => means d' om k (zero_of k)) (fun d' => means d' om e (zero_of e)) l got with
    | Gives w => v = w /\ inside h [] fs u' /\ grows u u'
    | Wrong err => cu_fatal u' = Some err
    | Odd => True
    end.
  Proof.
    induction l as [|kd|kd d l IHl] using two_by_two; intros g h fs got u v u' Hi H; [| exact I|];
      destruct (while_step _ _ _ _ _ _ _ _ _ Hi H) as (g' & -> & H'); cbn [andb] in H'.
    - injection H' as -> ->. cbn. split; [reflexivity|]. split; [exact Hi|apply grows_refl].
    - destruct H' as (a1 & u1 & H1 & H2). apply bind_done in H1 as (zk & uz & E1 & H1).
      destruct (zero_run _ _ _ _ Hkk E1) as [[= -> ->] Hsk]. apply bind_done in H1 as (ze & uz & E2 & H1).
      destruct (zero_run _ _ _ _ Hke E2) as [[= -> ->] Hse]. apply bind_done in H1 as (key & uk & E3 & H1).
      apply bind_done in H1 as (w & uw & E4 & E5). cbn [crun] in E5. injection E5 as <- <-.
      pose proof (inside_ready _ _ _ _ _ Hi) as Hr0.
      pose proof (IH kd om k _ _ _ _ _ Hsk Hkk Hnk Hr0 E3) as [Hr1 _].
      cbn [map_of]. destruct (means kd om k (zero_of k)) as [key'|err|]; cbn [and_then]; [|eapply fatal_same; [exact H2|]; eapply fatal_same; [exact E4|exact Hr1]|exact I].
      destruct Hr1 as [-> Hp1]. pose proof (passed_ready _ _ _ _ _ _ Hp1 (proj2 (proj2 Hr0))) as Hr2.
      pose proof (IH d om e _ _ _ _ _ Hse Hke Hne Hr2 E4) as [Hr3 _].
      destruct (means d om e (zero_of e)) as [w'|err|]; cbn [and_then]; [|eapply fatal_same; [exact H2|exact Hr3]|exact I].
      destruct Hr3 as [-> Hp2]. pose proof (passed_trans _ _ _ _ _ _ _ Hp1 Hp2) as Hp.
      specialize (IHl _ _ _ _ _ _ _ (inside_step _ _ _ _ _ _ Hi Hp) H2).
      destruct (map_of _ _ _ _); auto. destruct IHl as (G1 & G2 & G3). split; [exact G1|]. split; [exact G2|].
      eapply grows_trans; [apply Hp|exact G3].
  Qed.
  End Map.

  Lemma field_no_text i fs j d : nth_error tb i = Some fs -> nth_error fs j = Some d -> no_text (fl_type d) = true.
  Proof.
    intros H1 H2. unfold no_texts in Htexts. rewrite Forall_forall in Htexts. specialize (Htexts _ (nth_error_In _ _ H1)).
    rewrite Forall_forall in Htexts. apply Htexts. eapply nth_error_In; exact H2.
  Qed.

  Lemma struct_fields i got : shaped tb (TyStruct i) (GoStruct got) -> Forall2 (fun d v => shaped tb (fl_type d) v) (fields_of tb i) got.
  Proof. intro H. inversion H; subst; [assumption|contradiction]. Qed.

  Section Struct.
  Context (f : nat) (IH : all_right f) (i : nat) (fs0 : list field) (Hfs : nth_error tb i = Some fs0).
  Lemma struct_loop : forall l g h fs got u v u', inside h l fs u -> shaped tb (TyStruct i) (GoStruct got) ->
    run (while g h (fun _ => true)
                  (fun s =>
                     Call DString (fun key =>
                     Call DTryNull (fun a =>
                       if yes a then Ret s
                       else match case_of (txt key) (fields_of tb i) 0 with
                            | Some (j, d) =>
                                bind (of_option (nth_error (elems s) j)) (fun z =>
                                bind (dec f (omitempty || fl_omitempty d) (fl_type d) z) (fun v =>
                                Ret (GoStruct (set_nth (elems s) j v))))
                            | None =>
                                if strict then AddErr (Some (RUser 1)) (Ret s)
                                else Call DSkip (fun _ => Ret s)
                            end))) (GoStruct got)) u = Done (v, u') ->
    match struct_of strict (fun d' f => means d' (omitempty || fl_omitempty f) (fl_type f)) (nth i tb []) l got with
    | Gives w => v = w /\ inside h [] fs u' /\ grows u u' /\ shaped tb (TyStruct i) w
    | Wrong err => cu_fatal u' = Some err
    | Odd => True
    end.
  Proof.
    induction l as [|kd|kd d l IHl] using two_by_two; intros g h fs got u v u' Hi Hsh H; [| exact I|];
      destruct (while_step _ _ _ _ _ _ _ _ _ Hi H) as (g' & -> & H'); cbn [andb] in H'.
    - injection H' as -> ->. cbn. split; [reflexivity|]. split; [exact Hi|]. split; [apply grows_refl|exact Hsh].
    - destruct H' as (s1 & u1 & H1 & H2). cbn [crun opening usual orb negb] in H1.
      pose proof (inside_ready _ _ _ _ _ Hi) as Hr0. rewrite (string_call (Nd := Nd) o _ _ _ Hr0) in H1.
      cbn [struct_of].
      destruct kd as [s|s|l0|l0]; cbn [fst snd] in H1.
      2: {
        pose proof (passed_here _ _ _ Hr0) as Hp1. pose proof (passed_ready _ _ _ _ _ _ Hp1 (proj2 (proj2 Hr0))) as Hr1.
        rewrite (try_null (Nd := Nd) o _ _ _ Hr1) in H1.
        assert (Hnext : forall u1, passed (at_place None ((h, d :: l) :: fs) u) ((h, l) :: fs) u1 -> forall got s1, s1 = GoStruct got ->
          shaped tb (TyStruct i) s1 -> run (while g' h (fun _ => true)
                  (fun s =>
                     Call DString (fun key =>
                     Call DTryNull (fun a =>
                       if yes a then Ret s
                       else match case_of (txt key) (fields_of tb i) 0 with
                            | Some (j, d) =>
                                bind (of_option (nth_error (elems s) j)) (fun z =>
                                bind (dec f (omitempty || fl_omitempty d) (fl_type d) z) (fun v =>
                                Ret (GoStruct (set_nth (elems s) j v))))
                            | None =>
                                if strict then AddErr (Some (RUser 1)) (Ret s)
                                else Call DSkip (fun _ => Ret s)
                            end))) s1) u1 = Done (v, u') ->
          match struct_of strict (fun d' f => means d' (omitempty || fl_omitempty f) (fl_type f)) (nth i tb []) l got with
          | Gives w => v = w /\ inside h [] fs u' /\ grows u u' /\ shaped tb (TyStruct i) w
          | Wrong err => cu_fatal u' = Some err
          | Odd => True
          end).
        { intros u2 Hp2 got2 s2 -> Hs2 Hw. pose proof (passed_trans _ _ _ _ _ _ _ Hp1 Hp2) as Hp.
          specialize (IHl _ _ _ _ _ _ _ (inside_step _ _ _ _ _ _ Hi Hp) Hs2 Hw).
          destruct (struct_of _ _ _ _ _); auto. destruct IHl as (G1 & G2 & G3 & G4). split; [exact G1|]. split; [exact G2|]. split; [|exact G4].
          eapply grows_trans; [apply Hp|exact G3]. }
        destruct (null_doc d) eqn:En; cbn [fst snd yes] in H1.
        - cbn [crun] in H1. injection H1 as <- <-. eapply Hnext; [|reflexivity|exact Hsh|exact H2]. eapply passed_here. exact Hr1.
        - cbn [txt] in H1. rewrite position_case in H1. unfold fields_of in H1.
          assert (Ei : nth i tb [] = fs0) by (apply nth_error_nth; exact Hfs).
          destruct (position s (nth i tb [])) as [j|] eqn:Ej; cbn [option_map Nat.add] in H1.
          + pose proof (position_lt _ _ _ Ej) as Hj. rewrite Ei in *.
            set (fd := nth j fs0 (mkField [] TyString true false)) in *.
            assert (Efd : nth_error fs0 j = Some fd) by (apply nth_error_nth'; exact Hj).
            pose proof (struct_fields _ _ Hsh) as Hall. unfold fields_of in Hall. rewrite Ei in Hall.
            destruct (all2_nth _ _ _ Hall j fd Efd) as (z & Ez & Hsz). cbn [elems] in H1. rewrite Ez in H1. cbn [of_option bind] in H1.
            apply bind_done in H1 as (w & uw & E1 & E2). cbn [crun] in E2. injection E2 as <- <-.
            rewrite (nth_error_nth _ _ GoNil Ez).
            assert (Hkd : known tb (fl_type fd)).
            { destruct (Htb i _ Hfs) as [_ Hknown]. rewrite Forall_forall in Hknown. apply Hknown. eapply nth_error_In. exact Efd. }
            pose proof (IH d _ _ _ _ _ _ _ Hsz Hkd (field_no_text _ _ _ _ Hfs Efd) (ready_held _ _ _ Hr1) E1) as [Hr2 Hv].
            destruct (means d (omitempty || fl_omitempty fd) (fl_type fd) z) as [w'|err|]; cbn [and_then]; [|eapply fatal_same; [exact H2|exact Hr2]|exact I].
            destruct Hr2 as [-> Hp2]. specialize (Hv _ eq_refl).
            assert (Hlen : j < length got) by (apply nth_error_Some; congruence).
            rewrite <- (replace_set got j w' Hlen).
            eapply Hnext; [|reflexivity| |exact H2].
            * eapply passed_from; [|exact Hp2]. reflexivity.
            * apply sh_struct. unfold fields_of. rewrite Ei. apply set_nth_all2; [exact Hall|]. intros a Ha. congruence.
          + destruct strict.
            * cbn [crun cursor_call snd] in H1. destruct Hr1 as ((Hf1 & _) & _). cbn in Hf1. cbn [at_place cu_fatal] in H1. rewrite Hf1 in H1.
              injection H1 as <- <-. eapply fatal_same; [exact H2|reflexivity].
            * cbn [crun opening usual orb negb] in H1. pose proof (ready_held _ _ _ Hr1) as Hr2.
              assert (E : ccall DSkip (at_place (Some d) ((h, l) :: fs) (at_place None ((h, d :: l) :: fs) u)) =
                          (AUnit, at_place None ((h, l) :: fs) (at_place (Some d) ((h, l) :: fs) (at_place None ((h, d :: l) :: fs) u)))).
              { destruct Hr2 as ((Hf2 & _) & Hn2 & _). unfold cursor_call. rewrite Hf2, Hn2. reflexivity. }
              rewrite E in H1. cbn [fst snd] in H1. injection H1 as <- <-. eapply Hnext; [|reflexivity|exact Hsh|exact H2].
              eapply passed_from; [|eapply passed_here; exact Hr2]. reflexivity. }
      all: apply (fatal_same (Nd := Nd) o _ (RDeny EString)) in H1; [eapply fatal_same; [exact H2|exact H1]|].
      all: cbn [cursor_call snd failed cu_fatal numbered opening]; reflexivity.
  Qed.
  End Struct.

  Lemma nil_shaped t : nilable t = true -> shaped tb t GoNil.
  Proof. destruct t; try discriminate; intros _; try (apply sh_other; exact I). apply sh_nil. Qed.

  Ltac scal Hr H := split; [eapply scalar_call; try exact H; try exact Hr; try reflexivity; try (intros; reflexivity); exact I|intros; apply sh_other; exact I].

  Lemma decode_right f : all_right f.
  Proof.
    induction f as [|f IH]; intros d om t cur u fs v u' Hsh Hk Hn Hr H; [discriminate|]. destruct t; cbn [decode] in H; try discriminate Hn.
    - (* string *)
      cbn [crun opening usual orb negb] in H. rewrite (string_call (Nd := Nd) o _ _ _ Hr) in H. split; [|intros; apply sh_other; exact I].
      destruct d; cbn [fst snd txt] in H; injection H as <- <-; try reflexivity. split; [reflexivity|]. eapply passed_here; exact Hr.
    - replace (means d om TyBool cur) with (as_scalar EBoolean sc_is_boolean sc_to_boolean GoBool d) by (destruct d; reflexivity).
      apply (scalar_call (Nd := Nd) o DBoolean EBoolean sc_is_boolean sc_to_boolean GoBool ABool yes u d fs v u') in H; auto;
        try reflexivity; try (split; [exact H|intros; apply sh_other; exact I]).
    - replace (means d om (TyInt bits) cur) with (as_scalar EInteger sc_is_integer (fun s => sc_to_integer s bits) GoInt d) by (destruct d; reflexivity).
      apply (scalar_call (Nd := Nd) o (DInteger bits) EInteger sc_is_integer (fun s => sc_to_integer s bits) GoInt AInt int u d fs v u') in H; auto;
        try reflexivity; try (split; [exact H|intros; apply sh_other; exact I]).
    - replace (means d om (TyUint bits) cur) with (as_scalar EInteger sc_is_integer (fun s => sc_to_unsigned s bits) GoUint d) by (destruct d; reflexivity).
      apply (scalar_call (Nd := Nd) o (DUnsigned bits) EInteger sc_is_integer (fun s => sc_to_unsigned s bits) GoUint AUint uint u d fs v u') in H; auto;
        try reflexivity; try (split; [exact H|intros; apply sh_other; exact I]).
    - replace (means d om (TyFloat bits) cur) with (as_scalar EFloat sc_is_float (fun s => o_float o s bits) GoFloat d) by (destruct d; reflexivity).
      apply (scalar_call (Nd := Nd) o (DFloat bits) EFloat sc_is_float (fun s => o_float o s bits) GoFloat AFloat flo u d fs v u') in H; auto;
        try reflexivity; try (split; [exact H|intros; apply sh_other; exact I]).
    - (* bytes *)
      pose proof (null_or_right _ _ _ _ _ _ Hr H) as H'. destruct (null_doc d) eqn:En.
      + injection H' as -> ->. destruct d; try discriminate En. apply right_null with (d := YNull s); [exact Hr|apply sh_other; exact I].
      + destruct H' as [H1 Hr1]. cbn [crun opening usual orb negb] in H1. rewrite (string_call (Nd := Nd) o _ _ _ Hr1) in H1.
        apply right_held with (d := d). split; [|intros; apply sh_other; exact I].
        destruct d; try discriminate En; cbn [fst snd txt] in H1; injection H1 as <- <-; try reflexivity. split; [reflexivity|].
        eapply passed_here. exact Hr1.
    - (* slice *)
      pose proof (null_or_right _ _ _ _ _ _ Hr H) as H'. destruct (null_doc d) eqn:En.
      + injection H' as -> ->. destruct d; try discriminate En. apply right_null with (d := YNull s); [exact Hr|apply sh_other; exact I].
      + destruct H' as [H1 Hr1]. apply right_held with (d := d). split; [|intros; apply sh_other; exact I].
        cbn [crun opening] in H1. rewrite (open_call (Nd := Nd) o DSequence _ _ _ Hr1 eq_refl) in H1.
        destruct d as [s|s|l|l]; try discriminate En.
        2: {
          pose proof (open_inside DSequence (length l) l _ _ _ Hr1 eq_refl) as Hi. set (u1 := numbered _ _ _) in *.
          destruct (inside_size _ _ _ _ Hi) as [n Hsz]. rewrite Hsz in H1. apply bind_done in H1 as (got & u2 & E1 & E2).
          cbn [crun] in E2. injection E2 as <- <-.
          pose proof (slice_loop f IH om t Hk Hn _ _ _ _ _ _ _ _ Hi E1) as Hl.
          change (means (YSeq l) om (TySlice t) cur) with (slice_of (fun d' => means d' om t (zero_of t)) l []).
          destruct (slice_of _ _ _); [|exact Hl|exact I]. destruct Hl as (G1 & G2 & G3). split; [exact G1|].
          eapply inside_done; [|apply le_n|exact G2]. eapply grows_trans; [|exact G3]. apply open_grows. }
        all: set (u1 := numbered _ _ _) in H1; assert (Hf : cu_fatal u1 = Some (RDeny ESequence)) by reflexivity;
          destruct (nth_error (cu_sizes u1) _); [|discriminate]; apply bind_done in H1 as (got & u2 & E1 & E2);
          cbn [crun] in E2; injection E2 as <- <-; exact (fatal_same _ _ _ _ _ _ E1 Hf).
    - (* array *)
      pose proof (null_or_right _ _ _ _ _ _ Hr H) as H'. destruct (null_doc d) eqn:En.
      + injection H' as -> ->. destruct d; try discriminate En. apply right_null with (d := YNull s); [exact Hr|exact Hsh].
      + destruct H' as [H1 Hr1]. apply right_held with (d := d).
        cbn [crun opening] in H1. rewrite (open_call (Nd := Nd) o DSequence _ _ _ Hr1 eq_refl) in H1.
        destruct d as [s|s|l|l]; try discriminate En.
        2: {
          pose proof (open_inside DSequence (length l) l _ _ _ Hr1 eq_refl) as Hi. set (u1 := numbered _ _ _) in *.
          apply bind_done in H1 as (got & u2 & E1 & E2). cbn [crun] in E2. injection E2 as <- <-.
          inversion Hsh as [? zs Hzs E0 E3| | | |]; subst; [|contradiction]. cbn [elems] in E1.
          pose proof (array_loop f IH om t Hk Hn (length zs) l _ _ _ [] zs _ _ _ Hi eq_refl Hzs E1) as Hl.
          change (means (YSeq l) om (TyArray (length zs) t) (GoArray zs)) with (array_of (fun d' => means d' om t) l [] zs).
          destruct (array_of _ _ _ _); [|split; [exact Hl|discriminate]|split; [exact I|discriminate]].
          destruct Hl as (G1 & G2 & G3 & G4). split.
          - split; [exact G1|]. eapply inside_done; [|apply le_n|exact G2]. eapply grows_trans; [|exact G3]. apply open_grows.
          - intros w _. rewrite G1. exact G4. }
        all: set (u1 := numbered _ _ _) in H1; assert (Hf : cu_fatal u1 = Some (RDeny ESequence)) by reflexivity;
          apply bind_done in H1 as (got & u2 & E1 & E2);
          cbn [crun] in E2; injection E2 as <- <-; (split; [exact (fatal_same _ _ _ _ _ _ E1 Hf)|discriminate]).
    - (* pointer *)
      pose proof (null_or_right _ _ _ _ _ _ Hr H) as H'. destruct (null_doc d) eqn:En.
      + injection H' as -> ->. destruct d; try discriminate En. apply right_null with (d := YNull s); [exact Hr|apply sh_nil].
      + destruct H' as [H1 Hr1]. apply right_held with (d := d). apply bind_done in H1 as (z & u1 & E1 & E2).
        assert (Hz1 : u1 = at_place (Some d) fs u /\ z = match cur with GoPtr v => v | _ => zero_of t end /\ shaped tb t z).
        { inversion Hsh; subst; try contradiction.
          - cbn [crun] in E1. injection E1 as <- <-. auto.
          - destruct (zero_run f t _ _ Hk E1) as [E0 Hs]. injection E0 as -> ->. auto. }
        destruct Hz1 as (-> & -> & Hs). apply bind_done in E2 as (w & u2 & E2 & E3). cbn [crun] in E3. injection E3 as <- <-.
        pose proof (IH d om t _ _ _ _ _ Hs Hk Hn Hr1 E2) as [Hw Hv].
        replace (means d om (TyPtr t) cur) with
          (and_then (means d om t (match cur with GoPtr v => v | _ => zero_of t end)) (fun v => Gives (GoPtr v))) by (destruct d; discriminate En || reflexivity).
        destruct (means d om t _) as [w'|err|]; cbn [and_then]; [|split; [exact Hw|discriminate]|split; [exact I|discriminate]].
        destruct Hw as [-> Hp]. split; [split; [reflexivity|exact Hp]|]. intros. apply sh_ptr. apply (Hv w'). reflexivity.
    - (* map *)
      destruct Hk as [Hk1 Hk2]. cbn [no_text] in Hn. apply andb_true_iff in Hn as [Hn1 Hn2].
      pose proof (null_or_right _ _ _ _ _ _ Hr H) as H'. destruct (null_doc d) eqn:En.
      + injection H' as -> ->. destruct d; try discriminate En. apply right_null with (d := YNull s); [exact Hr|apply sh_other; exact I].
      + destruct H' as [H1 Hr1]. apply right_held with (d := d). split; [|intros; apply sh_other; exact I].
        cbn [crun opening] in H1. rewrite (open_call (Nd := Nd) o DMapping _ _ _ Hr1 eq_refl) in H1.
        destruct d as [s|s|l|l]; try discriminate En.
        3: {
          pose proof (open_inside DMapping (length l) l _ _ _ Hr1 eq_refl) as Hi. set (u1 := numbered _ _ _) in *.
          assert (Hsz : nth_error (cu_sizes u1) (length (cu_sizes (at_place (Some (YMap l)) fs u))) = Some (length l)).
          { unfold u1, numbered. cbn [opening cu_sizes at_place]. rewrite nth_error_app2, Nat.sub_diag by lia. reflexivity. }
          rewrite Hsz in H1. destruct l as [|d0 l].
          - destruct (while_step _ _ _ _ _ _ _ _ _ Hi H1) as (g' & _ & H'). cbn [andb] in H'. injection H' as -> ->.
            change (means (YMap []) om (TyMap t1 t2) cur) with (Gives (if om then GoNil else GoMap [])).
            split; [destruct om; reflexivity|]. exact (inside_done _ _ _ _ (open_grows DMapping _ _ _ _) (le_n _) Hi).
          - replace (om && (length (d0 :: l) =? 0)) with false in H1 by (destruct om; reflexivity).
            pose proof (map_loop f IH om t1 t2 Hk1 Hk2 Hn1 Hn2 _ _ _ _ _ _ _ _ Hi H1) as Hl.
            change (means (YMap (d0 :: l)) om (TyMap t1 t2) cur) with
              (map_of (fun d' => means d' om t1 (zero_of t1)) (fun d' => means d' om t2 (zero_of t2)) (d0 :: l) []).
            destruct (map_of _ _ _ _); [|exact Hl|exact I]. destruct Hl as (G1 & G2 & G3). split; [exact G1|].
            eapply inside_done; [|apply le_n|exact G2]. eapply grows_trans; [|exact G3]. apply open_grows. }
        all: set (u1 := numbered _ _ _) in H1; assert (Hf : cu_fatal u1 = Some (RDeny EMapping)) by reflexivity;
          destruct (nth_error (cu_sizes u1) _); [|discriminate]; exact (fatal_same _ _ _ _ _ _ H1 Hf).
    - (* struct *)
      destruct (nth_error tb i) as [fs0|] eqn:Ei; [|apply nth_error_None in Ei; cbn in Hk; lia].
      destruct d as [s|s|l|l]; [split; [exact I|discriminate]|..].
      all: cbn [crun opening usual orb negb] in H; rewrite (try_null (Nd := Nd) o _ _ _ Hr) in H; cbn [null_doc fst snd yes bind] in H.
      all: pose proof (ready_held _ _ _ Hr) as Hr1; match goal with |- right (means ?dd _ _ _) _ _ _ _ _ => apply right_held with (d := dd) end.
      all: cbn [crun opening] in H; rewrite (open_call (Nd := Nd) o DMapping _ _ _ Hr1 eq_refl) in H; set (u1 := numbered _ _ _) in H.
      1,2: assert (Hf : cu_fatal u1 = Some (RDeny EMapping)) by reflexivity;
        (split; [exact (fatal_same _ _ _ _ _ _ H Hf)|discriminate]).
      pose proof (open_inside DMapping (length l) l _ _ _ Hr1 eq_refl) as Hi. fold u1 in Hi.
      inversion Hsh as [|? vs Hvs E0 E3| | |]; subst; [|contradiction].
      pose proof (struct_loop f IH i fs0 Ei l _ _ _ _ _ _ _ Hi Hsh H) as Hl.
      change (means (YMap l) om (TyStruct i) (GoStruct vs)) with
        (struct_of strict (fun d' f => means d' (omitempty || fl_omitempty f) (fl_type f)) (nth i tb []) l vs).
      destruct (struct_of _ _ _ _ _); [|split; [exact Hl|discriminate]|split; [exact I|discriminate]].
      destruct Hl as (G1 & G2 & G3 & G4). split.
      + split; [exact G1|]. eapply inside_done; [|apply le_n|exact G2]. eapply grows_trans; [|exact G3]. apply open_grows.
      + intros w _. rewrite G1. exact G4.
  Qed.

  Theorem top_right f t cur u d fs v u' : shaped tb t cur -> known tb t -> no_text t = true -> ready u d fs ->
    run (decode_top x tb omitempty strict f t cur) u = Done (v, u') ->
    reads_as (meaning_of x tb omitempty strict o zero_of t cur d) u fs v u'.
  Proof.
    intros Hsh Hk Hn Hr H.
    assert (Hs : (exists i, t = TyStruct i) \/
      (decode_top (Nd := Nd) x tb omitempty strict f t cur = Call DTryNull (fun a => if yes a then Ret cur else dec f omitempty t cur)
       /\ meaning_of x tb omitempty strict o zero_of t cur d = if null_doc d then Gives cur else means d omitempty t cur)).
    { destruct t; try (right; split; [reflexivity|destruct d; reflexivity]). left. eexists; reflexivity. }
    destruct Hs as [[i ->]|[E1 E2]].
    - apply (decode_right f d omitempty (TyStruct i) cur u fs v u'); auto.
    - rewrite E1 in H. rewrite E2. pose proof (null_or_right _ _ _ _ _ _ Hr H) as H'. destruct (null_doc d).
      + injection H' as -> ->. split; [reflexivity|]. eapply passed_here; exact Hr.
      + destruct H' as [H1 Hr1]. pose proof (right_held _ _ _ _ _ _ _ (decode_right f d omitempty t cur _ fs v u' Hsh Hk Hn Hr1 H1)) as [G _]. exact G.
  Qed.
End Main.

(** The generated function for goyaml: it returns, with the meaning of the document or with its error. *)
Theorem g_decode_means x tb omitempty strict o marshal zero_of t z g n d :
  sensible x tb -> no_texts tb -> zeros x tb zero_of -> known tb t -> no_text t = true -> typed tb t z -> unfolds g n d ->
  meaning_of x tb omitempty strict o zero_of t z d <> Odd ->
  exists v r hs F, (forall f, F <= f -> g_decode x tb omitempty strict o marshal false f t z g n = Done (v, (r, hs)))
  /\ (forall f, do_call (g_engine marshal o) o f DError r =
       Done (AErrors (match meaning_of x tb omitempty strict o zero_of t z d with Wrong e => [e] | _ => [] end), r))
  /\ (forall w, meaning_of x tb omitempty strict o zero_of t z d = Gives w -> v = w).
Proof.
  intros H1 Htx Hz Hk Hn Ht Hu Hodd.
  assert (Hok : ok (cursor_start false d)).
  { split; [reflexivity|]. split; [cbn; congruence|constructor]. }
  destruct (top_ends (Nd := gref) o x tb omitempty strict H1 t z (cursor_start false d) Hk Ht Hok) as (v & u' & (F & HF) & _).
  assert (Hr : ready (cursor_start false d) d []) by (repeat split; constructor).
  pose proof (top_right o x tb omitempty strict zero_of H1 Htx Hz F t z _ d [] v u' (typed_shaped tb z t Ht) Hk Hn Hr (HF F (le_n _))) as Hm.
  destruct (run_sim o marshal g (decode_top x tb omitempty strict F t z) _ v u' (HF F (le_n _)) (r_new g false n) [] (sim_start o marshal g false n d Hu))
    as (r' & hs' & F2 & Hsim & HF2).
  destruct (denies_same o _ _ _ _ (HF F (le_n _)) eq_refl) as [Hd _].
  assert (Hf : match meaning_of x tb omitempty strict o zero_of t z d with
               | Gives w => v = w /\ cu_fatal u' = None | Wrong e => cu_fatal u' = Some e | Odd => True end).
  { destruct (meaning_of _ _ _ _ _ _ _ _ _); auto. destruct Hm as [-> Hp]. split; [reflexivity|apply Hp]. }
  exists v, r', hs', (max F F2). split; [|split].
  - intros f Hle. unfold g_decode. eapply ple_interp; [|apply HF2; lia]. apply decode_top_mono. lia.
  - intro f. destruct Hsim as (S1 & S2 & S3 & _). cbn [do_call]. rewrite S2, S3, Hd, app_nil_r.
    destruct (meaning_of _ _ _ _ _ _ _ _ _); [destruct Hf as [_ ->]; reflexivity|rewrite Hf; reflexivity|congruence].
  - intros w Hw. rewrite Hw in Hf. apply Hf.
Qed.
