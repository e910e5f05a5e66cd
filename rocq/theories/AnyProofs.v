(** The value builders of both engines compute the value of the document their nodes stand for. *)
From Verif Require Import Base Schema Values Writer AnyBuilder ReadSpec DocSpec.
Local Open Scope nat_scope.

Definition oenv := list (text * doc).
Fixpoint oget (a : text) (e : oenv) : option doc :=
  match e with [] => None | (b, d) :: e' => if text_eqb a b then Some d else oget a e' end.

(** What the builders compute: an alias is evaluated anew at each use, an anchor is bound before its
    content is evaluated, and below a merge key mappings are collected for merging. *)
Section Eval.
  Context (o : oracle).
  Inductive oev : bool -> oenv -> doc -> (value + list (text * value)) -> oenv -> Prop :=
  | oe_null em e : oev em e DNull (inl VNil) e
  | oe_text em e s v : scalar_value o s = Some v -> oev em e (DText s) (inl v) e
  | oe_seq em e l vs e' : oevs em e l vs e' -> oev em e (DSeq l) (inl (VSeq vs)) e'
  | oe_map em e l m e' : oents em e [] l m e' -> oev em e (DMap l) (if em then inr m else inl (VMap m)) e'
  | oe_anchor em e a d r e' : oev em ((a, d) :: e) d r e' -> oev em e (DAnchor a d) r e'
  | oe_alias em e a d r e' : oget a e = Some d -> oev em e d r e' -> oev em e (DAlias a) r e'
  with oevs : bool -> oenv -> list doc -> list value -> oenv -> Prop :=
  | oes_nil em e : oevs em e [] [] e
  | oes_cons em e d v e1 l vs e2 : oev em e d (inl v) e1 -> oevs em e1 l vs e2 -> oevs em e (d :: l) (v :: vs) e2
  with oents : bool -> oenv -> list (text * value) -> list (doc * doc) -> list (text * value) -> oenv -> Prop :=
  | oen_nil em e m : oents em e m [] m e
  | oen_cons em e m k d r e1 l m' e2 : oev (em || text_eqb k merge_text) e d r e1 ->
      oents em e1 (match r with inl v => map_set k v m | inr mm => merge_maps m mm end) l m' e2 ->
      oents em e m ((DText k, d) :: l) m' e2.
End Eval.
Scheme oev_mut := Induction for oev Sort Prop
  with oevs_mut := Induction for oevs Sort Prop
  with oents_mut := Induction for oents Sort Prop.
Combined Scheme oev_all from oev_mut, oevs_mut, oents_mut.

Section AnyP.
  Context {Nd K : Type} (ac : aaccess Nd K) (o : oracle).
  Context (Kok : K -> Prop) (lookup : K -> text -> Nd + text).

  (** properties without effect on the anchors, properties that define an anchor *)
  Context (silent : Nd -> Prop) (naming : text -> Nd -> Prop).
  Hypothesis H_silent : forall p c a, silent p -> Kok (ab_keep a) ->
    exists k', Kok (ac_bind ac c k') /\ (forall b, lookup (ac_bind ac c k') b = lookup (ab_keep a) b)
      /\ exists F, forall f, F <= f -> any_visit ac o f p a = Done (ab_set_keep k' a).
  Hypothesis H_naming : forall name p c a, naming name p -> Kok (ab_keep a) ->
    exists k', Kok (ac_bind ac c k')
      /\ (forall b, lookup (ac_bind ac c k') b = if text_eqb b name then inl c else lookup (ab_keep a) b)
      /\ exists F, forall f, F <= f -> any_visit ac o f p a = Done (ab_set_keep k' a).

  Definition views (n : Nd) (v : aview Nd) : Prop := forall k, Kok k -> ac_view ac k n = v.

  Inductive arep : Nd -> doc -> Prop :=
  | ar_null n : views n AVNullNode \/ (exists s, views n (AVScalar s true)) -> arep n DNull
  | ar_text n s : views n (AVScalar s false) -> arep n (DText s)
  | ar_seq n ns l : views n (AVSeq ns) -> areps ns l -> arep n (DSeq l)
  | ar_map n es l : views n (AVMap es) -> aents es l -> arep n (DMap l)
  | ar_wrap n p c d : views n (AVContent p c) -> silent p -> arep c d -> arep n d
  | ar_anchor n p c a d : views n (AVContent p c) -> naming a p -> arep c d -> arep n (DAnchor a d)
  | ar_alias n a : (forall k, Kok k -> ac_view ac k n = AVAlias (lookup k a)) -> arep n (DAlias a)
  | ar_into n m d : views n (AVAlias (inl m)) -> arep m d -> arep n d
  with areps : list Nd -> list doc -> Prop :=
  | ars_nil : areps [] []
  | ars_cons n ns d l : arep n d -> areps ns l -> areps (n :: ns) (d :: l)
  with aents : list (aentry Nd) -> list (doc * doc) -> Prop :=
  | aes_nil : aents [] []
  | aes_whole n k v es kd vd l : views n (AVEntry k v) -> arep k kd -> arep v vd -> aents es l ->
      aents (AWhole n :: es) ((kd, vd) :: l)
  | aes_pair k v es kd vd l : arep k kd -> arep v vd -> aents es l ->
      aents (APair k (Some v) :: es) ((kd, vd) :: l).

  Definition kenv (e : oenv) (k : K) : Prop :=
    Kok k /\ forall a d, oget a e = Some d -> exists m, lookup k a = inl m /\ arep m d.

  (** the parts of any_visit as functions *)
  Definition av_pair (f : nat) (k : Nd) (v : option Nd) (a : abuilder K) : outcome (abuilder K) :=
    obind (any_visit ac o f k (ab_set_flags true (ab_extract_merge a) a)) (fun a1 =>
    obind (match v with
           | Some v => any_visit ac o f v (ab_set_flags false (if text_eqb (ab_string a1) merge_key then true else ab_extract_merge a1) a1)
           | None => Done (visit_scalar o [] true (ab_set_flags false (if text_eqb (ab_string a1) merge_key then true else ab_extract_merge a1) a1))
           end) (fun a2 =>
    Done (ab_set_flags (ab_extract_string a) (ab_extract_merge a) (ab_set_string (ab_string a1) a2)))).
  Definition av_seq (f : nat) := fix seq (l : list Nd) (acc : list value) (a : abuilder K) : outcome (list value * abuilder K) :=
    match l with
    | [] => Done (acc, a)
    | x :: l' => obind (any_visit ac o f x a) (fun a => seq l' (if ab_ok a then acc ++ [ab_value a] else acc) a)
    end.
  Definition av_entries (f : nat) := fix entries (l : list (aentry Nd)) (m : list (text * value)) (a : abuilder K)
      : outcome (list (text * value) * abuilder K) :=
    match l with
    | [] => Done (m, a)
    | e :: l' =>
        obind (match e with AWhole x => any_visit ac o f x a | APair k v => av_pair f k v a end) (fun a =>
        let (m, a) := after_entry m a in entries l' m a)
    end.

  Lemma any_visit_S f n a : any_visit ac o (S f) n a =
    match ac_view ac (ab_keep a) n with
    | AVSkip => Done a
    | AVStream => Done (ab_error RStreamInAny a)
    | AVAnchor name => Done (ab_set_keep (ac_store ac name (ab_keep a)) a)
    | AVAlias (inl m) => any_visit ac o f m a
    | AVAlias (inr name) => Done (ab_error (RAlias name) a)
    | AVScalar s null => Done (visit_scalar o s null a)
    | AVNullNode =>
        Done (if ab_extract_string a then ab_set_string [110%N; 117%N; 108%N; 108%N] a else ab_set_value VNil a)
    | AVSeq l =>
        obind (av_seq f l [] (ab_set_flags false (ab_extract_merge a) a)) (fun r =>
        Done (finish_seq o (ab_extract_string a) (fst r) (snd r)))
    | AVMap l => obind (av_entries f l [] a) (fun r => Done (finish_map o (fst r) (snd r)))
    | AVEntry k v => av_pair f k (Some v) a
    | AVProps anchor => any_visit ac o f anchor a
    | AVContent props content =>
        obind (any_visit ac o f props a) (fun a =>
        any_visit ac o f content (ab_set_keep (ac_bind ac content (ab_keep a)) a))
    | AVInto m => any_visit ac o f m a
    | AVPanic => Panics
    end.
  Proof. reflexivity. Qed.

  Definition runs (n : Nd) (a a' : abuilder K) : Prop :=
    exists F, forall f, F <= f -> any_visit ac o f n a = Done a'.

  (** the builder is about to evaluate a value *)
  Definition fresh (em : bool) (e : oenv) (a : abuilder K) : Prop :=
    ab_extract_string a = false /\ ab_extract_merge a = em /\ ab_merge a = None /\ ab_errors a = [] /\ kenv e (ab_keep a).
  Definition result (em : bool) (e : oenv) (r : value + list (text * value)) (a : abuilder K) : Prop :=
    ab_extract_string a = false /\ ab_extract_merge a = em /\ ab_errors a = [] /\ kenv e (ab_keep a)
    /\ match r with inl v => ab_value a = v /\ ab_merge a = None | inr m => ab_merge a = Some m end.

  Lemma scalar_runs s v (a : abuilder K) : scalar_value o s = Some v -> ab_extract_string a = false ->
    visit_scalar o s false a = ab_set_value v a.
  Proof.
    unfold scalar_value, visit_scalar, from_text, sc_is_timestamp. intros H ->.
    destruct (o_time o s); [congruence|].
    destruct (sc_is_unsigned s). { destruct (sc_to_unsigned s 64); cbn in H; congruence. }
    destruct (sc_is_integer s). { destruct (sc_to_integer s 64); cbn in H; congruence. }
    destruct (sc_is_float s). { destruct (o_float o s 64); cbn in H; congruence. }
    unfold sc_is_boolean, sc_to_boolean in *.
    destruct (try_get_boolean s); congruence.
  Qed.

  Lemma kenv_shift e k k' : kenv e k -> Kok k' -> (forall b, lookup k' b = lookup k b) -> kenv e k'.
  Proof.
    intros [H1 H2] Hk Hl. split; [exact Hk|]. intros a d Ha. destruct (H2 a d Ha) as (m & Hm & Hr).
    exists m. rewrite Hl. auto.
  Qed.
  Lemma kenv_bind e k k' a c d : kenv e k -> Kok k' -> arep c d ->
    (forall b, lookup k' b = if text_eqb b a then inl c else lookup k b) -> kenv ((a, d) :: e) k'.
  Proof.
    intros [H1 H2] Hk Hc Hl. split; [exact Hk|]. intros b x Hb. cbn in Hb. rewrite Hl.
    destruct (text_eqb b a); [injection Hb as <-; eauto|]. auto.
  Qed.

  (** evaluating a key *)
  Lemma key_runs n d : arep n d -> forall s e a, d = DText s -> kenv e (ab_keep a) -> ab_extract_string a = true ->
    exists k', kenv e k' /\ runs n a (ab_set_keep k' (ab_set_string s a)).
  Proof.
    induction 1 as [| n s0 Hv | | | n p c d Hv Hs Hc IH | | | n m d Hv Hm IH ]; intros s e ab Hd Hk Hes; try discriminate Hd.
    - injection Hd as <-. exists (ab_keep ab). split; [exact Hk|]. exists 1. intros f Hf. destruct f; [lia|].
      rewrite any_visit_S, Hv by apply Hk. unfold visit_scalar. rewrite Hes. destruct ab; reflexivity.
    - destruct (H_silent p c ab Hs (proj1 Hk)) as (k' & Hk' & Hl & F1 & HF1).
      destruct (IH s e (ab_set_keep (ac_bind ac c k') ab) Hd) as (k2 & Hk2 & F2 & HF2).
      + eapply kenv_shift; eauto.
      + exact Hes.
      + exists k2. split; [exact Hk2|]. exists (S (max F1 F2)). intros f Hf. destruct f; [lia|].
        rewrite any_visit_S, Hv by apply Hk. rewrite HF1 by lia. cbn [obind].
        change (ab_set_keep (ac_bind ac c (ab_keep (ab_set_keep k' ab))) (ab_set_keep k' ab))
          with (ab_set_keep (ac_bind ac c k') ab).
        rewrite HF2 by lia. reflexivity.
    - destruct (IH s e ab Hd Hk Hes) as (k2 & Hk2 & F2 & HF2).
      exists k2. split; [exact Hk2|]. exists (S F2). intros f Hf. destruct f; [lia|].
      rewrite any_visit_S, Hv by apply Hk. apply HF2. lia.
  Qed.

  (** unwrapping at value level *)
  Lemma step_wrap n p c e a : views n (AVContent p c) -> silent p -> kenv e (ab_keep a) ->
    exists k', kenv e k' /\ forall a', runs c (ab_set_keep k' a) a' -> runs n a a'.
  Proof.
    intros Hv Hs Hk. destruct (H_silent p c a Hs (proj1 Hk)) as (k' & Hk' & Hl & F1 & HF1).
    exists (ac_bind ac c k'). split; [eapply kenv_shift; eauto|].
    intros a' (F2 & HF2). exists (S (max F1 F2)). intros f Hf. destruct f; [lia|].
    rewrite any_visit_S, Hv by apply Hk. rewrite HF1 by lia. cbn [obind].
    change (ab_set_keep (ac_bind ac c (ab_keep (ab_set_keep k' a))) (ab_set_keep k' a))
      with (ab_set_keep (ac_bind ac c k') a).
    apply HF2. lia.
  Qed.
  Lemma step_anchor n p c name d e a : views n (AVContent p c) -> naming name p -> arep c d -> kenv e (ab_keep a) ->
    exists k', kenv ((name, d) :: e) k' /\ forall a', runs c (ab_set_keep k' a) a' -> runs n a a'.
  Proof.
    intros Hv Hs Hc Hk. destruct (H_naming name p c a Hs (proj1 Hk)) as (k' & Hk' & Hl & F1 & HF1).
    exists (ac_bind ac c k'). split; [eapply kenv_bind; eauto|].
    intros a' (F2 & HF2). exists (S (max F1 F2)). intros f Hf. destruct f; [lia|].
    rewrite any_visit_S, Hv by apply Hk. rewrite HF1 by lia. cbn [obind].
    change (ab_set_keep (ac_bind ac c (ab_keep (ab_set_keep k' a))) (ab_set_keep k' a))
      with (ab_set_keep (ac_bind ac c k') a).
    apply HF2. lia.
  Qed.
  Lemma step_into n m a : views n (AVAlias (inl m)) -> Kok (ab_keep a) ->
    forall a', runs m a a' -> runs n a a'.
  Proof.
    intros Hv Hk a' (F & HF). exists (S F). intros f Hf. destruct f; [lia|].
    rewrite any_visit_S, Hv by exact Hk. apply HF. lia.
  Qed.

  (** [n] is [d] below wrappings and aliases that are links *)
  Inductive core_rep : Nd -> doc -> Prop :=
  | cr_null n : views n AVNullNode \/ (exists s, views n (AVScalar s true)) -> core_rep n DNull
  | cr_text n s : views n (AVScalar s false) -> core_rep n (DText s)
  | cr_seq n ns l : views n (AVSeq ns) -> areps ns l -> core_rep n (DSeq l)
  | cr_map n es l : views n (AVMap es) -> aents es l -> core_rep n (DMap l)
  | cr_anchor n p c a d : views n (AVContent p c) -> naming a p -> arep c d -> core_rep n (DAnchor a d)
  | cr_alias n a : (forall k, Kok k -> ac_view ac k n = AVAlias (lookup k a)) -> core_rep n (DAlias a).

  Lemma peel n d : arep n d -> forall e a, kenv e (ab_keep a) ->
    exists m k', core_rep m d /\ kenv e k' /\ forall a', runs m (ab_set_keep k' a) a' -> runs n a a'.
  Proof.
    induction 1 as [n H|n s0 Hv |n ns l H H0|n es l H H0| n p c d Hv Hs Hc IH |n p c a0 d H H0 H1|n a0 H| n m d Hv Hm IH ]; intros e a Hk;
      try (exists n, (ab_keep a); split; [econstructor; eassumption|]; split; [exact Hk|];
           intros a' Ha'; destruct a; exact Ha').
    - destruct (step_wrap n p c e a Hv Hs Hk) as (k1 & Hk1 & Hr1).
      destruct (IH e (ab_set_keep k1 a) Hk1) as (m & k2 & Hm & Hk2 & Hr2).
      exists m, k2. split; [exact Hm|]. split; [exact Hk2|]. intros a' Ha'. apply Hr1, Hr2.
      destruct a; exact Ha'.
    - destruct (IH e a Hk) as (m' & k2 & Hm' & Hk2 & Hr2).
      exists m', k2. split; [exact Hm'|]. split; [exact Hk2|]. intros a' Ha'.
      eapply step_into; [exact Hv|apply Hk|]. apply Hr2, Ha'.
  Qed.

  Definition P_ev (em : bool) (e : oenv) (d : doc) (r : value + list (text * value)) (e' : oenv) : Prop :=
    forall n a, arep n d -> fresh em e a -> exists a', runs n a a' /\ result em e' r a'.
  Definition P_evs (em : bool) (e : oenv) (l : list doc) (vs : list value) (e' : oenv) : Prop :=
    forall ns a, areps ns l -> fresh em e a ->
      exists a', fresh em e' a' /\ exists F, forall f acc, F <= f -> av_seq f ns acc a = Done (acc ++ vs, a').
  Definition P_ents (em : bool) (e : oenv) (m : list (text * value)) (l : list (doc * doc)) (m' : list (text * value)) (e' : oenv) : Prop :=
    forall es a, aents es l -> fresh em e a ->
      exists a', fresh em e' a' /\ exists F, forall f, F <= f -> av_entries f es m a = Done (m', a').

  Lemma ev_sound :
    (forall em e d r e', oev o em e d r e' -> P_ev em e d r e')
    /\ (forall em e l vs e', oevs o em e l vs e' -> P_evs em e l vs e')
    /\ (forall em e m l m' e', oents o em e m l m' e' -> P_ents em e m l m' e').
  Proof.
    apply oev_all.
    - (* null *)
      intros em e n a Hr (H1 & H2 & H3 & H4 & H5).
      destruct (peel _ _ Hr e a H5) as (m & k' & Hm & Hk' & Hrun).
      exists (ab_set_value VNil (ab_set_keep k' a)). split; [|repeat split; auto; apply Hk'].
      apply Hrun. exists 1. intros f Hf. destruct f; [lia|]. rewrite any_visit_S.
      inversion Hm as [n' [Hv|(s & Hv)]| | | | |]; subst; rewrite Hv by apply Hk'.
      + cbn [ab_set_keep ab_extract_string]. rewrite H1. reflexivity.
      + unfold visit_scalar. cbn [ab_set_keep ab_extract_string]. rewrite H1. reflexivity.
    - (* text *)
      intros em e s v Hs n a Hr (H1 & H2 & H3 & H4 & H5).
      destruct (peel _ _ Hr e a H5) as (m & k' & Hm & Hk' & Hrun).
      exists (ab_set_value v (ab_set_keep k' a)). split; [|repeat split; auto; apply Hk'].
      apply Hrun. exists 1. intros f Hf. destruct f; [lia|]. rewrite any_visit_S.
      inversion Hm; subst. rewrite H6 by apply Hk'. f_equal. apply scalar_runs; assumption.
    - (* sequence *)
      intros em e l vs e' Hev IH n a Hr (H1 & H2 & H3 & H4 & H5).
      destruct (peel _ _ Hr e a H5) as (m & k' & Hm & Hk' & Hrun).
      inversion Hm as [| |n' ns l' Hv Hns| | |]; subst n' l'.
      destruct (IH ns (ab_set_flags false em (ab_set_keep k' a)) Hns) as (a' & (G1 & G2 & G3 & G4 & G5) & F & HF).
      { repeat split; auto; apply Hk'. }
      exists (ab_set_value (VSeq vs) a'). split; [|repeat split; auto; apply G5].
      apply Hrun. exists (S F). intros f Hf. destruct f; [lia|]. rewrite any_visit_S, Hv by apply Hk'.
      cbn [ab_set_keep ab_extract_string ab_extract_merge] in *. rewrite H1, H2. rewrite HF by lia. cbn.
      unfold finish_seq. cbn. rewrite <- G1. destruct a'; reflexivity.
    - (* mapping *)
      intros em e l mm e' Hev IH n a Hr (H1 & H2 & H3 & H4 & H5).
      destruct (peel _ _ Hr e a H5) as (m & k' & Hm & Hk' & Hrun).
      inversion Hm as [| | |n' es l' Hv Hes| |]; subst n' l'.
      destruct (IH es (ab_set_keep k' a) Hes) as (a' & (G1 & G2 & G3 & G4 & G5) & F & HF).
      { repeat split; auto; apply Hk'. }
      exists (finish_map o mm a'). split.
      + apply Hrun. exists (S F). intros f Hf. destruct f; [lia|]. rewrite any_visit_S, Hv by apply Hk'.
        rewrite HF by lia. reflexivity.
      + unfold finish_map. rewrite G1, G2. destruct em; repeat split; auto; apply G5.
    - (* anchor *)
      intros em e nm d r e' Hev IH n a Hr (H1 & H2 & H3 & H4 & H5).
      destruct (peel _ _ Hr e a H5) as (m & k' & Hm & Hk' & Hrun).
      inversion Hm as [| | | |n' p c a0 d' Hv Hn Hc|]; subst n' a0 d'.
      destruct (step_anchor m p c nm d e (ab_set_keep k' a) Hv Hn Hc Hk') as (k2 & Hk2 & Hrun2).
      destruct (IH c (ab_set_keep k2 (ab_set_keep k' a)) Hc) as (a' & Ha' & Hres).
      { repeat split; auto; apply Hk2. }
      exists a'. split; [|exact Hres]. apply Hrun, Hrun2, Ha'.
    - (* alias *)
      intros em e nm d r e' Hg Hev IH n a Hr (H1 & H2 & H3 & H4 & H5).
      destruct (peel _ _ Hr e a H5) as (m & k' & Hm & Hk' & Hrun).
      inversion Hm as [| | | | |n' a0 Hv]; subst n' a0.
      destruct (proj2 Hk' nm d Hg) as (tg & Htg & Hrep).
      destruct (IH tg (ab_set_keep k' a) Hrep) as (a' & (F & HF) & Hres).
      { repeat split; auto; apply Hk'. }
      exists a'. split; [|exact Hres]. apply Hrun. exists (S F). intros f Hf. destruct f; [lia|].
      rewrite any_visit_S, Hv by apply Hk'. cbn [ab_set_keep ab_keep]. rewrite Htg. apply HF. lia.
    - (* no elements *)
      intros em e ns a Hns Hf. inversion Hns; subst. exists a. split; [exact Hf|]. exists 0. intros.
      cbn. rewrite app_nil_r. reflexivity.
    - (* element *)
      intros em e d v e1 l vs e2 Hev IH1 Hevs IH2 ns a Hns Hf. inversion Hns as [|n ns' d' l' Hn Hns']; subst.
      destruct (IH1 n a Hn Hf) as (a1 & (F1 & HF1) & G1 & G2 & G3 & G4 & G5 & G6).
      destruct (IH2 ns' a1 Hns') as (a2 & Hf2 & F2 & HF2).
      { repeat split; auto; apply G4. }
      exists a2. split; [exact Hf2|]. exists (max F1 F2). intros f acc Hle. cbn [av_seq].
      rewrite HF1 by lia. cbn [obind]. fold (av_seq f). unfold ab_ok. rewrite G3, HF2 by lia.
      rewrite G5, <- app_assoc. reflexivity.
    - (* no entries *)
      intros em e m es a Hes Hf. inversion Hes; subst. exists a. split; [exact Hf|]. exists 0. intros. reflexivity.
    - (* entry *)
      intros em e m k d r e1 l m' e2 Hev IH1 Hents IH2 es a Hes Hf.
      pose proof Hf as (H1 & H2 & H3 & H4 & H5).
      assert (Hpair : forall kn vn, arep kn (DText k) -> arep vn d ->
                exists a', result em e1 r a' /\ ab_string a' = k /\
                  exists F, forall f, F <= f -> av_pair f kn (Some vn) a = Done a').
      { intros kn vn Hkn Hvn.
        destruct (key_runs kn _ Hkn k e (ab_set_flags true em a) eq_refl H5 eq_refl) as (k1 & Hk1 & F1 & HF1).
        destruct (IH1 vn (ab_set_flags false (em || text_eqb k merge_text)
                   (ab_set_keep k1 (ab_set_string k (ab_set_flags true em a)))) Hvn)
          as (a2 & (F2 & HF2) & G1 & G2 & G3 & G4 & G5).
        { repeat split; auto; apply Hk1. }
        exists (ab_set_flags false em (ab_set_string k a2)). split; [|split].
        - repeat split; auto; try apply G4.
        - reflexivity.
        - exists (max F1 F2). intros f Hle. unfold av_pair. rewrite H1, H2. rewrite HF1 by lia. cbn [obind].
          cbn [ab_string ab_set_keep ab_set_string ab_extract_merge ab_set_flags] in *.
          change merge_key with merge_text.
          replace (if text_eqb k merge_text then true else em) with (em || text_eqb k merge_text)
            by (destruct em, (text_eqb k merge_text); reflexivity).
          rewrite HF2 by lia. reflexivity. }
      assert (Hfin : forall a', result em e1 r a' -> ab_string a' = k ->
                exists a2, after_entry m a' = (match r with inl v => map_set k v m | inr mm => merge_maps m mm end, a2)
                           /\ fresh em e1 a2).
      { intros a' (G1 & G2 & G3 & G4 & G5) Hs. unfold after_entry, ab_ok. rewrite G3.
        destruct r as [v|mm].
        - destruct G5 as [Gv Gm]. rewrite Gm, Hs, Gv. eexists. split; [reflexivity|]. repeat split; auto; apply G4.
        - rewrite G5. eexists. split; [reflexivity|]. repeat split; auto; apply G4. }
      inversion Hes as [|n kn vn es' kd vd l' Hv Hkn Hvn Hes'|kn vn es' kd vd l' Hkn Hvn Hes']; subst.
      + destruct (Hpair kn vn Hkn Hvn) as (a1 & Hres & Hstr & F1 & HF1).
        destruct (Hfin a1 Hres Hstr) as (a2 & Hae & Hfr).
        destruct (IH2 es' a2 Hes' Hfr) as (a3 & Hf3 & F3 & HF3).
        exists a3. split; [exact Hf3|]. exists (S (max F1 F3)). intros f Hle. destruct f; [lia|]. cbn [av_entries].
        rewrite any_visit_S, Hv by apply H5. rewrite HF1 by lia. cbn [obind]. rewrite Hae.
        fold (av_entries (S f)). apply HF3. lia.
      + destruct (Hpair kn vn Hkn Hvn) as (a1 & Hres & Hstr & F1 & HF1).
        destruct (Hfin a1 Hres Hstr) as (a2 & Hae & Hfr).
        destruct (IH2 es' a2 Hes' Hfr) as (a3 & Hf3 & F3 & HF3).
        exists a3. split; [exact Hf3|]. exists (S (max F1 F3)). intros f Hle. destruct f; [lia|]. cbn [av_entries].
        rewrite HF1 by lia. cbn [obind]. rewrite Hae.
        fold (av_entries (S f)). apply HF3. lia.
  Qed.

  (** Any on a node *)
  Theorem any_value e d v e' n k : oev o false e d (inl v) e' -> arep n d -> kenv e k ->
    exists F k', kenv e' k' /\ forall f, F <= f -> extract_any ac o f k n = Done (inl v, k').
  Proof.
    intros Hev Hn Hk.
    destruct (proj1 ev_sound _ _ _ _ _ Hev n (ab_new k) Hn) as (a' & (F & HF) & G1 & G2 & G3 & G4 & G5 & G6).
    { repeat split; auto; apply Hk. }
    exists F, (ab_keep a'). split; [exact G4|]. intros f Hf. unfold extract_any. rewrite HF by exact Hf. cbn.
    rewrite G3, G5. reflexivity.
  Qed.
End AnyP.

(** trees *)
Lemma value_of_oev o :
  (forall x v, value_of o x v -> forall e, oev o false e (doc_of x) (inl v) e)
  /\ (forall l vs, values_of o l vs -> forall e, oevs o false e (map doc_of l) vs e)
  /\ (forall m l m', entries_of o m l m' -> forall e,
        oents o false e m (map (fun kv => (doc_of (fst kv), doc_of (snd kv))) l) m' e).
Proof.
  apply value_of_all; intros; cbn.
  - constructor.
  - constructor; assumption.
  - constructor. apply H.
  - apply (oe_map o false). apply H.
  - constructor.
  - econstructor; eauto.
  - constructor.
  - apply (oen_cons o false e0 m k _ (inl v) e0); [|apply H0].
    assert (Hk : text_eqb k merge_text = false).
    { destruct (text_eqb k merge_text) eqn:E; [|reflexivity]. apply text_eqb_eq in E. contradiction. }
    rewrite Hk. cbn. apply H.
Qed.
