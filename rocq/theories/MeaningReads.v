(** A document that gives a value is read by the generated decoder with requests and answers that read
    the tree (both engines, both error modes). *)
From Coq Require Import String.
From Coq Require Import ZifyBool ZifyNat.
From Verif Require Import Base Schema Values Ast Writer AnyBuilder Reader GBuilder GReader YReader
  ReadSpec ReaderSpec DocSpec ReadPlan YReaderProofs GReaderProofs
  CursorSpec CursorRun GenCode GenSpec GenProofs CursorDecode MeaningSpec MeaningProofs.
Local Open Scope nat_scope.

Local Opaque sc_is_integer sc_to_integer sc_to_unsigned sc_is_boolean sc_to_boolean sc_is_float sc_is_timestamp.

Section Main.
  Context {Nd : Type} (x : externs) (tb : structs) (omitempty strict : bool) (zero_of : gotype -> goval).
  Context (o : oracle) (ms : nat -> nat) (val : ReadSpec.tree -> Values.value -> Prop) (drains : bool).
  Hypothesis Hms : forall n, ms n = 0 <-> n = 0.
  Hypothesis Htexts : drains = true -> no_texts tb.
  Hypothesis Htb : sensible x tb.
  Hypothesis Hz : zeros x tb zero_of.
  Notation rd := (@reads Nd o ms val).
  Notation dec := (@decode x tb omitempty strict Nd).
  Notation fol := (@follows Nd drains _).
  Notation decodes := (decodes (Nd := Nd) x tb omitempty strict o ms val drains).
  Notation means := (means x tb omitempty strict o zero_of).

  Definition gives_ok (w : ReadSpec.tree) (t : gotype) : Prop := forall om z v,
    known tb t -> shaped tb t z -> (drains = true -> no_text t = true) -> means (doc w) om t z = Gives v ->
    decodes t om z w v /\ shaped tb t v.

  Lemma and_then_gives m k v : and_then m k = Gives v -> exists w, m = Gives w /\ k w = Gives v.
  Proof. destruct m; try discriminate. intro H. exists v0. auto. Qed.
  Lemma scalar_gives {A} e is (to : text -> option A) mk w v : is (t' "null") = false ->
    as_scalar e is to mk (doc w) = Gives v -> exists s y, w = TText s /\ is s = true /\ to s = Some y /\ v = mk y.
  Proof.
    intros Hn. destruct w; cbn [doc as_scalar]; rewrite ?Hn; try discriminate.
    destruct (is s) eqn:E; [|discriminate]. destruct (to s) as [y|] eqn:E2; [|discriminate].
    intros [= <-]. exists s, y. auto.
  Qed.
  Lemma null_dec w : w = TNull \/ (w <> TNull /\ null_doc (doc w) = false).
  Proof. destruct w; auto; right; split; discriminate || reflexivity. Qed.

  Lemma zero_known e : known tb e -> zeroval x tb e (zero_of e) /\ shaped tb e (zero_of e).
  Proof. intro H. split; [apply Hz; exact H|]. eapply zero_shaped. apply Hz. exact H. Qed.

  Lemma slice_gives om e : known tb e -> (drains = true -> no_text e = true) -> forall ws got v,
    Forall (fun w => gives_ok w e) ws ->
    slice_of (fun d' => means d' om e (zero_of e)) (map doc ws) got = Gives v ->
    exists l, v = GoSlice l /\ steps (fun _ => true)
      (step1 (Nd := Nd) o ms val drains (fun f l => bind (of_option (zero x tb f e)) (fun z =>
                         bind (dec f om e z) (fun v => Ret (l ++ [v]))))) got ws l.
  Proof.
    intros Hk Hn. induction ws as [|w ws IH]; intros got v Hw H; cbn [map slice_of] in H.
    - injection H as <-. exists got. split; [reflexivity|constructor].
    - inversion Hw as [|? ? Hw1 Hw2]; subst. apply and_then_gives in H as (y & E & H).
      destruct (zero_known e Hk) as [Hz1 Hz2]. destruct (Hw1 om _ _ Hk Hz2 Hn E) as [[F HF] _].
      destruct (IH _ _ Hw2 H) as (l & -> & Hs). exists l. split; [reflexivity|].
      econstructor; [reflexivity| |exact Hs]. destruct (of_zero (Nd := Nd) x tb e _ Hz1) as [F' HF'].
      exists (F + F'). intro h. destruct (HF h) as (qs & ps & h1 & R & _ & B). exists qs, ps, h1. split; [exact R|].
      intros f Hf. rewrite HF' by lia. cbn [bind]. eapply follows_bind0; [apply B; lia|]. intro; constructor.
  Qed.

  Lemma array_gives om e n : known tb e -> (drains = true -> no_text e = true) -> forall ws got old v,
    Forall (fun w => gives_ok w e) ws -> length got + length old = n -> Forall (shaped tb e) (got ++ old) ->
    array_of (fun d' => means d' om e) (map doc ws) got old = Gives v ->
    exists i l, v = GoArray l /\ length l = n /\ Forall (shaped tb e) l /\ steps (fun s => fst s <? n)
      (step1 (Nd := Nd) o ms val drains (fun f s => bind (of_option (nth_error (snd s) (fst s))) (fun z =>
                         bind (dec f om e z) (fun v => Ret (S (fst s), set_nth (snd s) (fst s) v)))))
      (length got, got ++ old) ws (i, l).
  Proof.
    intros Hk Hn. induction ws as [|w ws IH]; intros got old v Hw Hl Hsh H; cbn [map array_of] in H.
    - injection H as <-. exists (length got), (got ++ old). rewrite app_length. repeat split; auto; constructor.
    - destruct old as [|z old]; [discriminate|]. cbn in Hl.
      inversion Hw as [|? ? Hw1 Hw2]; subst. apply and_then_gives in H as (y & E & H).
      apply Forall_app in Hsh as [Ha Hb]. inversion Hb as [|? ? Hz1 Hb']; subst.
      destruct (Hw1 om _ _ Hk Hz1 Hn E) as [[F HF] Hy].
      destruct (IH (got ++ [y]) old v Hw2) as (i & l & -> & Hl1 & Hl2 & Hs).
      { rewrite app_length. cbn. lia. }
      { rewrite <- app_assoc. apply Forall_app. split; [exact Ha|]. constructor; assumption. }
      { exact H. }
      exists i, l. split; [reflexivity|]. split; [exact Hl1|]. split; [exact Hl2|].
      econstructor; [cbn [fst]; apply Nat.ltb_lt; lia| |exact Hs].
      exists F. intro h. destruct (HF h) as (qs & ps & h1 & R & _ & B).
      exists qs, ps, h1. split; [exact R|]. intros f Hf. cbn [fst snd].
      rewrite nth_error_mid. cbn [of_option bind]. eapply follows_bind0; [apply B; lia|]. intro h2.
      rewrite set_nth_mid, app_length, <- app_assoc. cbn [app length]. rewrite Nat.add_1_r. constructor.
  Qed.

  Lemma map_gives om k e : known tb k -> known tb e -> (drains = true -> no_text k = true) -> (drains = true -> no_text e = true) ->
    forall ws got v, Forall (fun kv => gives_ok (fst kv) k /\ gives_ok (snd kv) e) ws ->
    map_of (fun d' => means d' om k (zero_of k)) (fun d' => means d' om e (zero_of e)) (flat_map (fun kv => [doc (fst kv); doc (snd kv)]) ws) got = Gives v ->
    steps (fun _ => true)
      (step2 (Nd := Nd) o ms val drains (fun f m => bind (of_option (zero x tb f k)) (fun zk =>
                         bind (of_option (zero x tb f e)) (fun ze =>
                         bind (dec f om k zk) (fun key =>
                         bind (dec f om e ze) (fun v =>
                         match m with GoMap l => Ret (GoMap (go_assign key v l)) | _ => Crash end))))))
      (GoMap got) ws v.
  Proof.
    intros Hk He Hnk Hne. induction ws as [|[wk we] ws IH]; intros got v Hw H; cbn [flat_map app fst snd map_of] in H.
    - injection H as <-. constructor.
    - inversion Hw as [|? ? [Hw1 Hw2] Hw3]; subst. cbn [fst snd] in *. apply and_then_gives in H as (yk & Ek & H).
      apply and_then_gives in H as (ye & Ee & H).
      destruct (zero_known k Hk) as [Hzk1 Hzk2]. destruct (zero_known e He) as [Hze1 Hze2].
      destruct (Hw1 om _ _ Hk Hzk2 Hnk Ek) as [[F1 HF1] _]. destruct (Hw2 om _ _ He Hze2 Hne Ee) as [[F2 HF2] _].
      econstructor; [reflexivity| |exact (IH _ _ Hw3 H)].
      destruct (of_zero (Nd := Nd) x tb k _ Hzk1) as [F3 HF3]. destruct (of_zero (Nd := Nd) x tb e _ Hze1) as [F4 HF4].
      exists (F1 + F2 + F3 + F4). intro h. destruct (HF1 h) as (qs & ps & h1 & R1 & N1 & B1).
      destruct (HF2 h1) as (qs' & ps' & h2 & R2 & _ & B2).
      exists qs, ps, h1, qs', ps', h2. cbn [fst snd]. split; [exact R1|]. split; [exact N1|]. split; [exact R2|].
      intros f Hf. rewrite HF3, HF4 by lia. cbn [bind].
      eapply follows_bind; [apply B1; lia|]. eapply follows_bind0; [apply B2; lia|]. intro h3. constructor.
  Qed.

  Lemma struct_gives i fs0 : nth_error tb i = Some fs0 ->
    forall ws got v, Forall (fun kv => forall t, gives_ok (snd kv) t) ws -> shaped tb (TyStruct i) (GoStruct got) ->
    struct_of strict (fun d' f => means d' (omitempty || fl_omitempty f) (fl_type f)) (nth i tb []) (flat_map (fun kv => [doc (fst kv); doc (snd kv)]) ws) got = Gives v ->
    shaped tb (TyStruct i) v /\ steps (fun _ => true)
      (step2 (Nd := Nd) o ms val drains (fun f s =>
                     Call DString (fun key =>
                     Call DTryNull (fun a =>
                       if yes a then Ret s
                       else match case_of (txt key) (fields_of tb i) 0 with
                            | Some (j, d) =>
                                bind (of_option (nth_error (elems s) j)) (fun z =>
                                bind (dec f (omitempty || fl_omitempty d) (fl_type d) z) (fun v =>
                                Ret (GoStruct (set_nth (elems s) j v))))
                            | None =>
                                if strict then AddErr (Some (RUser 1)) (Ret s)
                                else Call DSkip (fun _ => Ret s)
                            end)))) (GoStruct got) ws v.
  Proof.
    intros Hfs. assert (Ei : nth i tb [] = fs0) by (apply nth_error_nth; exact Hfs). rewrite Ei.
    induction ws as [|[wk we] ws IH]; intros got v Hw Hsh H; cbn [flat_map app fst snd struct_of] in H.
    - injection H as <-. split; [exact Hsh|constructor].
    - inversion Hw as [|? ? Hw1 Hw2]; subst. cbn [fst snd] in *.
      destruct wk as [|s| |]; cbn [doc] in H; try discriminate.
      destruct (null_dec we) as [->|[Hne Hnd]].
      + cbn [doc null_doc] in H. destruct (IH _ _ Hw2 Hsh H) as [Hv Hs]. split; [exact Hv|].
        econstructor; [reflexivity| |exact Hs]. exists 0. intro h.
        exists [QCall DString], [PAnswer (AText s)], h, [QCall DTryNull], [PAnswer (ABool true)], h. cbn [fst snd app].
        split; [constructor|]. split; [exact I|]. split; [constructor|]. intros f _. constructor; [exact I|]. constructor; [exact I|]. constructor.
      + rewrite Hnd in H.
        assert (Hstep : forall g1 F, (forall h, exists qs ps h1, rd h we qs ps h1 /\
            forall f, F <= f -> fol (match case_of s (fields_of tb i) 0 with
                            | Some (j, d) =>
                                bind (of_option (nth_error (elems (GoStruct got)) j)) (fun z =>
                                bind (dec f (omitempty || fl_omitempty d) (fl_type d) z) (fun v =>
                                Ret (GoStruct (set_nth (elems (GoStruct got)) j v))))
                            | None =>
                                if strict then AddErr (Some (RUser 1)) (Ret (GoStruct got))
                                else Call DSkip (fun _ => Ret (GoStruct got))
                            end) h qs ps h1 (GoStruct g1)) ->
            step2 (Nd := Nd) o ms val drains (fun f s =>
                     Call DString (fun key =>
                     Call DTryNull (fun a =>
                       if yes a then Ret s
                       else match case_of (txt key) (fields_of tb i) 0 with
                            | Some (j, d) =>
                                bind (of_option (nth_error (elems s) j)) (fun z =>
                                bind (dec f (omitempty || fl_omitempty d) (fl_type d) z) (fun v =>
                                Ret (GoStruct (set_nth (elems s) j v))))
                            | None =>
                                if strict then AddErr (Some (RUser 1)) (Ret s)
                                else Call DSkip (fun _ => Ret s)
                            end))) (GoStruct got) (TText s, we) (GoStruct g1)).
        { intros g1 F HF. exists F. intro h. destruct (HF h) as (qs & ps & h1 & R & B).
          exists [QCall DString], [PAnswer (AText s)], h, (QCall DTryNull :: qs), (PAnswer (ABool false) :: ps), h1. cbn [fst snd app].
          split; [constructor|]. split; [exact I|]. split; [constructor; assumption|].
          intros f Hf. constructor; [exact I|]. constructor; [exact I|]. cbn [yes txt]. apply B. exact Hf. }
        destruct (position s (nth i tb [])) as [j|] eqn:Ej.
        * apply and_then_gives in H as (y & E & H). pose proof (position_lt _ _ _ Ej) as Hj.
          set (fd := nth j (nth i tb []) (mkField [] TyString true false)) in *.
          assert (Efd : nth_error (nth i tb []) j = Some fd) by (apply nth_error_nth'; exact Hj).
          pose proof (struct_fields tb _ _ Hsh) as Hall. unfold fields_of in Hall.
          destruct (all2_nth _ _ _ Hall j fd Efd) as (z & Ez & Hsz). rewrite (nth_error_nth _ _ GoNil Ez) in E.
          assert (Hkd : known tb (fl_type fd)).
          { destruct (Htb i _ Hfs) as [_ Hknown]. rewrite Forall_forall in Hknown. apply Hknown. eapply nth_error_In. exact Efd. }
          destruct (Hw1 (fl_type fd) _ _ _ Hkd Hsz (fun Hd => field_no_text tb (Htexts Hd) _ _ _ _ Hfs Efd) E) as [[F HF] Hy].
          assert (Hlen : j < length got) by (apply nth_error_Some; congruence).
          rewrite <- (replace_set got j y Hlen) in H.
          destruct (IH (set_nth got j y) v Hw2) as [Hv Hs].
          { apply sh_struct. apply set_nth_all2; [exact Hall|]. intros a Ha. unfold fields_of in Ha. rewrite Efd in Ha. injection Ha as <-. exact Hy. }
          { exact H. }
          split; [exact Hv|]. econstructor; [reflexivity| |exact Hs]. apply (Hstep _ F).
          intro h. destruct (HF h) as (qs & ps & h1 & R & _ & B). exists qs, ps, h1. split; [exact R|]. intros f Hf.
          rewrite position_case. unfold fields_of. rewrite Ej. cbn [option_map Nat.add]. fold fd. cbn [elems]. rewrite Ez. cbn [of_option bind].
          eapply follows_bind0; [apply B; exact Hf|]. intro; constructor.
        * destruct strict eqn:Est; [discriminate|]. destruct (IH _ _ Hw2 Hsh H) as [Hv Hs]. split; [exact Hv|].
          econstructor; [reflexivity| |exact Hs]. apply (Hstep _ 0). intro h.
          exists [QCall DSkip], [PAnswer AUnit], h. split; [constructor|]. intros f _.
          rewrite position_case. unfold fields_of. rewrite Ej. cbn [option_map]. constructor; [exact I|]. constructor.
  Qed.

  Lemma try_first om t z w v (p : nat -> prog Nd goval) v0 : w <> TNull ->
    (forall f, dec (S f) om t z = Call DTryNull (fun a => if yes a then Ret v0 else p f)) ->
    (exists F, forall h, exists qs ps h', rd h w qs ps h' /\ forall f, F <= f -> fol (p f) h qs ps h' v) ->
    decodes t om z w v.
  Proof.
    intros Hw Hd [F HF]. exists (S F). intro h. destruct (HF h) as (qs & ps & h' & R & B).
    exists (QCall DTryNull :: qs), (PAnswer (ABool false) :: ps), h'. split; [constructor; assumption|]. split; [exact I|].
    intros [|f] Hf; [lia|]. rewrite Hd. constructor; [exact I|]. cbn [yes]. apply B. lia.
  Qed.
  Lemma null_first om t z (p : nat -> prog Nd goval) v0 :
    (forall f, dec (S f) om t z = Call DTryNull (fun a => if yes a then Ret v0 else p f)) -> decodes t om z TNull v0.
  Proof.
    intros Hd. exists 1. intro h. exists [QCall DTryNull], [PAnswer (ABool true)], h. split; [constructor|]. split; [exact I|].
    intros [|f] Hf; [lia|]. rewrite Hd. constructor; [exact I|]. constructor.
  Qed.

  Lemma map_forall {A} (P Q : A -> Prop) l : (forall a, P a -> Q a) -> Forall P l -> Forall Q l.
  Proof. intros H. apply Forall_impl. exact H. Qed.

  Lemma step_gives w :
    match w with
    | TSeq ws => Forall (fun w => forall t, gives_ok w t) ws
    | TMap ws => Forall (fun kv => (forall t, gives_ok (fst kv) t) /\ forall t, gives_ok (snd kv) t) ws
    | _ => True
    end -> forall t, gives_ok w t.
  Proof.
    intros Hsub. induction t as [| |b|b|b|k| |e IHe|n e IHe|e IHe|k IHk e IHe|i]; intros om z v Hk Hsh Hn H.
    - destruct w as [|s| |]; try discriminate. injection H as <-. split; [|apply sh_other; exact I].
      eapply (decodes_scalar x tb omitempty strict o ms val drains (fun n => proj1 (Hms n)) Htexts _ _ _ _ _ (DString) (AText s)); [intro; constructor|discriminate|exact I|].
      intro f. eexists. split; [reflexivity|]. intro; constructor.
    - replace (means (doc w) om TyBool z) with (as_scalar EBoolean sc_is_boolean sc_to_boolean GoBool (doc w)) in H by (destruct w; reflexivity).
      apply scalar_gives in H as (s & y & -> & E1 & E2 & ->); [|reflexivity]. split; [|apply sh_other; exact I].
      eapply (decodes_scalar x tb omitempty strict o ms val drains (fun n => proj1 (Hms n)) Htexts _ _ _ _ _ (DBoolean) (ABool y)); [intro; constructor; assumption|discriminate|exact I|].
      intro f. eexists. split; [reflexivity|]. intro; constructor.
    - replace (means (doc w) om (TyInt b) z) with (as_scalar EInteger sc_is_integer (fun s => sc_to_integer s b) GoInt (doc w)) in H by (destruct w; reflexivity).
      apply scalar_gives in H as (s & y & -> & E1 & E2 & ->); [|reflexivity]. split; [|apply sh_other; exact I].
      eapply (decodes_scalar x tb omitempty strict o ms val drains (fun n => proj1 (Hms n)) Htexts _ _ _ _ _ (DInteger b) (AInt y)); [intro; constructor; assumption|discriminate|exact I|].
      intro f. eexists. split; [reflexivity|]. intro; constructor.
    - replace (means (doc w) om (TyUint b) z) with (as_scalar EInteger sc_is_integer (fun s => sc_to_unsigned s b) GoUint (doc w)) in H by (destruct w; reflexivity).
      apply scalar_gives in H as (s & y & -> & E1 & E2 & ->); [|reflexivity]. split; [|apply sh_other; exact I].
      eapply (decodes_scalar x tb omitempty strict o ms val drains (fun n => proj1 (Hms n)) Htexts _ _ _ _ _ (DUnsigned b) (AUint y)); [intro; constructor; assumption|discriminate|exact I|].
      intro f. eexists. split; [reflexivity|]. intro; constructor.
    - replace (means (doc w) om (TyFloat b) z) with (as_scalar EFloat sc_is_float (fun s => o_float o s b) GoFloat (doc w)) in H by (destruct w; reflexivity).
      apply scalar_gives in H as (s & y & -> & E1 & E2 & ->); [|reflexivity]. split; [|apply sh_other; exact I].
      eapply (decodes_scalar x tb omitempty strict o ms val drains (fun n => proj1 (Hms n)) Htexts _ _ _ _ _ (DFloat b) (AFloat y)); [intro; constructor; assumption|discriminate|exact I|].
      intro f. eexists. split; [reflexivity|]. intro; constructor.
    - (* text *)
      destruct w as [|s| |]; try discriminate.
      replace (means (doc (TText s)) om (TyText k) z) with
        (match x_unmarshal x k s with Some n => Gives (GoText n) | None => Wrong (RUser 0) end) in H by reflexivity.
      destruct (x_unmarshal x k s) as [m|] eqn:Em; [|discriminate]. injection H as <-. split; [|apply sh_other; exact I].
      assert (Hd : drains = false) by (destruct drains; [specialize (Hn eq_refl); discriminate|reflexivity]).
      eapply (decodes_scalar x tb omitempty strict o ms val drains (fun n => proj1 (Hms n)) Htexts _ _ _ _ _ (DString) (AText s)); [intro; constructor|discriminate|exact I|].
      intro f. eexists. split; [reflexivity|]. intro h. cbn [txt]. rewrite Em. apply FO_nil; [exact Hd|constructor].
    - (* bytes *)
      split; [|apply sh_other; exact I]. destruct (null_dec w) as [->|[Hw _]].
      + injection H as <-. eapply null_first. reflexivity.
      + destruct w as [|s| |]; try discriminate; try congruence. injection H as <-. eapply try_first; [exact Hw|reflexivity|].
        exists 0. intro h. do 3 eexists. split; [apply R_string|]. intros f _. constructor; [exact I|]. constructor.
    - (* slice *)
      split; [|apply sh_other; exact I]. destruct w as [|s|ws|ws]; try discriminate.
      + injection H as <-. eapply null_first. reflexivity.
      + replace (means (doc (TSeq ws)) om (TySlice e) z) with (slice_of (fun d' => means d' om e (zero_of e)) (map doc ws) []) in H by reflexivity.
        apply slice_gives in H as (l & -> & Hs); [|exact Hk|exact Hn|eapply map_forall; [|exact Hsub]; intros a Ha; apply Ha].
        eapply try_first; [discriminate|reflexivity|]. destruct (loop_items tb o ms val drains (fun n => proj1 (Hms n)) Htexts _ _ _ _ _ Hs) as [F HF].
        exists F. intro h. destruct (HF h (S h)) as (qs & ps & h' & R & B).
        exists (QCall DSequence :: QSize h :: qs), (PAnswer (AColl CollNoop) :: PSize (length ws) :: ps), h'.
        split; [apply R_seq; exact R|]. intros f Hf. constructor. constructor. eapply follows_bind0; [apply (B f f); lia|]. intro; constructor.
    - (* array *)
      destruct w as [|s|ws|ws]; try discriminate.
      + injection H as <-. split; [|exact Hsh]. eapply null_first. reflexivity.
      + inversion Hsh as [? zs Hzs E0 E3| | | |]; subst; [|contradiction].
        replace (means (doc (TSeq ws)) om (TyArray (length zs) e) (GoArray zs)) with (array_of (fun d' => means d' om e) (map doc ws) [] zs) in H by reflexivity.
        apply (array_gives om e (length zs)) in H as (i & l & -> & Hl1 & Hl2 & Hs);
          [|exact Hk|exact Hn|eapply map_forall; [|exact Hsub]; intros a Ha; apply Ha|reflexivity|exact Hzs].
        split; [|rewrite <- Hl1; apply sh_array; exact Hl2].
        eapply try_first; [discriminate|reflexivity|]. destruct (loop_items tb o ms val drains (fun n => proj1 (Hms n)) Htexts _ _ _ _ _ Hs) as [F HF].
        exists F. intro h. destruct (HF h (S h)) as (qs & ps & h' & R & B).
        exists (QCall DSequence :: QSize h :: qs), (PAnswer (AColl CollNoop) :: PSize (length ws) :: ps), h'.
        split; [apply R_seq; exact R|]. intros f Hf. constructor. apply FO_extra.
        eapply follows_bind0; [apply (B f f); lia|]. intro; constructor.
    - (* pointer *)
      destruct (null_dec w) as [->|[Hw Hnd]].
      + injection H as <-. split; [|apply sh_nil]. eapply null_first. reflexivity.
      + replace (means (doc w) om (TyPtr e) z) with
          (and_then (means (doc w) om e (match z with GoPtr v => v | _ => zero_of e end)) (fun v => Gives (GoPtr v))) in H
          by (destruct (doc w); discriminate Hnd || reflexivity).
        apply and_then_gives in H as (y & E & [= <-]).
        assert (Hs : shaped tb e (match z with GoPtr v => v | _ => zero_of e end)).
        { inversion Hsh; subst; try contradiction; [assumption|]. apply zero_known. exact Hk. }
        destruct (IHe om _ _ Hk Hs Hn E) as [[F HF] Hy]. split; [|apply sh_ptr; exact Hy].
        destruct (of_zero (Nd := Nd) x tb e _ (Hz e Hk)) as [F' HF'].
        eapply try_first; [exact Hw|reflexivity|]. exists (F + F'). intro h. destruct (HF h) as (qs & ps & h' & R & _ & B).
        exists qs, ps, h'. split; [exact R|]. intros f Hf.
        replace (match z with GoPtr v => Ret v | _ => of_option (zero x tb f e) end) with
          (Ret (Nd := Nd) (match z with GoPtr v => v | _ => zero_of e end)) by (destruct z; try rewrite HF' by lia; reflexivity).
        cbn [bind]. eapply follows_bind0; [apply B; lia|]. intro; constructor.
    - (* map *)
      destruct Hk as [Hk1 Hk2]. split; [|apply sh_other; exact I].
      assert (Hn1 : drains = true -> no_text k = true) by (intro Hd; specialize (Hn Hd); cbn in Hn; apply andb_true_iff in Hn; apply Hn).
      assert (Hn2 : drains = true -> no_text e = true) by (intro Hd; specialize (Hn Hd); cbn in Hn; apply andb_true_iff in Hn; apply Hn).
      destruct w as [|s|ws|ws]; try discriminate.
      + injection H as <-. eapply null_first. reflexivity.
      + assert (Hs : steps (fun _ => true)
          (step2 (Nd := Nd) o ms val drains (fun f m => bind (of_option (zero x tb f k)) (fun zk =>
                         bind (of_option (zero x tb f e)) (fun ze =>
                         bind (dec f om k zk) (fun key =>
                         bind (dec f om e ze) (fun v =>
                         match m with GoMap l => Ret (GoMap (go_assign key v l)) | _ => Crash end))))))
          (if om && (ms (length ws) =? 0) then GoNil else GoMap []) ws v).
        { destruct ws as [|kv ws].
          - cbn in H. injection H as <-. replace (ms (length (@nil (ReadSpec.tree * ReadSpec.tree)))) with 0 by (symmetry; apply Hms; reflexivity).
            rewrite Nat.eqb_refl, andb_true_r. constructor.
          - replace (om && (ms (length (kv :: ws)) =? 0)) with false.
            2: { symmetry. apply andb_false_intro2. apply Nat.eqb_neq. intro E. apply (proj1 (Hms _)) in E. discriminate. }
            replace (means (doc (TMap (kv :: ws))) om (TyMap k e) z) with
              (map_of (fun d' => means d' om k (zero_of k)) (fun d' => means d' om e (zero_of e)) (flat_map (fun kv => [doc (fst kv); doc (snd kv)]) (kv :: ws)) []) in H by reflexivity.
            apply map_gives in H; auto. eapply map_forall; [|exact Hsub]. intros a [Ha Hb]. split; [apply Ha|apply Hb]. }
        eapply try_first; [discriminate|reflexivity|]. destruct (loop_entries tb o ms val drains (fun n => proj1 (Hms n)) Htexts _ _ _ _ _ Hs) as [F HF].
        exists F. intro h. destruct (HF h (S h)) as (qs & ps & h' & R & B).
        exists (QCall DMapping :: QSize h :: qs), (PAnswer (AColl CollNoop) :: PSize (ms (length ws)) :: ps), h'.
        split; [apply R_map; exact R|]. intros f Hf. constructor. constructor. apply (B f f); lia.
    - (* struct *)
      destruct (nth_error tb i) as [fs0|] eqn:Ei; [|apply nth_error_None in Ei; cbn in Hk; lia].
      destruct w as [|s|ws|ws]; try discriminate.
      inversion Hsh as [|? vs Hvs E0 E3| | |]; subst; [|contradiction].
      replace (means (doc (TMap ws)) om (TyStruct i) (GoStruct vs)) with
        (struct_of strict (fun d' f => means d' (omitempty || fl_omitempty f) (fl_type f)) (nth i tb []) (flat_map (fun kv => [doc (fst kv); doc (snd kv)]) ws) vs) in H by reflexivity.
      apply (struct_gives i fs0 Ei) in H as [Hv Hs]; [|eapply map_forall; [|exact Hsub]; intros a [_ Ha]; exact Ha|exact Hsh].
      split; [|exact Hv]. destruct (loop_entries tb o ms val drains (fun n => proj1 (Hms n)) Htexts _ _ _ _ _ Hs) as [F HF].
      exists (S F). intro h. destruct (HF h (S h)) as (qs & ps & h' & R & B).
      exists (QCall DTryNull :: QCall DMapping :: QSize h :: qs), (PAnswer (ABool false) :: PAnswer (AColl CollNoop) :: PSize (ms (length ws)) :: ps), h'.
      split; [constructor; [discriminate|]; apply R_map; exact R|]. split; [exact I|].
      intros [|f] Hf; [lia|]. cbn [decode]. constructor; [exact I|]. cbn [yes bind]. constructor. apply FO_extra. apply (B f f); lia.
  Qed.
  Theorem all_gives : forall w t, gives_ok w t.
  Proof.
    induction w as [|s|ws IHw|ws IHw] using tree_deep; apply step_gives; try exact I; assumption.
  Qed.

  Theorem top_gives t z w v : known tb t -> shaped tb t z -> (drains = true -> no_text t = true) ->
    meaning_of x tb omitempty strict o zero_of t z (doc w) = Gives v ->
    exists qs ps h' F, rd 0 w qs ps h' /\ forall f, F <= f -> fol (decode_top x tb omitempty strict f t z) 0 qs ps h' v.
  Proof.
    intros Hk Hsh Hn H.
    assert (Hs : (exists i, t = TyStruct i) \/
      (forall f, decode_top (Nd := Nd) x tb omitempty strict f t z = Call DTryNull (fun a => if yes a then Ret z else dec f omitempty t z))
       /\ meaning_of x tb omitempty strict o zero_of t z (doc w) = if null_doc (doc w) then Gives z else means (doc w) omitempty t z).
    { destruct t; try (right; split; [reflexivity|destruct (doc w); reflexivity]). left. eexists; reflexivity. }
    destruct Hs as [[i ->]|[E1 E2]].
    - destruct (all_gives w (TyStruct i) omitempty z v Hk Hsh Hn H) as [[F HF] _].
      destruct (HF 0) as (qs & ps & h' & R & _ & B). exists qs, ps, h', F. split; [exact R|exact B].
    - rewrite E2 in H. destruct (null_dec w) as [->|[Hw Hnd]].
      + injection H as <-. exists [QCall DTryNull], [PAnswer (ABool true)], 0, 0. split; [constructor|].
        intros f _. rewrite E1. constructor; [exact I|]. constructor.
      + rewrite Hnd in H. destruct (all_gives w t omitempty z v Hk Hsh Hn H) as [[F HF] _].
        destruct (HF 0) as (qs & ps & h' & R & _ & B).
        exists (QCall DTryNull :: qs), (PAnswer (ABool false) :: ps), h', F. split; [constructor; assumption|].
        intros f Hf. rewrite E1. constructor; [exact I|]. cbn [yes]. apply B. exact Hf.
  Qed.
End Main.

Theorem y_decode_gives x tb omitempty strict o zero_of t z n w v multi :
  sensible x tb -> zeros x tb zero_of -> known tb t -> typed tb t z -> y_tree n = Some w ->
  meaning_of x tb omitempty strict o zero_of t z (doc w) = Gives v ->
  exists F, forall f, F <= f -> exists r hs,
    y_decode x tb omitempty strict o multi f t z n = Done (v, (r, hs)) /\ no_errors (y_engine o) o f r.
Proof.
  intros Htb Hz Hk Ht Hn Hm.
  destruct (top_gives (Nd := node) x tb omitempty strict zero_of o (fun n => n) (value_of o) false ltac:(tauto) ltac:(discriminate) Htb Hz
    t z w v Hk (typed_shaped tb z t Ht) ltac:(discriminate) Hm) as (qs & ps & h' & F & R & B).
  destruct (y_reads o multi _ _ _ _ _ Hn R) as (rs & hs & F' & Hmm & Hl & HF).
  exists (F + F'). intros f Hf. destruct (HF f ltac:(lia)) as (r & Hd & He & _).
  exists r, hs. split; [|exact He]. eapply interp_follows; [apply B; lia|reflexivity|exact Hmm|exact Hd].
Qed.
Theorem g_decode_gives x tb omitempty strict o marshal zero_of t z g i w v multi :
  sensible x tb -> zeros x tb zero_of -> no_texts tb -> no_text t = true -> known tb t -> typed tb t z -> g_tree g i w ->
  meaning_of x tb omitempty strict o zero_of t z (doc w) = Gives v ->
  exists F, forall f, F <= f -> exists r hs,
    g_decode x tb omitempty strict o marshal multi f t z g i = Done (v, (r, hs)) /\ no_errors (g_engine marshal o) o f r.
Proof.
  intros Htb Hz Hns Hnt Hk Ht Hg Hm.
  destruct (top_gives (Nd := gref) x tb omitempty strict zero_of o double (value_of o) true ltac:(unfold double; lia) ltac:(auto) Htb Hz
    t z w v Hk (typed_shaped tb z t Ht) ltac:(auto) Hm) as (qs & ps & h' & F & R & B).
  destruct (g_reads o marshal g multi _ _ _ _ _ Hg R) as (rs & hs & F' & Hmm & Hl & HF).
  exists (F + F'). intros f Hf. destruct (HF f ltac:(lia)) as (r & Hd & He & _).
  exists r, hs. split; [|exact He]. eapply interp_follows; [apply B; lia|reflexivity|exact Hmm|exact Hd].
Qed.

(** the zero values exist *)
Fixpoint zero_by (x : externs) (zs : list goval) (t : gotype) : goval :=
  match t with
  | TyString => GoString [] | TyBool => GoBool false | TyInt _ => GoInt 0 | TyUint _ => GoUint 0 | TyFloat _ => GoFloat 0
  | TyText k => GoText (x_zero x k)
  | TyArray n e => GoArray (List.repeat (zero_by x zs e) n)
  | TyStruct i => nth i zs GoNil
  | TyBytes | TySlice _ | TyPtr _ | TyMap _ _ => GoNil
  end.
Lemma zero_by_zeros x tb zs : (forall i, i < length tb -> zeroval x tb (TyStruct i) (nth i zs GoNil)) -> zeros x tb (zero_by x zs).
Proof.
  intros H t. induction t; intro Hk; cbn [zero_by]; try (constructor; fail); try (apply Z_nil; reflexivity).
  - cbn in Hk. specialize (IHt Hk). rewrite <- (repeat_length (zero_by x zs t) n) at 1.
    apply Z_array. apply Forall_forall. intros y Hy. apply repeat_spec in Hy. subst. exact IHt.
  - apply H. exact Hk.
Qed.
Theorem zeros_exist x tb : sensible x tb -> exists zero_of, zeros x tb zero_of.
Proof.
  intro Htb.
  assert (H : forall n, n <= length tb -> exists zs, length zs = n /\ forall i, i < n -> zeroval x tb (TyStruct i) (nth i zs GoNil)).
  { induction n as [|n IH]; intro Hn; [exists []; split; [reflexivity|intros; lia]|].
    destruct (IH ltac:(lia)) as (zs & El & Hzs). destruct (nth_error tb n) as [fs|] eqn:E; [|apply nth_error_None in E; lia].
    destruct (Htb n fs E) as [[z Hz] _]. exists (zs ++ [z]). split; [rewrite app_length; cbn; lia|].
    intros i Hi. destruct (Nat.eq_dec i n) as [->|Hne].
    - rewrite app_nth2, El, Nat.sub_diag by lia. exact Hz.
    - rewrite app_nth1 by lia. apply Hzs. lia. }
  destruct (H _ (le_n _)) as (zs & _ & Hzs). exists (zero_by x zs). apply zero_by_zeros. exact Hzs.
Qed.
