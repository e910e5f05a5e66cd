(** C41 for the two engines: generated encoder, builder, reader, generated decoder. *)
From Coq Require Import String.
From Coq Require Import ZifyBool ZifyNat.
From Verif Require Import Base Schema SchemaSpec SchemaProofs Values Ast Writer Builder BuilderSpec BuilderProofs
  GBuilder GBuilderSpec GBuilderProofs Reader ReadSpec ReaderSpec DocSpec YReader YReaderProofs GReader GReaderProofs
  GenCode GenSpec GenProofs.
Local Open Scope nat_scope.

Lemma not_null_number s : sc_is_integer s = true \/ sc_is_float s = true \/ sc_is_boolean s = true -> sc_is_null s = false.
Proof.
  intro H. destruct (kinds_disjoint s) as (H1 & H2 & _). destruct (sc_is_null s); [|reflexivity].
  destruct (sc_is_integer s), (sc_is_float s), (sc_is_boolean s), (sc_is_unsigned s); cbn in *; try discriminate;
    destruct H as [H|[H|H]]; discriminate.
Qed.
Lemma int_not_null z : sc_is_null (sc_from_integer z) = false.
Proof. apply not_null_number. left. apply (from_integer_roundtrip z 64); lia. Qed.
Lemma uint_not_null n : sc_is_null (sc_from_unsigned n) = false.
Proof. apply not_null_number. left. apply (from_unsigned_roundtrip n 64). Qed.
Lemma bool_not_null b : sc_is_null (sc_from_boolean b) = false.
Proof. destruct b; reflexivity. Qed.
Lemma float_not_null s : sc_is_float s = true -> sc_is_null s = false.
Proof. intro H. apply not_null_number. auto. Qed.

(** ** yayamls *)
Lemma shows_y u : forall w, shows u w -> y_tree (BuilderSpec.tree false u) = Some w.
Proof.
  induction u using value_ind'; intros w Hw; inversion Hw; subst; cbn [BuilderSpec.tree y_tree andb plain_quoting];
    rewrite ?int_not_null, ?uint_not_null, ?bool_not_null; try reflexivity.
  - rewrite float_not_null by assumption. reflexivity.
  - match goal with Hs : Forall2 shows vs ws |- _ => rename Hs into HS end.
    replace ((fix go (l : list node) : option (list ReadSpec.tree) :=
        match l with
        | [] => Some []
        | x :: l' => match y_tree x, go l' with Some t, Some ts => Some (t :: ts) | _, _ => None end
        end) (map (BuilderSpec.tree false) vs)) with (Some ws); [reflexivity|].
    clear Hw. induction HS as [|u w us ws Hu HS IH]; [reflexivity|]. inversion H; subst.
    cbn [map]. rewrite (H2 w Hu), <- IH by assumption. reflexivity.
  - match goal with Hs : Forall2 _ kvs ws |- _ => rename Hs into HS end.
    replace ((fix go (l : list node) : option (list (ReadSpec.tree * ReadSpec.tree)) :=
        match l with
        | [] => Some []
        | NEntry k v :: l' =>
            match y_tree k, y_tree v, go l' with
            | Some tk, Some tv, Some ts => Some ((tk, tv) :: ts)
            | _, _, _ => None
            end
        | _ :: _ => None
        end) (map (fun kv => NEntry (BuilderSpec.tree false (fst kv)) (BuilderSpec.tree false (snd kv))) kvs)) with (Some ws); [reflexivity|].
    clear Hw. induction HS as [|[a b] [c d] us ws [Ha Hb] HS IH]; [reflexivity|]. inversion H; subst. cbn [fst snd] in *.
    destruct H2 as [Ia Ib]. cbn [map fst snd]. rewrite (Ia c Ha), (Ib d Hb), <- IH by assumption. reflexivity.
Qed.

Lemma shows_single u : forall w, shows u w -> single_docs u.
Proof.
  induction u using value_ind'; intros w Hw; inversion Hw; subst; cbn; try exact I.
  - match goal with Hs : Forall2 shows vs ws |- _ => rename Hs into HS end. clear Hw.
    induction HS as [|u w us ws Hu HS IH]; [exact I|]. inversion H; subst. split; [eapply H2; exact Hu|apply IH; assumption].
  - match goal with Hs : Forall2 _ kvs ws |- _ => rename Hs into HS end. clear Hw.
    induction HS as [|[a b] [c d] us ws [Ha Hb] HS IH]; [exact I|]. inversion H; subst. cbn [fst snd] in *.
    destruct H2 as [Ia Ib].
    split; [eapply Ia; exact Ha|]. split; [eapply Ib; exact Hb|apply IH; assumption].
Qed.

Lemma y_generated x tb omitempty strict o t v z :
  typed tb t v -> survives x tb o omitempty omitempty t v -> zeroval x tb t z ->
  exists n, observe (bsteps (new_builder false) (encode_top x tb omitempty t v)) = (None, n) /\
  forall multi, exists F, forall f, F <= f -> exists r hs,
    y_decode x tb omitempty strict o multi f t z n = Done (v, (r, hs))
    /\ no_errors (y_engine o) o f r.
Proof.
  intros HT HS Hz.
  destruct (top_good (Nd := node) x tb omitempty strict o (fun n => n) (value_of o) false ltac:(auto) ltac:(discriminate)
    t v z HT HS ltac:(discriminate) Hz) as (u & w & E & Sh & qs & ps & h' & F & R & B).
  exists (BuilderSpec.tree false u). split; [rewrite E; apply observe_build; eapply shows_single; eassumption|].
  intro multi. destruct (y_reads o multi _ _ _ _ _ (shows_y u w Sh) R) as (rs & hs & F' & Hm & Hl & HF).
  exists (F + F'). intros f Hf. destruct (HF f ltac:(lia)) as (r & Hd & He & _).
  exists r, hs. split; [|exact He].
  eapply interp_follows; [apply B; lia|reflexivity|exact Hm|exact Hd].
Qed.

(** ** goyaml *)
Fixpoint gv (u : value) : gvalue :=
  match u with
  | VaNull => GvNull
  | VaScalar s => GvScalar s
  | VaRawText s => GvRawText s
  | VaRaw _ => GvNull
  | VaSeq l => GvSeq (map gv l)
  | VaMap l => GvMap (map (fun kv => (gv (fst kv), gv (snd kv))) l)
  end.
Lemma shows_gcalls u : forall w, shows u w -> map gop_of (calls u) = gcalls (gv u).
Proof.
  induction u using value_ind'; intros w Hw; inversion Hw; subst; cbn [calls gv gcalls map gop_of]; try reflexivity.
  - match goal with Hs : Forall2 shows vs ws |- _ => rename Hs into HS end.
    f_equal. rewrite map_app. f_equal. clear Hw.
    induction HS as [|u w us ws Hu HS IH]; [reflexivity|]. inversion H; subst.
    cbn [flat_map map]. rewrite map_app. f_equal; eauto.
  - match goal with Hs : Forall2 _ kvs ws |- _ => rename Hs into HS end.
    f_equal. rewrite map_app. f_equal. clear Hw.
    induction HS as [|[a b] [c d] us ws [Ha Hb] HS IH]; [reflexivity|]. inversion H; subst. cbn [fst snd] in *.
    destruct H2 as [Ia Ib]. cbn [flat_map map fst snd]. rewrite !map_app. repeat (f_equal; eauto).
Qed.

Section G.
  Context (short : N -> text -> text -> text) (g : graph).
  Hypothesis Hshort : short_ok short.

  Lemma holds_text i st s a :
    holds short g i (G KScalar st [] s a []) -> st = 2%N \/ st = 0%N /\ sc_is_null s = false -> g_tree g i (TText s).
  Proof.
    intros H Hs. inversion H as [i' c k st' tag v' a' ns Hi Hk Hx Hv Hc]; subst.
    apply gt_text; [assumption|assumption|]. unfold g_is_null. rewrite Hk. cbn [is_scalar_kind andb].
    rewrite (Hx eq_refl).
    destruct Hshort as (_ & H2 & H3). destruct (text_eqb _ _) eqn:E; [|reflexivity]. apply text_eqb_eq in E.
    destruct Hs as [->|[-> Hs]]; [exfalso; eapply H2; exact E|].
    apply H3, is_null_iff in E. congruence.
  Qed.

  Lemma shows_g u : forall w i, shows u w -> holds short g i (gtree false (gv u)) -> g_tree g i w.
  Proof.
    induction u using value_ind'; intros w i Hw Hh; inversion Hw; subst; cbn [gv gtree andb negb] in Hh.
    - inversion Hh as [i' c k st' tag v' a' ns Hi Hk Hx Hv Hc]; subst.
      apply gt_null with c; [assumption|assumption|]. unfold g_is_null. rewrite Hk, (Hx eq_refl).
      destruct Hshort as (H1 & _). rewrite H1. reflexivity.
    - eapply holds_text; [exact Hh|]. auto.
    - eapply holds_text; [exact Hh|]. right. auto using int_not_null.
    - eapply holds_text; [exact Hh|]. right. auto using uint_not_null.
    - eapply holds_text; [exact Hh|]. right. auto using bool_not_null.
    - eapply holds_text; [exact Hh|]. right. auto using float_not_null.
    - eapply holds_text; [exact Hh|]. auto.
    - inversion Hh as [i' c k st' tag v' a' ns Hi Hk Hx Hv Hc]; subst.
      apply gt_seq with c; [assumption|assumption|].
      match goal with Hs : Forall2 shows vs ws |- _ => rename Hs into HS end. clear Hw Hh Hi Hx Hv.
      revert Hc. generalize (x_content c) as l. clear Hk.
      induction HS as [|u w us ws Hu HS IH]; intros l Hc; inversion H; inversion Hc; subst; constructor; auto.
    - inversion Hh as [i' c k st' tag v' a' ns Hi Hk Hx Hv Hc]; subst.
      apply gt_map with c; [assumption|assumption|].
      match goal with Hs : Forall2 _ kvs ws |- _ => rename Hs into HS end. clear Hw Hh Hi Hx Hv.
      revert Hc. generalize (x_content c) as l. clear Hk.
      induction HS as [|[a b] [c' d] us ws [Ha Hb] HS IH]; intros l Hc; cbn in Hc.
      + inversion Hc. constructor.
      + inversion H; subst. cbn [fst snd] in *. destruct H2 as [Ia Ib].
        inversion Hc as [|k0 ? l0 ? Hk0 Hc0]; subst. inversion Hc0 as [|v0 ? l1 ? Hv0 Hc1]; subst.
        constructor; auto.
  Qed.
End G.

Lemma g_generated x tb omitempty strict o marshal short t v z : short_ok short ->
  typed tb t v -> survives x tb o omitempty omitempty t v -> zeroval x tb t z ->
  no_text t = true -> no_texts tb ->
  exists n, g_observe (gsteps (g_new false) (map gop_of (encode_top x tb omitempty t v))) = (None, Some n) /\
  forall g i multi, holds short g i n -> exists F, forall f, F <= f -> exists r hs,
    g_decode x tb omitempty strict o marshal multi f t z g i = Done (v, (r, hs))
    /\ no_errors (g_engine marshal o) o f r.
Proof.
  intros Hsh HT HS Hz Hn Hns.
  destruct (top_good (Nd := gref) x tb omitempty strict o double (value_of o) true ltac:(unfold double; lia) ltac:(auto)
    t v z HT HS ltac:(auto) Hz) as (u & w & E & Sh & qs & ps & h' & F & R & B).
  exists (gtree false (gv u)). split; [rewrite E, (shows_gcalls u w Sh); apply g_observe_build|].
  intros g i multi Hg.
  destruct (g_reads o marshal g multi _ _ _ _ _ (shows_g short g Hsh u w i Sh Hg) R) as (rs & hs & F' & Hm & Hl & HF).
  exists (F + F'). intros f Hf. destruct (HF f ltac:(lia)) as (r & Hd & He & _).
  exists r, hs. split; [|exact He].
  eapply interp_follows; [apply B; lia|reflexivity|exact Hm|exact Hd].
Qed.

(** ** null for a struct *)
Definition null_read (multi : bool) (fatal : option rerr) : rstate node anchors :=
  mkR [] [] CConsume CollNil [] (mkAnchors [] false []) multi fatal None [].
Lemma null_read_1 o multi f :
  do_call (y_engine o) o (S (S (S f))) DTryNull (y_reader multi NNull) = Done (ABool true, null_read multi None).
Proof. destruct multi; reflexivity. Qed.
Lemma null_read_2 o multi f :
  do_call (y_engine o) o (S (S (S f))) DMapping (null_read multi None) = Done (AColl CollNoop, null_read multi (Some REnd)).
Proof. destruct multi; reflexivity. Qed.

Lemma null_struct x tb omitempty strict o multi i z z0 : zeroval x tb (TyStruct i) z0 ->
  exists F, forall f, F <= f -> exists r hs,
    y_decode x tb omitempty strict o multi f (TyStruct i) z NNull = Done (z0, (r, hs))
    /\ do_call (y_engine o) o f DError r = Done (AErrors [REnd], r).
Proof.
  intros Hz. destruct (of_zero (Nd := node) x tb _ _ Hz) as [F1 HF1].
  exists (4 + F1). intros f Hf. do 4 (destruct f as [|f]; [lia|]).
  exists (null_read multi (Some REnd)), [CollNoop]. split; [|reflexivity].
  unfold y_decode, decode_top. cbn [decode interp fst snd]. rewrite null_read_1. cbn [obind fst snd yes].
  rewrite HF1 by lia. cbn [bind interp fst snd]. rewrite null_read_2.
  reflexivity.
Qed.
