From Verif Require Import Base Schema Ast Builder BuilderProofs GBuilder GBuilderProofs Writer Encoder WriterSpec.
Local Open Scope nat_scope.

(** ** buffers *)
Lemma cell_set_length cells i s : i < length cells -> length (cell_set cells i s) = length cells.
Proof. intro H. unfold cell_set. rewrite app_length. cbn [length]. rewrite firstn_length, skipn_length. lia. Qed.

Lemma cell_set_same cells i s : i < length cells -> nth i (cell_set cells i s) [] = s.
Proof.
  intro H. unfold cell_set. rewrite app_nth2; rewrite firstn_length; [|lia].
  replace (i - min i (length cells)) with 0 by lia. reflexivity.
Qed.

Lemma cell_set_other cells i j s : i < length cells -> i <> j -> nth j (cell_set cells i s) [] = nth j cells [].
Proof.
  intros H Hj. unfold cell_set. rewrite <- (firstn_skipn i cells) at 3.
  assert (Hl : length (firstn i cells) = i) by (rewrite firstn_length; lia).
  destruct (Nat.lt_ge_cases j i) as [H1|H1].
  - rewrite !app_nth1 by lia. reflexivity.
  - rewrite !app_nth2 by lia. rewrite Hl.
    destruct (j - i) as [|m] eqn:E; [lia|].
    destruct (skipn i cells) as [|x l] eqn:Es.
    { apply (f_equal (@length text)) in Es. rewrite skipn_length in Es. cbn in Es. lia. }
    replace (skipn (S i) cells) with l; [reflexivity|].
    clear - Es. revert i Es; induction cells as [|y cells IH]; intros [|i] Es; try discriminate.
    + injection Es as _ <-. reflexivity.
    + cbn [skipn]. apply (IH i Es).
Qed.

Definition wf_writer {K} (w : @writer K) : Prop := wr_cur w < length (wr_cells w).

Section W.
  Context {K D : Type} (kp : option (keeper K)) (dst_write : D -> text -> option N * D).

  (** everything a write gives, from the keeper's state only *)
  Lemma w_write_eq fuel (w : writer) n :
    w_write kp fuel w n =
    match visit kp fuel n (mkWS [] [] 0 [] [] [] (ws_keeper (wr_state w))) with
    | Done s => Done (ws_errors s, mkWriter (cell_set (wr_cells w) (wr_cur w) (ws_buf s)) (wr_cur w) s)
    | Panics => Panics
    | NoFuel => NoFuel
    end.
  Proof. reflexivity. Qed.

  Lemma used_wf w w' : used kp dst_write w w' -> wf_writer w -> wf_writer w'.
  Proof.
    unfold wf_writer. intros [fuel w0 n r w1 H|fuel w0 n r w1 H|fuel w0 n d r d' w1 H|w0 s st] Hw.
    - unfold w_write_string in H. rewrite w_write_eq in H.
      destruct (visit _ _ _ _) as [s| |]; try discriminate. cbn [obind] in H.
      destruct (ws_errors s); injection H as _ <-; cbn; rewrite ?cell_set_length; auto;
        rewrite ?cell_set_length; auto.
    - unfold w_write_bytes in H. rewrite w_write_eq in H.
      destruct (visit _ _ _ _) as [s| |]; try discriminate. cbn [obind] in H.
      destruct (ws_errors s); injection H as _ <-; cbn; rewrite ?app_length, ?cell_set_length; auto. cbn. lia.
    - unfold w_write_to in H. rewrite w_write_eq in H.
      destruct (visit _ _ _ _) as [s| |]; try discriminate. cbn [obind] in H.
      destruct (ws_errors s).
      + cbn [wr_cells wr_cur] in H. rewrite cell_set_same in H by assumption.
        destruct (ws_buf s); [|destruct (dst_write _ _) as [[|] ?]]; injection H as _ _ <-; cbn;
          rewrite cell_set_length; rewrite ?cell_set_length; auto.
      + injection H as _ _ <-. cbn. rewrite cell_set_length; auto.
    - cbn. change (wr_cur w0 < length (cell_set (wr_cells w0) (wr_cur w0) s)). rewrite cell_set_length; auto.
  Qed.

  Lemma used_many_wf w w' : used_many kp dst_write w w' -> wf_writer w -> wf_writer w'.
  Proof. induction 1 as [|w1 w2 w3 H1 H2 IH]; eauto using used_wf. Qed.

  Lemma history_wf w : some_history kp dst_write w -> wf_writer w.
  Proof. intros (k & H). apply (used_many_wf _ _ H). cbn. unfold wf_writer. cbn. lia. Qed.

  Lemma string_history fuel w n : some_history kp dst_write w ->
    outcomes_agree (fun x y => fst x = fst y /\ ws_keeper (wr_state (snd x)) = ws_keeper (wr_state (snd y)))
      (w_write_string kp fuel w n)
      (w_write_string kp fuel (new_writer (ws_keeper (wr_state w))) n).
  Proof.
    intro H. apply history_wf in H. unfold w_write_string. rewrite !w_write_eq.
    cbn [new_writer wr_state ws_keeper wr_cells wr_cur].
    destruct (visit kp fuel n _) as [s| |]; [|exact I|exact I]. cbn [obind].
    destruct (ws_errors s); cbn; [|auto]. rewrite cell_set_same by exact H. auto.
  Qed.

  Lemma bytes_agree fuel w n : some_history kp dst_write w ->
    outcomes_agree (fun x y =>
        match fst x, fst y with
        | WOk i, WOk s => slice (snd x) i = s
        | WErr e1, WErr e2 => e1 = e2
        | _, _ => False
        end /\ ws_keeper (wr_state (snd x)) = ws_keeper (wr_state (snd y)))
      (w_write_bytes kp fuel w n) (w_write_string kp fuel w n).
  Proof.
    intro H. apply history_wf in H. unfold w_write_bytes, w_write_string. rewrite !w_write_eq.
    destruct (visit kp fuel n _) as [s| |]; [|exact I|exact I]. cbn [obind].
    destruct (ws_errors s); cbn; [|auto]. unfold slice. cbn [wr_cells].
    rewrite app_nth1 by (rewrite cell_set_length; exact H).
    rewrite cell_set_same by exact H. auto.
  Qed.

  Lemma to_agree fuel w n d : some_history kp dst_write w ->
    outcomes_agree (fun x y =>
        match fst y with
        | WOk [] => fst x = (WOk d, d)
        | WOk s => fst x = match dst_write d s with
                           | (None, d') => (WOk d', d')
                           | (Some e, d') => (WDst e, d')
                           end
        | WErr es => fst x = (WErr es, d)
        | WDst _ => False
        end /\ ws_keeper (wr_state (snd x)) = ws_keeper (wr_state (snd y)))
      (w_write_to kp dst_write fuel w n d) (w_write_string kp fuel w n).
  Proof.
    intro H. apply history_wf in H. unfold w_write_to, w_write_string. rewrite !w_write_eq.
    destruct (visit kp fuel n _) as [s| |]; [|exact I|exact I]. cbn [obind].
    destruct (ws_errors s); cbn; [|auto]. rewrite !cell_set_same by exact H.
    destruct (ws_buf s) as [|c b]; cbn; [auto|].
    unfold text, rune in *. destruct (dst_write d (c :: b)) as [[e|] d'] eqn:E; cbn; rewrite E; auto.
  Qed.

  (** a buffer that is not current is never touched again *)
  Definition detached (w : @writer K) (i : nat) : Prop := i < length (wr_cells w) /\ i <> wr_cur w.

  Lemma used_detached w w' i : used kp dst_write w w' -> wf_writer w -> detached w i ->
    detached w' i /\ slice w' i = slice w i.
  Proof.
    unfold detached, slice, wf_writer.
    intros [fuel w0 n r w1 H|fuel w0 n r w1 H|fuel w0 n d r d' w1 H|w0 s st] Hw [Hi Hc].
    - unfold w_write_string in H. rewrite w_write_eq in H.
      destruct (visit _ _ _ _) as [s| |]; try discriminate. cbn [obind] in H.
      destruct (ws_errors s); injection H as _ <-; cbn;
        rewrite ?cell_set_other by (rewrite ?cell_set_length; auto);
        rewrite ?cell_set_length by (rewrite ?cell_set_length; auto); auto.
    - unfold w_write_bytes in H. rewrite w_write_eq in H.
      destruct (visit _ _ _ _) as [s| |]; try discriminate. cbn [obind] in H.
      destruct (ws_errors s); injection H as _ <-; cbn.
      + rewrite app_length, cell_set_length, app_nth1, cell_set_other by (rewrite ?cell_set_length; auto).
        repeat split; lia.
      + rewrite cell_set_other, cell_set_length by auto. auto.
    - unfold w_write_to in H. rewrite w_write_eq in H.
      destruct (visit _ _ _ _) as [s| |]; try discriminate. cbn [obind] in H.
      destruct (ws_errors s).
      + cbn [wr_cells wr_cur] in H. rewrite cell_set_same in H by assumption.
        destruct (ws_buf s); [|destruct (dst_write _ _) as [[|] ?]]; injection H as _ _ <-; cbn;
          rewrite !cell_set_other by (rewrite ?cell_set_length; auto);
          rewrite !cell_set_length by (rewrite ?cell_set_length; auto); auto.
      + injection H as _ _ <-. cbn. rewrite cell_set_other, cell_set_length; auto.
    - cbn [wr_cells wr_cur]. change (firstn (wr_cur w0) (wr_cells w0) ++ s :: skipn (S (wr_cur w0)) (wr_cells w0))
        with (cell_set (wr_cells w0) (wr_cur w0) s).
      rewrite cell_set_other, cell_set_length by auto. auto.
  Qed.

  Lemma slice_stable fuel w n i w1 w2 : some_history kp dst_write w ->
    w_write_bytes kp fuel w n = Done (WOk i, w1) -> used_many kp dst_write w1 w2 ->
    slice w2 i = slice w1 i.
  Proof.
    intros Hh Hb Hm. apply history_wf in Hh.
    assert (Hw1 : wf_writer w1) by (eapply used_wf; [eapply used_bytes; exact Hb|exact Hh]).
    assert (Hd : detached w1 i).
    { unfold w_write_bytes in Hb. rewrite w_write_eq in Hb.
      destruct (visit _ _ _ _) as [s| |]; try discriminate. cbn [obind] in Hb.
      destruct (ws_errors s); [|discriminate]. injection Hb as <- <-. unfold detached. cbn.
      unfold wf_writer in Hh. rewrite app_length, cell_set_length by exact Hh. cbn. lia. }
    clear Hb. induction Hm as [w1|w1 w3 w4 H1 H2 IH]; [reflexivity|].
    destruct (used_detached _ _ _ H1 Hw1 Hd) as [Hd3 E]. rewrite <- E. apply IH; auto.
    eapply used_wf; eauto.
  Qed.
End W.

(** ** encoders *)
Section Enc.
  Context {B Op T BE W D Out OutTo : Type}.
  Context (step : B -> Op -> B) (res : B -> option BE * T * B).
  Context (wstring wbytes : W -> T -> Out * W) (wto : W -> T -> D -> OutTo * D * W).
  Context (build : list Op -> option BE * T) (text_of : T -> Out) (deliver : T -> D -> OutTo * D).
  (** [IB b ops]: the builder holds the insertions [ops] *)
  Context (IB : B -> list Op -> Prop) (IW : W -> Prop).

  Definition lawful : Prop :=
    (forall b ops o, IB b ops -> IB (step b o) (ops ++ [o])) /\
    (forall b ops, IB b ops -> fst (res b) = build ops /\ IB (snd (res b)) []) /\
    (forall w t, IW w -> fst (wstring w t) = text_of t /\ IW (snd (wstring w t))) /\
    (forall w t, IW w -> fst (wbytes w t) = text_of t /\ IW (snd (wbytes w t))) /\
    (forall w t d, IW w -> fst (wto w t d) = deliver t d /\ IW (snd (wto w t d))).

  Lemma run_expected : lawful -> forall rs e ops, IB (e_builder e) ops -> IW (e_writer e) ->
    enc_run step res wstring wbytes wto e rs = expected build text_of deliver ops rs.
  Proof.
    intros (L1 & L2 & L3 & L4 & L5). induction rs as [|r rs IH]; intros e ops Hb Hw; [reflexivity|].
    destruct r as [o| | |d]; cbn [enc_run expected].
    - apply IH; [apply L1, Hb|exact Hw].
    - unfold encode_to_string, expected_text. destruct (L2 _ _ Hb) as [E Hb'].
      destruct (res (e_builder e)) as [[err t] b]. cbn in E, Hb'. rewrite <- E.
      destruct err as [x|].
      + f_equal. apply IH; auto.
      + destruct (L3 (e_writer e) t Hw) as [E2 Hw']. destruct (wstring (e_writer e) t) as [out w].
        cbn in E2, Hw'. rewrite E2. f_equal. apply IH; auto.
    - unfold encode_to_bytes, expected_text. destruct (L2 _ _ Hb) as [E Hb'].
      destruct (res (e_builder e)) as [[err t] b]. cbn in E, Hb'. rewrite <- E.
      destruct err as [x|].
      + f_equal. apply IH; auto.
      + destruct (L4 (e_writer e) t Hw) as [E2 Hw']. destruct (wbytes (e_writer e) t) as [out w].
        cbn in E2, Hw'. rewrite E2. f_equal. apply IH; auto.
    - unfold encode_to, expected_to. destruct (L2 _ _ Hb) as [E Hb'].
      destruct (res (e_builder e)) as [[err t] b]. cbn in E, Hb'. rewrite <- E.
      destruct err as [x|].
      + f_equal. apply IH; auto.
      + destruct (L5 (e_writer e) t d Hw) as [E2 Hw']. destruct (wto (e_writer e) t d) as [[out d'] w].
        cbn in E2, Hw'. rewrite <- E2. cbn. f_equal. apply IH; auto.
  Qed.
End Enc.

(** the yayamls engine *)
Lemma yayamls_lawful {D} (dst_write : D -> text -> option N * D) q :
  lawful bstep yb_result yw_string yw_bytes (yw_to dst_write)
    (fun ops => observe (bsteps (new_builder q) ops)) serialized (delivered dst_write)
    (fun b ops => exists g, b = shift_builder g (bsteps (new_builder q) ops))
    (some_history None dst_write).
Proof.
  unfold lawful. split; [|split; [|split; [|split]]].
  - intros b ops o (g & ->). exists g. rewrite shift_step. unfold bsteps. rewrite fold_left_app. reflexivity.
  - intros b ops (g & ->). unfold yb_result; cbn [fst snd]. split.
    + rewrite shift_observe by apply wf_steps, wf_new. destruct (observe _); reflexivity.
    + rewrite result_shift. eexists. cbn [bsteps fold_left]. f_equal.
      unfold shift_builder; cbn [b_unquote]. rewrite unquote_steps. reflexivity.
  - intros w t Hw. unfold yw_string, serialized, yw_string.
    pose proof (string_history None dst_write 0 w t Hw) as H. destruct (wr_state w) as [? ? ? ? ? ? []]. cbn [ws_keeper] in H.
    destruct (w_write_string None 0 w t) as [[r w1]| |] eqn:E1,
             (w_write_string None 0 (new_writer tt) t) as [[r2 w2]| |]; try contradiction.
    + destruct H as [H _]. cbn in H. subst r2.
      assert (Hu : some_history None dst_write w1).
      { destruct Hw as (k & Hw). exists k. clear -Hw E1. induction Hw; [|econstructor; eauto].
        econstructor; [eapply used_string; exact E1|constructor]. }
      destruct r; cbn; auto.
    + auto.
    + auto.
  - intros w t Hw. unfold yw_bytes, serialized, yw_string.
    pose proof (string_history None dst_write 0 w t Hw) as H.
    pose proof (bytes_agree None dst_write 0 w t Hw) as Hb.
    destruct (wr_state w) as [? ? ? ? ? ? []]. cbn [ws_keeper] in H.
    destruct (w_write_bytes None 0 w t) as [[rb wb]| |] eqn:Eb,
             (w_write_string None 0 w t) as [[r w1]| |] eqn:E1,
             (w_write_string None 0 (new_writer tt) t) as [[r2 w2]| |]; try contradiction; try (split; [reflexivity|exact Hw]).
    destruct H as [H _]. cbn in H. subst r2. destruct Hb as [Hb _]. cbn in Hb.
    assert (Hu : some_history None dst_write wb).
    { destruct Hw as (k & Hw). exists k. clear -Hw Eb. induction Hw; [|econstructor; eauto].
      econstructor; [eapply used_bytes; exact Eb|constructor]. }
    destruct rb, r; try contradiction; subst; auto.
  - intros w t d Hw. unfold yw_to, delivered, serialized, yw_string.
    pose proof (string_history None dst_write 0 w t Hw) as H.
    pose proof (to_agree None dst_write 0 w t d Hw) as Hb.
    destruct (wr_state w) as [? ? ? ? ? ? []]. cbn [ws_keeper] in H.
    destruct (w_write_to None dst_write 0 w t d) as [[[rb db] wb]| |] eqn:Eb,
             (w_write_string None 0 w t) as [[r w1]| |] eqn:E1,
             (w_write_string None 0 (new_writer tt) t) as [[r2 w2]| |]; try contradiction; try (split; [reflexivity|exact Hw]).
    destruct H as [H _]. cbn in H. subst r2. destruct Hb as [Hb _]. cbn in Hb.
    assert (Hu : some_history None dst_write wb).
    { destruct Hw as (k & Hw). exists k. clear -Hw Eb. induction Hw; [|econstructor; eauto].
      econstructor; [eapply used_to; exact Eb|constructor]. }
    destruct r as [s|es|e]; [|injection Hb as -> ->; auto|contradiction].
    destruct s as [|c s]; [injection Hb as -> ->; auto|].
    cbn [fst]. destruct (dst_write d (c :: s)) as [[e|] d']; injection Hb as -> ->; auto.
Qed.

Lemma yayamls_expected {D} (dst_write : D -> text -> option N * D) q rs :
  yayamls_run dst_write q rs =
  expected (fun ops => observe (bsteps (new_builder q) ops)) serialized (delivered dst_write) [] rs.
Proof.
  unfold yayamls_run. eapply run_expected; [apply yayamls_lawful| |].
  - exists []. cbn. unfold shift_builder, new_builder. reflexivity.
  - exists tt. constructor.
Qed.

(** the goyaml engine *)
Lemma goyaml_expected (yaml_encode : option gnode -> text + N) {D} (dst_write : D -> text -> option N * D) q rs :
  goyaml_run yaml_encode dst_write q rs =
  expected (fun ops => g_observe (gsteps (g_new q) ops)) yaml_encode
    (fun t d => match yaml_encode t with inr e => (Some e, d) | inl s => dst_write d s end) [] rs.
Proof.
  unfold goyaml_run.
  eapply (run_expected gstep gb_result (gw_string yaml_encode) (gw_bytes yaml_encode) (gw_to yaml_encode dst_write)
    (fun ops => g_observe (gsteps (g_new q) ops)) yaml_encode _
    (fun b ops => exists g, b = gshift g (gsteps (g_new q) ops)) (fun _ => True)).
  - unfold lawful. split; [|split; [|split; [|split]]].
    + intros b ops o (g & ->). exists g. rewrite gshift_step. unfold gsteps. rewrite fold_left_app. reflexivity.
    + intros b ops (g & ->). unfold gb_result; cbn [fst snd]. split.
      * rewrite gshift_observe by apply g_wf_steps, g_wf_new. destruct (g_observe _); reflexivity.
      * assert (Hres : forall b, snd (g_result b) = gshift (g_heap b) (g_new (g_unquote b)))
          by (intro b; unfold g_result, gshift, g_new; cbn; rewrite app_nil_r; reflexivity).
        rewrite Hres. eexists. cbn [gsteps fold_left]. f_equal.
        cbn [gshift g_unquote]. rewrite g_unquote_steps. reflexivity.
    + intros; auto.
    + intros; auto.
    + intros w t d _. split; [|exact I]. unfold gw_to. destruct (yaml_encode t); [|reflexivity].
      destruct (dst_write d t0); reflexivity.
  - exists []. reflexivity.
  - exact I.
Qed.
