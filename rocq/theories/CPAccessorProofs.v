From Verif Require Import Base CPAccessor CPAccessorSpec.

Section Proofs.
  Variables (S T : Type).
  Variable stream_next : S -> T * S.
  Variable zero : T.

  Notation acc_step := (acc_step stream_next).
  Notation acc_run := (acc_run stream_next).
  Notation cur_step := (cur_step stream_next zero).
  Notation cur_run := (cur_run stream_next zero).

  Definition cp_off (c : option nat) : nat :=
    match c with None => 0 | Some k => k + 1 end.

  Definition saved_at (base : nat) (hist : list T) : T :=
    match base with O => zero | Datatypes.S b => nth b hist zero end.

  Record rel (base : nat) (c : cursor S T) (a : accessor S T) : Prop := {
    r_stream : acc_stream a = cur_stream c;
    r_len : base + length (acc_buf a) = length (cur_hist c);
    r_buf : acc_buf a = skipn base (cur_hist c);
    r_ind : match acc_ind a with
            | None => cur_pos c = length (cur_hist c)
            | Some k => k < length (acc_buf a) /\ cur_pos c = base + k
            end;
    r_stack : Forall2 (fun p cp => p = base + cp_off cp /\ cp_off cp <= length (acc_buf a))
                      (cur_stack c) (acc_cps a);
    r_empty : acc_cps a = [] -> acc_ind a = None -> acc_buf a = [];
    r_bottom : acc_cps a <> [] ->
               last (acc_cps a) None = None \/ cp_off (last (acc_cps a) None) < length (acc_buf a)
  }.

  (** [saved] holds the element just before the buffer. *)
  Definition saved_ok (dr : option bool) (base : nat) (c : cursor S T) (a : accessor S T) : Prop :=
    match dr with
    | None => True
    | Some true => acc_cps a = [] /\ acc_ind a = None
    | Some false => acc_saved a = saved_at base (cur_hist c)
    end.

  Lemma saved_at_app base (h : list T) v :
    base <= length h -> saved_at base (h ++ [v]) = saved_at base h.
  Proof.
    intro H. destruct base as [|b]; cbn; [reflexivity|].
    rewrite app_nth1 by lia. reflexivity.
  Qed.

  Lemma nth_error_skipn {A} (l : list A) b k :
    nth_error (skipn b l) k = nth_error l (b + k).
  Proof.
    revert l; induction b as [|b IH]; intros l; [reflexivity|].
    destruct l as [|x l]; cbn [skipn].
    - destruct k; reflexivity.
    - rewrite IH. reflexivity.
  Qed.

  Lemma skipn_app_le {A} (l : list A) b v :
    b <= length l -> skipn b (l ++ [v]) = skipn b l ++ [v].
  Proof.
    intro H. rewrite skipn_app. replace (b - length l) with 0 by lia. reflexivity.
  Qed.

  Lemma Forall2_impl' {A B} (P Q : A -> B -> Prop) l1 l2 :
    (forall x y, P x y -> Q x y) -> Forall2 P l1 l2 -> Forall2 Q l1 l2.
  Proof. intros H HF. induction HF; constructor; auto. Qed.

  Lemma last_cons_ne {A} (x : A) l d : l <> [] -> last (x :: l) d = last l d.
  Proof. destruct l; [congruence|reflexivity]. Qed.

  Lemma rel_init s : rel 0 (cur_init s) (acc_init zero s).
  Proof. constructor; cbn; auto; congruence. Qed.

  Lemma step_next base dr c a :
    rel base c a -> saved_ok dr base c a ->
    exists base',
      rel base' (snd (cur_step c OpNext)) (snd (acc_step a OpNext)) /\
      fst (acc_step a OpNext) = fst (cur_step c OpNext) /\
      saved_ok (match dr with
                | None => None
                | Some b => Some (match cur_stack c with
                                  | [] => Nat.eqb (cur_pos c + 1) (length (cur_hist c))
                                  | _ => b end)
                end)
               base' (snd (cur_step c OpNext)) (snd (acc_step a OpNext)).
  Proof.
    intros [Hs Hl Hb Hi Hst He Hbot] Hsv.
    destruct a as [st buf sv ind cps]. destruct c as [cs hist pos stk]. cbn in *. subst cs.
    unfold CPAccessor.acc_step, CPAccessorSpec.cur_step, acc_next, cur_next. cbn.
    destruct ind as [k|].
    - destruct Hi as [Hk Hpos]. subst pos.
      assert (Hn : nth_error buf k = nth_error hist (base + k)).
      { rewrite Hb. apply nth_error_skipn. }
      destruct (nth_error buf k) as [v|] eqn:Hv; [|apply nth_error_None in Hv; lia].
      rewrite <- Hn.
      destruct (Nat.eqb_spec (k + 1) (length buf)) as [Hend|Hend].
      + destruct cps as [|cp cps].
        * exists (length hist). cbn. inversion Hst; subst stk.
          split; [constructor; cbn; auto; try lia | split; [reflexivity|]].
          -- rewrite skipn_all. reflexivity.
          -- destruct dr; [|exact I]. rewrite (proj2 (Nat.eqb_eq _ _)) by lia. cbn. auto.
        * exists base. cbn. destruct stk as [|p stk]; [inversion Hst|].
          split; [constructor; cbn; auto; try lia; congruence | split; [reflexivity|]].
          unfold saved_ok in *. destruct dr as [[|]|]; cbn in *; [destruct Hsv; congruence|exact Hsv|exact I].
      + exists base. cbn.
        split; [constructor; cbn; auto; try lia; try congruence | split; [reflexivity|]].
        unfold saved_ok in *. cbn in *.
        destruct dr as [[|]|]; [destruct Hsv as [_ Hsv]; congruence| |exact I].
        destruct stk as [|p stk]; cbn.
        * rewrite (proj2 (Nat.eqb_neq _ _)) by lia. exact Hsv.
        * exact Hsv.
    - subst pos. rewrite (proj2 (nth_error_None _ _)) by lia.
      destruct (stream_next st) as [v s'] eqn:Hnx.
      destruct cps as [|cp cps].
      + assert (Hnil : buf = []) by auto. rewrite Hnil in *. clear buf Hnil Hb. cbn [length] in Hl.
        inversion Hst; subst stk. cbn.
        exists (length hist + 1). cbn.
        split; [constructor; cbn; auto; try lia | split; [reflexivity|]].
        * rewrite app_length. cbn. lia.
        * rewrite skipn_all2; [reflexivity|]. rewrite app_length; cbn; lia.
        * rewrite app_length; cbn; lia.
        * rewrite (proj2 (Nat.eqb_neq _ _)) by lia.
          destruct dr; [|exact I].
          rewrite Nat.add_1_r. cbn. rewrite app_nth2 by lia.
          rewrite Nat.sub_diag. reflexivity.
      + destruct stk as [|p stk]; [inversion Hst|]. cbn.
        exists base.
        split; [constructor; cbn; auto | split; [reflexivity|]].
        * rewrite !app_length. cbn. lia.
        * rewrite Hb. rewrite skipn_app_le by lia. reflexivity.
        * rewrite app_length. cbn. lia.
        * eapply Forall2_impl'; [|exact Hst]. cbn. rewrite app_length. cbn.
          intros p0 cp0 [H1 H2]. split; [exact H1|lia].
        * congruence.
        * intro Hne. destruct (Hbot Hne) as [H|H]; [left; exact H|right].
          rewrite app_length. cbn [length last] in *. lia.
        * unfold saved_ok in *. cbn in *.
          destruct dr as [[|]|]; [destruct Hsv; congruence| |exact I].
          rewrite saved_at_app by lia. exact Hsv.
  Qed.

  Lemma step_set base dr c a :
    rel base c a -> saved_ok dr base c a ->
    rel base (snd (cur_step c OpSetCheckpoint)) (snd (acc_step a OpSetCheckpoint)) /\
    (dr <> Some true -> saved_ok dr base (snd (cur_step c OpSetCheckpoint))
                         (snd (acc_step a OpSetCheckpoint))).
  Proof.
    intros [Hs Hl Hb Hi Hst He Hbot] Hsv.
    destruct a as [st buf sv ind cps]. destruct c as [cs hist pos stk]. cbn in *. subst cs.
    split.
    - constructor; cbn; auto.
      + constructor; [|exact Hst].
        destruct ind as [k|].
        * destruct Hi as [Hk Hp]. destruct k as [|k]; cbn; lia.
        * destruct (length buf) as [|k] eqn:E; cbn; lia.
      + congruence.
      + intros _. destruct cps as [|cp cps].
        * destruct ind as [k|].
          -- destruct Hi as [Hk Hp]. destruct k as [|k]; cbn; [left; reflexivity|right; lia].
          -- rewrite (He eq_refl eq_refl). left. reflexivity.
        * assert (Hne : cp :: cps <> []) by congruence. apply Hbot in Hne. exact Hne.
    - intros Hdr. unfold saved_ok in *. destruct dr as [[|]|]; [congruence|exact Hsv|exact I].
  Qed.

  Lemma last_opt_skipn_last (h : list T) b :
    b < length h -> last_opt (skipn b h) = Some (saved_at (length h) h).
  Proof.
    intro H. unfold last_opt.
    destruct (@exists_last _ h) as [h' [x Hx]].
    { destruct h; [cbn in H; lia|congruence]. }
    subst h. rewrite app_length in *. cbn [length] in *.
    rewrite skipn_app_le by lia. rewrite rev_app_distr. cbn [rev app].
    f_equal. rewrite Nat.add_1_r. cbn. rewrite app_nth2 by lia.
    rewrite Nat.sub_diag. reflexivity.
  Qed.

  Lemma step_commit base dr c a :
    rel base c a -> saved_ok dr base c a ->
    exists base',
      rel base' (snd (cur_step c OpCommit)) (snd (acc_step a OpCommit)) /\
      saved_ok dr base' (snd (cur_step c OpCommit)) (snd (acc_step a OpCommit)).
  Proof.
    intros [Hs Hl Hb Hi Hst He Hbot] Hsv.
    destruct a as [st buf sv ind cps]. destruct c as [cs hist pos stk]. cbn in *. subst cs.
    unfold acc_commit. cbn.
    destruct cps as [|cp [|cp2 cps]].
    - exists base. inversion Hst; subst stk. split; [constructor; cbn; auto|].
      unfold saved_ok in *. destruct dr as [[|]|]; exact Hsv.
    - inversion Hst as [|p ? stk' ? Hp Hst']; subst. inversion Hst'; subst.
      unfold saved_ok in *. cbn in *.
      assert (Hdr : dr <> Some true) by (intros ->; destruct Hsv; congruence).
      destruct ind as [k|].
      + exists base. cbn. split; [constructor; cbn; auto; congruence|destruct dr as [[|]|]; [congruence|exact Hsv|exact I]].
      + destruct (length hist - base) as [|m] eqn:Em.
        * exists base.
          assert (Hnil : skipn base hist = []) by (apply skipn_all2; lia).
          rewrite Hnil in *. cbn.
          split; [constructor; cbn; auto; congruence|destruct dr as [[|]|]; [congruence|exact Hsv|exact I]].
        * rewrite last_opt_skipn_last by lia. exists (length hist). cbn.
          split; [constructor; cbn; auto|destruct dr as [[|]|]; [congruence|reflexivity|exact I]].
          rewrite skipn_all. reflexivity.
    - inversion Hst as [|p ? stk' ? Hp Hst']; subst.
      exists base. cbn. split.
      + constructor; cbn; auto; [congruence|].
        intros _. assert (Hne : cp :: cp2 :: cps <> []) by congruence.
        apply Hbot in Hne. rewrite last_cons_ne in Hne by congruence. exact Hne.
      + unfold saved_ok in *. cbn in *. destruct dr as [[|]|]; [destruct Hsv; congruence|exact Hsv|exact I].
  Qed.

  Lemma step_touch base dr c a f :
    rel base c a -> saved_ok dr base c a ->
    rel base (snd (cur_step c (OpTouch f))) (snd (acc_step a (OpTouch f))) /\
    saved_ok dr base (snd (cur_step c (OpTouch f))) (snd (acc_step a (OpTouch f))).
  Proof.
    intros [Hs Hl Hb Hi Hst He Hbot] Hsv.
    split; [constructor; cbn; auto; congruence|].
    unfold saved_ok in *. destruct dr as [[|]|]; exact Hsv.
  Qed.

  Lemma step_rollback base dr c a :
    rel base c a -> saved_ok dr base c a ->
    exists v,
      fst (acc_step a OpRollback) = OutRollback v /\
      (cur_stack c <> [] -> dr = Some false ->
         fst (acc_step a OpRollback) = fst (cur_step c OpRollback)) /\
      rel base (snd (cur_step c OpRollback)) (snd (acc_step a OpRollback)) /\
      saved_ok dr base (snd (cur_step c OpRollback)) (snd (acc_step a OpRollback)).
  Proof.
    intros [Hs Hl Hb Hi Hst He Hbot] Hsv.
    destruct a as [st buf sv ind cps]. destruct c as [cs hist pos stk]. cbn in *. subst cs.
    unfold CPAccessor.acc_step, acc_rollback, CPAccessorSpec.cur_step. cbn.
    destruct cps as [|cp cps].
    - inversion Hst; subst stk. exists sv. cbn.
      split; [reflexivity|]. split; [congruence|].
      split; [constructor; cbn; auto|]. unfold saved_ok in *; destruct dr as [[|]|]; exact Hsv.
    - inversion Hst as [|p ? stk' ? [Hp Hlt] Hst']; subst p. subst stk.
      unfold saved_ok in *. cbn in *.
      assert (Hdr : dr <> Some true) by (intros ->; destruct Hsv; congruence).
      destruct cp as [i|]; cbn in *.
      + assert (Hn : nth_error buf i = nth_error hist (base + i)).
        { rewrite Hb. apply nth_error_skipn. }
        destruct (nth_error buf i) as [v|] eqn:Hv; [|apply nth_error_None in Hv; lia].
        exists v.
        assert (Hval : OutRollback v =
                       OutRollback (cur_last zero (mkCur st hist (base + (i + 1)) stk'))).
        { f_equal. unfold cur_last. cbn. replace (base + (i + 1)) with (Datatypes.S (base + i)) by lia.
          symmetry. apply nth_error_nth. symmetry. exact Hn. }
        destruct (Nat.eqb_spec (i + 1) (length buf)) as [Hend|Hend]; cbn;
          (split; [reflexivity|]); (split; [intros _ _; exact Hval|]); (split; [|destruct dr as [[|]|]; [congruence|exact Hsv|exact I]]);
          constructor; cbn; auto; try lia; try congruence.
        * intros -> _. exfalso.
          assert (Hne : [Some i] <> @nil (option nat)) by congruence.
          apply Hbot in Hne. cbn in Hne. destruct Hne as [Hne|Hne]; [congruence|lia].
        * intro Hne. assert (Hne2 : Some i :: cps <> []) by congruence.
          apply Hbot in Hne2. destruct cps; [congruence|exact Hne2].
        * intro Hne. assert (Hne2 : Some i :: cps <> []) by congruence.
          apply Hbot in Hne2. destruct cps; [congruence|exact Hne2].
      + exists sv. split; [reflexivity|].
        split.
        { intros _ Hd. rewrite Hd in Hsv. f_equal. rewrite Hsv. unfold cur_last. cbn. rewrite Nat.add_0_r.
          unfold saved_at. reflexivity. }
        split; [|destruct dr as [[|]|]; [congruence|exact Hsv|exact I]].
        constructor; cbn; auto.
        * destruct buf as [|x buf]; cbn in *; lia.
        * intros _. destruct buf; [reflexivity|congruence].
        * intro Hne. assert (Hne2 : None :: cps <> []) by congruence.
          apply Hbot in Hne2. destruct cps; [congruence|exact Hne2].
  Qed.


  Lemma run_masked os : forall base c a,
    rel base c a ->
    map mask_rollback (acc_run a os) = map mask_rollback (cur_run c os).
  Proof.
    induction os as [|o os IH]; intros base c a HR; [reflexivity|].
    cbn [CPAccessor.acc_run CPAccessorSpec.cur_run].
    destruct (acc_step a o) as [out a'] eqn:Ea.
    destruct (cur_step c o) as [out2 c'] eqn:Ec.
    cbn [map].
    assert (HS : saved_ok None base c a) by exact I.
    assert (Key : mask_rollback out = mask_rollback out2 /\
                  exists base', rel base' c' a').
    { destruct o.
      - destruct (step_next _ _ _ _ HR HS) as (base' & HR' & HO & HS').
        rewrite Ea, Ec in *. cbn in *. subst. eauto.
      - destruct (step_set _ _ _ _ HR HS) as (HR' & HS').
        rewrite Ea, Ec in *. cbn in *. injection Ea as <- <-. injection Ec as <- <-. eauto.
      - destruct (step_rollback _ _ _ _ HR HS) as (v & HO & _ & HR' & HS').
        rewrite Ea, Ec in *. cbn in HO, HR'. subst out. split; [|eauto].
        unfold CPAccessorSpec.cur_step in Ec. destruct (cur_stack c); injection Ec as <- <-; reflexivity.
      - destruct (step_commit _ _ _ _ HR HS) as (base' & HR' & HS').
        rewrite Ea, Ec in *. cbn in *. injection Ea as <- <-. injection Ec as <- <-. eauto.
      - destruct (step_touch _ _ _ _ f HR HS) as (HR' & HS').
        rewrite Ea, Ec in *. cbn in *. injection Ea as <- <-. injection Ec as <- <-. eauto. }
    destruct Key as [-> (base' & HR')].
    f_equal. eapply IH; eassumption.
  Qed.

  Lemma run_tame os : forall base dr c a,
    rel base c a -> saved_ok (Some dr) base c a ->
    tame stream_next zero c dr os = true ->
    acc_run a os = cur_run c os.
  Proof.
    induction os as [|o os IH]; intros base dr c a HR HS HT; [reflexivity|].
    cbn [CPAccessor.acc_run CPAccessorSpec.cur_run].
    destruct (acc_step a o) as [out a'] eqn:Ea.
    destruct (cur_step c o) as [out2 c'] eqn:Ec.
    cbn [tame] in HT. rewrite Ec in HT. cbn [snd] in HT.
    assert (Key : out = out2 /\
                  exists base' dr', rel base' c' a' /\ saved_ok (Some dr') base' c' a' /\
                                    tame stream_next zero c' dr' os = true).
    { destruct o.
      - destruct (step_next _ _ _ _ HR HS) as (base' & HR' & HO & HS').
        rewrite Ea, Ec in *. cbn [fst snd] in *. split; [exact HO|].
        destruct (cur_stack c); eauto.
      - apply andb_prop in HT as [Hd HT]. destruct dr; [discriminate|].
        destruct (step_set _ _ _ _ HR HS) as (HR' & HS').
        rewrite Ea, Ec in *. cbn [fst snd] in *.
        assert (out = out2) by (cbn in Ea, Ec; congruence).
        split; [assumption|]. exists base, false. split; [exact HR'|].
        split; [apply HS'; discriminate|exact HT].
      - apply andb_prop in HT as [Hne HT].
        destruct (step_rollback _ _ _ _ HR HS) as (v & HO & HV & HR' & HS').
        rewrite Ea, Ec in *. cbn [fst snd] in *.
        assert (Hstk : cur_stack c <> []) by (intro E; rewrite E in Hne; discriminate).
        assert (dr = false).
        { destruct dr; [|reflexivity]. destruct HS as [HS _].
          destruct HR as [_ _ _ _ Hst _ _]. rewrite HS in Hst. inversion Hst. congruence. }
        subst dr. split; [apply HV; auto|eauto].
      - destruct (step_commit _ _ _ _ HR HS) as (base' & HR' & HS').
        rewrite Ea, Ec in *. cbn [fst snd] in *.
        assert (out = out2) by (cbn in Ea, Ec; congruence). eauto 8.
      - destruct (step_touch _ _ _ _ f HR HS) as (HR' & HS').
        rewrite Ea, Ec in *. cbn [fst snd] in *.
        assert (out = out2) by (cbn in Ea, Ec; congruence). eauto 8. }
    destruct Key as [-> (base' & dr' & HR' & HS' & HT')].
    f_equal. eapply IH; eassumption.
  Qed.

  (** No history makes the accessor index out of range. *)
  Lemma run_no_panic os s : ~ In OutPanic (acc_run (acc_init zero s) os).
  Proof.
    intro H. apply (in_map mask_rollback) in H.
    rewrite (run_masked os 0 (cur_init s)) in H by apply rel_init.
    cbn in H. apply in_map_iff in H as (x & Hx & Hin).
    assert (Hno : forall os c, ~ In OutPanic (cur_run c os)).
    { clear. induction os as [|o os IH]; intros c; cbn; [tauto|].
      destruct (cur_step c o) as [out c'] eqn:E. cbn. intros [->|H]; [|exact (IH _ H)].
      destruct o; cbn in E; unfold cur_next in E;
        repeat (match type of E with
                | context [match ?x with _ => _ end] => destruct x
                | context [let '(_, _) := ?x in _] => destruct x
                end); discriminate E. }
    destruct x; cbn in Hx; try discriminate. exact (Hno _ _ Hin).
  Qed.
End Proofs.

(** ** Pure streams: the position semantics. *)
Section Pure.
  Variable T : Type.
  Variable zero : T.
  Variable f : nat -> T.

  Let nx := fun n : nat => (f n, Datatypes.S n).

  Lemma cur_pos_run os : forall n pos stk,
    forallb (fun o => negb (is_touch o)) os = true ->
    pos <= n -> Forall (fun p => p <= n) stk ->
    map read_value (cur_run nx zero (mkCur n (map f (seq 0 n)) pos stk) os) =
    pos_run f pos stk os.
  Proof.
    induction os as [|o os IH]; intros n pos stk HT Hpos Hstk; [reflexivity|].
    cbn [forallb] in HT. apply andb_prop in HT as [HT1 HT].
    destruct o; cbn [cur_run cur_step pos_run]; try discriminate HT1.
    - unfold cur_next. cbn.
      destruct (nth_error (map f (seq 0 n)) pos) as [v|] eqn:E.
      + assert (Hlt : pos < n).
        { assert (H : nth_error (map f (seq 0 n)) pos <> None) by congruence.
          apply nth_error_Some in H. rewrite map_length, seq_length in H. exact H. }
        rewrite nth_error_map in E.
        rewrite (nth_error_nth' _ 0) in E by (rewrite seq_length; exact Hlt).
        rewrite seq_nth in E by exact Hlt. cbn in E. injection E as <-.
        cbn. f_equal. apply IH; auto; lia.
      + apply nth_error_None in E. rewrite map_length, seq_length in E.
        assert (pos = n) by lia. subst pos. cbn. f_equal.
        replace (map f (seq 0 n) ++ [f n]) with (map f (seq 0 (Datatypes.S n))).
        * apply IH; auto; try lia. eapply Forall_impl; [|exact Hstk]. cbn. lia.
        * rewrite seq_S, map_app. reflexivity.
    - cbn. f_equal. apply IH; auto.
    - cbn. destruct stk as [|p st]; cbn; f_equal; apply IH; auto; inversion Hstk; auto.
    - cbn. f_equal. apply IH; auto. destruct stk; cbn; auto. inversion Hstk; auto.
  Qed.

  Lemma read_value_mask (o : acc_out T) : read_value (mask_rollback o) = read_value o.
  Proof. destruct o; reflexivity. Qed.

  Lemma acc_pos_run os :
    forallb (fun o => negb (is_touch o)) os = true ->
    map read_value (acc_run nx (acc_init zero 0) os) = pos_run f 0 [] os.
  Proof.
    intro HT.
    rewrite <- (cur_pos_run os 0 0 []) by auto.
    assert (H := run_masked _ _ nx zero os 0 (cur_init 0) (acc_init zero 0)
                            (rel_init _ _ zero 0)).
    apply (f_equal (map read_value)) in H. rewrite !map_map in H.
    rewrite (map_ext _ _ read_value_mask) in H.
    rewrite (map_ext _ _ read_value_mask) in H. exact H.
  Qed.
End Pure.
