(** The goyaml reader is a cursor over the document. *)
From Verif Require Import Base Schema Values Writer AnyBuilder Reader GBuilder GReader ReaderProofs ReaderSteps
  ReadSpec ReaderSpec DocSpec ReadProofs CursorSpec CursorAny.
Local Open Scope nat_scope.

Local Arguments sc_is_null : simpl never.
Local Arguments sc_is_integer : simpl never.
Local Arguments sc_is_boolean : simpl never.
Local Arguments sc_is_float : simpl never.
Local Arguments sc_is_timestamp : simpl never.
Local Arguments g_is_null : simpl never.

Lemma f2_length {A B} (R : A -> B -> Prop) l m : Forall2 R l m -> length l = length m.
Proof. induction 1; cbn; congruence. Qed.

(** ** iterators that are read to their end stay so *)
Section Keeps.
  Context {Nd K : Type} (en : engine Nd K) (o : oracle).
  Definition keeps (r x : rstate Nd K) : Prop :=
    forall i, nth_error (r_iters r) i = Some [] -> nth_error (r_iters x) i = Some [].
  Lemma keeps_refl r : keeps r r. Proof. intro; auto. Qed.
  Lemma keeps_trans a b c : keeps a b -> keeps b c -> keeps a c.
  Proof. intros H1 H2 i Hi. auto. Qed.
  Lemma keeps_same (r x : rstate Nd K) : r_iters x = r_iters r -> keeps r x.
  Proof. intros H i Hi. rewrite H. exact Hi. Qed.

  Lemma iters_set_nil (its : list (list Nd)) i j : nth_error its j = Some [] -> nth_error (iters_set its i []) j = Some [].
  Proof.
    intro H. destruct (Nat.eq_dec i j) as [->|Hn]; [eapply iters_set_same; eassumption|].
    rewrite iters_set_other; assumption.
  Qed.
  Definition drain_list (l : list (point Nd)) (its : list (list Nd)) : list (list Nd) :=
    fold_left (fun its p => match pt_iter p with Some i => iters_set its i [] | None => its end) l its.
  Lemma drain_keeps l : forall its i, nth_error its i = Some [] -> nth_error (drain_list l its) i = Some [].
  Proof.
    induction l as [|p l IH]; intros its i H; [exact H|]. cbn. apply IH.
    destruct (pt_iter p); [|exact H]. apply iters_set_nil. exact H.
  Qed.
  Lemma drain_all l : forall its p i y, In p l -> pt_iter p = Some i -> nth_error its i = Some y ->
    nth_error (drain_list l its) i = Some [].
  Proof.
    induction l as [|q l IH]; intros its p i y Hin Hp Hy; [contradiction|]. cbn.
    destruct Hin as [->|Hin].
    - rewrite Hp. apply drain_keeps. eapply iters_set_same; eassumption.
    - destruct (pt_iter q) as [j|] eqn:Eq.
      + destruct (Nat.eq_dec j i) as [->|Hn].
        * apply drain_keeps. eapply iters_set_same; eassumption.
        * eapply IH; [exact Hin|exact Hp|]. rewrite iters_set_other; [eassumption|exact Hn].
      + eapply IH; eassumption.
  Qed.
  Lemma fatal_keeps e (r : rstate Nd K) : keeps r (set_fatal_error en e r).
  Proof.
    intros i H. unfold set_fatal_error. destruct (en_drains en); [|exact H]. cbn. apply drain_keeps. exact H.
  Qed.
  Lemma append_keeps e (r : rstate Nd K) : keeps r (append_err en e r).
  Proof.
    unfold append_err. destruct (_ && _); [apply keeps_same; reflexivity|]. destruct (r_fatal r); [apply keeps_refl|]. apply fatal_keeps.
  Qed.
  Lemma swap_iters p (r : rstate Nd K) : r_iters (swap_point p r) = r_iters r.
  Proof. unfold swap_point. destruct (r_route r); reflexivity. Qed.
  Lemma extract_iters x c s (r : rstate Nd K) : r_iters (extracting x c s r) = r_iters r.
  Proof. destruct x; reflexivity. Qed.

  Lemma texter_keeps e n s (r x : rstate Nd K) : visit_texter en e n s r = Done x -> keeps r x.
  Proof.
    unfold visit_texter. destruct (r_route r); [discriminate|]. destruct (en_process _ _ _ _ _) as [c b].
    intro H. injection H as <-. intros i Hi. rewrite extract_iters. destruct c; cbn; rewrite ?swap_iters; cbn; auto.
    apply append_keeps. exact Hi.
  Qed.
  Lemma null_keeps e n (r x : rstate Nd K) : visit_null en e n r = Done x -> keeps r x.
  Proof.
    unfold visit_null. destruct (r_route r); [discriminate|]. destruct (en_process _ _ _ _ _) as [c b].
    intro H. injection H as <-. intros i Hi. rewrite extract_iters. destruct c; cbn; auto; apply append_keeps; auto.
    rewrite swap_iters. exact Hi.
  Qed.

  Lemma run_keeps e f : forall t (r x : rstate Nd K), run en e f t r = Done x -> keeps r x.
  Proof.
    induction f as [|f IH]; intros t r x H; [discriminate|]. destruct t as [|n|i bind]; cbn [run] in H.
    - destruct (current_node en r); [eapply IH; exact H|]. injection H as <-. apply append_keeps.
    - destruct (en_visit en (r_keep r) n) as [ch size bind|s [a|]| |[m|a]|m| |]; try discriminate.
      + destruct (r_route r) as [|p ps] eqn:Er; [discriminate|].
        assert (Hit : exists it r1, (if is_unknown (pt_concl p) then (Some (length (r_iters r)), set_iters (r_iters r ++ [ch]) r) else (pt_iter p, r)) = (it, r1) /\ keeps r r1).
        { destruct (is_unknown (pt_concl p)); eexists _, _; (split; [reflexivity|]); [|apply keeps_refl].
          intros i Hi. cbn. rewrite nth_error_app1; [exact Hi|]. apply nth_error_Some. congruence. }
        destruct Hit as (it & r1 & Eit & Hk1). rewrite Eit in H.
        destruct (en_process en (r_keep r1) e (pt_node p) (pt_concl p)) as [c xx].
        apply obind_done in H as (r3 & H3 & H). cbv zeta in *.
        set (r2 := swap_point (mkPoint c (pt_node p) it) (set_last c r1)) in *.
        assert (Hk2 : keeps r r2). { eapply keeps_trans; [exact Hk1|]. apply keeps_same. unfold r2. rewrite swap_iters. reflexivity. }
        clearbody r2.
        assert (Hk3 : keeps r2 r3).
        { destruct c; try (injection H3 as <-); try (apply keeps_same; reflexivity); try apply append_keeps.
          destruct it as [i|]; [|discriminate].
          apply obind_done in H3 as (r4 & H4 & H3). apply IH in H4. eapply keeps_trans; [exact H4|].
          destruct (_ && _).
          - apply IH in H3. eapply keeps_trans; [|exact H3]. apply keeps_same. reflexivity.
          - injection H3 as <-. apply keeps_refl. }
        eapply keeps_trans; [exact Hk2|]. eapply keeps_trans; [exact Hk3|].
        destruct it; [|destruct xx; [discriminate|]]; injection H as <-; apply keeps_same; [apply extract_iters|reflexivity].
      + apply texter_keeps in H. eapply keeps_trans; [|exact H]. apply keeps_same; reflexivity.
      + apply texter_keeps in H. exact H.
      + apply null_keeps in H. exact H.
      + apply IH in H. eapply keeps_trans; [|exact H]. apply keeps_same; reflexivity.
      + injection H as <-. apply append_keeps.
      + apply IH in H. exact H.
      + injection H as <-. apply keeps_refl.
    - destruct (is_continue (r_last r)); [|injection H as <-; apply keeps_refl].
      unfold iter_left in H. destruct (nth i (r_iters r) []) as [|n rest] eqn:En; [injection H as <-; apply keeps_refl|].
      cbv zeta in H.
      match type of H with (if _ then obind (run en e f (TVisit n) (push_point n ?R)) _ else _) = _ => set (r1 := R) in * end.
      assert (Hk : keeps r r1).
      { intros j Hj. assert (Hij : i <> j). { intros ->. rewrite (nth_error_nth _ _ _ Hj) in En. discriminate. }
        replace (r_iters r1) with (iters_set (r_iters r) i rest) by (unfold r1; destruct bind; reflexivity).
        rewrite iters_set_other; assumption. }
      clearbody r1. eapply keeps_trans; [exact Hk|].
      destruct (en_valid en n).
      + apply obind_done in H as (r2 & H2 & H). apply IH in H2. apply IH in H. eapply keeps_trans; [|exact H].
        eapply keeps_trans; [|exact H2]. apply keeps_same; reflexivity.
      + apply IH in H. exact H.
  Qed.
  Lemma reaches_keeps e (r x : rstate Nd K) : reaches en e r x -> keeps r x.
  Proof. intros (f & H). eapply run_keeps; eassumption. Qed.
End Keeps.

Section G.
  Context (o : oracle) (marshal : graph -> gref -> text + list N) (g : graph).
  Let en := g_engine marshal o.
  Let kinv (k : graph) : Prop := k = g.
  Notation abs := (abs en kinv).
  Notation ready := (ready en kinv).
  Notation answers := (answers en kinv).
  Notation seg := (@seg gref).

  Definition verdict (e : expecter) (d : ytree) : concl * bool :=
    let scalar (ok : bool) := if ok then (CConsume, true) else no in
    match e with
    | EAny | ERaw => (CMatch, false)
    | ESkip => (CConsume, false)
    | _ =>
        match d with
        | YNull s | YText s =>
            let null := match d with YNull _ => true | _ => false end in
            match e with
            | ENull => if null then (CConsume, false) else no
            | EString => scalar (negb null)
            | EInteger => scalar (sc_is_integer s)
            | EBoolean => scalar (sc_is_boolean s)
            | EFloat => scalar (sc_is_float s)
            | ETimestamp => scalar (sc_is_timestamp o s)
            | _ => no
            end
        | YSeq _ => match e with ESequence => (CMatch, true) | _ => no end
        | YMap _ => match e with EMapping => (CMatch, true) | _ => no end
        end
    end.

  Lemma unfolds_live n d : unfolds g n d -> live en n.
  Proof. destruct 1; split; reflexivity. Qed.
  Lemma unfolds_answers n d e : unfolds g n d -> answers e n (verdict e d).
  Proof.
    intros H k p -> Hp. destruct H as [i c Hi Hk Hn|i c Hi Hk Hn|i c l Hi Hk Hl|i c l Hi Hk Hl];
      cbn [en g_engine en_process]; unfold g_process, g_at; rewrite Hi; destruct e;
      cbn [g_process_cell verdict negb]; unfold g_terminal, g_is, g_text_is;
      rewrite ?Hk, ?Hn; cbn [is_scalar_kind andb negb];
      try (destruct Hp as [-> | ->]; reflexivity);
      try (match goal with |- context [if ?b then _ else _] => destruct b end; destruct Hp as [-> | ->]; reflexivity);
      try (unfold g_is_null; rewrite Hk; destruct Hp as [-> | ->]; reflexivity).
  Qed.
  Lemma verdict_final e d : is_continue (fst (verdict e d)) = false /\ is_unknown (fst (verdict e d)) = false.
  Proof.
    destruct e, d as [s|s|l|l]; cbn; try (split; reflexivity);
      match goal with |- context [if ?b then _ else _] => destruct b end; split; reflexivity.
  Qed.

  Definition items (d : ytree) : list ytree := match d with YSeq l | YMap l => l | _ => [] end.
  Definition is_coll (d : ytree) : bool := match d with YSeq _ | YMap _ => true | _ => false end.
  Definition txt_of (d : ytree) : text := match d with YNull s | YText s => s | _ => [] end.

  Lemma unfolds_coll n d : unfolds g n d -> is_coll d = true ->
    exists ch, has_children en kinv n ch (length (items d)) false /\ open_ok en kinv n false /\ Forall2 (unfolds g) ch (items d).
  Proof.
    intros H Hc. destruct H as [i c Hi Hk Hn|i c Hi Hk Hn|i c l Hi Hk Hl|i c l Hi Hk Hl]; try discriminate;
      exists (x_content c); (split; [|split; [|exact Hl]]).
    1,3: intros k ->; cbn; unfold g_visit, g_at; rewrite Hi, Hk; f_equal; apply (f2_length _ _ _ Hl).
    - assert (Hnull : g_is_null c = false) by (unfold g_is_null; rewrite Hk; reflexivity).
      split; [reflexivity|]. split.
      * intros k ->. eexists _, _. cbn. unfold g_visit, g_at. rewrite Hi, Hk. reflexivity.
      * intros e k p -> [-> | ->]; destruct e; cbn; unfold g_process, g_at; rewrite Hi; cbn; unfold g_terminal; rewrite ?Hnull, ?Hk; reflexivity.
    - assert (Hnull : g_is_null c = false) by (unfold g_is_null; rewrite Hk; reflexivity).
      split; [reflexivity|]. split.
      * intros k ->. eexists _, _. cbn. unfold g_visit, g_at. rewrite Hi, Hk. reflexivity.
      * intros e k p -> [-> | ->]; destruct e; cbn; unfold g_process, g_at; rewrite Hi; cbn; unfold g_terminal; rewrite ?Hnull, ?Hk; reflexivity.
  Qed.
  Lemma unfolds_texter n d : unfolds g n d -> is_coll d = false ->
    forall k, kinv k -> en_visit en k n = VTexter (txt_of d) None.
  Proof.
    intros H Hc k ->. destruct H as [i c Hi Hk Hn|i c Hi Hk Hn| |]; try discriminate;
      cbn; unfold g_visit, g_at; rewrite Hi, Hk; reflexivity.
  Qed.

  (** ** what visiting finds *)
  Lemma found e r r1 n d s st N : via en e r r1 -> abs r1 (s :: st, g, N) -> unfolds g n d -> ready n s ->
    r_deny r = None ->
    let c := fst (verdict e d) in
    exists r' i N', finds en e r r' /\ r_fatal r' = r_fatal r /\ r_denies r' = r_denies r /\ r_multi r' = r_multi r
      /\ (snd (verdict e d) = true -> if is_coll d then r_coll r' = CollState (length (items d)) i else r_value r' = txt_of d)
      /\ match c with
         | CConsume => abs r' (st, g, N') /\ r_deny r' = None
         | CDeny => (exists s', ready n s' /\ abs r' (s' :: st, g, N')) /\ r_deny r' = Some (RDeny e)
         | _ => (exists p rest s', r_route r' = p :: rest /\ pt_node p = n /\ abs r' (s' :: st, g, N')
                 /\ (is_coll d = true -> exists ch, s' = SOpen n false i ch /\ Forall2 (unfolds g) ch (items d)))
                /\ r_deny r' = None
         end.
  Proof.
    intros [(S1 & S2 & S3 & S4) Hv] Ha Hu Hr Hde c.
    destruct (verdict_final e d) as [Hc1 Hc2]. pose proof (unfolds_answers n d e Hu) as Hans.
    destruct (unfolds_live n d Hu) as [_ Hnil]. fold c in Hc1, Hc2 |- *.
    destruct (verdict e d) as [c0 x] eqn:Ev. cbn [fst snd] in *. subst c.
    destruct (is_coll d) eqn:Ec.
    - destruct (unfolds_coll n d Hu Ec) as (ch & Hch & Ho & Hl).
      destruct (at_complex en kinv e r1 n s st g N ch _ false c0 x Ha Hr Ho Hch Hans Hc1 Hc2)
        as (r' & i & N' & Hx & G1 & G2 & G3 & Gc & G4).
      exists r', i, N'. split; [apply Hv; exact Hx|]. split; [congruence|]. split; [congruence|]. split; [congruence|].
      split; [exact Gc|]. destruct c0; try discriminate.
      + destruct G4 as [G4 G5]. split; [|congruence].
        pose proof G4 as (Hf & _). inversion Hf as [|p s0 rest st0 Hp Hrest E1 E2]; subst. inversion Hp; subst.
        eexists _, rest, _. split; [reflexivity|]. split; [reflexivity|]. split; [exact G4|]. intros _. eauto.
      + destruct G4. split; [assumption|congruence].
      + exact G4.
    - pose proof (unfolds_texter n d Hu Ec) as Hvis.
      destruct (at_text en kinv e r1 n s st g N _ c0 x Ha Hr Hnil Hvis Hans Hc1 Hc2)
        as (r' & Hx & G1 & G2 & G3 & Gc & G4).
      exists r', 0, N. split; [apply Hv; exact Hx|]. split; [congruence|]. split; [congruence|]. split; [congruence|].
      split; [exact Gc|]. destruct c0; try discriminate.
      + destruct G4 as [G4 G5]. split; [|congruence].
        destruct (ready_top en kinv _ _ _ _ _ _ G4 Hr) as (p & rest & Hro & Hm & _).
        exists p, rest, s. split; [exact Hro|]. split; [exact Hm|]. split; [exact G4|discriminate].
      + destruct G4. split; [assumption|congruence].
      + exact G4.
  Qed.

  (** ** the relation *)
  Definition seg_frame (hs : list coll) (s : seg) (f : nat * list ytree) : Prop :=
    match s with
    | SOpen _ b i l => b = false /\ (exists size, nth_error hs (fst f) = Some (CollState size i)) /\ Forall2 (unfolds g) l (snd f)
    | _ => False
    end.
  Definition places (r : rstate gref graph) (hs : list coll) (h : option ytree) (fs : list (nat * list ytree)) : Prop :=
    exists st N, match h with
    | Some d => exists n s, unfolds g n d /\ ready n s /\ abs r (s :: st, g, N) /\ Forall2 (seg_frame hs) st fs
    | None => abs r (st, g, N) /\ Forall2 (seg_frame hs) st fs
    end.
  Definition rest_done (r : rstate gref graph) (hs : list coll) (fs : list (nat * list ytree)) : Prop :=
    forall h size i, nth_error hs h = Some (CollState size i) -> nth_error (r_iters r) i = Some [] \/ In h (map fst fs).
  Definition sized (c : coll) (n : nat) : Prop :=
    match c with CollNil => False | CollNoop => n = 0 | CollState m _ => m = n end.
  Definition sim (r : rstate gref graph) (hs : list coll) (u : cursor) : Prop :=
    r_multi r = cu_multi u /\ r_fatal r = cu_fatal u /\ r_denies r = cu_denies u /\ r_deny r = None
    /\ Forall2 sized hs (cu_sizes u) /\ rest_done r hs (cu_open u)
    /\ match cu_fatal u with None => places r hs (cu_held u) (cu_open u) | Some _ => cu_open u = [] end.

  Lemma frame_more hs more s f : seg_frame hs s f -> seg_frame (hs ++ more) s f.
  Proof.
    destruct s as [| |n b i l]; cbn; auto. intros (Hb & (size & H1) & H2). split; [exact Hb|]. split; [|exact H2]. exists size.
    rewrite nth_error_app1; [exact H1|]. apply nth_error_Some. congruence.
  Qed.
  Lemma frames_more hs more st fs : Forall2 (seg_frame hs) st fs -> Forall2 (seg_frame (hs ++ more)) st fs.
  Proof. induction 1; constructor; auto using frame_more. Qed.

  Lemma done_keeps r x hs fs : keeps r x -> rest_done r hs fs -> rest_done x hs fs.
  Proof. intros Hk H h size i Hh. destruct (H h size i Hh) as [Hi|Hi]; auto. Qed.

  Lemma seg_iter r st k N n b i l : abs r (st, k, N) -> In (SOpen n b i l) st -> nth_error (r_iters r) i = Some l.
  Proof.
    intros Ha Hin. apply in_split in Hin as (l1 & l2 & ->). eapply (abs_open_iter en kinv r l1). exact Ha.
  Qed.

  Lemma next_steps hs st fs : Forall2 (seg_frame hs) st fs ->
    match next_item fs with
    | Some (d, fs') => exists n st', Forall2 (seg_frame hs) st' fs' /\ unfolds g n d /\
        forall e N, ssteps en kinv e (st, g, N) (SWait n :: st', g, N)
    | None => Forall spent st
    end.
  Proof.
    induction 1 as [|s [h l] st fs Hs Hst IH]; [constructor|]. destruct s as [| |n b i ch]; try contradiction.
    destruct Hs as (-> & Hh & Hl). cbn [fst snd] in *. destruct Hl as [|m d ch l Hd Hl]; cbn [next_item].
    - destruct (next_item fs) as [[d fs']|].
      + destruct IH as (m & st' & H1 & H2 & H3). exists m, st'. split; [exact H1|]. split; [exact H2|].
        intros e N. econstructor; [apply ss_exhausted|]. apply H3.
      + constructor; [constructor|exact IH].
    - exists m, (SOpen n false i ch :: st). split; [|split; [exact Hd|]].
      + constructor; [|exact Hst]. split; [reflexivity|]. split; [exact Hh|exact Hl].
      + intros e N. apply ssteps_one. apply (ss_child en kinv e n false). eapply unfolds_live; exact Hd.
  Qed.

  Lemma next_in fs h : In h (map fst fs) ->
    In (h, []) fs \/ match next_item fs with Some (_, fs') => In h (map fst fs') | None => False end.
  Proof.
    induction fs as [|[h' l] fs IH]; [contradiction|]. intros [H|H]; cbn [next_item].
    - cbn in H. subst h'. destruct l; [left; left; reflexivity|]. right. left. reflexivity.
    - specialize (IH H). destruct l as [|d l].
      + destruct IH as [IH|IH]; [left; right; exact IH|right; exact IH].
      + right. right. exact H.
  Qed.

  Lemma frame_seg hs st fs h l : Forall2 (seg_frame hs) st fs -> In (h, l) fs ->
    exists n i ch size, In (SOpen n false i ch) st /\ nth_error hs h = Some (CollState size i) /\ Forall2 (unfolds g) ch l.
  Proof.
    induction 1 as [|s f st fs Hs Hst IH]; [contradiction|]. intros [->|Hin].
    - destruct s as [| |n b i ch]; try contradiction. destruct Hs as (-> & (size & Hh) & Hl). exists n, i, ch, size.
      split; [left; reflexivity|]. split; [exact Hh|exact Hl].
    - destruct (IH Hin) as (n & i & ch & size & H1 & H2). exists n, i, ch, size. split; [right; exact H1|exact H2].
  Qed.

  Lemma next_done r hs st fs N : abs r (st, g, N) -> Forall2 (seg_frame hs) st fs -> rest_done r hs fs ->
    rest_done r hs (match next_item fs with Some (_, fs') => fs' | None => [] end).
  Proof.
    intros Ha Hst Hd h size i Hh. destruct (Hd h size i Hh) as [Hi|Hi]; [left; exact Hi|].
    apply next_in in Hi as [Hi|Hi].
    - left. destruct (frame_seg hs st fs h [] Hst Hi) as (n & i' & ch & size' & H1 & H2 & H3).
      rewrite Hh in H2. injection H2 as -> ->. inversion H3; subst. eapply seg_iter; eassumption.
    - right. destruct (next_item fs) as [[d fs']|]; [exact Hi|contradiction].
  Qed.

  (** the next node of a cursor is the next node of the reader *)
  Lemma next_found r hs u : sim r hs u -> cu_fatal u = None ->
    match next u with
    | Some (d, fs) => rest_done r hs fs /\
        forall e, exists r1 n s st N, via en e r r1 /\ abs r1 (s :: st, g, N) /\ unfolds g n d /\ ready n s
          /\ Forall2 (seg_frame hs) st fs
    | None => rest_done r hs [] /\ exists st N, abs r (st, g, N) /\ Forall spent st
    end.
  Proof.
    intros (_ & _ & _ & _ & _ & Hd & Hp) Hf. rewrite Hf in Hp. destruct Hp as (st & N & Hp). unfold next.
    destruct (cu_held u) as [d|].
    - destruct Hp as (n & s & Hu & Hr & Ha & Hst). split; [exact Hd|]. intro e.
      exists r, n, s, st, N. split; [split; [repeat split|auto]|]. auto.
    - destruct Hp as (Ha & Hst). pose proof (next_done r hs st _ N Ha Hst Hd) as Hd'.
      pose proof (next_steps hs st _ Hst) as Hs. destruct (next_item (cu_open u)) as [[d fs]|].
      + split; [exact Hd'|]. intro e. destruct Hs as (n & st' & H1 & H2 & H3).
        destruct (ssteps_sound en kinv (fun _ _ H => H) (fun _ _ H => H) e _ _ (H3 e N) r Ha) as (r1 & Ha1 & Hsame & Hx).
        exists r1, n, (SWait n), st', N. split; [split; assumption|]. split; [exact Ha1|]. split; [exact H2|].
        split; [left; reflexivity|exact H1].
      + split; [exact Hd'|]. eauto.
  Qed.

  (** ** the states after a call *)
  Definition same_mode (r : rstate gref graph) (u : cursor) : Prop :=
    r_multi r = cu_multi u /\ r_denies r = cu_denies u.

  Lemma sim_consumed x hs u st fs N : same_mode x u -> cu_fatal u = None -> r_fatal x = None -> r_deny x = None ->
    Forall2 sized hs (cu_sizes u) -> rest_done x hs fs -> abs x (st, g, N) -> Forall2 (seg_frame hs) st fs ->
    sim x hs (at_place None fs u).
  Proof.
    intros [H1 H2] Hf Hx Hd Hs Hr Ha Hst. unfold sim. cbn. rewrite Hf. repeat split; auto; try congruence. exists st, N. auto.
  Qed.
  Lemma sim_held x hs u n s d st fs N : same_mode x u -> cu_fatal u = None -> r_fatal x = None -> r_deny x = None ->
    Forall2 sized hs (cu_sizes u) -> rest_done x hs fs -> unfolds g n d -> ready n s -> abs x (s :: st, g, N) ->
    Forall2 (seg_frame hs) st fs -> sim x hs (at_place (Some d) fs u).
  Proof.
    intros [H1 H2] Hf Hx Hd Hs Hr Hu Hrd Ha Hst. unfold sim. cbn. rewrite Hf. repeat split; auto; try congruence. exists st, N.
    exists n, s. auto.
  Qed.

  Lemma route_iter r st k N n b i l : abs r (st, k, N) -> In (SOpen n b i l) st ->
    exists p, In p (r_route r) /\ pt_iter p = Some i.
  Proof.
    intros (Hf & _). induction Hf as [|p s ps st Hp Hps IH]; [contradiction|]. intros [->|Hin].
    - exists p. split; [left; reflexivity|]. inversion Hp; reflexivity.
    - destruct (IH Hin) as (q & H1 & H2). exists q. split; [right; exact H1|exact H2].
  Qed.
  Lemma drained x hs pre st fs N e : abs x (pre ++ st, g, N) -> Forall2 (seg_frame hs) st fs -> rest_done x hs fs ->
    rest_done (set_fatal_error en e x) hs [].
  Proof.
    intros Ha Hst Hd h size i Hh. left. destruct (Hd h size i Hh) as [Hi|Hi]; [apply fatal_keeps; exact Hi|].
    apply in_map_iff in Hi as ([h' l] & E & Hi). cbn in E. subst h'.
    destruct (frame_seg hs st fs h l Hst Hi) as (n & i' & ch & size' & H1 & H2 & H3).
    rewrite Hh in H2. injection H2 as -> ->.
    assert (Hin : In (SOpen n false i' ch) (pre ++ st)) by (apply in_or_app; right; exact H1).
    destruct (route_iter _ _ _ _ _ _ _ _ Ha Hin) as (p & Hp1 & Hp2).
    cbn. eapply drain_all; [exact Hp1|exact Hp2|]. eapply seg_iter; eassumption.
  Qed.
  Lemma sim_failed x hs u pre st fs N e : same_mode x u -> r_fatal x = None -> r_deny x = None ->
    Forall2 sized hs (cu_sizes u) -> rest_done x hs fs -> abs x (pre ++ st, g, N) -> Forall2 (seg_frame hs) st fs ->
    sim (set_fatal_error en e x) hs (failed e u).
  Proof.
    intros [H1 H2] Hf Hd Hs Hr Ha Hst. unfold sim. cbn. repeat split; auto. eapply drained; eassumption.
  Qed.
  Lemma sim_noop r hs u : sim r hs u -> sim r (hs ++ [CollNoop]) (mkCursor (cu_held u) (cu_open u) (cu_sizes u ++ [0]) (cu_multi u) (cu_fatal u) (cu_denies u)).
  Proof.
    intros (H1 & H2 & H3 & H4 & H5 & H6 & H7). unfold sim. cbn. repeat split; auto.
    - apply Forall2_app; [exact H5|]. constructor; [reflexivity|constructor].
    - intros h size i Hh. apply (H6 h size i).
      destruct (Nat.ltb_spec h (length hs)) as [Hlt|Hge]; [rewrite nth_error_app1 in Hh by exact Hlt; exact Hh|].
      rewrite nth_error_app2 in Hh by exact Hge. destruct (h - length hs) as [|[|m]]; discriminate.
    - destruct (cu_fatal u); [exact H7|]. destruct H7 as (st & N & H7). exists st, N. destruct (cu_held u).
      + destruct H7 as (n & s & G1 & G2 & G3 & G4). exists n, s. repeat split; auto using frames_more; apply G3.
      + destruct H7 as (G1 & G2). repeat split; auto using frames_more; apply G1.
  Qed.

  Notation gives := (gives en o).

  (** a call answered after visiting *)
  Definition answered (r : rstate gref graph) (hs : list coll) (c : call) (res : answer gref * cursor) : Prop :=
    exists a r', gives r c a r' /\ mask (PAnswer a) = PAnswer (fst res) /\ sim r' (hs ++ colls_of a) (snd res).

  Lemma simple_answered r hs c a u r' : gives r c a r' -> colls_of a = [] -> sim r' hs u -> answered r hs c (a, u).
  Proof.
    intros Hg Ha Hs. exists a, r'. split; [exact Hg|]. split; [destruct a; try reflexivity; discriminate|].
    rewrite Ha, app_nil_r. exact Hs.
  Qed.
  Lemma zero_answered r hs c u r' : reading c = true -> gives r c (zero_answer o c) r' -> sim r' hs u ->
    answered r hs c (zero_answer o c, numbered c 0 u).
  Proof.
    intros Hc Hg Hs. destruct (opening c) eqn:E.
    - exists (zero_answer o c), r'. split; [exact Hg|]. split; [destruct c; try discriminate; reflexivity|].
      replace (colls_of (zero_answer o c)) with [CollNoop] by (destruct c; try discriminate; reflexivity).
      cbn [snd]. unfold numbered. rewrite E. apply sim_noop. exact Hs.
    - unfold numbered. rewrite E. eapply simple_answered; eauto. destruct c; try discriminate; reflexivity.
  Qed.

  Lemma has_no_fatal (x : rstate gref graph) : r_fatal x = None -> has_fatal x = false.
  Proof. unfold has_fatal. intros ->. reflexivity. Qed.
  Lemma has_no_deny (x : rstate gref graph) : r_deny x = None -> denied x = false.
  Proof. unfold denied. intros ->. reflexivity. Qed.

  Section OneCall.
  Context (r : rstate gref graph) (hs : list coll) (u : cursor) (Hsim : sim r hs u) (Hfat : cu_fatal u = None).

  Lemma r_ok : r_fatal r = None /\ r_deny r = None.
  Proof. destruct Hsim as (_ & H & _ & H2 & _). split; congruence. Qed.

  (** the end of the document *)
  Lemma call_end c : reading c = true -> next u = None ->
    answered r hs c (zero_answer o c, numbered c 0 (failed REnd u)).
  Proof.
    intros Hc Hn. pose proof (next_found r hs u Hsim Hfat) as H. rewrite Hn in H. destruct H as (Hd & st & N & Ha & Hsp).
    destruct r_ok as [Hrf Hrd]. destruct Hsim as (H1 & H2 & H3 & H4 & H5 & H6 & H7).
    destruct (spent_reaches en kinv (expecter_of c) st Hsp r g N Ha) as (r1 & Hr1 & (S1 & S2 & S3 & S4) & Hx).
    pose proof (Hx _ (final_end en (expecter_of c) r1 Hr1)) as Hreach.
    assert (Happ : append_err en REnd r1 = set_fatal_error en REnd r1).
    { unfold append_err. rewrite andb_false_r, S1, Hrf. reflexivity. }
    rewrite Happ in Hreach. set (x := set_fatal_error en REnd r1) in *.
    assert (Hk : keeps r x) by (eapply reaches_keeps; exact Hreach).
    assert (Fx : r_fatal x = Some REnd) by reflexivity.
    assert (Dx : r_deny x = None) by (cbn; congruence).
    assert (Gx : r_denies x = cu_denies u) by (cbn; congruence).
    assert (Mx : r_multi x = cu_multi u) by (cbn; congruence).
    clearbody x.
    apply zero_answered with (r' := x); [exact Hc| |].
    - destruct Hreach as (f0 & H0). exists f0. intros f Hle.
      pose proof (run_le en _ _ _ _ _ _ Hle H0) as H.
      assert (Ht : take_deny en x = x) by (unfold take_deny; rewrite Dx; destruct x; cbn in *; subst; reflexivity).
      unfold do_call, has_fatal. rewrite Hrf. destruct c; try discriminate; rewrite H; cbn [obind];
        unfold finish, has_fatal; rewrite Fx; rewrite ?orb_true_r, ?Ht; reflexivity.
    - unfold sim. cbn. repeat split; auto. intros h size i Hh. left.
      destruct (Hd h size i Hh) as [Hi|[]]. apply Hk. exact Hi.
  Qed.

  Context (d : ytree) (fs : list (nat * list ytree)) (Hnext : next u = Some (d, fs)).

  (** visiting finds the next node *)
  Lemma visit_next e :
    exists n r' i N' st, Forall2 (seg_frame hs) st fs /\ unfolds g n d /\ finds en e r r' /\ rest_done r' hs fs
      /\ same_mode r' u /\ r_fatal r' = None
      /\ (snd (verdict e d) = true -> if is_coll d then r_coll r' = CollState (length (items d)) i else r_value r' = txt_of d)
      /\ match fst (verdict e d) with
         | CConsume => abs r' (st, g, N') /\ r_deny r' = None
         | CDeny => (exists s', ready n s' /\ abs r' (s' :: st, g, N')) /\ r_deny r' = Some (RDeny e)
         | _ => (exists p rest s', r_route r' = p :: rest /\ pt_node p = n /\ abs r' (s' :: st, g, N')
                 /\ (is_coll d = true -> exists ch, s' = SOpen n false i ch /\ Forall2 (unfolds g) ch (items d)))
                /\ r_deny r' = None
         end.
  Proof.
    pose proof (next_found r hs u Hsim Hfat) as H. rewrite Hnext in H. destruct H as (Hd & H).
    destruct (H e) as (r1 & n & s & st & N & Hv & Ha & Hu & Hr & Hst). destruct r_ok as [Hrf Hrd].
    destruct (found e r r1 n d s st N Hv Ha Hu Hr Hrd) as (r' & i & N' & Hx & G1 & G2 & G3 & G4 & G5).
    destruct Hsim as (H1 & H2 & H3 & H4 & H5 & H6 & H7).
    exists n, r', i, N', st. split; [exact Hst|]. split; [exact Hu|]. split; [exact Hx|].
    split; [eapply done_keeps; [eapply reaches_keeps; apply Hx|exact Hd]|].
    split; [split; congruence|]. split; [congruence|]. split; [exact G4|exact G5].
  Qed.

  Lemma sizes_ok : Forall2 sized hs (cu_sizes u). Proof. apply Hsim. Qed.

  (** a call for something else *)
  Lemma call_denied c : reading c = true -> c <> DTryNull -> verdict (expecter_of c) d = no ->
    answered r hs c (zero_answer o c, numbered c 0 (deny c d fs u)).
  Proof.
    intros Hc Ht Hv. destruct (visit_next (expecter_of c)) as (n & x & i & N' & st & Hst & Hu & Hx & Hd & Hm & Hfx & _ & Hend).
    rewrite Hv in Hend. cbn [fst no] in Hend. destruct Hend as ((s' & Hr & Ha) & Hdx). destruct r_ok as [Hrf _].
    assert (Hfin : forall f, finish en o f c x = Done (zero_answer o c, take_deny en x)).
    { intro f. unfold finish, denied. rewrite Hdx. cbn [orb]. destruct c; try reflexivity; congruence. }
    apply zero_answered with (r' := take_deny en x); [exact Hc| |].
    - eapply gives_of; [exact Hc|exact Hrf|exact Hx|]. exists 0. intros f _. apply Hfin.
    - unfold take_deny, deny. rewrite Hdx. unfold append_err. destruct Hm as [Hm1 Hm2]. rewrite Hm1, Hfx. cbn [is_deny].
      destruct (cu_multi u) eqn:Em; cbn [andb].
      + unfold sim. cbn. rewrite Hfat. repeat split; auto; try congruence.
        * apply sizes_ok.
        * exists st, N', n, s'. auto.
      + apply (sim_failed (set_deny None x) hs u [s'] st fs N' (RDeny (expecter_of c))); auto.
        * split; cbn; congruence.
        * apply sizes_ok.
  Qed.

  Lemma call_text c : reading c = true -> is_coll d = false -> c <> DTryNull -> c <> DSkip -> c <> DAny -> c <> DRaw -> c <> DNode ->
    answered r hs c (let (a, u') := text_call o c (match d with YNull _ => true | _ => false end) (txt_of d) d fs u in (a, numbered c 0 u')).
  Proof.
    intros Hc Hcoll N1 N2 N3 N4 N5.
    assert (Hcase : verdict (expecter_of c) d = no /\ reads_text (Nd := gref) o c (match d with YNull _ => true | _ => false end) (txt_of d) = None
              \/ verdict (expecter_of c) d = (CConsume, true) /\ opening c = false /\ exists v, reads_text (Nd := gref) o c (match d with YNull _ => true | _ => false end) (txt_of d) = Some v /\ (forall a, v = Some a -> colls_of a = [])
                 /\ forall f x, r_fatal x = None -> r_deny x = None -> r_value x = txt_of d ->
                      finish en o f c x = match v with Some a => Done (a, x) | None => Done (zero_answer o c, append_err en (RConvert (expecter_of c) (txt_of d)) x) end).
    { assert (Hfin : forall f x, r_fatal x = None -> r_deny x = None -> finish en o f c x =
         match c with
          | DInteger bits => converted en o c (sc_to_integer (r_value x) bits) AInt x
          | DUnsigned bits => converted en o c (sc_to_unsigned (r_value x) bits) AUint x
          | DBoolean => converted en o c (sc_to_boolean (r_value x)) ABool x
          | DFloat bits => converted en o c (o_float o (r_value x) bits) AFloat x
          | DString => Done (AText (r_value x), x)
          | DTimestamp => converted en o c (o_time o (r_value x)) ATime x
          | _ => finish en o f c x end).
      { intros f x F1 F2. destruct c; try reflexivity;
          unfold finish; rewrite (has_no_fatal x F1), (has_no_deny x F2); reflexivity. }
      destruct d as [s|s|l|l]; try discriminate; destruct c; try discriminate; try congruence; cbn [expecter_of verdict reads_text txt_of negb];
        try (left; split; reflexivity);
        try (match goal with |- context [if ?b then _ else _] => destruct b eqn:Eb end; [|left; split; reflexivity]);
        right; (split; [reflexivity|]); (split; [reflexivity|]); eexists; (split; [reflexivity|]);
        (split; [intros a Ea; try (match type of Ea with option_map _ ?v = _ => destruct v; [|discriminate] end); injection Ea as <-; reflexivity|]);
        intros f x F1 F2 <-; rewrite Hfin by assumption; unfold converted;
        try (match goal with |- context [option_map _ ?v] => destruct v end); reflexivity. }
    unfold text_call. destruct Hcase as [[Hv ->] | (Hv & Hop & v & -> & Hcolls & Hfin)].
    - apply call_denied; assumption.
    - destruct (visit_next (expecter_of c)) as (n & x & i & N' & st & Hst & Hu & Hx & Hd & Hm & Hfx & Hval & Hend).
      rewrite Hv in Hend, Hval. cbn [fst snd] in Hend, Hval. specialize (Hval eq_refl). rewrite Hcoll in Hval.
      destruct Hend as (Ha & Hdx). destruct r_ok as [Hrf _].
      assert (Hnum : forall u', numbered c 0 u' = u') by (intro; unfold numbered; rewrite Hop; reflexivity).
      destruct v as [a|].
      + rewrite Hnum. apply simple_answered with (r' := x).
        * eapply gives_of; [exact Hc|exact Hrf|exact Hx|]. exists 0. intros f _. rewrite (Hfin f x Hfx Hdx Hval). reflexivity.
        * exact (Hcolls a eq_refl).
        * eapply sim_consumed; eauto. apply sizes_ok.
      + apply zero_answered with (r' := set_fatal_error en (RConvert (expecter_of c) (txt_of d)) x); [exact Hc| |].
        * eapply gives_of; [exact Hc|exact Hrf|exact Hx|]. exists 0. intros f _. rewrite (Hfin f x Hfx Hdx Hval).
          unfold append_err. rewrite andb_false_r, Hfx. reflexivity.
        * apply (sim_failed x hs u [] st fs N'); auto. apply sizes_ok.
  Qed.

  Lemma call_opens c : c = DSequence \/ c = DMapping -> verdict (expecter_of c) d = (CMatch, true) -> is_coll d = true ->
    answered r hs c (no_coll, numbered c (length (items d)) (at_place None ((length (cu_sizes u), items d) :: fs) u)).
  Proof.
    intros Hc Hv Hcoll. destruct (visit_next (expecter_of c)) as (n & x & i & N' & st & Hst & Hu & Hx & Hd & Hm & Hfx & Hval & Hend).
    rewrite Hv in Hend, Hval. cbn [fst snd] in Hend, Hval. specialize (Hval eq_refl). rewrite Hcoll in Hval.
    destruct Hend as ((p & rest & s' & Hro & Hpn & Ha & Hch) & Hdx). destruct (Hch Hcoll) as (ch & -> & Hl). destruct r_ok as [Hrf _].
    exists (AColl (CollState (length (items d)) i)), x. split; [|split].
    - eapply gives_of; [destruct Hc as [-> | ->]; reflexivity|exact Hrf|exact Hx|]. exists 0. intros f _. unfold finish.
      rewrite (has_no_fatal x Hfx), (has_no_deny x Hdx), Hval. destruct Hc as [-> | ->]; reflexivity.
    - reflexivity.
    - assert (Hlen : length hs = length (cu_sizes u)) by (eapply f2_length; apply sizes_ok).
      cbn [snd colls_of]. unfold numbered. replace (opening c) with true by (destruct Hc as [-> | ->]; reflexivity).
      destruct Hm as [Hm1 Hm2]. unfold sim. cbn. rewrite Hfat. repeat split; auto.
      + apply Forall2_app; [apply sizes_ok|]. constructor; [reflexivity|constructor].
      + intros h size j Hh. destruct (Nat.ltb_spec h (length hs)) as [Hlt|Hge].
        * rewrite nth_error_app1 in Hh by exact Hlt. destruct (Hd h size j Hh) as [Hi|Hi]; [left; exact Hi|right; right; exact Hi].
        * right. left. cbn. apply nth_error_Some_lt in Hh || idtac.
          assert (h < length (hs ++ [CollState (length (items d)) i])) by (apply nth_error_Some; congruence).
          rewrite app_length in H. cbn in H. lia.
      + exists (SOpen n false i ch :: st), N'. split; [exact Ha|]. constructor; [|apply frames_more; exact Hst].
        split; [reflexivity|]. split; [|exact Hl]. exists (length (items d)). cbn [fst].
        rewrite <- Hlen, nth_error_app2, Nat.sub_diag by lia. reflexivity.
  Qed.

  Lemma call_try : answered r hs DTryNull
    (match d with YNull _ => (ABool true, at_place None fs u) | _ => (ABool false, at_place (Some d) fs u) end).
  Proof.
    destruct (visit_next ENull) as (n & x & i & N' & st & Hst & Hu & Hx & Hd & Hm & Hfx & _ & Hend). destruct r_ok as [Hrf _].
    assert (Hyes : forall ch, d = YNull ch -> answered r hs DTryNull (ABool true, at_place None fs u)).
    { intros s E. rewrite E in Hend. cbn in Hend. destruct Hend as (Ha & Hdx).
      apply simple_answered with (r' := x); [|reflexivity|].
      - eapply gives_of; [reflexivity|exact Hrf|exact Hx|]. exists 0. intros f _. unfold finish.
        rewrite (has_no_fatal x Hfx), Hdx. reflexivity.
      - eapply sim_consumed; eauto. apply sizes_ok. }
    assert (Hno : verdict ENull d = no -> answered r hs DTryNull (ABool false, at_place (Some d) fs u)).
    { intro E. rewrite E in Hend. cbn in Hend. destruct Hend as ((s' & Hr & Ha) & Hdx).
      apply simple_answered with (r' := set_deny None x); [|reflexivity|].
      - eapply gives_of; [reflexivity|exact Hrf|exact Hx|]. exists 0. intros f _. unfold finish.
        rewrite (has_no_fatal x Hfx), Hdx. reflexivity.
      - eapply (sim_held (set_deny None x)); eauto. apply sizes_ok. }
    destruct d; [eapply Hyes; reflexivity|apply Hno; reflexivity..].
  Qed.
  Lemma call_skips : answered r hs DSkip (AUnit, at_place None fs u).
  Proof.
    destruct (visit_next ESkip) as (n & x & i & N' & st & Hst & Hu & Hx & Hd & Hm & Hfx & _ & Hend). destruct r_ok as [Hrf _].
    assert (Hv : verdict ESkip d = (CConsume, false)) by reflexivity. rewrite Hv in Hend. cbn in Hend. destruct Hend as (Ha & Hdx).
    apply simple_answered with (r' := x); [|reflexivity|].
    - eapply gives_of; [reflexivity|exact Hrf|exact Hx|]. exists 0. intros f _. unfold finish.
      rewrite (has_no_fatal x Hfx), (has_no_deny x Hdx). reflexivity.
    - eapply sim_consumed; eauto. apply sizes_ok.
  Qed.
  Lemma call_anys : answered r hs DAny
    (match any_value o d with inl v => (AAny v, at_place None fs u) | inr es => (AAny VNil, failed (RAny es) u) end).
  Proof.
    destruct (visit_next EAny) as (n & x & i & N' & st & Hst & Hu & Hx & Hd & Hm & Hfx & _ & Hend). destruct r_ok as [Hrf _].
    assert (Hv : verdict EAny d = (CMatch, false)) by reflexivity. rewrite Hv in Hend. cbn in Hend.
    destruct Hend as ((p & rest & s' & Hro & Hpn & Ha & _) & Hdx).
    assert (Hk : r_keep x = g) by apply Ha.
    assert (Hany : forall f, depth d <= f -> finish en o f DAny x =
      match any_value o d with
      | inl v => Done (AAny v, pop_point x)
      | inr es => Done (AAny VNil, append_err en (RAny es) x)
      end).
    { intros f Hf. unfold finish. rewrite (has_no_fatal x Hfx), (has_no_deny x Hdx), Hro, Hpn, Hk. cbn [orb].
      cbn [en g_engine en_any]. rewrite (any_gives_value o g n d Hu f Hf). cbn [obind fst snd].
      replace (set_keep g x) with x by (rewrite <- Hk; destruct x; reflexivity). reflexivity. }
    assert (Hpop : abs (pop_point x) (st, g, N')).
    { destruct Ha as (Hf & Hnd & Hk' & Hl & Hki). rewrite Hro in Hf. inversion Hf; subst. cbn. rewrite Hro. repeat split; auto.
      cbn in Hnd. unfold seg_ids in Hnd. cbn in Hnd. clear -Hnd. induction (seg_id s') as [|y l IH]; [exact Hnd|]. inversion Hnd. apply IH. assumption. }
    destruct (any_value o d) as [v|es].
    - apply simple_answered with (r' := pop_point x); [|reflexivity|].
      + eapply gives_of; [reflexivity|exact Hrf|exact Hx|]. exists (depth d). exact Hany.
      + eapply (sim_consumed (pop_point x)); eauto. apply sizes_ok.
    - apply simple_answered with (r' := set_fatal_error en (RAny es) x); [|reflexivity|].
      + eapply gives_of; [reflexivity|exact Hrf|exact Hx|]. exists (depth d). intros f Hf. rewrite (Hany f Hf).
        unfold append_err. rewrite andb_false_r, Hfx. reflexivity.
      + apply (sim_failed x hs u [s'] st fs N'); auto. apply sizes_ok.
  Qed.
  End OneCall.

  Theorem sim_call r hs u c : c <> DRaw -> c <> DNode -> sim r hs u -> answered r hs c (cursor_call o c u).
  Proof.
    intros N1 N2 Hsim. destruct (reading c) eqn:Hc.
    - destruct (cu_fatal u) as [e|] eqn:Hfat.
      + assert (Hrf : r_fatal r = Some e) by (destruct Hsim as (_ & H & _); congruence).
        replace (cursor_call o c u) with (zero_answer (Nd := gref) o c, numbered c 0 u)
          by (unfold cursor_call; rewrite Hfat; destruct c; try discriminate; reflexivity).
        apply zero_answered with (r' := r); [exact Hc| |exact Hsim].
        exists 0. intros f _. unfold do_call, has_fatal. rewrite Hrf. destruct c; try discriminate; reflexivity.
      + destruct (next u) as [[d fs]|] eqn:Hn.
        * assert (Htext : is_coll d = false -> c <> DTryNull -> c <> DSkip -> c <> DAny ->
            answered r hs c (let (a, u') := text_call o c (match d with YNull _ => true | _ => false end) (txt_of d) d fs u in (a, numbered c 0 u'))).
          { intros. eapply call_text; eauto. }
          assert (Hdeny : c <> DTryNull -> verdict (expecter_of c) d = no ->
            answered r hs c (zero_answer o c, numbered c 0 (deny c d fs u))).
          { intros. eapply call_denied; eauto. }
          assert (Hopen : c = DSequence \/ c = DMapping -> verdict (expecter_of c) d = (CMatch, true) -> is_coll d = true ->
            answered r hs c (no_coll, numbered c (length (items d)) (at_place None ((length (cu_sizes u), items d) :: fs) u))).
          { intros. eapply call_opens; eauto. }
          pose proof (call_try r hs u Hsim Hfat d fs Hn) as Ht.
          pose proof (call_skips r hs u Hsim Hfat d fs Hn) as Hs.
          pose proof (call_anys r hs u Hsim Hfat d fs Hn) as Ha.
          unfold cursor_call. rewrite Hfat, Hn.
          destruct c; try discriminate; try congruence; try assumption;
            destruct d; cbn [is_coll items txt_of] in *; try (apply Htext; congruence); try (apply Hdeny; [discriminate|reflexivity]);
              try (apply Hopen; auto).
        * replace (cursor_call o c u) with (zero_answer (Nd := gref) o c, numbered c 0 (failed REnd u))
            by (unfold cursor_call; rewrite Hfat, Hn; destruct c; try discriminate; reflexivity).
          apply call_end; assumption.
    - destruct c; try discriminate.
      + (* AddError *)
        destruct (cu_fatal u) as [e|] eqn:Hfat; cbn [cursor_call]; rewrite Hfat.
        * apply simple_answered with (r' := r); [|reflexivity|exact Hsim]. exists 0. intros f _. cbn.
          destruct Hsim as (_ & -> & _). rewrite Hfat. reflexivity.
        * apply simple_answered with (r' := set_fatal_error en x r); [|reflexivity|].
          { exists 0. intros f _. cbn [do_call]. destruct Hsim as (_ & -> & _). rewrite Hfat. reflexivity. }
          pose proof Hsim as (H1 & H2 & H3 & H4 & H5 & H6 & H7). rewrite Hfat in H7. destruct H7 as (st & N & H7).
          destruct (cu_held u).
          -- destruct H7 as (n & s & _ & _ & Ha & Hst). apply (sim_failed r hs u [s] st (cu_open u) N); auto; [split; auto|congruence].
          -- destruct H7 as (Ha & Hst). apply (sim_failed r hs u [] st (cu_open u) N); auto; [split; auto|congruence].
      + apply simple_answered with (r' := r); [|reflexivity|exact Hsim]. exists 0. intros f _. cbn.
        destruct Hsim as (_ & -> & -> & _). reflexivity.
  Qed.

  (** ** all requests *)
  Lemma sim_start multi n d : unfolds g n d -> sim (r_new g multi n) [] (cursor_start multi d).
  Proof.
    intro H. unfold sim. cbn. repeat split; auto; [intros [|h] ? ? Hh; discriminate|].
    exists [], 0, n, (SWait n). split; [exact H|]. split; [left; reflexivity|]. split; [|constructor].
    cbn. repeat split; auto; repeat constructor.
  Qed.

  Lemma sim_coll r hs u h : sim r hs u ->
    match nth_error (cu_sizes u) h with
    | Some n => coll_size (nth h hs CollNil) = Done n /\ coll_more r (nth h hs CollNil) = Done (cursor_more h u)
    | None => coll_size (nth h hs CollNil) = Panics /\ coll_more r (nth h hs CollNil) = Panics
    end.
  Proof.
    intros (H1 & H2 & H3 & H4 & H5 & H6 & H7).
    assert (Hs : match nth_error (cu_sizes u) h with Some n => exists c, nth_error hs h = Some c /\ sized c n | None => nth_error hs h = None end).
    { clear -H5. revert h. induction H5; intros [|h]; cbn; eauto. apply IHForall2. }
    destruct (nth_error (cu_sizes u) h) as [n|].
    - destruct Hs as (c & Hc & Hsz). rewrite (nth_error_nth hs h CollNil Hc).
      assert (Hst : exists st N, abs r (st, g, N) /\ (cu_fatal u = None) /\ (exists pre st', st = pre ++ st' /\ Forall2 (seg_frame hs) st' (cu_open u))
                \/ cu_open u = []).
      { destruct (cu_fatal u); [exists [], 0; right; exact H7|]. destruct H7 as (st & N & H7). destruct (cu_held u).
        - destruct H7 as (m & s & _ & _ & Ha & Hst). exists (s :: st), N. left. split; [exact Ha|]. split; [reflexivity|]. exists [s], st. auto.
        - destruct H7 as (Ha & Hst). exists st, N. left. split; [exact Ha|]. split; [reflexivity|]. exists [], st. auto. }
      assert (Hframe : forall l, In (h, l) (cu_open u) -> exists i ch size, nth_error hs h = Some (CollState size i)
                 /\ nth_error (r_iters r) i = Some ch /\ Forall2 (unfolds g) ch l).
      { intros l Hin. destruct Hst as (st & N & [(Ha & _ & pre & st' & -> & Hst)|Hst]); [|rewrite Hst in Hin; contradiction].
        destruct (frame_seg hs st' _ h l Hst Hin) as (m & i & ch & size & G1 & G2 & G3). exists i, ch, size.
        split; [exact G2|]. split; [|exact G3]. eapply seg_iter; [exact Ha|]. apply in_or_app. right. exact G1. }
      destruct c as [| |size i]; cbn in Hsz; [contradiction| |].
      + subst n. split; [reflexivity|]. cbn. f_equal. symmetry. apply not_true_is_false. intro Hm.
        apply existsb_exists in Hm as ([h' l] & Hin & Hm). apply andb_true_iff in Hm as [Hm _]. apply Nat.eqb_eq in Hm. cbn in Hm. subst h'.
        destruct (Hframe l Hin) as (i & ch & size & G & _). congruence.
      + subst n. split; [reflexivity|]. cbn. f_equal. unfold iter_empty, iter_left.
        destruct (cursor_more h u) eqn:Em.
        * apply existsb_exists in Em as ([h' l] & Hin & Hm). apply andb_true_iff in Hm as [Hm Hl]. apply Nat.eqb_eq in Hm. cbn in Hm, Hl. subst h'.
          destruct (Hframe l Hin) as (i' & ch & size' & G1 & G2 & G3). rewrite Hc in G1. injection G1 as <- <-.
          rewrite (nth_error_nth _ _ _ G2). destruct G3; [discriminate|reflexivity].
        * destruct (H6 h size i Hc) as [Hi|Hi]; [rewrite (nth_error_nth _ _ _ Hi); reflexivity|].
          apply in_map_iff in Hi as ([h' l] & E & Hin). cbn in E. subst h'.
          destruct (Hframe l Hin) as (i' & ch & size' & G1 & G2 & G3). rewrite Hc in G1. injection G1 as <- <-.
          rewrite (nth_error_nth _ _ _ G2). destruct G3 as [|m d' ch l]; [reflexivity|]. exfalso.
          assert (cursor_more h u = true); [|congruence]. apply existsb_exists. exists (h, d' :: l). split; [exact Hin|].
          cbn. rewrite Nat.eqb_refl. reflexivity.
    - rewrite nth_overflow by (apply nth_error_None; exact Hs). split; reflexivity.
  Qed.

  Theorem sim_requests qs : Forall (fun q => usual q = true) qs -> forall r hs u, sim r hs u ->
    exists F, forall f, F <= f ->
      match cursor_requests (Nd := gref) o qs u with
      | Done (ps, u') => exists rs r' hs', do_requests en o f qs (r, hs) = Done (rs, (r', hs')) /\ map mask rs = ps /\ sim r' hs' u'
      | Panics => do_requests en o f qs (r, hs) = Panics
      | NoFuel => False
      end.
  Proof.
    induction 1 as [|q qs Hq Hqs IH]; intros r hs u Hsim.
    - exists 0. intros f _. exists [], r, hs. split; [reflexivity|]. split; [reflexivity|exact Hsim].
    - destruct q as [c|h|h].
      + destruct (sim_call r hs u c) as (a & r' & (F1 & HF1) & Hm & Hs); [intros ->; discriminate|intros ->; discriminate|exact Hsim|].
        destruct (IH r' (hs ++ colls_of a) (snd (cursor_call o c u)) Hs) as (F2 & HF2).
        exists (max F1 F2). intros f Hf. specialize (HF1 f ltac:(lia)). specialize (HF2 f ltac:(lia)).
        cbn [cursor_requests cursor_request do_requests do_request]. rewrite HF1. cbn [obind fst snd].
        destruct (cursor_call o c u) as [a0 u1]. cbn [obind fst snd] in *.
        destruct (cursor_requests o qs u1) as [[ps u2]| |]; cbn [obind fst snd].
        * destruct HF2 as (rs & r2 & hs2 & E & Hrs & Hs2). rewrite E. cbn [obind fst snd].
          exists (PAnswer a :: rs), r2, hs2. split; [reflexivity|]. split; [|exact Hs2]. cbn [map]. rewrite Hm, Hrs. reflexivity.
        * rewrite HF2. reflexivity.
        * exact HF2.
      + destruct (IH r hs u Hsim) as (F2 & HF2). exists F2. intros f Hf. specialize (HF2 f Hf).
        pose proof (sim_coll r hs u h Hsim) as Hc.
        cbn [cursor_requests cursor_request do_requests do_request].
        destruct (nth_error (cu_sizes u) h) as [n|]; destruct Hc as [Hc _]; rewrite Hc; cbn [obind fst snd]; [|reflexivity].
        destruct (cursor_requests o qs u) as [[ps u2]| |]; cbn [obind fst snd].
        * destruct HF2 as (rs & r2 & hs2 & E & Hrs & Hs2). rewrite E. cbn [obind fst snd].
          exists (PSize n :: rs), r2, hs2. split; [reflexivity|]. split; [|exact Hs2]. cbn [map]. rewrite Hrs. reflexivity.
        * rewrite HF2. reflexivity.
        * exact HF2.
      + destruct (IH r hs u Hsim) as (F2 & HF2). exists F2. intros f Hf. specialize (HF2 f Hf).
        pose proof (sim_coll r hs u h Hsim) as Hc.
        cbn [cursor_requests cursor_request do_requests do_request].
        destruct (nth_error (cu_sizes u) h) as [n|]; destruct Hc as [_ Hc]; rewrite Hc; cbn [obind fst snd]; [|reflexivity].
        destruct (cursor_requests o qs u) as [[ps u2]| |]; cbn [obind fst snd].
        * destruct HF2 as (rs & r2 & hs2 & E & Hrs & Hs2). rewrite E. cbn [obind fst snd].
          exists (PMore (cursor_more h u) :: rs), r2, hs2. split; [reflexivity|]. split; [|exact Hs2]. cbn [map]. rewrite Hrs. reflexivity.
        * rewrite HF2. reflexivity.
        * exact HF2.
  Qed.

  Lemma mask_mask (p : reply gref) : mask (mask p) = mask p.
  Proof. destruct p as [[]| |]; reflexivity. Qed.

  Theorem g_cursor multi i d qs : rooted g i d -> Forall (fun q => usual q = true) qs ->
    exists r, g_reader multi g i = Done r /\
    exists F, forall f, F <= f ->
      replies (do_requests en o f qs (r, [])) = replies (cursor_requests o qs (cursor_start multi d)).
  Proof.
    intros Hd Hq.
    assert (Hn : exists n, g_reader multi g i = Done (r_new g multi n) /\ unfolds g n d).
    { destruct Hd as [Hd|(c & n & rest & E1 & E2 & E3 & Hd)].
      - exists (Some i). split; [|exact Hd]. unfold g_reader. inversion Hd; subst;
          match goal with H : nth_error g i = Some _ |- _ => rewrite H end;
          match goal with H : x_kind _ = _ |- _ => rewrite H end; reflexivity.
      - exists n. split; [|exact Hd]. unfold g_reader. rewrite E1, E2, E3. reflexivity. }
    destruct Hn as (n & Hr & Hu). exists (r_new g multi n). split; [exact Hr|].
    destruct (sim_requests qs Hq _ _ _ (sim_start multi n d Hu)) as (F & HF). exists F. intros f Hf. specialize (HF f Hf).
    unfold replies.
    destruct (cursor_requests o qs (cursor_start multi d)) as [[ps u']| |].
    - destruct HF as (rs & r' & hs' & -> & <- & _). cbn [obind fst]. f_equal. rewrite map_map. apply map_ext. intro p. symmetry. apply mask_mask.
    - rewrite HF. reflexivity.
    - contradiction.
  Qed.
End G.
