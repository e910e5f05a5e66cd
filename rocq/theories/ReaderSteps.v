(** The visiting functions of the reader, seen as steps on the route without the call nesting. *)
From Verif Require Import Base Schema Values Writer Reader ReaderProofs.
Local Open Scope nat_scope.

Lemma iters_set_same {Nd} (l : list (list Nd)) i x y :
  nth_error l i = Some y -> nth_error (iters_set l i x) i = Some x.
Proof.
  unfold iters_set. revert i. induction l as [|z l IH]; intros [|i] H; try discriminate; cbn in *.
  - reflexivity.
  - specialize (IH i H). destruct (skipn i l) eqn:E.
    + exfalso. assert (length (skipn i l) = 0) by (rewrite E; reflexivity).
      rewrite skipn_length in H0. assert (i < length l) by (apply nth_error_Some; congruence). lia.
    + cbn. exact IH.
Qed.
Lemma iters_set_other {Nd} (l : list (list Nd)) i j x :
  i <> j -> nth_error (iters_set l i x) j = nth_error l j.
Proof.
  unfold iters_set. revert i j. induction l as [|z l IH]; intros [|i] [|j] H; cbn; try reflexivity; try congruence.
  - destruct (skipn i l); reflexivity.
  - specialize (IH i j ltac:(congruence)). destruct (skipn i l) eqn:E; [reflexivity|]. cbn. exact IH.
Qed.
Lemma iters_set_length {Nd} (l : list (list Nd)) i x : length (iters_set l i x) = length l.
Proof.
  unfold iters_set. revert i. induction l as [|z l IH]; intros [|i]; cbn; try reflexivity.
  specialize (IH i). destruct (skipn i l) eqn:E; [reflexivity|]. cbn. rewrite IH. reflexivity.
Qed.
Lemma iters_set_same_value {Nd} (l : list (list Nd)) i x : nth_error l i = Some x -> iters_set l i x = l.
Proof.
  unfold iters_set. revert i. induction l as [|z l IH]; intros [|i] H; cbn in *; try discriminate.
  - congruence.
  - specialize (IH i H). destruct (skipn i l); [reflexivity|]. cbn. rewrite IH. reflexivity.
Qed.

Section Steps.
  Context {Nd K : Type} (en : engine Nd K) (o : oracle).

  Lemma run_more e fuel : forall t (r x : rstate Nd K),
    run en e fuel t r = Done x -> run en e (S fuel) t r = Done x.
  Proof.
    induction fuel as [|f IH]; intros t r x H; [discriminate|].
    destruct t as [|n|i bind].
    - cbn [run] in H |- *. destruct (current_node en r); [|exact H]. apply IH in H. exact H.
    - change (run en e (S (S f)) (TVisit n) r) with
        (match en_visit en (r_keep r) n with
            | VPanic => Panics
            | VNothing => Done r
            | VInto m => run en e (S f) (TVisit m) r
            | VAlias (inl m) => run en e (S f) (TVisit m) (push_point m r)
            | VAlias (inr a) => Done (append_err en (RAlias a) r)
            | VNullNode => visit_null en e n r
            | VTexter s None => visit_texter en e n s r
            | VTexter s (Some a) => visit_texter en e n s (set_keep (en_store en a (r_keep r)) r)
            | VComplex children size bind =>
                match r_route r with
                | [] => Panics
                | p :: _ =>
                    let '(it, r) :=
                      if is_unknown (pt_concl p)
                      then (Some (length (r_iters r)), set_iters (r_iters r ++ [children]) r)
                      else (pt_iter p, r) in
                    let '(c, x) := en_process en (r_keep r) e (pt_node p) (pt_concl p) in
                    let r := swap_point (mkPoint c (pt_node p) it) (set_last c r) in
                    obind
                      (match c with
                       | CConsume => Done (pop_point r)
                       | CMatch => Done r
                       | CDeny => Done (set_deny (Some (RDeny e)) r)
                       | CContinue =>
                           match it with
                           | None => Panics
                           | Some i =>
                               obind (run en e (S f) (TLoop i bind) r) (fun r =>
                               if iter_empty i r && is_continue (r_last r)
                               then run en e (S f) TCurrent (pop_point r) else Done r)
                           end
                       | CUnknown => Done (append_err en RConclusion r)
                       end) (fun r =>
                    match it with
                    | Some i => Done (extracting x (CollState size i) [] r)
                    | None => if x then Panics else Done r
                    end)
                end
            end).
      cbn [run] in H.
      destruct (en_visit en (r_keep r) n) as [ch size bind|s [a|]| |[m|a]|m| |]; try exact H;
        try (apply IH in H; exact H).
      destruct (r_route r) as [|p ps] eqn:Er; [discriminate|].
      destruct (if is_unknown (pt_concl p) then _ else _) as [it r1].
      destruct (en_process en (r_keep r1) e (pt_node p) (pt_concl p)) as [c xx].
      apply obind_done in H as (r3 & H3 & H).
      cbv zeta in *. destruct c; try (injection H3 as <-; exact H).
      destruct it as [i|]; [|discriminate].
      apply obind_done in H3 as (r4 & H4 & H3).
      apply IH in H4. rewrite H4. cbn [obind].
      destruct (iter_empty i r4 && is_continue (r_last r4)).
      + apply IH in H3. rewrite H3. exact H.
      + injection H3 as ->. cbn. exact H.
    - change (run en e (S (S f)) (TLoop i bind) r) with
        (if is_continue (r_last r) then
              match iter_left i r with
              | [] => Done r
              | n :: rest =>
                  let r := set_iters (iters_set (r_iters r) i rest) r in
                  let r := if bind then set_keep (en_bind en n (r_keep r)) r else r in
                  if en_valid en n then
                    obind (run en e (S f) (TVisit n) (push_point n r)) (run en e (S f) (TLoop i bind))
                  else run en e (S f) (TLoop i bind) r
              end
            else Done r).
      cbn [run] in H. destruct (is_continue (r_last r)); [|exact H].
      destruct (iter_left i r) as [|n rest]; [exact H|].
      cbv zeta in *. destruct (en_valid en n).
      + apply obind_done in H as (r2 & H2 & H). apply IH in H2. rewrite H2. cbn [obind]. apply IH. exact H.
      + apply IH. exact H.
  Qed.

  Lemma run_le e f g t (r x : rstate Nd K) : f <= g -> run en e f t r = Done x -> run en e g t r = Done x.
  Proof. induction 1; intro H1; [exact H1|]. apply run_more. auto. Qed.

  (** the visit of the current node can end in [x] *)
  Definition reaches e (r x : rstate Nd K) : Prop := exists f, run en e f TCurrent r = Done x.
  (** ... having found something *)
  Definition finds e (r x : rstate Nd K) : Prop := reaches e r x /\ is_continue (r_last x) = false.

  (** an open point: a node with children that is being read *)
  Definition opened e (k : K) (p : point Nd) (bind : bool) (i : nat) : Prop :=
    en_nil en (pt_node p) = false /\ is_unknown (pt_concl p) = false /\ pt_iter p = Some i
    /\ (exists ch size, en_visit en k (pt_node p) = VComplex ch size bind)
    /\ en_process en k e (pt_node p) (pt_concl p) = (CContinue, false)
    /\ en_process en k e (pt_node p) CContinue = (CContinue, false).

  Definition reopened (p : point Nd) : point Nd := mkPoint CContinue (pt_node p) (pt_iter p).

  Lemma run_opened e f r p rest bind i :
    r_route r = p :: rest -> opened e (r_keep r) p bind i ->
    run en e (S (S f)) TCurrent r =
      obind (obind (run en e f (TLoop i bind) (set_route (reopened p :: rest) (set_last CContinue r))) (fun r =>
             if iter_empty i r && is_continue (r_last r)
             then run en e f TCurrent (pop_point r) else Done r)) Done.
  Proof.
    intros Hr (Hn & Hu & Hi & (ch & size & Hv) & Hp & _).
    cbn [run]. unfold current_node. rewrite Hr, Hn, Hv, Hu, Hp. cbn [obind fst snd].
    unfold swap_point at 1. cbn [set_last r_route]. rewrite Hr. rewrite Hi.
    unfold reopened. rewrite Hi. cbn. reflexivity.
  Qed.

  (** 1. an exhausted node is left *)
  Lemma step_exhausted e r p rest bind i x :
    r_route r = p :: rest -> opened e (r_keep r) p bind i -> iter_left i r = [] ->
    reaches e (set_route rest (set_last CContinue r)) x -> reaches e r x.
  Proof.
    intros Hr Ho Hi (f & Hf). exists (S (S (S f))).
    rewrite (run_opened e (S f) r p rest bind i Hr Ho).
    cbn [run]. cbn [r_last set_last set_route is_continue].
    change (iter_left i (set_route (reopened p :: rest) (set_last CContinue r))) with (iter_left i r).
    rewrite Hi. cbn [obind]. unfold iter_empty.
    change (iter_left i (set_route (reopened p :: rest) (set_last CContinue r))) with (iter_left i r).
    rewrite Hi. cbn [r_last set_last set_route is_continue andb].
    apply run_more in Hf. unfold pop_point. cbn [set_route r_route tl].
    cbn [run] in Hf |- *.
    change (set_route rest (set_route (reopened p :: rest) (set_last CContinue r)))
      with (set_route rest (set_last CContinue r)).
    rewrite Hf. reflexivity.
  Qed.

  (** taking the next child of the current node *)
  Definition advance (i : nat) (bind : bool) (n : Nd) (rest : list Nd) (r : rstate Nd K) : rstate Nd K :=
    let r := set_iters (iters_set (r_iters r) i rest) r in
    if bind then set_keep (en_bind en n (r_keep r)) r else r.

  Definition entered (p : point Nd) (rest : list (point Nd)) (r : rstate Nd K) : rstate Nd K :=
    set_route (reopened p :: rest) (set_last CContinue r).

  Lemma run_loop e f i bind n left (r : rstate Nd K) :
    is_continue (r_last r) = true -> iter_left i r = n :: left ->
    run en e (S f) (TLoop i bind) r =
      if en_valid en n then
        obind (run en e f (TVisit n) (push_point n (advance i bind n left r))) (run en e f (TLoop i bind))
      else run en e f (TLoop i bind) (advance i bind n left r).
  Proof. intros H1 H2. cbn [run]. rewrite H1, H2. reflexivity. Qed.

  Lemma advance_route i bind n left r : r_route (advance i bind n left r) = r_route r.
  Proof. unfold advance. destruct bind; reflexivity. Qed.
  Lemma advance_last i bind n left r : r_last (advance i bind n left r) = r_last r.
  Proof. unfold advance. destruct bind; reflexivity. Qed.

  Lemma rstate_eta_route (r : rstate Nd K) : set_route (r_route r) r = r.
  Proof. destruct r; reflexivity. Qed.
  Lemma rstate_eta_last (r : rstate Nd K) : set_last (r_last r) r = r.
  Proof. destruct r; reflexivity. Qed.

  (** continuing the loop is the same as visiting the current node again *)
  Lemma loop_resumes e r p rest bind i x f :
    r_route r = reopened p :: rest -> r_last r = CContinue ->
    opened e (r_keep r) (reopened p) bind i ->
    run en e f TCurrent r = Done x ->
    exists g, obind (run en e g (TLoop i bind) r) (fun r =>
             if iter_empty i r && is_continue (r_last r)
             then run en e g TCurrent (pop_point r) else Done r) = Done x.
  Proof.
    intros Hr Hl Ho Hf.
    apply (run_le e f (S (S f))) in Hf; [|lia].
    rewrite (run_opened e f r _ rest bind i Hr Ho) in Hf.
    replace (set_route (reopened (reopened p) :: rest) (set_last CContinue r)) with r in Hf
      by (destruct r; cbn in *; subst; reflexivity).
    exists f. apply obind_done in Hf as (y & Hy & E). injection E as ->. exact Hy.
  Qed.

  Lemma loop_lift e i bind (r1 x : rstate Nd K) f g :
    f <= g ->
    obind (run en e f (TLoop i bind) r1) (fun r =>
             if iter_empty i r && is_continue (r_last r)
             then run en e f TCurrent (pop_point r) else Done r) = Done x ->
    obind (run en e g (TLoop i bind) r1) (fun r =>
             if iter_empty i r && is_continue (r_last r)
             then run en e g TCurrent (pop_point r) else Done r) = Done x.
  Proof.
    intros Hle H. apply obind_done in H as (y & Hy & H). rewrite (run_le _ _ _ _ _ _ Hle Hy). cbn [obind].
    destruct (iter_empty i y && is_continue (r_last y)); [|exact H]. eapply run_le; eassumption.
  Qed.

  (** 2. a child that is not valid is passed over *)
  Lemma step_invalid e r p rest bind i n left x :
    r_route r = p :: rest -> opened e (r_keep r) p bind i -> iter_left i r = n :: left ->
    en_valid en n = false ->
    opened e (r_keep (advance i bind n left r)) (reopened p) bind i ->
    reaches e (advance i bind n left (entered p rest r)) x -> reaches e r x.
  Proof.
    intros Hr Ho Hi Hn Ho' (f & Hf).
    assert (Hk : r_keep (advance i bind n left (entered p rest r)) = r_keep (advance i bind n left r))
      by (unfold advance; destruct bind; reflexivity).
    rewrite <- Hk in Ho'.
    destruct (loop_resumes e (advance i bind n left (entered p rest r)) p rest bind i x f) as (g & Hg); auto.
    { rewrite advance_route. reflexivity. }
    { rewrite advance_last. reflexivity. }
    exists (S (S (S g))). rewrite (run_opened e (S g) r p rest bind i Hr Ho).
    rewrite (run_loop e g i bind n left).
    2: reflexivity. 2: exact Hi.
    rewrite Hn.
    change (set_route (reopened p :: rest) (set_last CContinue r)) with (entered p rest r).
    apply obind_done in Hg as (y & Hy & Hg). rewrite Hy. cbn [obind].
    destruct (iter_empty i y && is_continue (r_last y)).
    - apply run_more in Hg. rewrite Hg. reflexivity.
    - rewrite Hg. reflexivity.
  Qed.

  (** 3. a valid child is visited *)
  Lemma step_child e r p rest bind i n left x :
    r_route r = p :: rest -> opened e (r_keep r) p bind i -> iter_left i r = n :: left ->
    en_valid en n = true -> en_nil en n = false ->
    finds e (push_point n (advance i bind n left (entered p rest r))) x -> finds e r x.
  Proof.
    intros Hr Ho Hi Hn Hnil ((f & Hf) & Hx). split; [|exact Hx].
    destruct f as [|f]; [discriminate|].
    cbn [run] in Hf. unfold current_node in Hf. cbn [push_point set_route r_route pt_node] in Hf.
    rewrite Hnil in Hf.
    exists (S (S (S (S f)))). rewrite (run_opened e (S (S f)) r p rest bind i Hr Ho).
    rewrite (run_loop e (S f) i bind n left).
    2: reflexivity. 2: exact Hi.
    rewrite Hn.
    change (set_route (reopened p :: rest) (set_last CContinue r)) with (entered p rest r).
    apply run_more in Hf. rewrite Hf. cbn [obind].
    cbn [run]. rewrite Hx. cbn [obind]. rewrite Hx, andb_false_r. reflexivity.
  Qed.

  (** 4. a child with a text that the expecter passes *)
  Lemma step_text e r p rest bind i n left s store x :
    r_route r = p :: rest -> opened e (r_keep r) p bind i -> iter_left i r = n :: left ->
    en_valid en n = true ->
    let r1 := advance i bind n left (entered p rest r) in
    en_visit en (r_keep r1) n = VTexter s store ->
    let k := match store with Some a => en_store en a (r_keep r1) | None => r_keep r1 end in
    en_process en k e n CUnknown = (CContinue, false) ->
    opened e k (reopened p) bind i ->
    reaches e (set_keep k r1) x -> reaches e r x.
  Proof.
    intros Hr Ho Hi Hn r1 Hv k Hp Ho' (f & Hf).
    destruct (loop_resumes e (set_keep k r1) p rest bind i x f) as (g & Hg); auto.
    { cbn. unfold r1. rewrite advance_route. reflexivity. }
    { cbn. unfold r1. rewrite advance_last. reflexivity. }
    exists (S (S (S (S g)))). rewrite (run_opened e (S (S g)) r p rest bind i Hr Ho).
    rewrite (run_loop e (S g) i bind n left).
    2: reflexivity. 2: exact Hi.
    rewrite Hn.
    change (set_route (reopened p :: rest) (set_last CContinue r)) with (entered p rest r). fold r1.
    assert (Hvis : run en e (S g) (TVisit n) (push_point n r1) = Done (set_keep k r1)).
    { cbn [run]. change (r_keep (push_point n r1)) with (r_keep r1). rewrite Hv.
      assert (Hr1 : r_route r1 = reopened p :: rest) by (unfold r1; rewrite advance_route; reflexivity).
      assert (Hl1 : r_last r1 = CContinue) by (unfold r1; rewrite advance_last; reflexivity).
      destruct store as [a|]; unfold visit_texter; cbn [push_point set_route set_keep r_route r_keep pt_concl];
        fold k; rewrite Hp; unfold extracting, pop_point; cbn; f_equal; unfold k;
        destruct r1; cbn in *; subst; reflexivity. }
    rewrite Hvis. cbn [obind].
    apply obind_done in Hg as (y & Hy & Hg). rewrite (run_more _ _ _ _ _ Hy). cbn [obind].
    destruct (iter_empty i y && is_continue (r_last y)).
    - apply run_more in Hg. apply run_more in Hg. rewrite Hg. reflexivity.
    - rewrite Hg. reflexivity.
  Qed.

  (** 5. a fresh node with children that the expecter passes is opened *)
  Lemma step_open e r n rest ch size bind x :
    r_route r = mkPoint CUnknown n None :: rest ->
    en_nil en n = false -> en_visit en (r_keep r) n = VComplex ch size bind ->
    en_process en (r_keep r) e n CUnknown = (CContinue, false) ->
    en_process en (r_keep r) e n CContinue = (CContinue, false) ->
    reaches e (set_iters (r_iters r ++ [ch])
                (set_route (mkPoint CContinue n (Some (length (r_iters r))) :: rest) (set_last CContinue r))) x ->
    reaches e r x.
  Proof.
    intros Hr Hn Hv Hp Hp' (f & Hf).
    set (r1 := set_iters _ _) in Hf.
    assert (Ho : opened e (r_keep r1) (mkPoint CContinue n (Some (length (r_iters r)))) bind (length (r_iters r))).
    { repeat split; auto. exists ch, size. exact Hv. }
    apply (run_le e f (S (S f))) in Hf; [|lia].
    rewrite (run_opened e f r1 _ rest bind _ eq_refl Ho) in Hf.
    apply obind_done in Hf as (y & Hy & E). injection E as ->.
    exists (S (S f)). cbn [run]. unfold current_node. rewrite Hr. cbn [pt_node pt_concl is_unknown]. rewrite Hn, Hv.
    cbn [set_iters r_keep]. rewrite Hp. unfold swap_point. cbn [set_last set_iters r_route]. rewrite Hr.
    match goal with |- context [run en e f (TLoop _ _) ?z] =>
      replace z with (set_route (reopened (mkPoint CContinue n (Some (length (r_iters r)))) :: rest) (set_last CContinue r1))
        by reflexivity end.
    rewrite Hy. reflexivity.
  Qed.

  (** 6. an alias pushes what it stands for, and stays *)
  Lemma step_alias e r n m p rest x :
    r_route r = p :: rest -> pt_node p = n -> en_nil en n = false ->
    en_visit en (r_keep r) n = VAlias (inl m) -> en_nil en m = false ->
    reaches e (push_point m r) x -> reaches e r x.
  Proof.
    intros Hr Hp Hn Hv Hm (f & Hf). destruct f as [|f]; [discriminate|].
    cbn [run] in Hf. unfold current_node in Hf. cbn [push_point set_route r_route pt_node] in Hf. rewrite Hm in Hf.
    exists (S (S f)). cbn [run]. unfold current_node. rewrite Hr, Hp, Hn, Hv. exact Hf.
  Qed.

  (** ** final steps *)
  Lemma final_text e r p rest s c x :
    r_route r = p :: rest -> en_nil en (pt_node p) = false ->
    en_visit en (r_keep r) (pt_node p) = VTexter s None ->
    en_process en (r_keep r) e (pt_node p) (pt_concl p) = (c, x) ->
    is_continue c = false -> is_unknown c = false ->
    finds e r (extracting x CollNil s
      (match c with
       | CConsume => set_route rest (set_last c r)
       | CDeny => set_deny (Some (RDeny e)) (set_route (mkPoint c (pt_node p) (pt_iter p) :: rest) (set_last c r))
       | _ => set_last c r
       end)).
  Proof.
    intros Hr Hn Hv Hp Hc Hu. split.
    - exists 2. cbn [run]. unfold current_node. rewrite Hr, Hn, Hv. unfold visit_texter. rewrite Hr, Hp.
      unfold pop_point, swap_point. destruct c; try discriminate; cbn [set_last r_route]; rewrite ?Hr; reflexivity.
    - destruct x, c; try discriminate; reflexivity.
  Qed.

  Lemma final_null e r p rest c x :
    r_route r = p :: rest -> en_nil en (pt_node p) = false ->
    en_visit en (r_keep r) (pt_node p) = VNullNode ->
    en_process en (r_keep r) e (pt_node p) (pt_concl p) = (c, x) ->
    c = CConsume \/ c = CMatch ->
    finds e r (extracting x CollNil []
      (match c with
       | CConsume => set_route rest (set_last c r)
       | _ => set_last c r
       end)).
  Proof.
    intros Hr Hn Hv Hp Hc. split.
    - exists 2. cbn [run]. unfold current_node. rewrite Hr, Hn, Hv. unfold visit_null. rewrite Hr, Hp.
      unfold pop_point. destruct Hc as [-> | ->]; cbn [set_last r_route]; rewrite ?Hr; reflexivity.
    - destruct x; destruct Hc as [-> | ->]; reflexivity.
  Qed.

  (** a node with children met for the first time, or denied before *)
  Lemma final_complex e r p rest ch size bind it r1 c x :
    r_route r = p :: rest -> en_nil en (pt_node p) = false ->
    en_visit en (r_keep r) (pt_node p) = VComplex ch size bind ->
    en_process en (r_keep r) e (pt_node p) (pt_concl p) = (c, x) ->
    (it, r1) = (if is_unknown (pt_concl p)
                then (Some (length (r_iters r)), set_iters (r_iters r ++ [ch]) r) else (pt_iter p, r)) ->
    (exists i, it = Some i) ->
    is_continue c = false -> is_unknown c = false ->
    finds e r (extracting x (match it with Some i => CollState size i | None => CollNil end) []
      (match c with
       | CConsume => set_route rest (set_last c r1)
       | CDeny => set_deny (Some (RDeny e)) (set_route (mkPoint c (pt_node p) it :: rest) (set_last c r1))
       | _ => set_route (mkPoint c (pt_node p) it :: rest) (set_last c r1)
       end)).
  Proof.
    intros Hr Hn Hv Hp Hit (i & Hi) Hc Hu. split.
    - exists 2. cbn [run]. unfold current_node. rewrite Hr, Hn, Hv, <- Hit.
      assert (Hk : r_keep r1 = r_keep r /\ r_route r1 = p :: rest).
      { destruct (is_unknown (pt_concl p)); injection Hit as _ ->; auto. }
      destruct Hk as [Hk1 Hk2]. rewrite Hk1, Hp. unfold swap_point, pop_point. cbn [set_last r_route]. rewrite Hk2.
      subst it. destruct c; try discriminate; cbn; reflexivity.
    - destruct x, c; try discriminate; reflexivity.
  Qed.

  (** nothing left *)
  Lemma final_end e r : r_route r = [] -> reaches e r (append_err en REnd r).
  Proof. intro Hr. exists 1. cbn. unfold current_node. rewrite Hr. reflexivity. Qed.
End Steps.
