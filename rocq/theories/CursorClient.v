(** Loops end, on goyaml, for documents without aliases. *)
From Coq Require Import ZifyBool ZifyNat.
From Verif Require Import Base Schema Values Ast Writer AnyBuilder Reader GBuilder GReader
  ReadSpec CursorSpec CursorProofs CursorRun CursorDecode ClientSpec GenCode.
Local Open Scope nat_scope.

Lemma client_mono {Nd} A S b (p : nat -> prog Nd A) : client A S b p -> forall f g, f <= g -> ple (p f) (p g).
Proof.
  induction 1; intros f g Hfg; try (constructor; intros; eauto; fail).
  - apply ple_bind; [apply IHclient; exact Hfg|]. intro v. apply H1. exact Hfg.
  - apply ple_while; [exact Hfg|]. intro w. apply H1. exact Hfg.
Qed.

Section Ends.
  Context {Nd : Type} (o : oracle).
  Notation ccall := (cursor_call (Nd := Nd) o).

  Lemma handed (P : nat -> Prop) u u' : (forall h, P h -> h < length (cu_sizes u)) -> grows u u' -> forall h, P h -> h < length (cu_sizes u').
  Proof. intros H [more ->] h Hh. rewrite app_length. specialize (H h Hh). lia. Qed.
  Lemma size_of u h : h < length (cu_sizes u) -> exists n, nth_error (cu_sizes u) h = Some n.
  Proof. intro H. destruct (nth_error (cu_sizes u) h) as [n|] eqn:E; [eauto|]. apply nth_error_None in E. lia. Qed.
  Lemma add_step e u : ok u -> step u (snd (ccall (DAddError e) u)).
  Proof. intro H. cbn [cursor_call snd]. destruct (cu_fatal u); [apply step_refl; exact H|]. apply failed_step. exact H. Qed.

  Theorem client_ends A P b (p : nat -> prog Nd A) : client A P b p -> forall u, ok u -> (forall h, P h -> h < length (cu_sizes u)) ->
    exists v u', ev o p u v u' /\ step u u' /\ (b = true -> progress u u').
  Proof.
    induction 1 as [A S v|A S b c k Hc Hu Hk IH|A S b c k Hc Hk IH|A S b h k Hh Hk IH|A S b h k Hh Hk IH|A S b e k Hk IH
      |A B S b b' p k Hp IHp Hk IHk|A S h cond body v Hh Hb IH]; intros u Hok HS.
    - exists v, u. split; [apply ev_ret|]. split; [apply step_refl; exact Hok|discriminate].
    - assert (Hs : step u (snd (ccall c u)) /\ (takes c = true -> progress u (snd (ccall c u)))).
      { destruct (takes c) eqn:Et.
        - assert (Hr : reading c = true /\ c <> DTryNull) by (destruct c; try discriminate; split; reflexivity || discriminate).
          destruct (ccall_result (Nd := Nd) o c u (proj1 Hr) (proj2 Hr) Hu Hok) as (H1 & H2 & _). auto.
        - split; [|discriminate]. destruct c; try discriminate; [apply try_result; exact Hok|apply add_step; exact Hok|].
          apply step_refl. exact Hok. }
      destruct Hs as [Hs Hp]. destruct (IH (fst (ccall c u)) (snd (ccall c u)) (proj1 Hs)) as (v & u' & H1 & H2 & H3).
      { eapply handed; [exact HS|apply Hs]. }
      exists v, u'. split; [apply (ev_call o c k); assumption|]. split; [eapply step_trans; eassumption|].
      intro Hb. apply orb_true_iff in Hb as [Hb|Hb]; [|eapply then_progress; eauto].
      eapply progress_then; [exact Hs|exact H2|auto|]. eapply ev_fatal. exact H1.
    - destruct (ccall_result (Nd := Nd) o c u) as (Hs & Hp & _);
        [destruct c; try discriminate; reflexivity|destruct c; discriminate|destruct c; try discriminate; reflexivity|exact Hok|].
      destruct (IH (length (cu_sizes u)) (snd (ccall c u)) (proj1 Hs)) as (v & u' & H1 & H2 & H3).
      { intros h [Hh| ->]; [eapply handed; [exact HS|apply Hs|exact Hh]|]. apply open_sizes. exact Hc. }
      exists v, u'. split; [apply (ev_open o c k); assumption|]. split; [eapply step_trans; eassumption|].
      intros _. eapply progress_then; [exact Hs|exact H2|exact Hp|]. eapply ev_fatal. exact H1.
    - destruct (size_of u h (HS h Hh)) as (n & Hn). destruct (IH n u Hok HS) as (v & u' & H1 & H2 & H3).
      exists v, u'. split; [apply (ev_size o h n k); assumption|]. split; assumption.
    - destruct (size_of u h (HS h Hh)) as (n & Hn). destruct (IH (cursor_more h u) u Hok HS) as (v & u' & H1 & H2 & H3).
      exists v, u'. split; [|split; assumption]. destruct H1 as [F HF]. exists F. intros f Hf. cbn [crun]. rewrite Hn. apply HF. exact Hf.
    - pose proof (add_step e u Hok) as Hs.
      destruct (IH (snd (ccall (DAddError e) u)) (proj1 Hs)) as (v & u' & H1 & H2 & H3).
      { eapply handed; [exact HS|apply Hs]. }
      exists v, u'. split; [|split; [eapply step_trans; eassumption|intro; eapply then_progress; eauto]].
      destruct H1 as [F HF]. exists F. intros f Hf. cbn [crun]. apply HF. exact Hf.
    - destruct (IHp u Hok HS) as (w & u1 & H1 & H2 & H3).
      destruct (IHk w u1 (proj1 H2)) as (v & u' & G1 & G2 & G3). { eapply handed; [exact HS|apply H2]. }
      exists v, u'. split; [eapply ev_bind; eassumption|]. split; [eapply step_trans; eassumption|].
      intro Hb. apply orb_true_iff in Hb as [Hb|Hb]; [|eapply then_progress; eauto].
      eapply progress_then; [exact H2|exact G2|auto|]. eapply ev_fatal. exact G1.
    - destruct (size_of u h (HS h Hh)) as (n & Hn).
      (* the collections of [S] are there at every iteration *)
      assert (Hloop : forall m w u1, left_in u1 <= m -> ok u1 -> grows u u1 -> exists w' u', (exists F, forall f g, F <= f -> F <= g ->
                crun o (while f h cond (body g) w) u1 = Done (w', u')) /\ step u1 u').
      { induction m as [m IHm] using lt_wf_ind. intros w u1 Hm Hok1 Hg. pose proof (grows_nth u u1 h n Hg Hn) as Hn1.
        destruct (cursor_more h u1 && cond w) eqn:E.
        - pose proof E as E'. apply andb_true_iff in E as [E1 _].
          destruct (IH w u1 Hok1) as (w1 & u2 & (F1 & HF1) & Hs & Hp). { eapply handed; [exact HS|exact Hg]. }
          specialize (Hp eq_refl). destruct (more_left h u1 Hok1 E1) as (_ & Hl & _).
          assert (Hu2 : left_in u2 < left_in u1) by (destruct Hp as [Hp|Hp]; [rewrite (fatal_left u2) by (apply Hs || exact Hp); lia|exact Hp]).
          destruct (IHm (left_in u2) ltac:(lia) w1 u2 (le_n _) (proj1 Hs)) as (w2 & u3 & (F2 & HF2) & Hs2).
          { eapply grows_trans; [exact Hg|apply Hs]. }
          exists w2, u3. split; [|eapply step_trans; eassumption]. exists (Datatypes.S (max F1 F2)). intros [|f] g Hf Hgf; [lia|].
          cbn [while crun]. rewrite Hn1, E'. rewrite crun_bind, HF1 by lia. cbn [obind fst snd]. apply HF2; lia.
        - exists w, u1. split; [|apply step_refl; exact Hok1]. exists 1. intros [|f] g Hf Hgf; [lia|].
          cbn [while crun]. rewrite Hn1, E. reflexivity. }
      destruct (Hloop (left_in u) v u (le_n _) Hok (grows_refl u)) as (w & u' & (F & HF) & Hs).
      exists w, u'. split; [exists F; intros f Hf; apply HF; exact Hf|]. split; [exact Hs|discriminate].
  Qed.
End Ends.

Theorem g_client_ends {A} o marshal (p : nat -> prog gref A) b g n d : client A (fun _ => False) b p -> unfolds g n d ->
  exists v s F, forall f, F <= f -> interp (g_engine marshal o) o f (p f) (r_new g false n, []) = Done (v, s).
Proof.
  intros Hp Hd.
  assert (Hok : ok (cursor_start false d)).
  { split; [reflexivity|]. split; [cbn; congruence|constructor]. }
  destruct (client_ends o A _ b p Hp (cursor_start false d) Hok) as (v & u' & (F & HF) & _); [intros h []|].
  destruct (run_sim o marshal g (p F) _ v u' (HF F (le_n _)) (r_new g false n) [] (sim_start o marshal g false n d Hd))
    as (r' & hs' & F2 & _ & HF2).
  exists v, (r', hs'), (max F F2). intros f Hf. eapply ple_interp; [|apply HF2; lia]. eapply client_mono; [exact Hp|lia].
Qed.
