(** Loops that do not end, and other behaviour of the readers that contradicts the properties. *)
From Coq Require Import String.
From Verif Require Import Base Schema Values Ast Writer AnyBuilder Reader YReader GBuilder GReader
  ReadSpec ReaderSpec DocSpec ReaderProofs ReadPlan YReaderProofs GReaderProofs.
Local Open Scope nat_scope.

(** nothing is a float or a timestamp *)
Definition o_none : oracle := mkOracle (fun _ _ => None) (fun _ => None) 0%N (fun _ => []).
Definition plain_text (s : text) : node := NText s AbsentQuoting.
Definition anchored (a : text) (n : node) : node := NContent (NProperties NNil (NAnchor a)) n.
Definition gscalar (tag s : text) : gxcell := mkX KScalar tag s [] [] None.
Definition read_int : request := QCall (DInteger 64).
(** one round of a loop over collection 0 *)
Definition loop_int : list request := [read_int; QMore 0].

(** ** after a fatal error nothing changes in yayamls *)
Lemma fatal_frozen {Nd K} (en : engine Nd K) o f qs : forall r hs ps s',
  has_fatal r = true -> do_requests en o f qs (r, hs) = Done (ps, s') -> fst s' = r /\ exists more, snd s' = hs ++ more.
Proof.
  induction qs as [|q qs IH]; intros r hs ps s' Hf H.
  - cbn in H. injection H as <- <-. split; [reflexivity|]. exists []. rewrite app_nil_r. reflexivity.
  - cbn in H. apply obind_done in H as ([p [r1 hs1]] & Hq & H).
    apply obind_done in H as ([ps' s2] & Hqs & H). injection H as <- <-. cbn [fst snd] in *.
    assert (Hr : r1 = r /\ exists more, hs1 = hs ++ more).
    { destruct q as [c|h|h].
      - cbn in Hq. apply obind_done in Hq as ([a r2] & Hc & Hq). injection Hq as <- <- <-. cbn [fst snd] in *.
        split; [|eauto]. unfold do_call in Hc. destruct c; rewrite ?Hf in Hc; try (injection Hc as <- <-; reflexivity).
        unfold has_fatal in Hf. destruct (r_fatal r); [|discriminate]. injection Hc as <- <-. reflexivity.
      - cbn in Hq. apply obind_done in Hq as (n & _ & Hq). injection Hq as <- <- <-. split; [reflexivity|]. exists []. rewrite app_nil_r. reflexivity.
      - cbn in Hq. apply obind_done in Hq as (n & _ & Hq). injection Hq as <- <- <-. split; [reflexivity|]. exists []. rewrite app_nil_r. reflexivity. }
    destruct Hr as [-> (more & ->)].
    destruct (IH _ _ _ _ Hf Hqs) as [H1 (m2 & H2)]. split; [exact H1|]. exists (more ++ m2). rewrite H2, app_assoc. reflexivity.
Qed.

(** [x, 1] read as integers *)
Definition y_bad : node := NSequence [plain_text (t' "x"); plain_text (t' "1")].
Definition g_bad : graph :=
  [mkX KSequence (t' "!!seq") [] [] [Some 1; Some 2] None; gscalar (t' "!!str") (t' "x"); gscalar (t' "!!int") (t' "1")].
(** [&a 1, *a, 2] *)
Definition y_alias : node :=
  NSequence [anchored (t' "a") (plain_text (t' "1")); NAlias (t' "a"); plain_text (t' "2")].
Definition g_alias : graph :=
  [mkX KSequence (t' "!!seq") [] [] [Some 1; Some 2; Some 3] None;
   mkX KScalar (t' "!!int") (t' "1") (t' "a") [] None;
   mkX KAlias [] (t' "a") [] [] (Some 1);
   gscalar (t' "!!int") (t' "2")].

Lemma do_requests_seq {Nd K} (en : engine Nd K) o f qs1 : forall qs2 s ps1 s1 ps2 s2,
  do_requests en o f qs1 s = Done (ps1, s1) -> do_requests en o f qs2 s1 = Done (ps2, s2) ->
  do_requests en o f (qs1 ++ qs2) s = Done (ps1 ++ ps2, s2).
Proof.
  induction qs1 as [|q qs1 IH]; intros qs2 s ps1 s1 ps2 s2 H1 H2.
  - cbn in H1. injection H1 as <- <-. exact H2.
  - cbn in H1. apply obind_done in H1 as ([p sa] & Hq & H1). apply obind_done in H1 as ([pr sb] & Hqs & H1).
    injection H1 as <- <-. cbn [fst snd] in *. cbn. rewrite Hq. cbn [obind fst snd].
    rewrite (IH _ _ _ _ _ _ Hqs H2). reflexivity.
Qed.

(** A loop that starts in a state [s] comes back to a state of the same kind after each round. *)
Lemma loop_forever {Nd K} (en : engine Nd K) o f body reps (Inv : client Nd K -> Prop) :
  (forall s, Inv s -> exists s', do_requests en o f body s = Done (reps, s') /\ Inv s') ->
  forall n s, Inv s -> exists s', do_requests en o f (concat (repeat body n)) s = Done (concat (repeat reps n), s') /\ Inv s'.
Proof.
  intros Hstep. induction n as [|n IH]; intros s Hs; cbn.
  - exists s. auto.
  - destruct (Hstep s Hs) as (s1 & H1 & Hs1). destruct (IH s1 Hs1) as (s2 & H2 & Hs2).
    exists s2. split; [|exact Hs2]. exact (do_requests_seq _ _ _ _ _ _ _ _ _ _ H1 H2).
Qed.

Lemma run_forever {Nd K} (en : engine Nd K) o pre rpre body reps (Inv : client Nd K -> Prop) r F s0 :
  do_requests en o F pre (r, []) = Done (rpre, s0) -> Inv s0 ->
  (forall s, Inv s -> exists s', do_requests en o F body s = Done (reps, s') /\ Inv s') ->
  forall n, exists s', do_requests en o F (pre ++ concat (repeat body n)) (r, []) = Done (rpre ++ concat (repeat reps n), s').
Proof.
  intros Hpre Hs Hstep n. destruct (loop_forever en o F body reps Inv Hstep n s0 Hs) as (s' & H & _).
  exists s'. exact (do_requests_seq _ _ _ _ _ _ _ _ _ _ Hpre H).
Qed.

Definition same_but_denies {Nd K} (s0 s : client Nd K) : Prop :=
  exists ds, s = (set_denies ds (fst s0), snd s0).

Lemma run_forever_denies {Nd K} (en : engine Nd K) o pre rpre body reps r F (s0 : client Nd K) :
  do_requests en o F pre (r, []) = Done (rpre, s0) ->
  (forall ds, exists ds', do_requests en o F body (set_denies ds (fst s0), snd s0) = Done (reps, (set_denies ds' (fst s0), snd s0))) ->
  forall n, exists s', do_requests en o F (pre ++ concat (repeat body n)) (r, []) = Done (rpre ++ concat (repeat reps n), s').
Proof.
  intros Hpre Hstep. apply (run_forever en o pre rpre body reps (same_but_denies s0) r F s0 Hpre).
  - exists (r_denies (fst s0)). destruct s0 as [[] hs]. reflexivity.
  - intros s (ds & ->). destruct (Hstep ds) as (ds' & H). eexists. split; [exact H|]. exists ds'. reflexivity.
Qed.

(** single-error mode: the loop over a sequence with a bad element *)
Lemma y_bad_forever o n : exists s',
  do_requests (y_engine o) o 40 ([QCall DSequence; QMore 0] ++ concat (repeat loop_int n)) (y_reader false y_bad, [])
  = Done ([PAnswer (AColl (CollState 2 0)); PMore true] ++ concat (repeat [PAnswer (AInt 0); PMore true] n), s').
Proof.
  destruct n as [|n]; [eexists; reflexivity|].
  cbn [repeat concat]. rewrite app_assoc. rewrite (app_assoc [PAnswer _; PMore true]).
  eapply (run_forever _ _ _ _ _ _ (eq _)); [cbv; reflexivity|reflexivity|].
  intros s <-. eexists. split; [cbv; reflexivity|reflexivity].
Qed.
Lemma y_bad_multi_forever o n : exists s',
  do_requests (y_engine o) o 40 ([QCall DSequence; QMore 0] ++ concat (repeat loop_int n)) (y_reader true y_bad, [])
  = Done ([PAnswer (AColl (CollState 2 0)); PMore true] ++ concat (repeat [PAnswer (AInt 0); PMore true] n), s').
Proof.
  destruct n as [|n]; [eexists; reflexivity|].
  cbn [repeat concat]. rewrite app_assoc. rewrite (app_assoc [PAnswer _; PMore true]).
  eapply run_forever_denies; [cbv; reflexivity|].
  intros ds. eexists. cbv. reflexivity.
Qed.
Lemma g_bad_multi_forever mar o n : exists s',
  do_requests (g_engine mar o) o 40 ([QCall DSequence; QMore 0] ++ concat (repeat loop_int n)) (r_new g_bad true (Some 0), [])
  = Done ([PAnswer (AColl (CollState 2 0)); PMore true] ++ concat (repeat [PAnswer (AInt 0); PMore true] n), s').
Proof.
  destruct n as [|n]; [eexists; reflexivity|].
  cbn [repeat concat]. rewrite app_assoc. rewrite (app_assoc [PAnswer _; PMore true]).
  eapply run_forever_denies; [cbv; reflexivity|].
  intros ds. eexists. cbv. reflexivity.
Qed.
(** an alias that is not the last element *)
Lemma y_alias_forever multi o n : exists s',
  do_requests (y_engine o) o 40 ([QCall DSequence; QMore 0] ++ concat (repeat loop_int n)) (y_reader multi y_alias, [])
  = Done ([PAnswer (AColl (CollState 3 0)); PMore true] ++ concat (repeat [PAnswer (AInt 1); PMore true] n), s').
Proof.
  destruct n as [|[|n]]; [eexists; cbv; reflexivity|eexists; cbv; reflexivity|].
  cbn [repeat concat]. rewrite !app_assoc.
  eapply (run_forever _ _ _ _ _ _ (eq _)); [cbv; reflexivity|reflexivity|].
  intros s <-. eexists. split; [cbv; reflexivity|reflexivity].
Qed.
Lemma g_alias_forever multi mar o n : exists s',
  do_requests (g_engine mar o) o 40 ([QCall DSequence; QMore 0] ++ concat (repeat loop_int n)) (r_new g_alias multi (Some 0), [])
  = Done ([PAnswer (AColl (CollState 3 0)); PMore true] ++ concat (repeat [PAnswer (AInt 1); PMore true] n), s').
Proof.
  destruct n as [|[|n]]; [eexists; cbv; reflexivity|eexists; cbv; reflexivity|].
  cbn [repeat concat]. rewrite !app_assoc.
  eapply (run_forever _ _ _ _ _ _ (eq _)); [cbv; reflexivity|reflexivity|].
  intros s <-. eexists. split; [cbv; reflexivity|reflexivity].
Qed.

(** ** every tree is the tree of some node and of some graph *)
Fixpoint y_of (t : tree) : node :=
  match t with
  | TNull => NNull
  | TText s => NText s DoubleQuoting
  | TSeq l => NSequence (map y_of l)
  | TMap l => NMapping (map (fun kv => NEntry (y_of (fst kv)) (y_of (snd kv))) l)
  end.
Lemma y_of_tree t : y_tree (y_of t) = Some t.
Proof.
  induction t as [|s|l IH|l IH] using tree_deep; [reflexivity|reflexivity| |]; cbn.
  - match goal with |- option_map TSeq (?f _) = _ => set (go := f) end.
    enough (go (map y_of l) = Some l) as -> by reflexivity.
    induction IH as [|t l Ht _ IHl]; [reflexivity|]. cbn. rewrite Ht, IHl. reflexivity.
  - match goal with |- option_map TMap (?f _) = _ => set (go := f) end.
    enough (go (map (fun kv => NEntry (y_of (fst kv)) (y_of (snd kv))) l) = Some l) as -> by reflexivity.
    induction IH as [|[k v] l [Hk Hv] _ IHl]; [reflexivity|]. cbn in *. rewrite Hk, Hv, IHl. reflexivity.
Qed.

(** all scalars, read as strings, in both engines *)
Lemma y_reads_all multi o n t : y_tree n = Some t -> exists qs ps h,
  Forall as_strings qs /\ told ps = scalars t /\ done_reading (y_engine o) o (y_reader multi n) qs ps h.
Proof.
  intros H. destruct (@plan node o (fun n => n) (value_of o) t 0) as (qs & ps & h & H1 & H2 & H3 & _).
  exists qs, ps, h. split; [exact H3|]. split; [exact H2|]. eapply y_reads; eassumption.
Qed.
Lemma g_reads_all mar g multi o n t : g_tree g n t -> exists qs ps h,
  Forall as_strings qs /\ told ps = scalars t /\ done_reading (g_engine mar o) o (r_new g multi n) qs ps h.
Proof.
  intros H. destruct (@plan gref o double (value_of o) t 0) as (qs & ps & h & H1 & H2 & H3 & _).
  exists qs, ps, h. split; [exact H3|]. split; [exact H2|]. eapply g_reads; eassumption.
Qed.

(** ** sizes *)
Lemma y_sizes multi o n : (forall l, y_tree n = Some (TSeq l) -> done_reading (y_engine o) o (y_reader multi n)
    (QCall DSequence :: QSize 0 :: concat (map (fun _ => [QMore 0; QCall DSkip]) l) ++ [QMore 0])
    (PAnswer (AColl CollNoop) :: PSize (length l) :: concat (map (fun _ => [PMore true; PAnswer AUnit]) l) ++ [PMore false]) 1)
  /\ (forall l, y_tree n = Some (TMap l) -> forall ks, map fst l = map TText ks -> done_reading (y_engine o) o (y_reader multi n)
    (QCall DMapping :: QSize 0 :: concat (map (fun _ => [QMore 0; QCall DString; QCall DSkip]) l) ++ [QMore 0])
    (PAnswer (AColl CollNoop) :: PSize (length l) :: concat (map (fun k => [PMore true; PAnswer (AText k); PAnswer AUnit]) ks) ++ [PMore false]) 1).
Proof.
  split.
  - intros l H. eapply y_reads; [exact H|]. apply R_seq. clear H. induction l as [|t l IH]; [constructor|].
    cbn. eapply (RI_cons _ _ _ _ _ _ _ [_] [_]); [apply R_skip|exact IH].
  - intros l H ks Hk. eapply y_reads; [exact H|]. apply R_map. clear H. revert ks Hk.
    induction l as [|[k t] l IH]; intros ks Hk; destruct ks as [|s ks]; try discriminate; [constructor|].
    cbn in *. injection Hk as -> Hk.
    eapply (RE_cons _ _ _ _ _ _ _ _ [_] [_] _ [_] [_]); [apply R_string|exact I|apply R_skip|exact (IH _ Hk)].
Qed.
(** a mapping with one entry says it has two *)
Definition g_one : graph :=
  [mkX KMapping (t' "!!map") [] [] [Some 1; Some 2] None; gscalar (t' "!!str") (t' "k"); gscalar (t' "!!int") (t' "1")].
Lemma g_size_twice mar o : exists s,
  do_requests (g_engine mar o) o 40 [QCall DMapping; QSize 0; QMore 0; QCall DString; read_int; QMore 0] (r_new g_one false (Some 0), [])
  = Done ([PAnswer (AColl (CollState 2 0)); PSize 2; PMore true; PAnswer (AText (t' "k")); PAnswer (AInt 1); PMore false], s).
Proof. eexists. cbv. reflexivity. Qed.
