(** Generated decoders that never return, on goyaml. *)
From Coq Require Import String.
From Verif Require Import Base Schema SchemaSpec Values Ast Writer Builder BuilderSpec GBuilder Reader YReader GReader
  ReaderCases GenCode GenSpec.
Local Open Scope nat_scope.

Definition ints : gotype := TySlice (TyInt 64).

Definition g_at_seq (multi : bool) (g : graph) (i : list gref) (c : concl) (co : coll) : rstate gref graph :=
  mkR [mkPoint c (Some 0) (Some 0)] [i] c co [] g multi None None [].
Definition bad_denied (ds : list rerr) : rstate gref graph :=
  mkR [mkPoint CDeny (Some 1) None; mkPoint CContinue (Some 0) (Some 0)] [[Some 2]] CDeny (CollState 2 0) [] g_bad true None None ds.
Lemma bad_g1 mar o f : do_call (g_engine mar o) o (S (S (S (S f)))) DTryNull (r_new g_bad true (Some 0))
  = Done (ABool false, g_at_seq true g_bad [Some 1; Some 2] CDeny CollNil).
Proof. reflexivity. Qed.
Lemma bad_g2 mar o f : do_call (g_engine mar o) o (S (S (S (S f)))) DTryNull (g_at_seq true g_bad [Some 1; Some 2] CDeny CollNil)
  = Done (ABool false, g_at_seq true g_bad [Some 1; Some 2] CDeny CollNil).
Proof. reflexivity. Qed.
Lemma bad_g3 mar o f : do_call (g_engine mar o) o (S (S (S (S f)))) DSequence (g_at_seq true g_bad [Some 1; Some 2] CDeny CollNil)
  = Done (AColl (CollState 2 0), g_at_seq true g_bad [Some 1; Some 2] CMatch (CollState 2 0)).
Proof. reflexivity. Qed.
Lemma bad_g4 mar o f : do_call (g_engine mar o) o (S (S (S (S f)))) (DInteger 64) (g_at_seq true g_bad [Some 1; Some 2] CMatch (CollState 2 0))
  = Done (AInt 0, bad_denied [RDeny EInteger]).
Proof. reflexivity. Qed.
Lemma bad_g5 mar o f ds : do_call (g_engine mar o) o (S (S (S (S f)))) (DInteger 64) (bad_denied ds)
  = Done (AInt 0, bad_denied (ds ++ [RDeny EInteger])).
Proof. reflexivity. Qed.

(** Errors are collected: [x, 1] read into a slice of integers.  The second element is never asked for. *)
Lemma g_denied_forever x tb omitempty strict o mar fuel :
  g_decode x tb omitempty strict o mar true fuel ints GoNil g_bad (Some 0) = NoFuel.
Proof.
  do 5 (destruct fuel as [|fuel]; [reflexivity|]).
  unfold g_decode, decode_top, ints. remember (S (S (S (S (S fuel))))) as f eqn:Ef.
  cbn [interp fst snd]. rewrite Ef at 1. rewrite bad_g1. cbn [obind fst snd yes colls_of app].
  rewrite Ef at 2. cbn [decode interp fst snd]. rewrite Ef at 1. rewrite bad_g2. cbn [obind fst snd yes colls_of app].
  rewrite Ef at 1. cbn [interp fst snd]. rewrite bad_g3. cbn [obind fst snd interp colls_of app length].
  cbn [nth coll_size obind]. set (body := fun l : list goval => bind (of_option _) _).
  assert (Hloop : forall g l r, (r = g_at_seq true g_bad [Some 1; Some 2] CMatch (CollState 2 0) \/ exists ds, r = bad_denied ds) ->
    interp (g_engine mar o) o f (bind (while g 0 (fun _ => true) body l) (fun l => Ret (GoSlice l))) (r, [CollState 2 0]) = NoFuel).
  { induction g as [|g IH]; intros l r Hr; [reflexivity|]. cbn [while bind interp fst snd nth].
    assert (coll_more r (CollState 2 0) = Done true) as -> by (destruct Hr as [-> | [ds ->]]; reflexivity).
    cbn [obind andb]. unfold body at 1. cbn [zero of_option bind decode interp fst snd].
    assert (exists ds, do_call (g_engine mar o) o f (DInteger 64) r = Done (AInt 0, bad_denied ds)) as [ds ->].
    { destruct Hr as [-> | [ds ->]]; rewrite Ef; [rewrite bad_g4|rewrite bad_g5]; eexists; reflexivity. }
    cbn [obind fst snd interp bind int colls_of app]. apply IH. right. eexists. reflexivity. }
  rewrite <- Ef. apply Hloop. left. reflexivity.
Qed.

(** An alias: [&a 1, *a, 2] read into a slice of integers, in both error modes. *)
Definition alias_seq (m : bool) (c : concl) (co : coll) := g_at_seq m g_alias [Some 1; Some 2; Some 3] c co.
Definition alias_mid (m : bool) : rstate gref graph :=
  mkR [mkPoint CContinue (Some 0) (Some 0)] [[Some 2; Some 3]] CConsume CollNil (t' "1") g_alias m None None [].
Definition alias_stuck (m : bool) : rstate gref graph :=
  mkR [mkPoint CUnknown (Some 2) None; mkPoint CContinue (Some 0) (Some 0)] [[Some 3]] CConsume CollNil (t' "1") g_alias m None None [].
Lemma alias_g1 mar o f m : do_call (g_engine mar o) o (S (S (S (S (S (S f)))))) DTryNull (r_new g_alias m (Some 0))
  = Done (ABool false, alias_seq m CDeny CollNil).
Proof. destruct m; reflexivity. Qed.
Lemma alias_g2 mar o f m : do_call (g_engine mar o) o (S (S (S (S (S (S f)))))) DTryNull (alias_seq m CDeny CollNil)
  = Done (ABool false, alias_seq m CDeny CollNil).
Proof. destruct m; reflexivity. Qed.
Lemma alias_g3 mar o f m : do_call (g_engine mar o) o (S (S (S (S (S (S f)))))) DSequence (alias_seq m CDeny CollNil)
  = Done (AColl (CollState 3 0), alias_seq m CMatch (CollState 3 0)).
Proof. destruct m; reflexivity. Qed.
Lemma alias_g4 mar o f m : do_call (g_engine mar o) o (S (S (S (S (S (S f)))))) (DInteger 64) (alias_seq m CMatch (CollState 3 0))
  = Done (AInt 1, alias_mid m).
Proof. destruct m; reflexivity. Qed.
Lemma alias_g5 mar o f m : do_call (g_engine mar o) o (S (S (S (S (S (S f)))))) (DInteger 64) (alias_mid m) = Done (AInt 1, alias_stuck m).
Proof. destruct m; reflexivity. Qed.
Lemma alias_g6 mar o f m : do_call (g_engine mar o) o (S (S (S (S (S (S f)))))) (DInteger 64) (alias_stuck m) = Done (AInt 1, alias_stuck m).
Proof. destruct m; reflexivity. Qed.

Lemma g_alias_forever x tb omitempty strict o mar m fuel :
  g_decode x tb omitempty strict o mar m fuel ints GoNil g_alias (Some 0) = NoFuel.
Proof.
  do 7 (destruct fuel as [|fuel]; [destruct m; reflexivity|]).
  unfold g_decode, decode_top, ints. remember (S (S (S (S (S (S (S fuel))))))) as f eqn:Ef.
  cbn [interp fst snd]. rewrite Ef at 1. rewrite alias_g1. cbn [obind fst snd yes colls_of app].
  rewrite Ef at 2. cbn [decode interp fst snd]. rewrite Ef at 1. rewrite alias_g2. cbn [obind fst snd yes colls_of app].
  rewrite Ef at 1. cbn [interp fst snd]. rewrite alias_g3. cbn [obind fst snd interp colls_of app length].
  cbn [nth coll_size obind]. set (body := fun l : list goval => bind (of_option _) _).
  assert (Hloop : forall g l r, (r = alias_seq m CMatch (CollState 3 0) \/ r = alias_mid m \/ r = alias_stuck m) ->
    interp (g_engine mar o) o f (bind (while g 0 (fun _ => true) body l) (fun l => Ret (GoSlice l))) (r, [CollState 3 0]) = NoFuel).
  { induction g as [|g IH]; intros l r Hr; [reflexivity|]. cbn [while bind interp fst snd nth].
    assert (coll_more r (CollState 3 0) = Done true) as -> by (destruct Hr as [-> | [-> | ->]]; reflexivity).
    cbn [obind andb]. unfold body at 1. cbn [zero of_option bind decode interp fst snd].
    assert (exists r', do_call (g_engine mar o) o f (DInteger 64) r = Done (AInt 1, r') /\ (r' = alias_mid m \/ r' = alias_stuck m))
      as (r' & -> & Hr').
    { destruct Hr as [-> | [-> | ->]]; rewrite Ef; [rewrite alias_g4|rewrite alias_g5|rewrite alias_g6]; eexists;
        (split; [reflexivity|]); auto. }
    cbn [obind fst snd interp bind int colls_of app]. apply IH. right. exact Hr'. }
  rewrite <- Ef. apply Hloop. left. reflexivity.
Qed.
