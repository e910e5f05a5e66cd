From Verif Require Import Base YamlChar Token.
Local Open Scope N_scope.

(** [Get] is determined by the two bits of the class. *)
Definition bit_index (c : charset) : N :=
  match c with
  | CsDecimal => 0 | CsWord => 2 | CsURI => 4 | CsTag => 6 | CsAnchor => 8
  | CsPlainSafe => 10 | CsSingleQuoted => 12 | CsDoubleQuoted => 14
  end.

Definition decode2 (b0 b1 : bool) : bool * bool :=
  match b0, b1 with
  | true, false => (true, true)
  | false, true => (false, true)
  | _, _ => (false, false)
  end.

Lemma shift_index c : 2 * trailing_zeros16 (charset_value c) = bit_index c.
Proof. destruct c; reflexivity. Qed.

Lemma land3 x : N.land x 3 = N.b2n (N.testbit x 0) + 2 * N.b2n (N.testbit x 1).
Proof.
  change 3 with (N.ones 2). rewrite N.land_ones.
  assert (H := N.div_mod x 4 ltac:(discriminate)).
  replace (2 ^ 2) with 4 by reflexivity.
  rewrite N.testbit_spec' with (n := 0), N.testbit_spec' with (n := 1).
  change (2 ^ 0) with 1. change (2 ^ 1) with 2. rewrite N.div_1_r.
  change 4 with (2 * 2). rewrite N.mod_mul_r by discriminate. reflexivity.
Qed.

Lemma get_decode b c :
  bitmap_get b c = decode2 (N.testbit b (bit_index c)) (N.testbit b (bit_index c + 1)).
Proof.
  unfold bitmap_get. rewrite shift_index.
  assert (Hs : shl16 3 (bit_index c) = N.shiftl 3 (bit_index c)) by (destruct c; reflexivity).
  rewrite Hs, N.shiftr_land.
  rewrite N.shiftr_shiftl_l by lia. rewrite N.sub_diag, N.shiftl_0_r.
  rewrite land3, !N.shiftr_spec by lia. rewrite N.add_0_l, (N.add_comm 1).
  destruct (N.testbit b (bit_index c)), (N.testbit b (bit_index c + 1)); reflexivity.
Qed.

Lemma set_get_same b c v : bitmap_get (bitmap_set b c v) c = (v, true).
Proof.
  rewrite get_decode. unfold bitmap_set.
  destruct v; unfold bitmap_set_true, bitmap_set_false; rewrite shift_index;
    rewrite !N.lor_spec, !N.land_spec;
    destruct c; cbn;
    repeat (match goal with |- context [N.testbit b ?k] => destruct (N.testbit b k) end);
    reflexivity.
Qed.

Lemma set_get_other b c c' v : c <> c' -> bitmap_get (bitmap_set b c v) c' = bitmap_get b c'.
Proof.
  intro Hne. rewrite !get_decode. unfold bitmap_set.
  destruct v; unfold bitmap_set_true, bitmap_set_false; rewrite shift_index;
    rewrite !N.lor_spec, !N.land_spec;
    destruct c; destruct c'; try congruence; cbn;
    repeat (match goal with |- context [N.testbit b ?k] => destruct (N.testbit b k) end);
    reflexivity.
Qed.

(** Every known entry of the cache is the computed answer. *)
Definition cache_ok (tk : token) : Prop :=
  forall c, snd (bitmap_get (tok_map tk) c) = true ->
            fst (bitmap_get (tok_map tk) c) = conforms_charset (tok_origin tk) c.

Lemma cache_ok_zero tk : tok_map tk = 0 -> cache_ok tk.
Proof. intros H c. rewrite H. destruct c; discriminate. Qed.

Definition charset_dec (a b : charset) : {a = b} + {a <> b}.
Proof. decide equality. Defined.

Lemma conforms_step tk c :
  cache_ok tk ->
  fst (tok_conforms tk c) = conforms_charset (tok_origin tk) c /\
  cache_ok (snd (tok_conforms tk c)) /\
  tok_origin (snd (tok_conforms tk c)) = tok_origin tk /\
  tok_type (snd (tok_conforms tk c)) = tok_type tk /\
  tok_start (snd (tok_conforms tk c)) = tok_start tk /\
  tok_end (snd (tok_conforms tk c)) = tok_end tk.
Proof.
  intro Hok. unfold tok_conforms. specialize (Hok c) as Hc.
  destruct (bitmap_get (tok_map tk) c) as [r k] eqn:E. cbn in Hc.
  destruct k; cbn.
  - repeat split; auto.
  - repeat split; auto.
    intros c' Hk. cbn in *. destruct (charset_dec c c') as [->|Hne].
    + rewrite set_get_same. reflexivity.
    + rewrite set_get_other in * by assumption. apply Hok. exact Hk.
Qed.

Lemma ask_all qs : forall tk, cache_ok tk ->
  fst (tok_ask tk qs) = map (conforms_charset (tok_origin tk)) qs /\
  tok_origin (snd (tok_ask tk qs)) = tok_origin tk /\
  tok_type (snd (tok_ask tk qs)) = tok_type tk /\
  tok_start (snd (tok_ask tk qs)) = tok_start tk /\
  tok_end (snd (tok_ask tk qs)) = tok_end tk.
Proof.
  induction qs as [|q qs IH]; intros tk Hok; [cbn; auto|].
  cbn [tok_ask]. destruct (conforms_step tk q Hok) as (H1 & H2 & H3 & H4 & H5 & H6).
  destruct (tok_conforms tk q) as [r tk1]. cbn [fst snd] in *.
  destruct (IH tk1 H2) as (I1 & I3 & I4 & I5 & I6).
  destruct (tok_ask tk1 qs) as [rs tk2]. cbn [fst snd map] in *.
  rewrite H3 in *. subst. rewrite I3, I4, I5, I6, H4, H5, H6. auto.
Qed.

Lemma ask_fresh ty st en o qs :
  let tk := mkTok ty st en o 0 in
  fst (tok_ask tk qs) = map (conforms_charset o) qs /\
  (tok_type (snd (tok_ask tk qs)), tok_start (snd (tok_ask tk qs)),
   tok_end (snd (tok_ask tk qs)), tok_origin (snd (tok_ask tk qs))) = (ty, st, en, o).
Proof.
  intro tk. destruct (ask_all qs tk (cache_ok_zero tk eq_refl)) as (H1 & H2 & H3 & H4 & H5).
  cbn in H1, H2, H3, H4, H5. split; [exact H1|]. rewrite H2, H3, H4, H5. reflexivity.
Qed.
