From Coq Require Import ZifyBool ZifyN.
From Verif Require Import Base YamlChar YamlCharSpec.
Local Open Scope N_scope.

Lemma is_json_char_iff r : is_json_char r = true <-> json_char r.
Proof. unfold is_json_char, json_char. lia. Qed.

Lemma is_hex_digit_iff r : is_hex_digit r = true <-> hex_char r.
Proof. unfold is_hex_digit, is_digit, hex_char. lia. Qed.

Lemma are_hex_digits_iff s : are_hex_digits s = true <-> Forall hex_char s.
Proof.
  unfold are_hex_digits. rewrite forallb_forall, Forall_forall.
  split; intros H x Hx; apply is_hex_digit_iff, H, Hx.
Qed.

Lemma rune_in_iff r s : rune_in r s = true <-> In r s.
Proof.
  unfold rune_in. rewrite existsb_exists. split.
  - intros (x & Hx & He). apply N.eqb_eq in He. subst x. exact Hx.
  - intro H. exists r. split; [exact H|apply N.eqb_refl].
Qed.

(** ** single quotes *)
Lemma single_quoted_iff_len n : forall s, (length s <= n)%nat ->
  is_single_quoted_string s = true <-> single_quoted_content s.
Proof.
  induction n as [|n IH]; intros s Hn.
  - destruct s; [|cbn in Hn; lia]. split; [constructor|reflexivity].
  - destruct s as [|r s]; [split; [constructor|reflexivity]|].
    cbn [is_single_quoted_string]. destruct (N.eqb_spec r 39) as [->|Hr].
    + destruct s as [|q s].
      * split; [discriminate|]. intro H; inversion H; congruence.
      * destruct (N.eqb_spec q 39) as [->|Hq]; cbn [andb].
        -- rewrite (IH s) by (cbn in Hn; lia).
           split; intro H; [constructor; exact H|]. inversion H; subst; [assumption|congruence].
        -- split; [discriminate|]. intro H; inversion H; subst; congruence.
    + rewrite andb_true_iff, is_json_char_iff, (IH s) by (cbn in Hn; lia).
      split.
      * intros [H1 H2]. constructor; assumption.
      * intro H; inversion H; subst; [congruence|split; assumption].
Qed.

Lemma single_quoted_iff s : is_single_quoted_string s = true <-> single_quoted_content s.
Proof. apply (single_quoted_iff_len (length s)). lia. Qed.

Lemma from_to_single s :
  Forall json_char s -> from_single_quoted (to_single_quoted s) = Some s.
Proof.
  unfold from_single_quoted, to_single_quoted.
  induction s as [|r s IH]; intro H; [reflexivity|].
  inversion H as [|? ? Hr Hs]; subst. specialize (IH Hs).
  cbn [flat_map]. destruct (N.eqb_spec r 39) as [->|Hne].
  - cbn [app from_single_quoted_loop]. change (39 =? 39) with true. cbn iota.
    rewrite IH. reflexivity.
  - cbn [app from_single_quoted_loop]. rewrite (proj2 (N.eqb_neq _ _) Hne).
    apply is_json_char_iff in Hr. rewrite Hr, IH. reflexivity.
Qed.

Lemma to_from_single_len n : forall s u, (length s <= n)%nat ->
  from_single_quoted s = Some u -> to_single_quoted u = s /\ Forall json_char u.
Proof.
  unfold from_single_quoted.
  induction n as [|n IH]; intros s u Hn H.
  - destruct s; [|cbn in Hn; lia]. cbn in H. injection H as <-. split; [reflexivity|constructor].
  - destruct s as [|r s]; [cbn in H; injection H as <-; split; [reflexivity|constructor]|].
    cbn [from_single_quoted_loop] in H. destruct (N.eqb_spec r 39) as [->|Hne].
    + destruct s as [|q s]; [discriminate|]. cbn [from_single_quoted_loop] in H.
      destruct (N.eqb_spec q 39) as [->|Hq]; [|discriminate].
      destruct (from_single_quoted_loop false s) as [v|] eqn:E; [|discriminate].
      cbn in H. injection H as <-. destruct (IH s v) as [Hs Hf]; [cbn in Hn; lia|exact E|].
      split; [|constructor; [right; lia|exact Hf]].
      unfold to_single_quoted in *. cbn [flat_map]. rewrite Hs. reflexivity.
    + destruct (is_json_char r) eqn:Hj; [|discriminate].
      destruct (from_single_quoted_loop false s) as [v|] eqn:E; [|discriminate].
      cbn in H. injection H as <-. destruct (IH s v) as [Hs Hf]; [cbn in Hn; lia|exact E|].
      split; [|constructor; [apply is_json_char_iff; exact Hj|exact Hf]].
      unfold to_single_quoted in *. cbn [flat_map].
      rewrite (proj2 (N.eqb_neq _ _) Hne), Hs. reflexivity.
Qed.

Lemma to_from_single s u :
  from_single_quoted s = Some u -> to_single_quoted u = s /\ Forall json_char u.
Proof. apply (to_from_single_len (length s)). lia. Qed.

Lemma to_single_content s : Forall json_char s -> single_quoted_content (to_single_quoted s).
Proof.
  unfold to_single_quoted. induction 1 as [|r s Hr Hs IH]; [constructor|].
  cbn [flat_map]. destruct (N.eqb_spec r 39) as [->|Hne]; cbn [app]; constructor; assumption.
Qed.

(** ** double quotes *)
Lemma escaped_rest_sound s rest :
  escaped_rest s = Some rest ->
  exists e, s = e ++ rest /\ e <> [] /\ escape_body single_escaped_characters e.
Proof.
  unfold escaped_rest. destruct s as [|r s]; [discriminate|].
  assert (Hh : forall k c (P : text -> Prop),
    (if Nat.ltb (length s) k then None
     else if are_hex_digits (firstn k s) then Some (skipn k s) else None) = Some rest ->
    (forall ds, length ds = k -> Forall hex_char ds -> P (c :: ds)) ->
    exists e, c :: s = e ++ rest /\ e <> [] /\ P e).
  { intros k c P H HP. destruct (Nat.ltb_spec (length s) k) as [|Hl]; [discriminate|].
    destruct (are_hex_digits (firstn k s)) eqn:Hx; [|discriminate]. injection H as <-.
    exists (c :: firstn k s). split; [cbn; rewrite firstn_skipn; reflexivity|].
    split; [congruence|]. apply HP; [apply firstn_length_le; exact Hl|].
    apply are_hex_digits_iff. exact Hx. }
  intro H.
  destruct (N.eqb_spec r 120) as [->|N1]; [apply (Hh 2%nat); [exact H|constructor; assumption]|].
  destruct (N.eqb_spec r 117) as [->|N2]; [apply (Hh 4%nat); [exact H|constructor; assumption]|].
  destruct (N.eqb_spec r 85) as [->|N3]; [apply (Hh 8%nat); [exact H|constructor; assumption]|].
  destruct (rune_in r single_escaped_characters) eqn:Hi; [|discriminate].
  injection H as <-. exists [r]. split; [reflexivity|]. split; [congruence|].
  constructor; auto. apply rune_in_iff; exact Hi.
Qed.

Lemma escaped_rest_complete e s :
  escape_body single_escaped_characters e -> escaped_rest (e ++ s) = Some s.
Proof.
  intro H. unfold escaped_rest.
  assert (Hh : forall k ds, length ds = k -> Forall hex_char ds ->
    (if Nat.ltb (length (ds ++ s)) k then None
     else if are_hex_digits (firstn k (ds ++ s)) then Some (skipn k (ds ++ s)) else None)
    = Some s).
  { intros k ds Hk HF.
    rewrite (proj2 (Nat.ltb_ge _ _)) by (rewrite app_length; lia).
    rewrite firstn_app, skipn_app, Hk, Nat.sub_diag. cbn [firstn skipn].
    rewrite <- Hk, firstn_all, skipn_all, app_nil_r. cbn [app].
    rewrite (proj2 (are_hex_digits_iff ds) HF). reflexivity. }
  destruct H as [r Hi N1 N2 N3|ds Hl HF|ds Hl HF|ds Hl HF]; cbn [app].
  - apply N.eqb_neq in N1, N2, N3. rewrite N1, N2, N3.
    apply rune_in_iff in Hi. rewrite Hi. reflexivity.
  - change (120 =? 120) with true. cbn iota. apply Hh; assumption.
  - change (117 =? 120) with false. change (117 =? 117) with true. cbn iota. apply Hh; assumption.
  - change (85 =? 120) with false. change (85 =? 117) with false. change (85 =? 85) with true.
    cbn iota. apply Hh; assumption.
Qed.

Lemma double_quoted_iff_fuel n : forall s, (length s <= n)%nat ->
  is_double_quoted_fuel n s = true <-> double_quoted_content single_escaped_characters s.
Proof.
  induction n as [|n IH]; intros s Hn.
  - destruct s; [|cbn in Hn; lia]. split; [constructor|reflexivity].
  - destruct s as [|r s]; [split; [constructor|reflexivity]|].
    cbn [is_double_quoted_fuel]. destruct (N.eqb_spec r 92) as [->|N1].
    + destruct (escaped_rest s) as [rest|] eqn:E.
      * apply escaped_rest_sound in E as HE. destruct HE as (e & -> & Hne & He).
        rewrite IH.
        2:{ cbn in Hn. rewrite app_length in Hn. destruct e; [congruence|cbn in Hn; lia]. }
        split; intro H; [constructor; assumption|].
        inversion H as [|e' s' He' Hs' Heq|]; subst; [|congruence].
        apply (escaped_rest_complete e' s') in He'. rewrite Heq in He'.
        rewrite E in He'. congruence.
      * split; [discriminate|]. intro H.
        inversion H as [|e' s' He' Hs' Heq|]; subst; [|congruence].
        apply (escaped_rest_complete e' s') in He'. congruence.
    + destruct (N.eqb_spec r 34) as [->|N2].
      * split; [discriminate|]. intro H; inversion H; subst; congruence.
      * rewrite andb_true_iff, is_json_char_iff, IH by (cbn in Hn; lia).
        split; [intros [H1 H2]; constructor; assumption|].
        intro H; inversion H; subst; [congruence|split; assumption].
Qed.

Lemma double_quoted_iff s :
  is_double_quoted_string s = true <-> double_quoted_content single_escaped_characters s.
Proof. apply double_quoted_iff_fuel. lia. Qed.

(** characters whose escape is a table letter, or no escape at all *)
Definition letter_escapable (r : rune) : Prop :=
  json_char r \/ In r [0; 7; 8; 10; 11; 12; 13; 27].

Lemma escape_ascii_some r e :
  escape_ascii r = Some e ->
  exists l, e = [92; l] /\ unescape_ascii l = Some r /\ l <> 120 /\ l <> 117 /\ l <> 85.
Proof.
  unfold escape_ascii. intro H.
  repeat (match type of H with
          | (if ?b then _ else _) = _ => destruct b eqn:?E
          end;
          [ apply N.eqb_eq in E; subst r; injection H as <-; eexists; split; [reflexivity|];
            vm_compute; repeat split; congruence | clear E ]).
  discriminate.
Qed.

Lemma from_to_double_gen s : Forall letter_escapable s ->
  forall n, (length (to_double_quoted s) <= n)%nat ->
  from_double_quoted_fuel n (to_double_quoted s) = UOk s.
Proof.
  unfold to_double_quoted.
  induction 1 as [|r s Hr Hs IH]; intros n Hn; [destruct n; reflexivity|].
  cbn [flat_map] in *. unfold escape_character in *.
  destruct (escape_ascii r) as [e|] eqn:E.
  - apply escape_ascii_some in E as (l & -> & Hu & N1 & N2 & N3).
    cbn [app length] in *. destruct n as [|n]; [lia|].
    cbn [from_double_quoted_fuel]. change (92 =? 92) with true. cbn iota.
    cbn [unescape_character].
    apply N.eqb_neq in N1, N2, N3. rewrite N1, N2, N3, Hu.
    rewrite IH by lia. reflexivity.
  - assert (Hj : is_json_char r = true).
    { destruct Hr as [Hr|Hr]; [apply is_json_char_iff; exact Hr|].
      cbn in Hr. unfold escape_ascii in E.
      repeat (destruct Hr as [<-|Hr]; [vm_compute in E; discriminate|]). destruct Hr. }
    unfold escape_unicode in *. rewrite Hj in *. cbn [app length] in *.
    destruct n as [|n]; [lia|]. cbn [from_double_quoted_fuel].
    assert (r <> 92) by (intros ->; vm_compute in E; discriminate).
    assert (r <> 34) by (intros ->; vm_compute in E; discriminate).
    rewrite (proj2 (N.eqb_neq r 92)), (proj2 (N.eqb_neq r 34)), Hj by assumption.
    rewrite IH by lia. reflexivity.
Qed.

Lemma from_to_double s : Forall letter_escapable s ->
  from_double_quoted (to_double_quoted s) = UOk s.
Proof. intro H. apply from_to_double_gen; [exact H|lia]. Qed.

(** the written form of any string of code points without backspace is accepted *)
Definition code_point (r : rune) : Prop := r <= 1114111.

Lemma hex_digit_lower_hex n : n < 16 -> hex_char (hex_digit_lower n).
Proof. unfold hex_digit_lower, hex_char. intro H. destruct (N.ltb_spec n 10); lia. Qed.

Lemma to_double_content s :
  Forall code_point s -> ~ In 8 s ->
  double_quoted_content single_escaped_characters (to_double_quoted s).
Proof.
  unfold to_double_quoted. induction 1 as [|r s Hr Hs IH]; intro H8; [constructor|].
  cbn [flat_map]. assert (Hs8 : ~ In 8 s) by (intro; apply H8; right; assumption).
  assert (Hr8 : r <> 8) by (intros ->; apply H8; left; reflexivity).
  specialize (IH Hs8). unfold escape_character.
  destruct (escape_ascii r) as [e|] eqn:E.
  - assert (He : exists l, e = [92; l] /\ escape_body single_escaped_characters [l]).
    { unfold escape_ascii in E.
      repeat (match type of E with
              | (if ?b then _ else _) = _ => destruct b eqn:?Eb
              end;
              [ apply N.eqb_eq in Eb; subst r; injection E as <-;
                first [ exfalso; apply Hr8; reflexivity
                      | eexists; split; [reflexivity|];
                        constructor; [apply rune_in_iff; vm_compute; reflexivity| | | ]; congruence ]
              | clear Eb ]).
      discriminate. }
    destruct He as (l & -> & He). cbn [app].
    apply (dq_escape _ [l]); assumption.
  - destruct (escape_unicode r) as [e|] eqn:Eu.
    + unfold escape_unicode in Eu. destruct (is_json_char r) eqn:Hj; [discriminate|].
      assert (Hlt : r < 32).
      { unfold is_json_char in Hj. unfold code_point in Hr. lia. }
      rewrite (proj2 (N.ltb_lt _ _) Hlt) in Eu. injection Eu as <-. cbn [app].
      apply (dq_escape _ [120; hex_digit_lower (r / 16); hex_digit_lower (r mod 16)]); [|exact IH].
      apply eb_x; [reflexivity|].
      constructor; [|constructor; [|constructor]]; apply hex_digit_lower_hex.
      * apply N.div_lt_upper_bound; lia.
      * apply N.mod_upper_bound; lia.
    + unfold escape_unicode in Eu. destruct (is_json_char r) eqn:Hj; [|destruct (r <? 32); discriminate].
      cbn [app]. apply dq_char; [| |apply is_json_char_iff; exact Hj|exact IH].
      * intros ->; vm_compute in E; discriminate.
      * intros ->; vm_compute in E; discriminate.
Qed.

(** ** URIs and tags *)
Lemma percent_iff (ok : rune -> bool) (allowed : rune -> Prop) (f : text -> bool) :
  (forall r, ok r = true <-> allowed r) ->
  (f [] = true) ->
  (forall r s, f (r :: s) =
    if r =? 37 then match s with
                    | h1 :: h2 :: s'' => are_hex_digits [h1; h2] && f s''
                    | _ => false
                    end
    else ok r && f s) ->
  forall n s, (length s <= n)%nat -> f s = true <-> percent_content allowed s.
Proof.
  intros Hok Hnil Hcons. induction n as [|n IH]; intros s Hn.
  - destruct s; [|cbn in Hn; lia]. split; [constructor|intros _; exact Hnil].
  - destruct s as [|r s]; [split; [constructor|intros _; exact Hnil]|].
    rewrite Hcons. destruct (N.eqb_spec r 37) as [->|Hne].
    + destruct s as [|h1 [|h2 s]];
        try (split; [discriminate|intro H; inversion H; congruence]).
      rewrite andb_true_iff, are_hex_digits_iff, IH by (cbn in Hn; lia). split.
      * intros [H1 H2]. inversion H1 as [|? ? Ha Hb]; subst. inversion Hb; subst.
        constructor; assumption.
      * intro H. inversion H; subst; [|congruence].
        split; [constructor; [assumption|constructor; [assumption|constructor]]|assumption].
    + rewrite andb_true_iff, Hok, IH by (cbn in Hn; lia). split.
      * intros [H1 H2]. constructor; assumption.
      * intro H. inversion H; subst; [congruence|split; assumption].
Qed.

Ltac split_in H := repeat (destruct H as [H|H]; [lia|]); try contradiction.

Lemma uri_iff s : is_uri s = true <-> percent_content code_uri_char s.
Proof.
  apply (percent_iff
           (fun r => is_digit r || is_ascii_letter r || is_flow_indicator r || rune_in r uri_only_chars)
           _ is_uri) with (n := length s); [| reflexivity | reflexivity | lia].
  intro r. unfold code_uri_char, word_char, is_digit, is_ascii_letter, is_flow_indicator, rune_in.
  cbn. unfold ch_collect, ch_seq_start, ch_seq_end, ch_map_start, ch_map_end. lia.
Qed.

Lemma tag_iff s : is_tag_string s = true <-> percent_content code_tag_char s.
Proof.
  apply (percent_iff
           (fun r => is_digit r || is_ascii_letter r || rune_in r tag_only_chars)
           _ is_tag_string) with (n := length s); [| reflexivity | reflexivity | lia].
  intro r. unfold code_tag_char, is_digit, is_ascii_letter, rune_in. cbn. lia.
Qed.
