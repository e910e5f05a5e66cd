(** C66: recognition of base64 *)
From Coq Require Import String.
From Verif Require Import Base YamlChar Schema BinarySpec.
From Coq Require Import Lia ZifyN ZifyBool.
Local Open Scope N_scope.

Lemma b64_char n : n < 64 -> is_base64_char (b64 n) = true.
Proof.
  intro H. unfold b64, is_base64_char, is_ascii_letter, is_digit.
  destruct (n <? 26) eqn:A; [lia|]. destruct (n <? 52) eqn:B; [lia|]. destruct (n <? 62) eqn:C; [lia|].
  destruct (n =? 62); reflexivity.
Qed.
Lemma char_b64 r : is_base64_char r = true -> exists n, n < 64 /\ r = b64 n.
Proof.
  unfold is_base64_char, is_ascii_letter, is_digit. intro H.
  assert ((65 <= r /\ r <= 90) \/ (97 <= r /\ r <= 122) \/ (48 <= r /\ r <= 57) \/ r = 43 \/ r = 47) as D by lia.
  destruct D as [D|[D|[D|[->| ->]]]].
  - exists (r - 65). unfold b64. destruct (r - 65 <? 26) eqn:A; lia.
  - exists (r - 71). unfold b64. destruct (r - 71 <? 26) eqn:A; [lia|]. destruct (r - 71 <? 52) eqn:B; lia.
  - exists (r + 4). unfold b64. destruct (r + 4 <? 26) eqn:A; [lia|]. destruct (r + 4 <? 52) eqn:B; [lia|].
    destruct (r + 4 <? 62) eqn:C; lia.
  - exists 62. split; [lia|reflexivity].
  - exists 63. split; [lia|reflexivity].
Qed.

Lemma group_ind (P : text -> Prop) :
  (forall s, (length s < 4)%nat -> P s) -> (forall a b c d s, P s -> P (a :: b :: c :: d :: s)) -> forall s, P s.
Proof.
  intros H1 H2 s. remember (length s) as n eqn:E. revert s E.
  induction n as [n IH] using (well_founded_induction Wf_nat.lt_wf). intros s E.
  destruct s as [|a [|b [|c [|d s]]]]; try (apply H1; cbn; lia).
  apply H2, (IH (length s)); [subst; cbn; lia|reflexivity].
Qed.

Lemma re_decodes s : re_base64 s = true -> exists l, decodes s l.
Proof.
  induction s as [s Hs|a b c d s IH] using group_ind.
  - destruct s as [|a [|b [|c [|d s]]]]; cbn in *; try discriminate; [|lia]. intros _. exists []. constructor.
  - cbn [re_base64]. intro H. apply andb_prop in H as [H H3]. apply andb_prop in H as [Ha Hb].
    apply char_b64 in Ha as (w & Hw & ->). apply char_b64 in Hb as (x & Hx & ->).
    apply orb_prop in H3 as [H|H].
    + apply andb_prop in H as [H Hr]. apply andb_prop in H as [Hc Hd].
      apply char_b64 in Hc as (y & Hy & ->). apply char_b64 in Hd as (z & Hz & ->).
      destruct (IH Hr) as [l Hl]. eexists. apply de_group; eassumption.
    + apply andb_prop in H as [H Hc]. apply andb_prop in H as [Hn Hd].
      destruct s; [|discriminate]. apply N.eqb_eq in Hd as ->. apply orb_prop in Hc as [Hc|Hc].
      * apply char_b64 in Hc as (y & Hy & ->). eexists. apply de_two; eassumption.
      * apply N.eqb_eq in Hc as ->. eexists. apply de_one; eassumption.
Qed.
Lemma decodes_re s l : decodes s l -> re_base64 s = true.
Proof.
  induction 1; cbn [re_base64]; repeat rewrite b64_char by assumption; try reflexivity.
  rewrite IHdecodes. reflexivity.
Qed.

Lemma char_not_space r : is_base64_char r = true \/ r = 61 -> is_unicode_space r = false.
Proof. unfold is_base64_char, is_ascii_letter, is_digit, is_unicode_space. lia. Qed.
Lemma white_space r : white r -> is_unicode_space r = true.
Proof. intros [->|[->|[->| ->]]]; reflexivity. Qed.

Lemma fields_word cur s : Forall (fun r => is_unicode_space r = false) s ->
  fields_loop cur s = match rev cur ++ s with [] => [] | w => [w] end.
Proof.
  intro H. revert cur. induction H as [|r s Hr Hs IH]; intro cur; cbn [fields_loop].
  - rewrite app_nil_r. destruct cur as [|c cur]; [reflexivity|].
    destruct (rev (c :: cur)) eqn:E; [|reflexivity]. apply (f_equal (@length _)) in E. rewrite rev_length in E. discriminate.
  - rewrite Hr, IH. cbn [rev]. rewrite <- app_assoc. reflexivity.
Qed.

Lemma decodes_no_space s l : decodes s l -> Forall (fun r => is_unicode_space r = false) s.
Proof.
  induction 1; repeat constructor; try assumption; try reflexivity; apply char_not_space; left; apply b64_char; assumption.
Qed.

Theorem word_iff s : Forall (fun r => is_unicode_space r = false) s ->
  sc_is_binary s = true <-> exists l, decodes s l.
Proof.
  intro H. unfold sc_is_binary, fields. rewrite (fields_word [] s H). cbn [rev app].
  destruct s as [|r s].
  - split; [intros _; exists []; constructor|reflexivity].
  - cbn [forallb]. rewrite andb_true_r. split; [apply re_decodes|]. intros [l Hl]. exact (decodes_re _ _ Hl).
Qed.

(** ** with white space between the groups *)
Lemma whole_groups p q : re_base64 p = true -> Forall (fun r => is_base64_char r = true) p ->
  re_base64 (p ++ q) = re_base64 q.
Proof.
  induction p as [p Hp|a b c d p IH] using group_ind.
  - destruct p as [|a [|b [|c [|d p]]]]; cbn in *; try discriminate; [reflexivity|lia].
  - cbn [re_base64 app]. intros H F. inversion F as [|? ? Fa F1]; subst. inversion F1 as [|? ? Fb F2]; subst.
    inversion F2 as [|? ? Fc F3]; subst. inversion F3 as [|? ? Fd F4]; subst. rewrite Fa, Fb, Fc, Fd in *. cbn [andb orb] in *.
    assert ((d =? 61) = false) as E by (unfold is_base64_char, is_ascii_letter, is_digit in Fd; lia).
    rewrite E in *. rewrite ?andb_false_r, ?orb_false_r in *. apply IH; assumption.
Qed.

(** [cur]: the current word so far, reversed *)
Lemma spaced_loop s t : spaced s t -> forall l cur, decodes s l ->
  re_base64 (rev cur) = true -> (Forall (fun r => is_base64_char r = true) cur \/ s = []) ->
  forallb re_base64 (fields_loop cur t) = true.
Proof.
  induction 1 as [|r s t Hr Hs IH|a b c d s t Hs IH]; intros l cur D C F.
  - cbn [fields_loop]. destruct cur; [reflexivity|]. cbn [forallb]. rewrite C. reflexivity.
  - cbn [fields_loop]. rewrite (white_space r Hr). destruct cur.
    + eapply IH; eauto.
    + cbn [forallb]. rewrite C. cbn [andb]. eapply IH; [exact D|reflexivity|left; constructor].
  - pose proof (decodes_no_space _ _ D) as NS.
    inversion NS as [|? ? Na NS1]; subst. inversion NS1 as [|? ? Nb NS2]; subst.
    inversion NS2 as [|? ? Nc NS3]; subst. inversion NS3 as [|? ? Nd NS4]; subst.
    cbn [fields_loop]. rewrite Na, Nb, Nc, Nd.
    destruct F as [F|F]; [|discriminate].
    assert (Fr : Forall (fun r => is_base64_char r = true) (rev cur)).
    { apply Forall_forall. intros x Hx. rewrite <- in_rev in Hx. rewrite Forall_forall in F. auto. }
    assert (R : forall q, rev (d :: c :: b :: a :: cur) = rev cur ++ a :: b :: c :: d :: q \/ q <> []).
    { intro q. destruct q; [left|right; discriminate]. cbn [rev]. rewrite <- !app_assoc. reflexivity. }
    destruct (R []) as [R'|]; [|congruence].
    inversion D; subst.
    + eapply IH; [constructor| |right; reflexivity]. rewrite R', (whole_groups _ _ C Fr). cbn [re_base64].
      rewrite !b64_char by assumption. reflexivity.
    + eapply IH; [constructor| |right; reflexivity]. rewrite R', (whole_groups _ _ C Fr). cbn [re_base64].
      rewrite !b64_char by assumption. reflexivity.
    + eapply IH; [eassumption| |].
      * rewrite R', (whole_groups _ _ C Fr). cbn [re_base64]. rewrite !b64_char by assumption. reflexivity.
      * left. repeat constructor; try (apply b64_char; assumption). exact F.
Qed.

Theorem spaced_recognised s t l : decodes s l -> spaced s t -> sc_is_binary t = true.
Proof. intros D S. unfold sc_is_binary, fields. eapply spaced_loop; eauto; reflexivity. Qed.

(** ** encoding *)
Lemma bytes_ind (P : list N -> Prop) :
  P [] -> (forall a, P [a]) -> (forall a b, P [a; b]) -> (forall a b c l, P l -> P (a :: b :: c :: l)) -> forall l, P l.
Proof.
  intros H0 H1 H2 H3 l. remember (length l) as n eqn:E. revert l E.
  induction n as [n IH] using (well_founded_induction Wf_nat.lt_wf). intros l E.
  destruct l as [|a [|b [|c l]]]; auto. apply H3, (IH (length l)); [subst; cbn; lia|reflexivity].
Qed.

Lemma div_lt a k m : 0 < k -> a < k * m -> a / k < m.
Proof. intros. apply N.div_lt_upper_bound; lia. Qed.

Theorem encode_decodes l : Forall (fun x => x < 256) l -> decodes (encode64 l) l.
Proof.
  induction l as [|a|a b|a b c l IH] using bytes_ind; intro F.
  - constructor.
  - inversion F; subst. cbn [encode64].
    pose proof (N.div_mod a 4 ltac:(lia)). pose proof (N.mod_lt a 4 ltac:(lia)). pose proof (div_lt a 4 64 ltac:(lia) ltac:(lia)).
    assert (a = a / 4 * 4 + (a mod 4 * 16) / 16) as E by (rewrite N.div_mul by lia; lia).
    rewrite E at 3. apply de_one; lia.
  - inversion F as [|? ? Ha F1]; subst. inversion F1 as [|? ? Hb _]; subst. cbn [encode64].
    pose proof (N.div_mod a 4 ltac:(lia)). pose proof (N.mod_lt a 4 ltac:(lia)). pose proof (div_lt a 4 64 ltac:(lia) ltac:(lia)).
    pose proof (N.div_mod b 16 ltac:(lia)). pose proof (N.mod_lt b 16 ltac:(lia)). pose proof (div_lt b 16 16 ltac:(lia) ltac:(lia)).
    pose proof (de_two (a / 4) (a mod 4 * 16 + b / 16) (b mod 16 * 4) ltac:(lia) ltac:(lia) ltac:(lia)) as D.
    replace [a; b] with [a / 4 * 4 + (a mod 4 * 16 + b / 16) / 16; (a mod 4 * 16 + b / 16) mod 16 * 16 + b mod 16 * 4 / 4];
      [exact D|].
    rewrite N.div_add_l, (N.div_small (b / 16)) by lia. rewrite N.add_comm with (n := a mod 4 * 16), N.mod_add, (N.mod_small (b / 16)) by lia.
    rewrite N.div_mul by lia. repeat f_equal; lia.
  - inversion F as [|? ? Ha F1]; subst. inversion F1 as [|? ? Hb F2]; subst. inversion F2 as [|? ? Hc F3]; subst.
    cbn [encode64].
    pose proof (N.div_mod a 4 ltac:(lia)). pose proof (N.mod_lt a 4 ltac:(lia)). pose proof (div_lt a 4 64 ltac:(lia) ltac:(lia)).
    pose proof (N.div_mod b 16 ltac:(lia)). pose proof (N.mod_lt b 16 ltac:(lia)). pose proof (div_lt b 16 16 ltac:(lia) ltac:(lia)).
    pose proof (N.div_mod c 64 ltac:(lia)). pose proof (N.mod_lt c 64 ltac:(lia)). pose proof (div_lt c 64 4 ltac:(lia) ltac:(lia)).
    pose proof (de_group (a / 4) (a mod 4 * 16 + b / 16) (b mod 16 * 4 + c / 64) (c mod 64) _ _
                  ltac:(lia) ltac:(lia) ltac:(lia) ltac:(lia) (IH F3)) as D.
    rewrite N.div_add_l, (N.div_small (b / 16)) in D by lia.
    rewrite N.add_comm with (n := a mod 4 * 16), N.mod_add, (N.mod_small (b / 16)) in D by lia.
    rewrite N.div_add_l, (N.div_small (c / 64)) in D by lia.
    rewrite N.add_comm with (n := b mod 16 * 4), N.mod_add, (N.mod_small (c / 64)) in D by lia.
    rewrite N.add_comm with (n := a mod 4 * 16), N.add_comm with (n := b mod 16 * 4).
    replace (a / 4 * 4 + (a mod 4 + 0)) with a in D by lia.
    replace (b / 16 * 16 + (b mod 16 + 0)) with b in D by lia.
    replace (c / 64 * 64 + c mod 64) with c in D by lia.
    exact D.
Qed.

Theorem encoded_recognised l t : Forall (fun x => x < 256) l -> spaced (encode64 l) t -> sc_is_binary t = true.
Proof. intros F S. exact (spaced_recognised _ _ _ (encode_decodes l F) S). Qed.

(** ** what is wrong *)
Ltac unspace := repeat (first [apply un_nil | apply un_white; [unfold white; lia|] | apply un_char; [unfold white; lia|]]).

Theorem break_inside_group :
  exists s t l, decodes s l /\ unspaced s t /\ sc_is_binary t = false.
Proof.
  exists (encode64 [65; 66; 67]), (t' "QU JD"), [65; 66; 67]. split; [|split].
  - apply encode_decodes. repeat constructor.
  - cbv. unspace.
  - reflexivity.
Qed.
Theorem padding_inside :
  exists s t, sc_is_binary t = true /\ unspaced s t /\ forall l, ~ decodes s l.
Proof.
  exists (t' "QQ==QQ=="), (t' "QQ== QQ=="). split; [reflexivity|split].
  - cbv. unspace.
  - intros l D. apply decodes_re in D. discriminate.
Qed.
