(** C67: names of types *)
From Coq Require Import String ZifyBool ZifyN ZifyNat.
From Verif Require Import Base Schema SchemaSpec SchemaProofs Generator GeneratorSpec GeneratorProofs TypeNames TypeNamesSpec.
Local Open Scope N_scope.

(** ** induction over types *)
Section Ind.
  Context (P : gotyp -> Prop) (HN : forall p n, P (YName p n)) (HP : forall t, P t -> P (YPtr t)) (HS : forall t, P t -> P (YSlice t))
    (HA : forall n t, P t -> P (YArray n t)) (HM : forall k v, P k -> P v -> P (YMap k v))
    (HF : forall fs, Forall (fun f => P (field_type f)) fs -> P (YStruct fs)) (HO : forall s, P (YOther s)).
  Fixpoint gotyp_fields_ind (t : gotyp) : P t :=
    match t with
    | YName p n => HN p n
    | YPtr t => HP t (gotyp_fields_ind t)
    | YSlice t => HS t (gotyp_fields_ind t)
    | YArray n t => HA n t (gotyp_fields_ind t)
    | YMap k v => HM k v (gotyp_fields_ind k) (gotyp_fields_ind v)
    | YStruct fs => HF fs ((fix go (fs : list gofield) : Forall (fun f => P (field_type f)) fs :=
        match fs with
        | [] => Forall_nil _
        | f :: fs => Forall_cons f (match f as f return P (field_type f) with (_, t, _) => gotyp_fields_ind t end) (go fs)
        end) fs)
    | YOther s => HO s
    end.
End Ind.

(** ** texts split at the first character that cannot be in a name *)
Definition stops (r : text) : Prop := match r with [] => True | c :: _ => ~ name_char c end.
Definition ends (r : text) : Prop := match r with [] => True | c :: _ => c = 93 \/ c = 32 \/ c = 59 end.
Lemma ends_stops r : ends r -> stops r.
Proof. destruct r; cbn; [auto|]. unfold name_char, path_char. lia. Qed.

Lemma span_unique a : forall b r r', Forall name_char a -> Forall name_char b -> stops r -> stops r' ->
  a ++ r = b ++ r' -> a = b /\ r = r'.
Proof.
  induction a as [|x a IH]; intros [|y b] r r' Ha Hb Hr Hr' E; cbn [app] in E.
  - auto.
  - subst r. exfalso. apply Hr. inversion Hb; assumption.
  - subst r'. exfalso. apply Hr'. inversion Ha; assumption.
  - injection E as -> E. inversion Ha; subst. inversion Hb; subst. destruct (IH b r r') as [-> ->]; auto.
Qed.

Lemma predeclared_chars n : In n predeclared -> Forall name_char n.
Proof.
  intro H. assert (G : forallb (fun n => forallb (fun c => negb (c =? 46) && negb (c =? 42) && negb (c =? 91) && negb (c =? 93)
    && negb (c =? 32) && negb (c =? 59) && negb (c =? 96) && negb (c =? 125)) n)
    predeclared = true) by reflexivity.
  rewrite forallb_forall in G. specialize (G n H). rewrite forallb_forall in G. apply Forall_forall. intros c Hc.
  specialize (G c Hc). unfold name_char, path_char. lia.
Qed.
Lemma itoa_chars n : Forall name_char (itoa n).
Proof.
  unfold itoa. destruct (from_unsigned_spec (N.of_nat n)) as [H _]. remember 10 as b eqn:Eb in H.
  assert (D : forall r d, digit_of b r d -> name_char r).
  { intros r d G. subst b. unfold digit_of in G. unfold name_char, path_char. lia. }
  clear Eb. revert H. generalize (sc_from_unsigned (N.of_nat n)) (N.of_nat n). intros s m H.
  induction H; [constructor; [eapply D; eassumption|constructor]|].
  apply Forall_app. split; [assumption|]. constructor; [eapply D; eassumption|constructor].
Qed.

Lemma predeclared_name n : In n predeclared -> name n.
Proof.
  intro H. split; [|split; [apply predeclared_chars, H|]].
  - intros ->. cbn in H. intuition discriminate.
  - intros ->. cbn in H. intuition discriminate.
Qed.

Definition name_imports (im : imports) : Prop := Forall (fun e => Forall name_char (snd e)) im.

(** ** unique reading *)
(** what comes after a field *)
Definition after_field (q : text) : Prop := match q with c :: q' => c = 59 \/ c = 32 /\ hd 0 q' = 125 | [] => False end.
Lemma after_ends q : after_field q -> ends q.
Proof. destruct q; cbn; [contradiction|]. lia. Qed.
Lemma tag_ends tag tg q : tag_text tag tg -> after_field q -> ends (tg ++ q).
Proof. intros [|tag' N] H; cbn; [apply after_ends, H|auto]. Qed.

Lemma quote_unique (a : text) : forall b r s, ~ In 96 a -> ~ In 96 b -> a ++ 96 :: r = b ++ 96 :: s -> a = b /\ r = s.
Proof.
  induction a as [|x a IH]; intros [|y b] r s Ha Hb E; cbn [app] in E.
  - injection E as ->. auto.
  - injection E as <- _. exfalso. apply Hb. left. reflexivity.
  - injection E as -> _. exfalso. apply Ha. left. reflexivity.
  - injection E as -> E. destruct (IH b r s) as [-> ->]; auto; intro I; [apply Ha|apply Hb]; right; exact I.
Qed.
Lemma tag_unique tag tg tag2 tg2 q q2 : tag_text tag tg -> tag_text tag2 tg2 -> ~ In 96 tag -> ~ In 96 tag2 ->
  after_field q -> after_field q2 -> tg ++ q = tg2 ++ q2 -> tag = tag2 /\ q = q2.
Proof.
  intros [|tag' N] [|tag2' N2] H H2 A A2 E.
  - auto.
  - exfalso. cbn in E. subst q. cbn in A. lia.
  - exfalso. cbn in E. subst q2. cbn in A2. lia.
  - change (t' " `") with [32; 96] in E. change (t' "`") with [96] in E. rewrite <- !app_assoc in E. cbn [app] in E.
    injection E as E. apply quote_unique in E; assumption.
Qed.

Section Inj.
  Context (own : text) (im : imports) (G : good_imports im) (A : name_imports im) (O : own <> []).

  Inductive form : gotyp -> text -> text -> text -> Prop :=
  | f_pre n r : In n predeclared -> form (YName [] n) r n r
  | f_own n r : name n -> ~ In n predeclared -> form (YName own n) r n r
  | f_other p n a r : In (p, a) im -> name n -> a <> [] -> form (YName p n) r a (46 :: n ++ r)
  | f_ptr t s r : notation own im t s -> plain own t -> form (YPtr t) r [] (42 :: s ++ r)
  | f_slice t s r : notation own im t s -> plain own t -> form (YSlice t) r [] (91 :: 93 :: s ++ r)
  | f_array n t s r : notation own im t s -> plain own t -> form (YArray n t) r [] (91 :: itoa n ++ 93 :: s ++ r)
  | f_map k v a b r : notation own im k a -> notation own im v b -> plain own k -> plain own v ->
      form (YMap k v) r (t' "map") (91 :: a ++ 93 :: b ++ r)
  | f_struct fs s r : fields_notation own im fs s -> Forall (fun f => plain own (field_type f)) fs -> Forall plain_field fs ->
      form (YStruct fs) r (t' "struct") (32 :: 123 :: 32 :: s ++ 32 :: 125 :: r).

  Lemma has_form t s r : notation own im t s -> plain own t -> ends r ->
    exists w rest, s ++ r = w ++ rest /\ Forall name_char w /\ stops rest /\ form t r w rest.
  Proof.
    intros N P E. destruct N.
    - exists n, r. split; [reflexivity|]. split; [apply predeclared_chars; assumption|]. split; [apply ends_stops, E|]. constructor; assumption.
    - inversion P; subst; [congruence| |congruence]. exists n, r. split; [reflexivity|].
      match goal with H : name n |- _ => split; [apply H|] end.
      split; [apply ends_stops, E|]. constructor; assumption.
    - exists a, (46 :: n ++ r). split; [rewrite <- app_assoc; reflexivity|].
      split; [unfold name_imports in A; rewrite Forall_forall in A; match goal with H : In _ im |- _ => apply (A _ H) end|].
      split; [cbn; unfold name_char; lia|]. constructor; [assumption| |].
      + inversion P; subst; [apply predeclared_name|..]; assumption.
      + destruct G as (_ & _ & G3). rewrite Forall_forall in G3. match goal with H : In _ im |- _ => apply (G3 _ H) end.
    - inversion P; subst. exists [], (42 :: s ++ r). repeat split; [constructor|cbn; unfold name_char, path_char; lia|]. constructor; assumption.
    - inversion P; subst. exists [], (91 :: 93 :: s ++ r). repeat split; [constructor|cbn; unfold name_char, path_char; lia|]. constructor; assumption.
    - inversion P; subst. exists [], (91 :: itoa n ++ 93 :: s ++ r). split; [|split; [constructor|split; [cbn; unfold name_char, path_char; lia|]]].
      + change (t' "[") with [91]. change (t' "]") with [93]. cbn [app]. rewrite <- app_assoc. reflexivity.
      + constructor; assumption.
    - inversion P; subst. exists (t' "map"), (91 :: a ++ 93 :: b ++ r). split; [|split; [|split; [cbn; unfold name_char, path_char; lia|]]].
      + change (t' "map[") with (t' "map" ++ [91]). change (t' "]") with [93]. rewrite <- !app_assoc. reflexivity.
      + repeat constructor; unfold name_char, path_char; cbn; lia.
      + constructor; assumption.
    - inversion P; subst. exists (t' "struct"), (32 :: 123 :: 32 :: s ++ 32 :: 125 :: r).
      split; [|split; [|split; [cbn; unfold name_char, path_char; lia|]]].
      + change (t' "struct { ") with (t' "struct" ++ [32; 123; 32]). change (t' " }") with [32; 125]. rewrite <- !app_assoc. reflexivity.
      + repeat constructor; unfold name_char, path_char; cbn; lia.
      + constructor; assumption.
  Qed.

  (** the first character of a type *)
  Lemma type_head t s : notation own im t s -> plain own t -> exists c s', s = c :: s' /\ c <> 32 /\ c <> 96 /\ c <> 125 /\ c <> 59.
  Proof.
    intros N P. destruct (has_form t s [] N P I) as (w & rest & E & C & _ & F). rewrite app_nil_r in E.
    destruct w as [|c w].
    - cbn in E. subst s. inversion F; subst; try (eexists _, _; split; [reflexivity|]; lia).
      + match goal with H : In [] predeclared |- _ => apply predeclared_name in H; destruct H; congruence end.
      + match goal with H : name [] |- _ => destruct H; congruence end.
    - subst s. eexists _, _. split; [reflexivity|]. inversion C as [|? ? Hc _]; subst. unfold name_char, path_char in Hc. lia.
  Qed.

  Lemma import_inj p q a : In (p, a) im -> In (q, a) im -> p = q.
  Proof.
    destruct G as (_ & H & _). clear G A. revert H. induction im as [|[x b] l IH]; cbn; [contradiction|].
    intros H [E1|H1] [E2|H2]; inversion H as [|? ? Hx Hn]; subst.
    - congruence.
    - injection E1 as -> ->. exfalso. apply Hx. apply (in_map snd) in H2. exact H2.
    - injection E2 as -> ->. exfalso. apply Hx. apply (in_map snd) in H1. exact H1.
    - auto.
  Qed.

  Definition unique (t1 : gotyp) : Prop := forall t2 s1 s2 r1 r2, notation own im t1 s1 -> notation own im t2 s2 ->
    plain own t1 -> plain own t2 -> ends r1 -> ends r2 -> s1 ++ r1 = s2 ++ r2 -> t1 = t2 /\ r1 = r2.

  (** a named field is not read as an embedded one *)
  Lemma named_embedded n t s tg q t2 s2 tag2 tg2 q2 n2 : name n -> notation own im t s -> plain own t ->
    plain_field (n2, true, t2, tag2) -> notation own im t2 s2 -> plain own t2 -> tag_text tag2 tg2 -> after_field q2 ->
    n ++ 32 :: s ++ tg ++ q = s2 ++ tg2 ++ q2 -> False.
  Proof.
    intros Nn Nt Pt F N2 P2 T2 Q2 E. destruct (type_head t s Nt Pt) as (c & s' & -> & H1 & H2 & H3 & H4).
    destruct (has_form t2 s2 (tg2 ++ q2) N2 P2 (tag_ends _ _ _ T2 Q2)) as (w & rest & E2 & C & S & D).
    rewrite E2 in E. apply span_unique in E; [|apply Nn|exact C|cbn; unfold name_char, path_char; lia|exact S].
    destruct E as [-> E].
    assert (X : 32 :: (c :: s') ++ tg ++ q = tg2 ++ q2 -> False).
    { destruct T2 as [|tag2 _]; cbn [app]; intro X.
      - subst q2. cbn in Q2. lia.
      - change (t' " `") with [32; 96] in X. cbn [app] in X. injection X as X _. congruence. }
    inversion F; subst; inversion D; subst; try discriminate;
      match goal with H : _ = 32 :: _ |- _ => exact (X (eq_sym H)) end.
  Qed.

  Lemma field_unique f1 f2 s1 s2 q1 q2 : unique (field_type f1) -> field_notation own im f1 s1 -> field_notation own im f2 s2 ->
    plain own (field_type f1) -> plain own (field_type f2) -> plain_field f1 -> plain_field f2 -> after_field q1 -> after_field q2 ->
    s1 ++ q1 = s2 ++ q2 -> f1 = f2 /\ q1 = q2.
  Proof.
    intros U N1 N2 P1 P2 F1 F2 Q1 Q2 E. destruct N1 as [n1 t1 g1 u1 h1 N1 T1|n1 t1 g1 u1 h1 N1 T1];
      destruct N2 as [n2 t2 g2 u2 h2 N2 T2|n2 t2 g2 u2 h2 N2 T2]; cbn [field_type fst snd] in *;
      try change (t' " ") with [32] in E; rewrite <- !app_assoc in E; cbn [app] in E.
    - inversion F1; subst. inversion F2; subst.
      match goal with H : name n1, H' : name n2 |- _ => apply span_unique in E;
        [|apply H|apply H'|cbn; unfold name_char, path_char; lia|cbn; unfold name_char, path_char; lia] end.
      destruct E as [-> E]. injection E as E.
      apply (U t2 u1 u2 _ _ N1 N2 P1 P2 (tag_ends _ _ _ T1 Q1) (tag_ends _ _ _ T2 Q2)) in E as [-> E].
      apply (tag_unique _ _ _ _ _ _ T1 T2) in E; try assumption. destruct E as [-> ->]. auto.
    - exfalso. inversion F1; subst. apply (named_embedded n1 t1 u1 h1 q1 t2 u2 g2 h2 q2 n2); assumption.
    - exfalso. inversion F2; subst. symmetry in E. apply (named_embedded n2 t2 u2 h2 q2 t1 u1 g1 h1 q1 n1); assumption.
    - apply (U t2 u1 u2 _ _ N1 N2 P1 P2 (tag_ends _ _ _ T1 Q1) (tag_ends _ _ _ T2 Q2)) in E as [-> E].
      assert (~ In 96 g1 /\ ~ In 96 g2 /\ n1 = n2) as (B1 & B2 & ->) by (inversion F1; subst; inversion F2; subst; auto).
      apply (tag_unique _ _ _ _ _ _ T1 T2) in E; try assumption. destruct E as [-> ->]. auto.
  Qed.

  Lemma field_head f s q : field_notation own im f s -> plain own (field_type f) -> plain_field f -> hd 0 (s ++ q) <> 32.
  Proof.
    intros N P F. destruct N as [n t g u h N T|n t g u h N T]; cbn [field_type fst snd] in P.
    - inversion F; subst. match goal with H : name n |- _ => destruct H as (H1 & H2 & _) end.
      destruct n as [|c n]; [congruence|]. inversion H2 as [|? ? Hc _]; subst. cbn. unfold name_char, path_char in Hc. lia.
    - destruct (type_head t u N P) as (c & u' & -> & H & _). exact H.
  Qed.

  Lemma fields_unique fs1 : Forall (fun f => unique (field_type f)) fs1 -> forall fs2 s1 s2 r1 r2,
    fields_notation own im fs1 s1 -> fields_notation own im fs2 s2 ->
    Forall (fun f => plain own (field_type f)) fs1 -> Forall (fun f => plain own (field_type f)) fs2 ->
    Forall plain_field fs1 -> Forall plain_field fs2 ->
    s1 ++ 32 :: 125 :: r1 = s2 ++ 32 :: 125 :: r2 -> fs1 = fs2 /\ r1 = r2.
  Proof.
    assert (HQ : forall r, after_field (32 :: 125 :: r)) by (intro; cbn; auto).
    assert (HS : forall r, after_field (59 :: r)) by (intro; cbn; auto).
    assert (Empty : forall fs s r r', fields_notation own im fs s -> Forall (fun f => plain own (field_type f)) fs -> Forall plain_field fs ->
              32 :: r = s ++ r' -> fs = [] /\ s = []).
    { intros fs s r r' N P F E. destruct N as [|f s N|f g fs s ss N N']; [auto|exfalso|exfalso];
        inversion P; subst; inversion F; subst; eapply (field_head f s); eauto.
      - rewrite <- E. reflexivity.
      - rewrite <- app_assoc in E. rewrite <- E. reflexivity. }
    induction 1 as [|f fs1 U _ IH]; intros fs2 s1 s2 r1 r2 N1 N2 P1 P2 F1 F2 E.
    - inversion N1; subst. cbn [app] in E. destruct (Empty _ _ _ _ N2 P2 F2 E) as [-> ->]. cbn [app] in E. injection E as ->. auto.
    - destruct N2 as [|f2 s2 N2|f2 g2 fs2 s2 ss2 N2 N2'].
      + symmetry in E. cbn [app] in E. destruct (Empty _ _ _ _ N1 P1 F1 E) as [? _]. discriminate.
      + inversion P2; subst. inversion F2; subst. inversion P1; subst. inversion F1; subst. inversion N1; subst.
        * match goal with H : field_notation own im f _ |- _ => apply (field_unique _ _ _ _ _ _ U H N2) in E; auto end.
          destruct E as [-> E]. injection E as ->. auto.
        * exfalso. change (t' "; ") with [59; 32] in E. rewrite <- !app_assoc in E. cbn [app] in E.
          match goal with H : field_notation own im f _ |- _ => apply (field_unique _ _ _ _ _ _ U H N2) in E; auto end.
          destruct E as [_ E]. discriminate.
      + inversion P2 as [|? ? P2a P2b]; subst. inversion F2 as [|? ? F2a F2b]; subst. inversion P1; subst. inversion F1; subst.
        change (t' "; ") with [59; 32] in E. rewrite <- !app_assoc in E. cbn [app] in E. inversion N1; subst.
        * exfalso. match goal with H : field_notation own im f _ |- _ => apply (field_unique _ _ _ _ _ _ U H N2) in E; auto end.
          destruct E as [_ E]. discriminate.
        * change (t' "; ") with [59; 32] in E. rewrite <- !app_assoc in E. cbn [app] in E.
          match goal with H : field_notation own im f _ |- _ => apply (field_unique _ _ _ _ _ _ U H N2) in E; auto end.
          destruct E as [-> E]. injection E as E. eapply IH in E; eauto. destruct E as [-> ->]. auto.
  Qed.

  Lemma notation_inj t1 : unique t1.
  Proof.
    induction t1 as [p n|t1 IHt1|t1 IHt1|n t1 IHt1|t1_1 t1_2 IHt1_1 IHt1_2|fs IHf|o] using gotyp_fields_ind; intros t2 s1 s2 r1 r2 N1 N2 P1 P2 E1 E2 E;
      destruct (has_form _ _ r1 N1 P1 E1) as (w1 & q1 & F1 & C1 & S1 & D1);
      destruct (has_form _ _ r2 N2 P2 E2) as (w2 & q2 & F2 & C2 & S2 & D2);
      rewrite F1, F2 in E; apply span_unique in E; try assumption; destruct E as [-> ->];
      clear F1 F2 N1 N2 P1 P2; inversion D1; subst; inversion D2; subst;
      try (exfalso; cbn in E1; lia); try (exfalso; cbn in E2; lia); try (split; congruence); try contradiction;
      try discriminate;
      try (exfalso; match goal with H : In (t' "struct") predeclared |- _ => apply predeclared_name in H; destruct H as (_ & _ & H); congruence
        | H : name (t' "struct") |- _ => destruct H as (_ & _ & H); congruence end);
      repeat match goal with H : 46 :: _ = 46 :: _ |- _ => injection H as H | H : 91 :: _ = 91 :: _ |- _ => injection H as H
        | H : 42 :: _ = 42 :: _ |- _ => injection H as H | H : 93 :: _ = 93 :: _ |- _ => injection H as H end.
    - match goal with H : _ ++ _ = _ ++ _, H1 : name _, H2 : name _ |- _ => apply span_unique in H; try apply H1; try apply H2; try assumption; try (apply ends_stops; assumption); destruct H as [-> ->] end.
      match goal with H : In (?p, ?a) im, H' : In (?q, ?a) im |- YName ?p _ = YName ?q _ /\ _ => rewrite (import_inj p q a H H') end. auto.
    - match goal with H : _ ++ _ = _ ++ _ |- _ => symmetry in H; eapply IHt1 in H; try eassumption; destruct H as [-> ->] end. auto.
    - match goal with H : _ ++ _ = _ ++ _ |- _ => symmetry in H; eapply IHt1 in H; try eassumption; destruct H as [-> ->] end. auto.
    - exfalso. match goal with H : itoa ?n ++ 93 :: ?x = 93 :: ?y |- _ => apply (span_unique (itoa n) [] (93 :: x) (93 :: y)) in H end.
      + match goal with H : _ /\ _ |- _ => exact (itoa_nonempty _ (proj1 H)) end.
      + apply itoa_chars.
      + constructor.
      + apply ends_stops. cbn. auto.
      + apply ends_stops. cbn. auto.
    - exfalso. match goal with H : 93 :: ?y = itoa ?n ++ 93 :: ?x |- _ => symmetry in H; apply (span_unique (itoa n) [] (93 :: x) (93 :: y)) in H end.
      + match goal with H : _ /\ _ |- _ => exact (itoa_nonempty _ (proj1 H)) end.
      + apply itoa_chars.
      + constructor.
      + apply ends_stops. cbn. auto.
      + apply ends_stops. cbn. auto.
    - match goal with H : itoa _ ++ _ = itoa _ ++ _ |- _ => apply span_unique in H; try apply itoa_chars; try (apply ends_stops; cbn; auto);
        destruct H as [HI H] end.
      apply itoa_inj in HI. subst.
      match goal with H : 93 :: _ = 93 :: _ |- _ => injection H as H; symmetry in H; eapply IHt1 in H; try eassumption; destruct H as [-> ->] end. auto.
    - match goal with H : _ ++ 93 :: _ = _ ++ 93 :: _ |- _ => symmetry in H; eapply IHt1_1 in H; try eassumption; try (cbn; auto; fail); destruct H as [-> H];
        injection H as H; eapply IHt1_2 in H; try eassumption; destruct H as [-> ->] end. auto.
    - match goal with H : _ ++ 32 :: _ = _ ++ 32 :: _ |- _ => symmetry in H; eapply (fields_unique fs IHf) in H; try eassumption;
        destruct H as [-> ->] end. auto.
  Qed.
End Inj.

(** ** the names that the generator writes *)
Scheme notation_mut := Minimality for notation Sort Prop
  with fields_mut := Minimality for fields_notation Sort Prop
  with field_mut := Minimality for field_notation Sort Prop.

Definition extends (im im' : imports) : Prop := forall e, In e im -> In e im'.
Lemma notation_extends own im im' t s : extends im im' -> notation own im t s -> notation own im' t s.
Proof.
  intros X N.
  refine (notation_mut own im (notation own im') (fields_notation own im') (field_notation own im') _ _ _ _ _ _ _ _ _ _ _ _ _ t s N);
    intros; econstructor; eauto.
Qed.

Lemma in_lookup (im : imports) p a : NoDup (map fst im) -> In (p, a) im -> lookup p im = Some a.
Proof.
  induction im as [|[q b] im IH]; cbn; [contradiction|]. intros H [E|I]; inversion H as [|? ? Hx Hn]; subst.
  - injection E as -> ->. rewrite text_eqb_refl. reflexivity.
  - destruct (text_eqb p q) eqn:E; [|auto]. apply teq in E. subst. exfalso. apply Hx. apply (in_map fst) in I. exact I.
Qed.

Lemma until_slash_in c s : In c (until_slash s) -> In c s.
Proof. induction s as [|x s IH]; cbn; [auto|]. destruct (x =? 47); [contradiction|]. intros [->|H]; auto. Qed.
Lemma drop_slashes_in c s : In c (drop_slashes s) -> In c s.
Proof. induction s as [|x s IH]; cbn; [auto|]. destruct (x =? 47); auto. Qed.
Lemma base_name_chars p : Forall path_char p -> Forall path_char (base_name p).
Proof.
  intro H. unfold base_name. destruct p as [|c p]; [repeat constructor; unfold path_char; lia|].
  destruct (drop_slashes (rev (c :: p))) as [|x r] eqn:E; [repeat constructor; unfold path_char; lia|].
  apply Forall_forall. intros y Hy. rewrite <- in_rev in Hy. apply until_slash_in in Hy. rewrite <- E in Hy.
  apply drop_slashes_in in Hy. rewrite <- in_rev in Hy. rewrite Forall_forall in H. auto.
Qed.
Lemma alias_chars p j : Forall path_char p -> Forall name_char (numbered (fix_alias (base_name p)) j).
Proof.
  intro H. apply base_name_chars in H.
  assert (F : Forall name_char (fix_alias (base_name p))).
  { unfold fix_alias. assert (M : Forall name_char (map (fun c => if (c =? 46) || (c =? 45) then 95 else c) (base_name p))).
    { apply Forall_map. revert H. apply Forall_impl. intros c H1. unfold name_char, path_char in *.
      destruct ((c =? 46) || (c =? 45)) eqn:E; lia. }
    set (m := map (fun c : N => if (c =? 46) || (c =? 45) then 95 else c) (base_name p)) in *. clearbody m.
    destruct m as [|c s]; [constructor|]. destruct (c =? 118); [|exact M].
    constructor; [unfold name_char, path_char; lia|exact M]. }
  destruct j; [exact F|]. cbn [numbered]. apply Forall_app. split; [exact F|apply itoa_chars].
Qed.

Lemma pkg_alias_step p im : good_imports im -> name_imports im -> Forall path_char p -> process_vendoring p = p ->
  exists a im', pkg_alias p im = Some (a, im') /\ good_imports im' /\ name_imports im' /\ extends im im' /\ In (p, a) im'.
Proof.
  intros G A P V. destruct (pkg_alias_total p im G) as (a & im' & E & G' & L & _ & K). rewrite V in L.
  exists a, im'. split; [exact E|]. split; [exact G'|]. split; [|split].
  - unfold pkg_alias in E. rewrite V in E.
    assert (N : match first_free (fun a => existsb (fun e => text_eqb a (snd e)) im) (fix_alias (base_name p)) (S (length im)) 0 with
                | Some a => Some (a, assign p a im) | None => None end = Some (a, im') -> name_imports im').
    { destruct (first_free _ _ _ _) as [b|] eqn:F; [|discriminate]. intros [= <- <-].
      apply first_free_not_taken in F as (_ & j & _ & ->). unfold assign. constructor; [apply alias_chars, P|].
      apply Forall_forall. intros e He. apply filter_In in He as [He _]. unfold name_imports in A. rewrite Forall_forall in A. auto. }
    destruct (lookup p im) as [[|c b]|]; [exact (N E)| |exact (N E)]. injection E as <- <-. exact A.
  - intros [q b] I. apply lookup_in. apply K. apply in_lookup; [apply G|exact I].
  - apply lookup_in, L.
Qed.

Section Written.
  Context (quote : text -> text) (own : text) (O : own <> []).

  Lemma type_name_step t : plain own t -> forall im, good_imports im -> name_imports im ->
    exists s im', type_name quote own t im = Some (s, im') /\ good_imports im' /\ name_imports im' /\ extends im im' /\ notation own im' t s.
  Proof.
    induction t as [p n|t IH|t IH|n t IH|k v IH1 IH2|fs IH|o] using gotyp_fields_ind; intros P im G A; cbn [type_name].
    - remember (YName p n) as u eqn:Eu. destruct P as [m Hn|m Hn Hp|q m H1 H2 H3 H4 H5| | | | |]; try discriminate; injection Eu as <- <-; rename m into n.
      + exists n, im. split; [reflexivity|]. split; [exact G|]. split; [exact A|]. split; [intros e; auto|]. constructor; exact Hn.
      + exists n, im. split; [destruct own; [congruence|]; rewrite text_eqb_refl; reflexivity|].
        split; [exact G|]. split; [exact A|]. split; [intros e; auto|]. constructor.
      + rename q into p. assert (V : process_vendoring p = p).
        { destruct (process_vendoring_spec p) as [(a & E & _)|[E _]]; [|exact E]. exfalso. exact (H4 _ _ E). }
        destruct (pkg_alias_step p im G A H3 V) as (a & im' & E & G' & A' & X & I).
        exists (a ++ t' "." ++ n), im'. split; [|split; [exact G'|split; [exact A'|split; [exact X|constructor; assumption]]]].
        destruct p; [congruence|]. destruct (text_eqb (_ :: _) own) eqn:T; [apply teq in T; congruence|]. rewrite E. reflexivity.
    - inversion P; subst. destruct (IH ltac:(assumption) im G A) as (s & im' & -> & G' & A' & X & N). eexists _, im'. repeat split; try apply G'; eauto. constructor; exact N.
    - inversion P; subst. destruct (IH ltac:(assumption) im G A) as (s & im' & -> & G' & A' & X & N). eexists _, im'. repeat split; try apply G'; eauto. constructor; exact N.
    - inversion P; subst. destruct (IH ltac:(assumption) im G A) as (s & im' & -> & G' & A' & X & N). eexists _, im'. split; [reflexivity|].
      split; [exact G'|]. split; [exact A'|]. split; [exact X|]. rewrite <- !app_assoc. constructor; exact N.
    - inversion P; subst. destruct (IH1 ltac:(assumption) im G A) as (s & im1 & -> & G1 & A1 & X1 & N1).
      destruct (IH2 ltac:(assumption) im1 G1 A1) as (s2 & im2 & -> & G2 & A2 & X2 & N2).
      eexists _, im2. split; [reflexivity|]. split; [exact G2|]. split; [exact A2|]. split; [intros e I; auto|].
      rewrite <- !app_assoc. constructor; [exact (notation_extends _ _ _ _ _ X2 N1)|exact N2].
    - inversion P as [| | | | | | |? Pt Pf]; subst. clear P.
      match goal with |- exists s im', match ?f fs im with _ => _ end = _ /\ _ => set (lines := f) end.
      assert (L : exists l im', lines fs im = Some (l, im') /\ good_imports im' /\ name_imports im' /\ extends im im' /\
                    Forall2 (field_notation own im') fs l).
      { revert im G A Pt Pf. induction IH as [|[[[n em] t] tag] fs IHt _ IHl]; intros im G A Pt Pf.
        - exists [], im. split; [reflexivity|]. split; [exact G|]. split; [exact A|]. split; [intros e; auto|constructor].
        - inversion Pt as [|? ? Pt1 Pt2]; subst. inversion Pf as [|? ? Pf1 Pf2]; subst. cbn [field_type fst snd] in *.
          destruct (IHt Pt1 im G A) as (s & im1 & E1 & G1 & A1 & X1 & N1).
          destruct (IHl im1 G1 A1 Pt2 Pf2) as (l & im2 & E2 & G2 & A2 & X2 & N2).
          eexists _, im2. split; [cbn [lines]; rewrite E1; fold lines; rewrite E2; reflexivity|].
          split; [exact G2|]. split; [exact A2|]. split; [intros e I; auto|]. constructor; [|exact N2].
          assert (Tt : tag_text tag match tag with [] => [] | _ => 32 :: escape_tag quote tag end).
          { destruct tag as [|c tag]; [constructor|]. set (g := c :: tag) in *.
            assert (B : ~ In 96 g) by (inversion Pf1; assumption).
            unfold escape_tag. destruct (existsb (fun c => c =? 96) g) eqn:X.
            - exfalso. apply existsb_exists in X as (y & Y1 & Y2). apply B. replace 96 with y by lia. exact Y1.
            - change (32 :: 96 :: g ++ [96]) with (t' " `" ++ g ++ t' "`"). constructor. discriminate. }
          apply (notation_extends _ _ _ _ _ X2) in N1.
          destruct em; [exact (fn_embedded _ _ n t tag s _ N1 Tt)|].
          rewrite <- app_assoc. exact (fn_named _ _ n t tag s _ N1 Tt). }
      destruct L as (l & im' & -> & G' & A' & X & N). eexists _, im'. split; [reflexivity|].
      split; [exact G'|]. split; [exact A'|]. split; [exact X|]. constructor. clear - N.
      induction N as [|f s fs l N1 N2 IH]; [constructor|]. destruct N2 as [|g s2 fs l N2 N3]; [constructor; exact N1|].
      cbn [join_with] in *. apply fn_more; assumption.
    - inversion P.
  Qed.

  Lemma type_names_step l : Forall (plain own) l -> forall im, good_imports im -> name_imports im ->
    exists ss im', type_names quote own l im = Some (ss, im') /\ good_imports im' /\ name_imports im' /\ extends im im'
      /\ Forall2 (notation own im') l ss.
  Proof.
    induction 1 as [|t l P _ IH]; intros im G A; cbn [type_names].
    - exists [], im. repeat split; try apply G; auto. intros e; auto.
    - destruct (type_name_step t P im G A) as (s & im1 & -> & G1 & A1 & X1 & N1).
      destruct (IH im1 G1 A1) as (ss & im2 & -> & G2 & A2 & X2 & N2). eexists _, im2. split; [reflexivity|].
      split; [exact G2|]. split; [exact A2|]. split; [intros e I; auto|].
      constructor; [exact (notation_extends _ _ _ _ _ X2 N1)|exact N2].
  Qed.

  Lemma tag_fun tag a b : tag_text tag a -> tag_text tag b -> a = b.
  Proof. intros [|tag' H] M; inversion M; subst; congruence. Qed.
  Lemma notation_fun im t a b : good_imports im -> notation own im t a -> notation own im t b -> a = b.
  Proof.
    intros (G & _) N. revert b.
    refine (notation_mut own im (fun t a => forall b, notation own im t b -> a = b) (fun t a => forall b, fields_notation own im t b -> a = b)
      (fun t a => forall b, field_notation own im t b -> a = b) _ _ _ _ _ _ _ _ _ _ _ _ _ t a N); clear t a N;
      [intros n Hn|intros n|intros p n a Hp Ho I|intros t s N IH|intros t s N IH|intros n t s N IH|intros k v a b N1 IH1 N2 IH2
      |intros fs s N IH| |intros f s N IH|intros f g fs s ss N1 IH1 N2 IH2|intros n t tag s tg N IH T|intros n t tag s tg N IH T];
      intros c M; inversion M; subst; try congruence.
    - apply in_lookup in I; [|exact G]. match goal with H : In _ im |- _ => apply in_lookup in H; [|exact G] end. congruence.
    - erewrite IH by eassumption. reflexivity.
    - erewrite IH by eassumption. reflexivity.
    - erewrite IH by eassumption. reflexivity.
    - erewrite IH1, IH2 by eassumption. reflexivity.
    - erewrite IH by eassumption. reflexivity.
    - auto.
    - erewrite IH1, IH2 by eassumption. reflexivity.
    - erewrite IH by eassumption. match goal with H : tag_text tag _ |- _ => rewrite (tag_fun _ _ _ T H) end. reflexivity.
    - erewrite IH by eassumption. match goal with H : tag_text tag _ |- _ => rewrite (tag_fun _ _ _ T H) end. reflexivity.
  Qed.

  Theorem names_of_types l im : Forall (plain own) l -> good_imports im -> name_imports im ->
    exists ss im', type_names quote own l im = Some (ss, im') /\ extends im im' /\ Forall2 (notation own im') l ss /\
      forall i j t u a b, nth_error l i = Some t -> nth_error l j = Some u -> nth_error ss i = Some a -> nth_error ss j = Some b ->
        (a = b <-> t = u).
  Proof.
    intros P G A. destruct (type_names_step l P im G A) as (ss & im' & E & G' & A' & X & N).
    exists ss, im'. split; [exact E|]. split; [exact X|]. split; [exact N|].
    assert (At : forall i t a, nth_error l i = Some t -> nth_error ss i = Some a -> notation own im' t a /\ plain own t).
    { clear E X. induction N as [|x y l ss Hxy N IH]; intros [|i] t a Ht Ha; cbn in *; try discriminate;
        inversion P; subst.
      - injection Ht as <-. injection Ha as <-. auto.
      - eapply IH; eauto. }
    intros i j t u a b Ht Hu Ha Hb. destruct (At i t a Ht Ha) as [Nt Pt]. destruct (At j u b Hu Hb) as [Nu Pu]. split.
    - intros ->. apply (notation_inj own im' G' A' O t u b b [] []); auto; exact I.
    - intros ->. exact (notation_fun im' u a b G' Nt Nu).
  Qed.
End Written.

Ltac chars := repeat constructor; unfold name_char, path_char; cbn; lia.
Lemma yayamls_names : name_imports yayamls_imports. Proof. chars. Qed.
Lemma goyaml_names : name_imports goyaml_imports. Proof. chars. Qed.

(** ** what is wrong *)
Theorem shadowed_names quote :
  let l := [YName (t' "example.com/m") (t' "string"); YName [] (t' "string")] in
  exists im, type_names quote (t' "example.com/m") l yayamls_imports = Some ([t' "string"; t' "string"], im).
Proof. eexists. reflexivity. Qed.
Theorem vendored_names quote :
  let l := [YName (t' "example.com/a/vendor/lib") (t' "T"); YName (t' "example.com/b/vendor/lib") (t' "T")] in
  exists im, type_names quote (t' "example.com/m") l yayamls_imports = Some ([t' "lib.T"; t' "lib.T"], im).
Proof. eexists. reflexivity. Qed.
