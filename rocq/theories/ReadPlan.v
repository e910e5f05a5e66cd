(** Every tree can be read completely as strings. *)
From Verif Require Import Base Schema Values Reader ReadSpec.
Local Open Scope nat_scope.

Section TreeInd.
  Context (P : tree -> Prop) (Hn : P TNull) (Ht : forall s, P (TText s))
    (Hs : forall l, Forall P l -> P (TSeq l)) (Hm : forall l, Forall (fun kv => P (fst kv) /\ P (snd kv)) l -> P (TMap l)).
  Fixpoint tree_deep (t : tree) : P t :=
    match t with
    | TNull => Hn
    | TText s => Ht s
    | TSeq l => Hs l ((fix go l : Forall P l := match l with [] => Forall_nil _ | x :: l' => Forall_cons x (tree_deep x) (go l') end) l)
    | TMap l => Hm l ((fix go l : Forall (fun kv => P (fst kv) /\ P (snd kv)) l :=
        match l with [] => Forall_nil _ | kv :: l' => Forall_cons kv (conj (tree_deep (fst kv)) (tree_deep (snd kv))) (go l') end) l)
    end.
End TreeInd.

Section Plan.
  Context {Nd : Type} (o : oracle) (map_size : nat -> nat) (val : tree -> value -> Prop).
  Notation reads := (@reads Nd o map_size val).
  Notation reads_items := (@reads_items Nd o map_size val).
  Notation reads_entries := (@reads_entries Nd o map_size val).

  Lemma told_app (a b : list (reply Nd)) : told (a ++ b) = told a ++ told b.
  Proof. unfold told. rewrite map_app, concat_app. reflexivity. Qed.
  Lemma told_cons p (a : list (reply Nd)) : told (p :: a) = heard p ++ told a.
  Proof. reflexivity. Qed.

  Lemma plan t : forall h, exists qs ps h', reads h t qs ps h' /\ told ps = scalars t
    /\ Forall as_strings qs /\ not_skip qs.
  Proof.
    induction t as [|s|l IH|l IH] using tree_deep; intros h.
    - exists [QCall DTryNull], [PAnswer (ABool true)], h. repeat split; try constructor; cbn; auto.
    - exists [QCall DString], [PAnswer (AText s)], h. repeat split; try constructor; cbn; auto.
    - assert (G : forall c h, exists qs ps h', reads_items c h l qs ps h' /\ told ps = concat (map scalars l) /\ Forall as_strings qs).
      { intros c. clear h. induction IH as [|t l Ht _ IHl]; intros h.
        - exists [QMore c], [PMore false], h. repeat split; try constructor; cbn; auto.
        - destruct (Ht h) as (qs & ps & h1 & H1 & H2 & H3 & _). destruct (IHl h1) as (qs' & ps' & h2 & G1 & G2 & G3).
          exists (QMore c :: qs ++ qs'), (PMore true :: ps ++ ps'), h2.
          split; [econstructor; eassumption|]. split; [rewrite told_cons, told_app, H2, G2; reflexivity|].
          constructor; [exact I|]. apply Forall_app. auto. }
      destruct (G h (S h)) as (qs & ps & h' & G1 & G2 & G3).
      eexists _, _, h'. split; [apply R_seq; exact G1|]. split; [rewrite !told_cons, G2; reflexivity|].
      split; [repeat (constructor; [exact I|]); exact G3 | exact I].
    - assert (G : forall c h, exists qs ps h', reads_entries c h l qs ps h'
        /\ told ps = concat (map (fun kv => scalars (fst kv) ++ scalars (snd kv)) l) /\ Forall as_strings qs).
      { intros c. clear h. induction IH as [|[k v] l [Hk Hv] _ IHl]; intros h; cbn [fst snd] in *.
        - exists [QMore c], [PMore false], h. repeat split; try constructor; cbn; auto.
        - destruct (Hk h) as (qk & pk & h1 & K1 & K2 & K3 & K4). destruct (Hv h1) as (qv & pv & h2 & V1 & V2 & V3 & _).
          destruct (IHl h2) as (qs' & ps' & h3 & G1 & G2 & G3).
          exists (QMore c :: qk ++ qv ++ qs'), (PMore true :: pk ++ pv ++ ps'), h3.
          split; [econstructor; eassumption|].
          split; [rewrite told_cons, !told_app, K2, V2, G2; cbn; rewrite app_assoc; reflexivity|].
          constructor; [exact I|]. rewrite !Forall_app. auto. }
      destruct (G h (S h)) as (qs & ps & h' & G1 & G2 & G3).
      eexists _, _, h'. split; [apply R_map; exact G1|]. split; [rewrite !told_cons, G2; reflexivity|].
      split; [repeat (constructor; [exact I|]); exact G3 | exact I].
  Qed.
End Plan.
