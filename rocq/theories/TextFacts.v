(** Facts about the grammar of texts: shapes of gaps and documents that are common. *)
From Coq Require Import String.
From Verif Require Import Base Ast RoundTripSpec TextSpec.
Local Open Scope N_scope.

(** flow collections on one line *)
Lemma empty_flow n kind h m : flow_text n (deeper kind h) (build kind []) (opening kind :: spaces m ++ [closing kind]).
Proof. apply ft_empty, sp_spaces. Qed.
Lemma items_flow n kind h m es s : items_text n kind h es s -> flow_text n (deeper kind h) (build kind es) (opening kind :: spaces m ++ s ++ [closing kind]).
Proof. apply ft_items, sp_spaces. Qed.
Lemma one_item n kind h e s m : item_text n kind h e s -> items_text n kind h [e] (s ++ spaces m).
Proof. intro H. apply is_one; [exact H|apply sp_spaces]. Qed.
Lemma last_item n kind h e s m k : item_text n kind h e s -> items_text n kind h [e] (s ++ spaces m ++ 44 :: spaces k).
Proof. intro H. apply is_last; [exact H| |]; apply sp_spaces. Qed.
Lemma more_items n kind h e s m k es s2 : item_text n kind h e s -> items_text n kind h es s2 ->
  items_text n kind h (e :: es) (s ++ spaces m ++ 44 :: spaces k ++ s2).
Proof. intros H H2. apply is_more; [exact H| | |exact H2]; apply sp_spaces. Qed.

Lemma last_snoc {A} (u : list A) x d : last (u ++ [x]) d = x.
Proof. induction u as [|y u IH]; [reflexivity|]. cbn [app]. rewrite <- IH at 2. destruct (u ++ [x]) eqn:E; [destruct u; discriminate|reflexivity]. Qed.

Lemma ends_other s x : x <> 45 -> ~ dangling (s ++ [x]).
Proof. intros H (u & E & _). apply app_inj_tail in E. destruct E as [_ E]. congruence. Qed.
Lemma word_dangling w : plain_word w -> ~ dangling w.
Proof.
  intros (_ & Hw & _ & _ & Hn) (u & -> & [-> | Hu]).
  - apply Hn. left. reflexivity.
  - apply Forall_app in Hw. destruct Hw as [Hw _]. destruct u as [|x u]; [cbn in Hu; intuition discriminate|].
    destruct (exists_last (l := x :: u)) as (v & y & E); [discriminate|]. rewrite E in *. rewrite last_snoc in Hu.
    apply Forall_app in Hw. destruct Hw as [_ Hw]. inversion Hw as [|? ? Hy _]; subst. apply Hy. cbn in *. tauto.
Qed.
Lemma plain_dangling s : plain_text s -> ~ dangling s.
Proof.
  induction 1 as [w Hw|w n s Hw Hs IH]; [apply word_dangling, Hw|]. intros (u & E & Hu). apply IH.
  assert (Hn : s <> []) by (destruct Hs as [? [? _]|w2 ? ? [? _] _]; [assumption|destruct w2; [congruence|discriminate]]).
  destruct (exists_last Hn) as (a & x & ->). rewrite !app_assoc in E. apply app_inj_tail in E. destruct E as [<- ->].
  exists a. split; [reflexivity|]. destruct a as [|y a]; [left; reflexivity|right].
  destruct Hu as [Hu|Hu]; [destruct w; discriminate|]. destruct (exists_last (l := y :: a)) as (v & z & E); [discriminate|].
  rewrite E in *. rewrite app_assoc, last_snoc in Hu. rewrite last_snoc. exact Hu.
Qed.
Lemma scalar_dangling t s : scalar_text t s -> ~ dangling s.
Proof.
  intros [s2 H|s2 _|s2 _]; [apply plain_dangling, H|apply (ends_other (39 :: s2))|apply (ends_other (34 :: s2))]; discriminate.
Qed.
Lemma dangling_suffix a s : s <> [] -> dangling (a ++ s) -> dangling s.
Proof.
  intros Hn (u & E & Hu). destruct (exists_last Hn) as (v & x & ->). rewrite app_assoc in E. apply app_inj_tail in E. destruct E as [<- ->].
  exists v. split; [reflexivity|]. destruct v as [|y v]; [left; reflexivity|right].
  destruct Hu as [Hu|Hu]; [destruct a; discriminate|]. destruct (exists_last (l := y :: v)) as (w & z & E); [discriminate|].
  rewrite E in *. rewrite app_assoc, last_snoc in Hu. rewrite last_snoc. exact Hu.
Qed.
Lemma plain_text_some s : plain_text s -> s <> [].
Proof. intros [w [H _]|w n s2 [H _] _]; [exact H|]. destruct w; [congruence|discriminate]. Qed.
Lemma more_dangling n v m : plain_more_text n v m -> m = [] \/ ~ dangling m.
Proof.
  induction 1 as [|a w j s v m Hj Hs Hm IH]; [left; reflexivity|right]. intro D. pose proof (plain_text_some s Hs) as Hn.
  rewrite app_assoc in D. apply dangling_suffix in D; [|destruct s; [congruence|discriminate]].
  destruct IH as [-> | IH]; [rewrite app_nil_r in D; exact (plain_dangling s Hs D)|].
  destruct m; [rewrite app_nil_r in D; exact (plain_dangling s Hs D)|]. apply dangling_suffix in D; [|discriminate]. auto.
Qed.
Lemma bare_dangling n t s : bare_text n t s -> ~ dangling s.
Proof.
  intros [t2 s2 H|h t2 s2 _ H|s2 v m Hs Hm|s2 v m _ _ _|s2 v m _ _ _]; [eapply scalar_dangling, H| | | |].
  2: { destruct (more_dangling _ _ _ Hm) as [-> | D]; [rewrite app_nil_r; apply plain_dangling, Hs|].
    destruct m as [|x m]; [rewrite app_nil_r; apply plain_dangling, Hs|]. intro E. apply dangling_suffix in E; [auto|discriminate]. }
  2: { rewrite app_assoc. apply (ends_other (39 :: s2 ++ m)). discriminate. }
  2: { rewrite app_assoc. apply (ends_other (34 :: s2 ++ m)). discriminate. }
  destruct H as [h2 t3 s3 [H _]|kind h2 m _|kind h2 m es s3 _ _]; [eapply scalar_dangling, H| |].
  - apply (ends_other (opening kind :: m)). destruct kind; discriminate.
  - replace (opening kind :: m ++ s3 ++ [closing kind]) with ((opening kind :: m ++ s3) ++ [closing kind]) by (cbn; rewrite <- app_assoc; reflexivity).
    apply ends_other. destruct kind; discriminate.
Qed.

Lemma bare_some n t s : bare_text n t s -> s <> [].
Proof.
  intros [t2 s2 H|h t2 s2 _ H|s2 v m Hs Hm|s2 v m _ _ _|s2 v m _ _ _]; try discriminate.
  - destruct H; try discriminate. apply plain_text_some; assumption.
  - destruct H as [h2 t3 s3 [H _]|kind h2 m _|kind h2 m es s3 _ _]; try discriminate. destruct H; try discriminate. apply plain_text_some; assumption.
  - pose proof (plain_text_some _ Hs). destruct s2; [congruence|discriminate].
Qed.
Lemma leaf_dangling n t s : leaf_text n t s -> ~ dangling s.
Proof.
  intros [t2 s2 H|w H|p s2 m t2 s3 _ H] D; [eapply bare_dangling; eassumption| |].
  - apply (dangling_suffix [42]) in D; [|apply H]. exact (plain_dangling w (pt_word w H) D).
  - rewrite app_assoc in D. apply dangling_suffix in D; [eapply bare_dangling; eassumption|eapply bare_some, H].
Qed.
Lemma lt_scalar n t s : scalar_text t s -> leaf_text n t s.
Proof. intro. apply lt_bare, ba_scalar. assumption. Qed.
Lemma lt_flow n h t s : (h <= 5)%nat -> flow_text n h t s -> leaf_text n t s.
Proof. intros. apply lt_bare, (ba_flow n h); assumption. Qed.
Lemma lt_plain n s v r : plain_text s -> plain_more_text n v r -> leaf_text n (NText (s ++ v) UnknownQuoting) (s ++ r).
Proof. intros. apply lt_bare, ba_plain; assumption. Qed.
Lemma lt_single n s v r : Forall single_char s -> (r <> [] -> ~ blank (last s 0)) -> quoted_more_text n single_char v r ->
  leaf_text n (NText (s ++ v) SingleQuoting) (39 :: s ++ r ++ [39]).
Proof. intros. apply lt_bare, ba_single; assumption. Qed.

Lemma gap_line : gap_text [10].
Proof. exact (gp_lines (spaces 0) [10] [] (tr_blank 0) br_lf id_none). Qed.
Lemma es_next o kind n e s es s2 : entry_text false kind n e s -> entries_text o kind n es s2 -> entries_text o kind n (e :: es) (s ++ 10 :: spaces n ++ s2).
Proof. intros H1 H2. exact (es_more o false kind n e s [10] es s2 H1 (bt_lines _ _ gap_line) H2). Qed.
Lemma es_after o kind n e s es s2 : entry_text true kind n e s -> entries_text o kind n es s2 -> entries_text o kind n (e :: es) (s ++ spaces n ++ s2).
Proof. intros H1 H2. exact (es_more o true kind n e s [] es s2 H1 (bt_none _) H2). Qed.
Lemma at_word kind n t s : leaf_text (S n) t s -> after_text false kind n t (32 :: s).
Proof. exact (at_leaf kind n 0 t s). Qed.
Lemma at_dash o kind n es s : entries_text o kind (n + 2) es s -> after_text o true n (build kind es) (32 :: s).
Proof. intro H. apply (at_coll o kind n 0). replace (n + 1 + 1)%nat with (n + 2)%nat by lia. exact H. Qed.
Lemma at_next o k2 kind n es s : entries_text o kind (n + 2) es s -> after_text o k2 n (build kind es) (10 :: spaces (n + 2) ++ s).
Proof. intro H. apply (at_lines o k2 kind n [10] (n + 2)); [exact gap_line|left; lia|exact H]. Qed.
Lemma et_key o n k ks t s : scalar_text k ks -> after_text o false n t s -> entry_text o false n (NEntry k t) (ks ++ 58 :: s).
Proof. intros H1 H2. exact (et_map o n k ks 0 t s H1 H2). Qed.

Lemma leaf_document t s : leaf_text 0 t s -> document_text t s.
Proof.
  intro H. rewrite <- (app_nil_r s). apply (sm_plain false [] t s [] []); [constructor|exact (ls_leaf 0 t s H)|apply dn_end, en_line, (tr_blank 0)|].
  intros _. eapply leaf_dangling, H.
Qed.
Lemma lines_document kind es s : entries_text false kind 0 es s -> document_text (build kind es) (s ++ [10]).
Proof.
  intro H. apply (sm_plain false [] (build kind es) s [] [10]); [constructor|exact (ls_entries false kind 0 es s H)|apply dn_end|].
  - rewrite <- (app_nil_r [10]). apply en_lines; [exact gap_line|apply (il_blank 0)].
  - discriminate.
Qed.

Lemma null_plain : plain_text (t' "null").
Proof.
  apply pt_word. split; [discriminate|]. split; [repeat (apply Forall_cons || apply Forall_nil); vm_compute; intuition discriminate|].
  split; [vm_compute; intuition discriminate|]. split; [vm_compute; discriminate|vm_compute; intuition discriminate].
Qed.
