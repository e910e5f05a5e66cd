(** Printed trees. *)
From Coq Require Import String.
From Verif Require Import Base Ast ParsedSpec Printer PrinterSpec.
Local Open Scope N_scope.

(** ** the printer draws *)
Definition label_of (n : node) : text :=
  match node_type n with
  | None => []
  | Some ty => t' "[" ++ type_name ty ++ t' "] " ++ match texter n with Some s => replace_breaks s | None => [] end
  end.
Definition some (l : list node) : list node := filter (fun n => negb (is_nil n)) l.
Definition children (n : node) : list node :=
  match n with
  | NStream l | NSequence l | NMapping l => l
  | NContent a b | NEntry a b | NProperties a b => some [a; b]
  | _ => []
  end.
Definition subs (t : rose) : list rose := match t with Rose _ ts => ts end.
Definition name (t : rose) : text := match t with Rose l _ => l end.
Lemma draw_eq above l ts more : draw above (Rose l ts) more = concat (map bar above) ++ branch more ++ l ++ 10 :: draw_all (above ++ [more]) ts.
Proof. cbn. do 4 f_equal. induction ts as [|t ts IH]; [reflexivity|]. cbn. rewrite IH. reflexivity. Qed.
Lemma shape_name n : name (shape n) = label_of n.
Proof.
  destruct n; try reflexivity; unfold label_of; cbn; rewrite ?app_nil_r; try reflexivity.
  destruct ty; reflexivity.
Qed.
Lemma shape_subs n : subs (shape n) = map shape (children n).
Proof. destruct n; try reflexivity; unfold children, some, there; match goal with |- context[filter _ [?a; ?b]] => destruct a, b; reflexivity end. Qed.

Lemma whole_all l : (fix all l := match l with [] => True | x :: r => whole x /\ all r end) l <-> Forall whole l.
Proof. induction l as [|x l IH]; [split; auto|]. rewrite IH. split; [intros []; auto|inversion 1; auto]. Qed.

(** the state of the printer below nodes with ([true]) and without siblings that follow *)
Definition stands (above : list bool) (p : printer) : Prop :=
  p_any p = true /\ p_level p = length above /\ Forall (fun i => (i < length above)%nat) (p_ended p) /\
  forall i, (i < length above)%nat -> level_ended p i = negb (nth i above true).
Lemma bars above p : stands above p ->
  concat (map (fun i => if level_ended p i then repeat 32 (indent_size + 1) else edge_link ++ repeat 32 indent_size) (seq 0 (p_level p))) = concat (map bar above).
Proof.
  intros (_ & -> & _ & H). f_equal.
  assert (G : forall l, (forall i, (i < length above)%nat -> level_ended p (l + i) = negb (nth i above true)) ->
    map (fun i => if level_ended p i then repeat 32 (indent_size + 1) else edge_link ++ repeat 32 indent_size) (seq l (length above)) = map bar above).
  { clear H. induction above as [|b above IH]; intros l H; [reflexivity|]. cbn [length seq map]. f_equal.
    - specialize (H O). rewrite Nat.add_0_r in H. rewrite H by (cbn; lia). cbn. destruct b; reflexivity.
    - apply IH. intros i Hi. specialize (H (S i)). rewrite Nat.add_succ_r in H. apply H. cbn. lia. }
  apply G. intros i Hi. apply H, Hi.
Qed.
Lemma stands_print above x e en p : stands above (mkPrinter e (p_level p) (p_ended p) (p_out p) (p_any p)) -> x <> NNil ->
  (forall i, (i < p_level p)%nat -> existsb (Nat.eqb i) en = existsb (Nat.eqb i) (p_ended p)) ->
  print_value x (mkPrinter e (p_level p) en (p_out p) (p_any p)) =
    Some (mkPrinter e (p_level p) en (p_out p ++ concat (map bar above) ++ e ++ 32 :: label_of x ++ [10]) true).
Proof.
  intros H Hx He. pose proof (bars _ _ H) as B. destruct H as (Ha & _). cbn in Ha. unfold print_value. cbn [p_any]. rewrite Ha.
  unfold print_with_level. cbn [p_level p_edge] in *.
  assert (B2 : concat (map (fun i => if level_ended (mkPrinter e (p_level p) en (p_out p) true) i then repeat 32 (indent_size + 1) else edge_link ++ repeat 32 indent_size) (seq 0 (p_level p))) = concat (map bar above)).
  { rewrite <- B. f_equal. apply map_ext_in. intros i Hi. apply in_seq in Hi. unfold level_ended. cbn [p_ended]. rewrite He by lia. reflexivity. }
  rewrite B2. unfold label_of. destruct (node_type x) as [ty|] eqn:T; [|destruct x; discriminate || congruence].
  unfold put. cbn [p_edge p_level p_ended p_out p_any]. do 2 f_equal. destruct (texter x); cbn [string_to_text app]; rewrite <- ?app_assoc; cbn [app]; rewrite ?app_nil_r, <- ?app_assoc; reflexivity.
Qed.

Definition accepts (n : node) : Prop := forall above p, stands above p ->
  exists e, accept n p = Some (mkPrinter e (p_level p) (p_ended p) (p_out p ++ draw_all above (subs (shape n))) true).
Lemma existsb_app {A} (f : A -> bool) l m : existsb f (l ++ m) = existsb f l || existsb f m.
Proof. induction l as [|x l IH]; [reflexivity|]. cbn. rewrite IH. apply orb_assoc. Qed.
Lemma child_drawn x is_last above p : stands above p -> x <> NNil -> accepts x ->
  exists e, print_child (accept x) x is_last p =
    Some (mkPrinter e (p_level p) (if is_last then p_ended p ++ [p_level p] else p_ended p) (p_out p ++ draw above (shape x) (negb is_last)) true).
Proof.
  intros H Hx Ha. unfold print_child. cbn [p_level p_ended p_out p_any].
  pose proof H as (Hany & Hl & Hf & Hi).
  assert (O : forall i, (i < p_level p)%nat -> existsb (Nat.eqb i) (if is_last then p_ended p ++ [p_level p] else p_ended p) = existsb (Nat.eqb i) (p_ended p)).
  { intros i Hi2. destruct is_last; [|reflexivity]. rewrite existsb_app. cbn. destruct (Nat.eqb_spec i (p_level p)); [lia|]. rewrite !orb_false_r. reflexivity. }
  rewrite (stands_print above x (if is_last then edge_end else edge_mid) _ p); [|exact H|exact Hx|exact O].
  cbn [p_edge p_level p_ended p_out p_any].
  set (q := mkPrinter _ (S (p_level p)) _ _ true).
  destruct (Ha (above ++ [negb is_last]) q) as (e & E).
  - split; [reflexivity|]. rewrite app_length. cbn [length]. split; [cbn; lia|]. split.
    + subst q. cbn [p_ended]. destruct is_last; [apply Forall_app; split; [|constructor; [lia|constructor]]|]; (eapply Forall_impl; [|exact Hf]; cbn; intros; lia).
    + intros i Hi2. subst q. unfold level_ended. cbn [p_ended]. destruct (Nat.eq_dec i (length above)) as [-> |N].
      * rewrite app_nth2, Nat.sub_diag by lia. cbn [nth]. rewrite negb_involutive.
        assert (Z : existsb (Nat.eqb (length above)) (p_ended p) = false).
        { apply not_true_is_false. intro X. apply existsb_exists in X. destruct X as (k & K1 & K2). apply Nat.eqb_eq in K2. subst k.
          rewrite Forall_forall in Hf. specialize (Hf _ K1). cbn in Hf. lia. }
        destruct is_last; [|exact Z]. rewrite existsb_app, Z, Hl. cbn. rewrite Nat.eqb_refl. reflexivity.
      * rewrite O by lia. rewrite app_nth1 by lia. apply Hi. lia.
  - rewrite E. exists e. subst q. cbn [p_edge p_level p_ended p_out p_any pred]. do 2 f_equal.
    rewrite <- !app_assoc. cbn [app]. rewrite <- ?app_assoc. f_equal. destruct (shape x) as [l ts] eqn:S. rewrite draw_eq. cbn [subs]. f_equal.
    assert (El : l = label_of x) by (rewrite <- shape_name, S; reflexivity). subst l. destruct is_last; reflexivity.
Qed.

Lemma stands_next above e p s : stands above p -> stands above (mkPrinter e (p_level p) (p_ended p) s true).
Proof. intros (_ & H). split; [reflexivity|exact H]. Qed.

Definition each := fix each (l : list node) (p : printer) : option printer :=
  match l with
  | [] => Some p
  | x :: r => match print_child (accept x) x (match r with [] => true | _ => false end) p with None => None | Some p => each r p end
  end.
Lemma each_drawn l : Forall (fun x => x <> NNil /\ accepts x) l -> forall above p, stands above p ->
  exists e en, each l p = Some (mkPrinter e (p_level p) en (p_out p ++ draw_all above (map shape l)) true).
Proof.
  induction 1 as [|x l [Hx Ha] Hl IH]; intros above p Hp.
  - exists (p_edge p), (p_ended p). cbn. rewrite app_nil_r. destruct p, Hp as (E & _). cbn in *. subst. reflexivity.
  - cbn [each map draw_all]. destruct l as [|y l].
    + destruct (child_drawn x true above p Hp Hx Ha) as (e & ->). cbn [each map draw_all followed negb]. rewrite app_nil_r. eauto.
    + destruct (child_drawn x false above p Hp Hx Ha) as (e & ->).
      destruct (IH above _ (stands_next above e p (p_out p ++ draw above (shape x) (negb false)) Hp)) as (e2 & en & E). change (each (y :: l)) with (each (y :: l)). rewrite E.
      exists e2, en. cbn [p_level p_ended p_out map followed negb]. rewrite <- app_assoc. reflexivity.
Qed.
Lemma two_drawn a b : (a = NNil \/ accepts a) -> (b = NNil \/ accepts b) -> forall above p, stands above p ->
  exists e en,
    (let max_count := ((if is_nil a then 0 else 1) + (if is_nil b then 0 else 1))%nat in
     let first := if is_nil a then Some (p, O) else
       match print_child (accept a) a (Nat.eqb 0 (max_count - 1)) p with None => None | Some p => Some (p, 1%nat) end in
     match first with
     | None => None
     | Some (p, count) => if is_nil b then Some p else print_child (accept b) b (Nat.eqb count (max_count - 1)) p
     end) = Some (mkPrinter e (p_level p) en (p_out p ++ draw_all above (map shape (some [a; b]))) true).
Proof.
  intros Ha Hb above p Hp. cbv zeta.
  destruct (is_nil a) eqn:Na.
  - unfold some. cbn [filter]. rewrite Na. cbn [negb]. destruct (is_nil b) eqn:Nb; cbn [negb map draw_all].
    + exists (p_edge p), (p_ended p). rewrite app_nil_r. destruct p, Hp as (E & _). cbn in *. subst. reflexivity.
    + destruct Hb as [-> |Hb]; [discriminate|]. destruct (child_drawn b true above p Hp) as (e & E); [intros ->; discriminate|exact Hb|].
      cbn [Nat.add Nat.sub Nat.eqb]. rewrite E. cbn [followed negb]. rewrite app_nil_r. eauto.
  - destruct Ha as [-> |Ha]; [discriminate|]. assert (Xa : a <> NNil) by (intros ->; discriminate).
    unfold some. cbn [filter]. rewrite Na. cbn [negb]. destruct (is_nil b) eqn:Nb; cbn [negb map draw_all].
    + cbn [Nat.add Nat.sub Nat.eqb]. destruct (child_drawn a true above p Hp Xa Ha) as (e & ->). cbn [followed negb]. rewrite app_nil_r. eauto.
    + destruct Hb as [-> |Hb]; [discriminate|]. assert (Xb : b <> NNil) by (intros ->; discriminate).
      cbn [Nat.sub Nat.add Nat.eqb]. destruct (child_drawn a false above p Hp Xa Ha) as (e & ->).
      change (1 =? 1)%nat with true.
      destruct (child_drawn b true above _ (stands_next above e p (p_out p ++ draw above (shape a) (negb false)) Hp) Xb Hb) as (e2 & ->). cbn [p_level p_ended p_out followed negb]. rewrite app_nil_r, <- app_assoc. eauto.
Qed.
Lemma all_accept n : whole n -> accepts n.
Proof.
  induction n using node_ind'; intros W above p Hp.
  all: try (exists (p_edge p); cbn; rewrite app_nil_r; destruct p, Hp as (E & _); cbn in *; subst; reflexivity).
  all: cbn [whole] in W.
  all: try (rewrite whole_all in W;
    match goal with |- context[accept (_ ?l)] => 
      destruct (each_drawn l) with (above := above) (p := p) as (e & en & X); [|exact Hp|];
      [rewrite Forall_forall in *; intros x Hx; specialize (W x Hx); split; [intros ->; exact W|auto]
      |exists e; cbn [accept]; unfold each in X; rewrite X; reflexivity] end).
  all: try contradiction.
  all: 
    match goal with |- context[accept (_ ?a ?b)] => destruct (two_drawn a b) with (above := above) (p := p) as (e & en & X);
      [intuition|intuition|exact Hp|]; exists e; cbn [accept]; cbv zeta in X |- *; rewrite X; cbn [set_ended p_edge p_level p_out p_any]; rewrite shape_subs; reflexivity end.
Qed.

Lemma print_drawn n : whole n ->
  print n = PrText (match own_text n with Some s => name (shape (match n with NText _ _ => NText [] UnknownQuoting | NTag _ => NTag [] | NAnchor _ => NAnchor [] | _ => NAlias [] end)) ++ s ++ [10] | None => drawing (shape n) end).
Proof.
  intro W. unfold print. destruct (is_nil n) eqn:Hn; [destruct n; try discriminate; contradiction|].
  destruct (own_text n) as [s|] eqn:T; [destruct n; inversion T; reflexivity|].
  unfold print_value, print_root. cbn [p_any new_printer].
  assert (X : texter n = None) by (destruct n; try discriminate; reflexivity). rewrite X.
  destruct (node_type n) as [ty|] eqn:Y; [|destruct n; discriminate].
  unfold put. cbn [p_edge p_level p_ended p_out p_any app].
  destruct (all_accept n W [] (mkPrinter edge_mid 0 [] (t' "[" ++ type_name ty ++ t' "] " ++ [10]) true)) as (e & E).
  - split; [reflexivity|]. split; [reflexivity|]. split; [constructor|]. cbn. lia.
  - unfold new_printer. cbn [p_edge p_level p_ended p_out p_any app] in *. rewrite E. cbn [p_out]. f_equal.
    destruct (shape n) as [l ts] eqn:S. cbn [subs drawing].
    assert (El : l = label_of n) by (rewrite <- shape_name, S; reflexivity). subst l.
    unfold label_of. rewrite Y, X. cbn. rewrite <- !app_assoc. reflexivity.
Qed.

(** ** drawings can be read back *)
Definition stop (above : list bool) (r : text) : Prop :=
  r = [] \/ exists j b l, (j < length above)%nat /\ r = concat (map bar (firstn j above)) ++ branch b ++ l.
Fixpoint fit (t : rose) : Prop := match t with Rose l ts => ~ In 10 l /\ fold_right (fun t P => fit t /\ P) True ts end.
Definition fits (ts : list rose) : Prop := fold_right (fun t P => fit t /\ P) True ts.
Definition total (ts : list rose) : nat := fold_right (fun t n => nodes t + n)%nat O ts.
Lemma stop_not above r b l : stop above r -> r = concat (map bar above) ++ branch b ++ l -> False.
Proof.
  intros [-> |(j & b' & l' & Hj & ->)] E.
  - destruct (concat (map bar above)), b; discriminate.
  - revert above Hj E. induction j as [|j IH]; intros above Hj E; destruct above as [|c above]; cbn in Hj; try lia.
    + cbn in E. destruct b', c; discriminate.
    + cbn [firstn map concat] in E. rewrite <- !app_assoc in E. apply app_inv_head in E. apply (IH above); [lia|exact E].
Qed.
Lemma stop_line above m ts r : stop above r -> stop (above ++ [m]) (draw_all above ts ++ r).
Proof.
  intro H. destruct ts as [|[l cs] ts].
  - cbn. destruct H as [-> |(j & b & l & Hj & ->)]; [left; reflexivity|right]. exists j, b, l. rewrite app_length. split; [cbn; lia|].
    rewrite firstn_app. replace (j - length above)%nat with O by lia. rewrite app_nil_r. reflexivity.
  - right. exists (length above), (followed ts), (l ++ 10 :: draw_all (above ++ [followed ts]) cs ++ draw_all above ts ++ r). rewrite app_length.
    split; [cbn; lia|]. rewrite firstn_app, Nat.sub_diag, firstn_all, app_nil_r. cbn [draw_all]. rewrite draw_eq, <- !app_assoc. reflexivity.
Qed.
Lemma split_line (l m r s : text) : ~ In 10 l -> ~ In 10 m -> l ++ 10 :: r = m ++ 10 :: s -> l = m /\ r = s.
Proof.
  revert m. induction l as [|c l IH]; intros [|d m] Hl Hm E; cbn in E.
  - inversion E. auto.
  - inversion E. subst. exfalso. apply Hm. left. reflexivity.
  - inversion E. subst. exfalso. apply Hl. left. reflexivity.
  - inversion E. subst. destruct (IH m) as [-> ->]; [intro; apply Hl; right; assumption|intro; apply Hm; right; assumption|assumption|auto].
Qed.
Lemma branch_inj b c r s : branch b ++ r = branch c ++ s -> b = c /\ r = s.
Proof. destruct b, c; intro E; inversion E; auto. Qed.
Lemma draw_all_inj k : forall ts us above r1 r2, (total ts < k)%nat -> fits ts -> fits us -> stop above r1 -> stop above r2 ->
  draw_all above ts ++ r1 = draw_all above us ++ r2 -> ts = us /\ r1 = r2.
Proof.
  induction k as [|k IH]; intros ts us above r1 r2 Hk Ft Fu H1 H2 E; [lia|].
  destruct ts as [|[l cs] ts], us as [|[m ds] us].
  - auto.
  - exfalso. cbn [draw_all app] in E. rewrite draw_eq, <- !app_assoc in E. exact (stop_not _ _ _ _ H1 E).
  - exfalso. cbn [draw_all app] in E. rewrite draw_eq, <- !app_assoc in E. exact (stop_not _ _ _ _ H2 (eq_sym E)).
  - cbn [draw_all] in E. rewrite !draw_eq, <- !app_assoc in E. apply app_inv_head, branch_inj in E. destruct E as [Eb E].
    destruct Ft as [[Fl Fc] Ft], Fu as [[Fm Fd] Fu]. cbn [app] in E.
    apply split_line in E; [|assumption|assumption]. destruct E as [-> E]. rewrite <- Eb in E.
    cbn [total fold_right nodes] in Hk. fold (total cs) in Hk. fold (total ts) in Hk.
    apply IH in E; [|lia|exact Fc|exact Fd|apply stop_line, H1|apply stop_line, H2]. destruct E as [-> E].
    apply IH in E; [|lia|exact Ft|exact Fu|exact H1|exact H2]. destruct E as [-> ->]. auto.
Qed.
Lemma drawing_inj t u : fit t -> fit u -> drawing t = drawing u -> t = u.
Proof.
  destruct t as [l ts], u as [m us]. intros [Fl Ft] [Fm Fu] E. cbn [drawing] in E.
  apply split_line in E; [|assumption|assumption]. destruct E as [-> E].
  assert (X : ts = us /\ @nil N = []).
  { apply (draw_all_inj (S (total ts)) ts us []); try (left; reflexivity); [exact Ft|exact Fu|rewrite !app_nil_r; exact E]. }
  destruct X as [-> _]. reflexivity.
Qed.

(** ** lines *)
Lemma lines_app s r : lines (s ++ r) = (lines s + lines r)%nat.
Proof. unfold lines. apply count_occ_app. Qed.
Lemma no_lines s : ~ In 10 s -> lines s = O.
Proof. intro H. unfold lines. apply count_occ_not_In. exact H. Qed.
Lemma no_lines_bars above : lines (concat (map bar above)) = O.
Proof. induction above as [|b above IH]; [reflexivity|]. cbn [map concat]. rewrite lines_app, IH. destruct b; reflexivity. Qed.
Lemma lines_lf r : lines (10 :: r) = S (lines r).
Proof. reflexivity. Qed.
Lemma lines_draw_all k : forall ts above, (total ts < k)%nat -> fits ts -> lines (draw_all above ts) = total ts.
Proof.
  induction k as [|k IH]; intros ts above Hk F; [lia|]. destruct ts as [|[l cs] ts]; [reflexivity|].
  destruct F as [[Fl Fc] Ft]. cbn [total fold_right nodes] in *. fold (total cs) in *. fold (total ts) in *. cbn [draw_all]. rewrite draw_eq, !lines_app, no_lines_bars, lines_lf, (no_lines l Fl), !IH by (assumption || lia).
  destruct (followed ts); cbn; lia.
Qed.
Lemma lines_drawing t : fit t -> lines (drawing t) = nodes t.
Proof.
  destruct t as [l ts]. intros [Fl Ft]. cbn [drawing nodes]. rewrite lines_app, lines_lf, (no_lines l Fl), (lines_draw_all (S (total ts))) by (assumption || lia). reflexivity.
Qed.

(** ** shapes determine trees *)
Lemma one_line_fit s : ~ In 10 (one_line s).
Proof.
  induction s as [|c s IH]; [intros []|]. cbn. destruct (N.eqb_spec c 10) as [|Hc]; cbn; intuition (discriminate || congruence).
Qed.
Lemma label_fit (s : text) r : forallb (fun c => negb (c =? 10)) s = true -> ~ In 10 r -> ~ In 10 (s ++ r).
Proof. intros H Hr X. apply in_app_or in X. destruct X as [X|X]; [|auto]. rewrite forallb_forall in H. apply H in X. discriminate. Qed.
Lemma fits_app l m : fits l -> fits m -> fits (l ++ m).
Proof. induction l as [|x l IH]; intros; [assumption|]. destruct H. split; auto. Qed.
Lemma fits_there a : fit (shape a) -> fits (there a (shape a)).
Proof. destruct a; cbn [there fits fold_right]; auto. Qed.
Lemma shape_fit n : fit (shape n).
Proof.
  induction n using node_ind'; cbn [shape fit].
  all: try (split; [destruct ty; cbn; intuition discriminate|exact I]).
  all: try (split; [cbn; intuition discriminate|exact I]).
  all: try (split; [apply label_fit; [reflexivity|apply one_line_fit]|exact I]).
  all: try (split; [cbn; intuition discriminate|]; apply fits_app; apply fits_there; assumption).
  all: split; [cbn; intuition discriminate|]; match goal with H : Forall _ ?l |- _ => induction H; [exact I|split; auto] end.
Qed.

Definition plain (s : text) : Prop := ~ In 92 s.
Lemma one_line_inj s r : plain s -> plain r -> one_line s = one_line r -> s = r.
Proof.
  revert r. induction s as [|c s IH]; intros [|d r] Hs Hr E; cbn in E.
  - reflexivity.
  - destruct (d =? 10); discriminate.
  - destruct (c =? 10); discriminate.
  - assert (Ps : plain s) by (intro; apply Hs; right; assumption). assert (Pr : plain r) by (intro; apply Hr; right; assumption).
    destruct (N.eqb_spec c 10) as [-> |Hc], (N.eqb_spec d 10) as [-> |Hd]; cbn in E; inversion E; subst.
    + f_equal. apply IH; assumption.
    + exfalso. apply Hr. left. reflexivity.
    + exfalso. apply Hs. left. reflexivity.
    + f_equal. apply IH; assumption.
Qed.
Lemma plain_app l m : Forall plain (l ++ m) -> Forall plain l /\ Forall plain m.
Proof. apply Forall_app. Qed.
Lemma label_inj (l s r : text) : l ++ s = l ++ r -> s = r.
Proof. apply app_inv_head. Qed.
Lemma props_shape p p' : properties p -> properties p' -> Forall plain (texts p) -> Forall plain (texts p') -> shape p = shape p' -> p = p'.
Proof.
  assert (G : forall (l s r : text) ts us, Rose (l ++ one_line s) ts = Rose (l ++ one_line r) us -> plain s -> plain r -> s = r).
  { intros l s r ts us E Hs Hr. inversion E as [[E1 E2]]. apply app_inv_head in E1. apply one_line_inj; assumption. }
  intros [s a Ha|t s Ht|s r] [s' a' Ha'|t2 s' Ht'|s' r'] P P' E;
  repeat match goal with H : absent _ |- _ => destruct H as [-> | ->] end; cbn in E; try discriminate.
  all: unfold NInvalid in *; cbn [texts app] in P, P'; repeat match goal with H : Forall plain (_ :: _) |- _ => inversion H; clear H; subst end.
  all: inversion E as [E1].
  all: repeat match goal with
    | H : one_line _ = one_line _ |- _ => apply one_line_inj in H; [subst|assumption|assumption]
    end; reflexivity.
Qed.
Lemma flat_texts l : Forall plain (flat_map texts l) -> Forall (fun n => Forall plain (texts n)) l.
Proof. induction l as [|x l IH]; intro H; [constructor|]. cbn in H. apply Forall_app in H. destruct H. constructor; auto. Qed.
Lemma there_proper n : proper n -> there n (shape n) = [shape n].
Proof. destruct 1; reflexivity. Qed.
Lemma there_properties n : properties n -> there n (shape n) = [shape n].
Proof. destruct 1; reflexivity. Qed.
Lemma shape_inj n : forall m, proper n -> proper m -> Forall plain (texts n) -> Forall plain (texts m) -> shape n = shape m -> unquoted n = unquoted m.
Proof.
  assert (L : forall l, Forall (fun n => forall m, proper n -> proper m -> Forall plain (texts n) -> Forall plain (texts m) -> shape n = shape m -> unquoted n = unquoted m) l ->
    forall l', Forall proper l -> Forall proper l' -> Forall plain (flat_map texts l) -> Forall plain (flat_map texts l') -> map shape l = map shape l' -> map unquoted l = map unquoted l').
  { induction 1 as [|x l Hx Hl IH]; intros [|y l'] P P' T T' E; cbn in E; try discriminate; [reflexivity|].
    inversion E. inversion P. inversion P'. subst. cbn in T, T'. apply Forall_app in T, T'. destruct T, T'. cbn. f_equal; auto. }
  induction n using node_ind'; intros m P Q T T' E; inversion P; subst; inversion Q; subst; cbn -[one_line] in E; try discriminate.
  all: try reflexivity.
  all: try (inversion E; cbn [unquoted]; f_equal; apply L; assumption).
  all: cbn [texts] in T, T'.
  all: try (apply Forall_app in T, T'; destruct T, T').
  all: try (inversion E as [E1]; inversion T; inversion T'; subst; apply one_line_inj in E1; [subst; reflexivity|assumption|assumption]).
  - rewrite (there_proper n2), (there_proper c), (there_properties n1), (there_properties p) in E by assumption. cbn [app] in E.
    inversion E. cbn [unquoted]. f_equal; [apply props_shape; assumption|auto].
  - rewrite (there_proper n1), (there_proper n2), (there_proper k), (there_proper v) in E by assumption. cbn [app] in E. inversion E. cbn [unquoted]. f_equal; auto.
Qed.
Lemma proper_whole n : proper n -> whole n.
Proof.
  assert (L : forall l, Forall (fun n => proper n -> whole n) l -> Forall proper l -> Forall whole l).
  { induction 1; intro P; inversion P; subst; constructor; auto. }
  induction n using node_ind'; intro P; inversion P; subst; cbn [whole]; try exact I; try (apply whole_all, L; assumption).
  - split; right; auto. destruct H1; cbn [whole]; repeat match goal with H : absent _ |- _ => destruct H as [-> | ->] end; cbn; auto.
  - split; right; auto.
Qed.
Lemma prints_tell n m : proper n -> proper m -> Forall plain (texts n) -> Forall plain (texts m) -> print n = print m -> unquoted n = unquoted m.
Proof.
  intros P Q T T' E. rewrite !print_drawn in E by (apply proper_whole; assumption).
  destruct (own_text n) as [s|] eqn:O.
  - destruct (own_text m) as [r|] eqn:O2.
    + destruct n; inversion O; subst; inversion P; subst; destruct m; inversion O2; subst; inversion Q; subst; cbn in E; inversion E as [E1]; apply app_inj_tail in E1; destruct E1 as [-> _]; reflexivity.
    + exfalso. destruct n; inversion O; subst; inversion P; subst; destruct m; inversion O2; subst; inversion Q; subst; cbn in E; discriminate.
  - destruct (own_text m) as [r|] eqn:O2.
    + exfalso. destruct n; inversion O; subst; inversion P; subst; destruct m; inversion O2; subst; inversion Q; subst; cbn in E; discriminate.
    + inversion E as [E1]. apply drawing_inj in E1; [|apply shape_fit|apply shape_fit]. apply shape_inj; assumption.
Qed.
Lemma print_tree n : whole n -> own_text n = None -> print n = PrText (drawing (shape n)).
Proof. intros W O. rewrite (print_drawn n W), O. reflexivity. Qed.
Lemma print_lines n : whole n -> own_text n = None -> exists s, print n = PrText s /\ lines s = nodes (shape n).
Proof. intros W O. exists (drawing (shape n)). split; [apply print_tree; assumption|apply lines_drawing, shape_fit]. Qed.
Lemma prints_differ n m : proper n -> proper m -> (forall s, In s (texts n ++ texts m) -> ~ In 92 s) -> print n = print m -> unquoted n = unquoted m.
Proof.
  intros P Q T E. apply prints_tell; [exact P|exact Q| | |exact E]; apply Forall_forall; intros s Hs; apply T, in_or_app; auto.
Qed.
