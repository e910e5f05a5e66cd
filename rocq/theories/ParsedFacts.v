(** What follows for parsed trees. *)
From Coq Require Import String.
From Verif Require Import Base YamlChar Values Token Ast CPAccessor Lexer Parser ParserFlow ParserBlock ParserDocs ParserTotal Utf8 
  Comparator ComparatorSpec Printer PrinterSpec PrinterProofs Writer Reader ReadSpec ReaderSpec YReader GenCode GenSpec GenMarshal CursorSpec MeaningSpec MeaningReads ParsedSpec ParsedProofs.
Local Open Scope nat_scope.

Lemma token_stream_documents {S} digit fuel (st : stream S) s n errs :
  parse_token_stream digit fuel st s = Fin (n, errs) tt -> exists l, n = NStream l /\ Forall document l.
Proof.
  unfold parse_token_stream. destruct (run_acc _ _ _) as [[m p] a| |] eqn:E; try discriminate. intro H. inversion H. subst.
  apply (every_run _ (fun r => exists l, fst r = NStream l /\ Forall document l)) in E; [exact E|].
  assert (G : gives (fun n => exists l, n = NStream l /\ Forall document l) (parse_program digit fuel)).
  { unfold parse_program. apply gives_then. intro. apply gives_then. intro. apply stream_gives. }
  apply G.
Qed.
(** the tree with the stream of one document left out *)
Definition parsed_tree (omit : bool) (n : node) : Prop :=
  (exists l, n = NStream l /\ Forall document l /\ (omit = true -> length l <> 1)) \/ omit = true /\ document n.
Lemma tree_of {S} digit fuel (st : stream S) s tree errs omit :
  parse_token_stream digit fuel st s = Fin (tree, errs) tt ->
  parsed_tree omit (match tree with NStream [d] => if omit then d else tree | _ => tree end).
Proof.
  intro H. apply token_stream_documents in H. destruct H as (l & -> & Hl).
  destruct l as [|d [|e l]]; try (left; eexists; split; [reflexivity|]; split; [exact Hl|]; cbn; lia).
  destruct omit; [right|left].
  - inversion Hl. auto.
  - eexists; split; [reflexivity|]. split; [exact Hl|]. discriminate.
Qed.
Lemma string_documents digit fuel omit doc n : parse_string digit fuel omit doc = Fin (inl n) tt -> parsed_tree omit n.
Proof.
  unfold parse_string. destruct (parse_token_stream _ _ _ _) as [[tree errs] []| |] eqn:E; try discriminate. destruct errs; [|discriminate].
  intro H. inversion H. subst. eapply tree_of, E.
Qed.
Lemma bytes_documents digit fuel omit src n : parse_bytes digit fuel omit src = Fin (inl n) tt -> parsed_tree omit n.
Proof.
  unfold parse_bytes. destruct (parse_token_stream _ _ _ _) as [[tree errs] []| |] eqn:E; try discriminate. destruct errs; [|discriminate].
  intro H. inversion H. subst. eapply tree_of, E.
Qed.

(** ** documents are what the printer and the comparator expect *)
Lemma document_cases n : document n ->
  (exists s, n = NAlias s) \/ content n \/ (exists p c, n = NContent p c /\ properties p /\ content c).
Proof. destruct 1; eauto 8. Qed.
Lemma document_proper n : (document n \/ pair n) -> proper n.
Proof.
  induction n using node_ind'; intros [D|D].
  all: try (inversion D; subst; fail).
  all: try (apply document_cases in D; destruct D as [[s' D]|[D|(p' & c' & D & Hp & Hc)]]; [inversion D; subst|inversion D; subst|inversion D; subst]; constructor; fail).
  all: try (apply document_cases in D; destruct D as [[s' D]|[D|(p' & c' & D & Hp & Hc)]]; try discriminate; try (inversion D; fail)).
  - inversion D; subst. apply pr_content; [exact Hp|]. apply IHn2. left. apply doc_content. exact Hc.
  - inversion D as [| |l' Hl|]; subst. apply pr_seq. rewrite Forall_forall in *. intros x Hx. apply H; auto.
  - inversion D as [| | |l' Hl]; subst. apply pr_map. rewrite Forall_forall in *. intros x Hx. apply H; auto.
  - inversion D; subst. apply pr_entry; auto.
Qed.
Lemma tree_proper omit n : parsed_tree omit n -> proper n.
Proof.
  intros [(l & -> & Hl & _)|[_ D]]; [|apply document_proper; auto]. apply pr_stream. eapply Forall_impl; [|exact Hl]. intros; apply document_proper; auto.
Qed.
Lemma proper_no_nil n : proper n -> n <> NNil /\ no_nil_elements n.
Proof.
  induction n using node_ind'; intro P; inversion P; subst; (split; [discriminate|]); try constructor.
  all: try (rewrite Forall_forall in *; intros x Hx; apply H; auto; fail).
  all: try (apply IHn1; assumption). all: try (apply IHn2; assumption).
  destruct H1 as [s a Ha|t s Ht|s r]; repeat match goal with H : absent _ |- _ => destruct H as [-> | ->] end; repeat constructor.
Qed.

(** ** simple documents have values *)
Lemma properties_ok p : properties p -> props_ok p = true.
Proof. intros [s a Ha|t s Ht|s r]; repeat match goal with H : absent _ |- _ => destruct H as [-> | ->] end; reflexivity. Qed.
Lemma simple_tree n : (document n -> simple n -> exists t, y_tree n = Some t) /\
  (pair n -> simple n -> exists k v tk tv, n = NEntry k v /\ y_tree k = Some tk /\ y_tree v = Some tv).
Proof.
  induction n using node_ind'; (split; intros D S; [|inversion D; subst]); inversion S; subst.
  all: try (apply document_cases in D; destruct D as [[s' D]|[D|(p' & c' & D & Hp & Hc)]]; try discriminate; try (inversion D; fail)).
  - eexists. reflexivity.
  - inversion D; subst. destruct (proj1 IHn2) as (t & Et); [apply doc_content, Hc|assumption|]. exists t. cbn. rewrite (properties_ok p' Hp). exact Et.
  - cbn. inversion D as [| |l' Hl|]; subst. assert (G : exists ts, (fix go (l : list node) : option (list tree) :=
        match l with [] => Some [] | x :: l' => match y_tree x, go l' with Some t, Some ts => Some (t :: ts) | _, _ => None end end) l = Some ts).
    { clear S D. induction l as [|x l IH]; [eexists; reflexivity|].
      inversion H as [|? ? Hx Hr]; subst. inversion H1 as [|? ? [S1 S2] Sr]; subst. inversion Hl as [|? ? Dx Dr]; subst.
      assert (Dd : document x) by (destruct Dx as [Dx|Dx]; [exact Dx|inversion Dx; subst; exfalso; apply S2; eauto]).
      destruct (proj1 Hx Dd S1) as (t & Et).
      destruct (IH Hr Sr Dr) as (ts & Es). eexists. cbn -[y_tree]. rewrite Et, Es. reflexivity. }
    destruct G as (ts & ->). eexists. reflexivity.
  - cbn. inversion D as [| | |l' Hl]; subst. assert (G : exists ts, (fix go (l : list node) : option (list (tree * tree)) :=
        match l with
        | [] => Some []
        | NEntry k v :: l' => match y_tree k, y_tree v, go l' with Some tk, Some tv, Some ts => Some ((tk, tv) :: ts) | _, _, _ => None end
        | _ :: _ => None
        end) l = Some ts).
    { clear S D. induction l as [|x l IH]; [eexists; reflexivity|].
      inversion H as [|? ? Hx Hr]; subst. inversion H1 as [|? ? S1 Sr]; subst. inversion Hl as [|? ? Dx Dr]; subst.
      destruct (proj2 Hx Dx S1) as (k & v & tk & tv & -> & Ek & Ev).
      destruct (IH Hr Sr Dr) as (ts & Es). eexists. cbn -[y_tree]. rewrite Ek, Ev, Es. reflexivity. }
    destruct G as (ts & ->). eexists. reflexivity.
  - destruct (proj1 IHn1) as (tk & Ek); [assumption..|]. destruct (proj1 IHn2) as (tv & Ev); [assumption..|]. eauto 10.
  - eexists. reflexivity.
Qed.

Lemma accepted_means digit x tb omitempty strict o zero_of t z n s :
  sensible x tb -> zeros x tb zero_of -> known tb t -> typed tb t z ->
  parse_string digit (4 * length s + 4) true s = Fin (inl n) tt -> simple n ->
  exists w, y_tree n = Some w /\ forall v, meaning_of x tb omitempty strict o zero_of t z (doc w) = Gives v ->
    exists F, forall f, F <= f -> y_unmarshal digit x tb omitempty strict o f t z s = Done (v, None).
Proof.
  intros Hx Hz Hk Ht Hp Hs.
  assert (D : document n).
  { apply string_documents in Hp. destruct Hp as [(l & -> & _)|[_ D]]; [inversion Hs|exact D]. }
  destruct (proj1 (simple_tree n) D Hs) as (w & Hw). exists w. split; [exact Hw|]. intros v Hv.
  destruct (y_decode_gives x tb omitempty strict o zero_of t z n w v false Hx Hz Hk Ht Hw Hv) as (F & HF).
  destruct (parse_string_finishes digit true s) as (r & Hr). rewrite (Hr _ (le_n _)) in Hp. inversion Hp. subst r. clear Hp.
  exists (F + 4 * length s + 4). intros f Hf. unfold y_unmarshal. rewrite (Hr f) by lia.
  destruct (HF f ltac:(lia)) as (r' & hs & -> & He). cbn [obind fst snd]. unfold no_errors in He. rewrite He. reflexivity.
Qed.
Lemma rejected_keeps digit x tb omitempty strict o t z s es :
  parse_string digit (4 * length s + 4) true s = Fin (inr es) tt ->
  forall f, 4 * length s + 4 <= f -> y_unmarshal digit x tb omitempty strict o f t z s = Done (z, Some (USyntax es)).
Proof.
  intros Hp f Hf. destruct (parse_string_finishes digit true s) as (r & Hr). rewrite (Hr _ (le_n _)) in Hp. inversion Hp. subst r. clear Hp.
  unfold y_unmarshal. rewrite (Hr f Hf). reflexivity.
Qed.
