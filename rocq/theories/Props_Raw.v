(** Property C65: a value read as raw YAML is the text of that value. *)
From Coq Require Import String.
From Verif Require Import Base Ast Schema Parser ParserDocs Writer Encoder WriterSpec RoundTripSpec TextSpec NotedSpec RoundTripProofs
  Values Reader YReader RawTextSpec RawTextProofs.
Local Open Scope nat_scope.

(** C65 (yayamls engine).  Full statement: wherever a Decoder stands, Raw returns the text that the value at this
    place would have as a document of its own, and goes on after the value.  It is false for keys and for values with
    tags and anchors (below).  It holds for all entries of a sequence without tags and anchors of their own, whatever
    is inside of them; at the end nothing is left and there is no error.  Missing: deeper nesting of the collections
    that are opened. *)
Theorem C65_items_partial : forall o multi es ss fuel, Forall own_value es -> Forall2 alone es ss -> 8 <= fuel ->
  exists s', do_requests (y_engine o) o fuel (ask_items (length es)) (y_reader multi (NSequence es), []) = Done (told_items (length es) ss, s').
Proof. exact sequence_read. Qed.
Print Assumptions C65_items_partial.

(** The same for the values of a mapping whose keys are read as strings. *)
Theorem C65_values_partial : forall o multi es ps fuel, Forall2 pair_alone es ps -> 12 <= fuel ->
  exists s', do_requests (y_engine o) o fuel (ask_pairs (length es)) (y_reader multi (NMapping es), []) = Done (told_pairs (length es) ps, s').
Proof. exact mapping_read. Qed.
Print Assumptions C65_values_partial.

(** Together with C21: the texts read from a sequence of trees that can be written parse back to the entries. *)
Theorem C65_parses_back_partial : forall o multi es, Forall own_value es -> Forall noted es ->
  exists ss, (forall fuel, 8 <= fuel -> exists s',
      do_requests (y_engine o) o fuel (ask_items (length es)) (y_reader multi (NSequence es), []) = Done (told_items (length es) ss, s')) /\
    Forall2 (fun t s => forall digit fuel, 4 * length s + 4 <= fuel -> parse_string digit fuel true s = Fin (inl (reread t)) tt) es ss.
Proof.
  intros o multi es Hv Hn.
  assert (E : exists ss, Forall2 (fun t s => alone t s /\ forall digit fuel, 4 * length s + 4 <= fuel -> parse_string digit fuel true s = Fin (inl (reread t)) tt) es ss).
  { clear Hv. induction Hn as [|t es Ht _ (ss & IH)]; [exists []; constructor|]. destruct (noted_round_trip t Ht) as (s & E1 & E2).
    exists (s :: ss). constructor; [|exact IH]. split; [exact E1|]. intros digit fuel Hf. exact (E2 digit true fuel Hf). }
  destruct E as (ss & E). exists ss. split.
  - intros fuel Hf. apply sequence_read; [exact Hv| |exact Hf]. clear - E. induction E as [|t s es ss [H _] _ IH]; constructor; assumption.
  - clear - E. induction E as [|t s es ss [_ H] _ IH]; constructor; assumption.
Qed.
Print Assumptions C65_parses_back_partial.

Definition plain_ (s : string) : node := NText (t' s) UnknownQuoting.
Definition nl_ : text := [10%N].
Definition c65_list : list node :=
  [plain_ "x y"; NNull; NMapping [NEntry (plain_ "k") (NSequence [plain_ "1"; plain_ "2"])]; NText (t' "q: r") SingleQuoting].
Definition c65_texts : list text :=
  [t' "x y"; t' "null"; t' "k:" ++ nl_ ++ t' "  - 1" ++ nl_ ++ t' "  - 2" ++ nl_; t' "'q: r'"].
Example C65_items_case : Forall own_value c65_list /\ Forall2 alone c65_list c65_texts.
Proof. split; repeat constructor. Qed.
Example C65_values_case :
  Forall2 pair_alone [NEntry (plain_ "a") (NSequence [plain_ "1"]); NEntry (NText (t' "~") SingleQuoting) (plain_ "v")]
    [(t' "a", t' "- 1" ++ nl_); (t' "~", t' "v")].
Proof.
  apply Forall2_cons; [|apply Forall2_cons; [|apply Forall2_nil]].
  - constructor; [left; reflexivity|exact I|reflexivity].
  - constructor; [right; left; reflexivity|exact I|reflexivity].
Qed.

(** ** What is wrong with it *)
(** The tag and the anchor of a value are lost; an alias to an anchor outside stays, so the text does not stand for
    itself. *)
Theorem C65_marks_refuted : forall o multi, exists s',
  let list := [NContent (NProperties (NTag (t' "str")) (NAnchor (t' "a"))) (plain_ "1"); NSequence [NAlias (t' "a")]] in
  do_requests (y_engine o) o 20 (ask_items 2) (y_reader multi (NSequence list), []) = Done (told_items 2 [t' "1"; t' "- *a" ++ nl_], s').
Proof. intros o multi. eexists. vm_compute. reflexivity. Qed.
Print Assumptions C65_marks_refuted.

(** Before a key, Raw returns the whole entry and skips its value. *)
Theorem C65_key_refuted : forall o multi, exists s',
  do_requests (y_engine o) o 20 [QCall DMapping; QCall DRaw; QCall DString] (y_reader multi (NMapping [NEntry (plain_ "a") (plain_ "1"); NEntry (plain_ "b") (plain_ "2")]), []) =
  Done ([PAnswer (AColl (CollState 2 0)); raw (t' "a: 1"); PAnswer (AText (t' "b"))], s').
Proof. intros o multi. eexists. vm_compute. reflexivity. Qed.
Print Assumptions C65_key_refuted.
