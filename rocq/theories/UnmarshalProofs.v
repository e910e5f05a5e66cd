(** From a text to a Go value. *)
From Verif Require Import Base Values Ast Writer Parser ParserDocs RoundTripProofs Reader ReadSpec ReaderSpec YReader GenCode GenSpec GenMarshal CursorSpec
  MeaningSpec MeaningReads TextSpec.
Local Open Scope nat_scope.

Theorem text_means digit x tb omitempty strict o zero_of t z n s w v :
  sensible x tb -> zeros x tb zero_of -> known tb t -> typed tb t z -> document_text n s -> y_tree n = Some w ->
  meaning_of x tb omitempty strict o zero_of t z (doc w) = Gives v ->
  exists F, forall f, F <= f -> y_unmarshal digit x tb omitempty strict o f t z s = Done (v, None).
Proof.
  intros Hx Hz Hk Ht Hs Hw Hv. destruct (y_decode_gives x tb omitempty strict o zero_of t z n w v false Hx Hz Hk Ht Hw Hv) as (F & HF).
  exists (F + 4 * length s + 4). intros f Hf. unfold y_unmarshal. rewrite (reads_back digit true n s Hs f) by lia.
  destruct (HF f ltac:(lia)) as (r & hs & -> & He). cbn [obind fst snd]. unfold no_errors in He. rewrite He. reflexivity.
Qed.
