(** C57: printed trees. *)
From Coq Require Import String.
From Verif Require Import Base Ast ParsedSpec Printer PrinterSpec PrinterProofs.
Local Open Scope N_scope.

(** Trees without nil elements are drawn: one line per node, with bars for the siblings that follow. *)
Theorem C57_print_is_the_drawing : forall n, whole n -> own_text n = None -> print n = PrText (drawing (shape n)).
Proof. exact print_tree. Qed.
Theorem C57_one_line_per_node : forall n, whole n -> own_text n = None ->
  exists s, print n = PrText s /\ lines s = nodes (shape n).
Proof. exact print_lines. Qed.
(** A printed tree tells the tree but for the quotation marks, as long as there are no backslashes in it.  *)
Theorem C57_print_tells_the_tree : forall n m, proper n -> proper m ->
  (forall s, In s (texts n ++ texts m) -> ~ In 92 s) -> print n = print m -> unquoted n = unquoted m.
Proof. exact prints_differ. Qed.
(** With backslashes it does not: a line feed and the two characters [\n] are printed alike. *)
Theorem C57_backslashes_refuted : ~ forall n m, proper n -> proper m -> print n = print m -> unquoted n = unquoted m.
Proof.
  intro H. specialize (H (NSequence [NText (t' "a" ++ [10] ++ t' "b") UnknownQuoting]) (NSequence [NText (t' "a\nb") UnknownQuoting])).
  assert (E : unquoted (NSequence [NText (t' "a" ++ [10] ++ t' "b") UnknownQuoting]) = unquoted (NSequence [NText (t' "a\nb") UnknownQuoting])); [|discriminate E].
  apply H; [repeat constructor|repeat constructor|vm_compute; reflexivity].
Qed.
(** Nor does it tell the quotation marks. *)
Theorem C57_quotes_refuted : ~ forall n m, proper n -> proper m -> (forall s, In s (texts n ++ texts m) -> ~ In 92 s) -> print n = print m -> n = m.
Proof.
  intro H. specialize (H (NText (t' "1") UnknownQuoting) (NText (t' "1") DoubleQuoting)).
  assert (E : NText (t' "1") UnknownQuoting = NText (t' "1") DoubleQuoting); [|discriminate E].
  apply H; [constructor|constructor| |vm_compute; reflexivity]. cbn. intros s [<-|[<-|[]]] [X|[]]; discriminate X.
Qed.
(** A text alone is printed as it is, with its line feeds. *)
Theorem C57_one_line_refuted : ~ forall n, whole n -> exists s, print n = PrText s /\ lines s = nodes (shape n).
Proof.
  intro H. destruct (H (NText (t' "a" ++ [10] ++ t' "b") UnknownQuoting) I) as (s & E & L).
  vm_compute in E. inversion E. subst s. vm_compute in L. discriminate L.
Qed.
(** Print gives an error for a nil tree, but panics for a tree with nil elements, as Builders may give (C19). *)
Theorem C57_nil : print NNil = PrError.
Proof. reflexivity. Qed.
Theorem C57_nil_elements_refuted : ~ forall n, print n <> PrPanic.
Proof. intro H. apply (H (NSequence [NNil])). reflexivity. Qed.

Print Assumptions C57_print_is_the_drawing.
Print Assumptions C57_one_line_per_node.
Print Assumptions C57_print_tells_the_tree.
Print Assumptions C57_backslashes_refuted.
Print Assumptions C57_quotes_refuted.
Print Assumptions C57_one_line_refuted.
Print Assumptions C57_nil.
Print Assumptions C57_nil_elements_refuted.

Example C57_tree : node := NStream [NMapping [
  NEntry (NText (t' "a") UnknownQuoting) (NSequence [NText (t' "x") UnknownQuoting; NAlias (t' "y")]);
  NEntry (NText (t' "b") UnknownQuoting) (NContent (NProperties (NTag (t' "str")) NNil) NNull)]].
Example C57_drawn : print C57_tree = PrText (
  t' "[stream] " ++ [10] ++
  [9492; 9472; 9472] ++ t' " [mapping] " ++ [10] ++
  t' "    " ++ [9500; 9472; 9472] ++ t' " [mapping_entry] " ++ [10] ++
  t' "    " ++ [9474] ++ t' "   " ++ [9500; 9472; 9472] ++ t' " [text] a" ++ [10] ++
  t' "    " ++ [9474] ++ t' "   " ++ [9492; 9472; 9472] ++ t' " [sequence] " ++ [10] ++
  t' "    " ++ [9474] ++ t' "       " ++ [9500; 9472; 9472] ++ t' " [text] x" ++ [10] ++
  t' "    " ++ [9474] ++ t' "       " ++ [9492; 9472; 9472] ++ t' " [alias] y" ++ [10] ++
  t' "    " ++ [9492; 9472; 9472] ++ t' " [mapping_entry] " ++ [10] ++
  t' "        " ++ [9500; 9472; 9472] ++ t' " [text] b" ++ [10] ++
  t' "        " ++ [9492; 9472; 9472] ++ t' " [content] " ++ [10] ++
  t' "            " ++ [9500; 9472; 9472] ++ t' " [properties] " ++ [10] ++
  t' "            " ++ [9474] ++ t' "   " ++ [9492; 9472; 9472] ++ t' " [tag] str" ++ [10] ++
  t' "            " ++ [9492; 9472; 9472] ++ t' " [null] " ++ [10]).
Proof. vm_compute. reflexivity. Qed.
Example C57_tree_ok : proper C57_tree /\ whole C57_tree /\ own_text C57_tree = None /\ nodes (shape C57_tree) = 13%nat /\
  (forall s, In s (texts C57_tree ++ texts C57_tree) -> ~ In 92 s).
Proof.
  split; [repeat constructor|]. split; [apply proper_whole; repeat constructor|]. split; [reflexivity|]. split; [reflexivity|].
  cbn. intros s H. repeat (destruct H as [<-|H]; [cbn; intuition discriminate|]). destruct H.
Qed.
