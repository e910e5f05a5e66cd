(** C66 *)
From Coq Require Import String.
From Verif Require Import Base Schema BinarySpec BinaryProofs.
From Coq Require Import Lia.
Local Open Scope N_scope.

(** C66, full statement: a text is recognised as binary if and only if it is base64 when its white space
    is left out.  False: white space inside a group of four ... *)
Theorem C66_break_refuted :
  exists s t l, decodes s l /\ unspaced s t /\ sc_is_binary t = false.
Proof. exact break_inside_group. Qed.
Print Assumptions C66_break_refuted.

(** ... and padding that is not at the end. *)
Theorem C66_padding_refuted :
  exists s t, sc_is_binary t = true /\ unspaced s t /\ forall l, ~ decodes s l.
Proof. exact padding_inside. Qed.
Print Assumptions C66_padding_refuted.

(** C66, proved part: exact for texts without white space ... *)
Theorem C66_word_partial :
  forall s, Forall (fun r => is_unicode_space r = false) s ->
    sc_is_binary s = true <-> exists l, decodes s l.
Proof. exact word_iff. Qed.
Print Assumptions C66_word_partial.

(** ... every base64 text is recognised with any white space between its groups ... *)
Theorem C66_spaced_partial :
  forall s t l, decodes s l -> spaced s t -> sc_is_binary t = true.
Proof. exact spaced_recognised. Qed.
Print Assumptions C66_spaced_partial.

(** ... in particular what encoders write in lines whose lengths are multiples of four. *)
Theorem C66_encoded_partial :
  forall l t, Forall (fun x => x < 256) l -> decodes (encode64 l) l /\ (spaced (encode64 l) t -> sc_is_binary t = true).
Proof. intros l t F. split; [exact (encode_decodes l F)|exact (encoded_recognised l t F)]. Qed.
Print Assumptions C66_encoded_partial.

Example C66_case :
  encode64 [77; 97; 110; 255] = t' "TWFu/w==" /\
  spaced (t' "TWFu/w==") (t' "TWFu" ++ [10; 32] ++ t' "/w==" ++ [10]) /\
  sc_is_binary (t' "TWFu" ++ [10; 32] ++ t' "/w==" ++ [10]) = true /\
  sc_is_binary (t' "TWF") = false /\ sc_is_binary (t' "TW=u") = false /\ sc_is_binary (t' "TWF-") = false.
Proof.
  split; [reflexivity|]. split; [|repeat split].
  cbv. repeat (first [apply sp_nil | apply sp_group | apply sp_white; [unfold white; lia|]]).
Qed.
