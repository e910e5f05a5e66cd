(** Property theorems C11 - C14. *)
From Coq Require Import String.
From Verif Require Import Base Schema SchemaSpec SchemaProofs.
Local Open Scope N_scope.

(** C11: a formatted signed integer denotes the number (canonically), is recognised as an integer,
    and is read back unchanged at any width it fits in, and refused at any width it does not. *)
Theorem C11_signed_round_trip :
  forall z bits, 1 <= bits ->
    yaml_integer (sc_from_integer z) z /\
    sc_is_integer (sc_from_integer z) = true /\
    sc_to_integer (sc_from_integer z) bits = if fits_int bits z then Some z else None.
Proof. exact from_integer_roundtrip. Qed.
Print Assumptions C11_signed_round_trip.

Example C11_case :
  sc_from_integer (- 2 ^ 63) = t' "-9223372036854775808" /\
  sc_to_integer (t' "-9223372036854775808") 64 = Some (- 2 ^ 63)%Z /\
  sc_to_integer (t' "9223372036854775808") 64 = None /\
  sc_to_integer (t' "-128") 8 = Some (-128)%Z /\ sc_to_integer (t' "128") 8 = None.
Proof. repeat split. Qed.

(** C12: the same for unsigned integers. *)
Theorem C12_unsigned_round_trip :
  forall n bits,
    yaml_unsigned (sc_from_unsigned n) n /\
    sc_is_unsigned (sc_from_unsigned n) = true /\
    sc_is_integer (sc_from_unsigned n) = true /\
    sc_to_unsigned (sc_from_unsigned n) bits = if fits_uint bits n then Some n else None.
Proof. exact from_unsigned_roundtrip. Qed.
Print Assumptions C12_unsigned_round_trip.

Example C12_case :
  sc_from_unsigned (2 ^ 64 - 1) = t' "18446744073709551615" /\
  sc_to_unsigned (t' "18446744073709551615") 64 = Some (2 ^ 64 - 1) /\
  sc_to_unsigned (t' "256") 8 = None /\ sc_to_unsigned (t' "0") 8 = Some 0.
Proof. repeat split. Qed.

(** C13: null, boolean and number recognition follow the core schema ... *)
Theorem C13_recognisers_exact :
  forall s,
    (sc_is_null s = true <-> yaml_null s) /\
    (forall b, sc_to_boolean s = Some b <-> yaml_boolean s b) /\
    (sc_is_boolean s = true <-> exists b, yaml_boolean s b) /\
    (sc_is_integer s = true <-> exists z, yaml_integer s z) /\
    (sc_is_unsigned s = true <-> exists n, yaml_unsigned s n) /\
    (sc_is_float s = true <-> yaml_float s).
Proof.
  exact (fun s => conj (is_null_iff s) (conj (to_boolean_iff s) (conj (is_boolean_iff s)
    (conj (is_integer_iff s) (conj (is_unsigned_iff s) (is_float_iff s)))))).
Qed.
Print Assumptions C13_recognisers_exact.

(** ... and are pairwise disjoint. *)
Theorem C13_kinds_disjoint :
  forall s,
    let number := sc_is_integer s || sc_is_unsigned s || sc_is_float s in
    (sc_is_null s && sc_is_boolean s = false) /\ (sc_is_null s && number = false) /\
    (sc_is_boolean s && number = false).
Proof. exact kinds_disjoint. Qed.
Print Assumptions C13_kinds_disjoint.

(** A boolean survives conversion to text and back. *)
Theorem C13_boolean_round_trip :
  forall b, sc_to_boolean (sc_from_boolean b) = Some b.
Proof. exact boolean_round_trip. Qed.
Print Assumptions C13_boolean_round_trip.

Example C13_case :
  sc_is_null (t' "~") = true /\ sc_is_boolean (t' "TRUE") = true /\ sc_is_float (t' "-1.5e+3") = true
  /\ sc_is_float (t' "+.Inf") = true /\ sc_is_integer (t' "0x1F") = true
  /\ sc_is_float (t' "1e") = false /\ sc_is_boolean (t' "yes") = false.
Proof. repeat split. Qed.

(** C14, full statement: every text recognised as an integer is converted to the number it denotes
    if that fits.  False for decimal numbers with leading zeros (read as octal or refused) ... *)
Theorem C14_signed_refuted :
  (exists s z v, yaml_integer s z /\ sc_is_integer s = true /\ fits_int 64 z = true /\
                 sc_to_integer s 64 = Some v /\ v <> z) /\
  (exists s z, yaml_integer s z /\ sc_is_integer s = true /\ fits_int 64 z = true /\
               sc_to_integer s 64 = None).
Proof. exact signed_conversion_wrong. Qed.
Print Assumptions C14_signed_refuted.

(** ... and, for unsigned numbers, with an explicit plus sign. *)
Theorem C14_unsigned_refuted :
  exists s n, yaml_unsigned s n /\ sc_is_unsigned s = true /\ fits_uint 64 n = true /\
              padded s = false /\ sc_to_unsigned s 64 = None.
Proof. exact unsigned_conversion_wrong. Qed.
Print Assumptions C14_unsigned_refuted.

(** C14, proved part: all other recognised texts (missing: leading zeros; plus sign when unsigned). *)
Theorem C14_signed_partial :
  forall s z bits, 1 <= bits -> yaml_integer s z -> padded s = false ->
    sc_to_integer s bits = if fits_int bits z then Some z else None.
Proof. exact to_integer_correct. Qed.
Print Assumptions C14_signed_partial.

Theorem C14_unsigned_partial :
  forall s n bits, yaml_unsigned s n -> padded s = false -> hd_error s <> Some 43 ->
    sc_to_unsigned s bits = if fits_uint bits n then Some n else None.
Proof. exact to_unsigned_correct. Qed.
Print Assumptions C14_unsigned_partial.

Example C14_case :
  yaml_integer (t' "+0") 0 /\ yaml_integer (t' "0o17") 15 /\ padded (t' "0o17") = false /\
  sc_to_integer (t' "0o17") 64 = Some 15%Z /\ sc_to_integer (t' "+7") 64 = Some 7%Z /\
  sc_to_unsigned (t' "0xff") 8 = Some 255.
Proof. exact C14_case_lemma. Qed.
