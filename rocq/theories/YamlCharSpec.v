(** Grammars of quoted scalars, URIs and tags, written from the YAML 1.2 productions cited in
    the code, independently of the scanning functions. *)
From Coq Require Import String.
From Verif Require Import Base.
Local Open Scope N_scope.

(** [2] nb-json without line breaks: tab, and everything from space on. *)
Definition json_char (r : rune) : Prop := r = 9 \/ (32 <= r /\ r <= 1114111).

Definition hex_char (r : rune) : Prop :=
  (48 <= r <= 57) \/ (65 <= r <= 70) \/ (97 <= r <= 102).

(** [118] nb-single-char*: quotes only as pairs. *)
Inductive single_quoted_content : text -> Prop :=
| sq_nil : single_quoted_content []
| sq_pair s : single_quoted_content s -> single_quoted_content (39 :: 39 :: s)
| sq_char r s : r <> 39 -> json_char r -> single_quoted_content s ->
                single_quoted_content (r :: s).

(** [41-61]: what may follow a backslash, for a given set of one-letter escapes. *)
Inductive escape_body (letters : text) : text -> Prop :=
| eb_letter r : In r letters -> r <> 120 -> r <> 117 -> r <> 85 -> escape_body letters [r]
| eb_x ds : length ds = 2%nat -> Forall hex_char ds -> escape_body letters (120 :: ds)
| eb_u ds : length ds = 4%nat -> Forall hex_char ds -> escape_body letters (117 :: ds)
| eb_U ds : length ds = 8%nat -> Forall hex_char ds -> escape_body letters (85 :: ds).

(** [107] nb-double-char*. *)
Inductive double_quoted_content (letters : text) : text -> Prop :=
| dq_nil : double_quoted_content letters []
| dq_escape e s : escape_body letters e -> double_quoted_content letters s ->
                  double_quoted_content letters (92 :: e ++ s)
| dq_char r s : r <> 92 -> r <> 34 -> json_char r -> double_quoted_content letters s ->
                double_quoted_content letters (r :: s).

(** The one-letter escapes of YAML 1.2 [42-58]:
    0 a b t TAB n v f r e SPACE dquote / backslash N _ L P. *)
Definition yaml_escape_letters : text :=
  [48; 97; 98; 116; 9; 110; 118; 102; 114; 101; 32; 34; 47; 92; 78; 95; 76; 80].

(** [39] ns-uri-char* / [40] ns-tag-char*: allowed characters or %hh, for a given set. *)
Inductive percent_content (allowed : rune -> Prop) : text -> Prop :=
| pc_nil : percent_content allowed []
| pc_hex h1 h2 s : hex_char h1 -> hex_char h2 -> percent_content allowed s ->
                   percent_content allowed (37 :: h1 :: h2 :: s)
| pc_char r s : r <> 37 -> allowed r -> percent_content allowed s ->
                percent_content allowed (r :: s).

Definition word_char (r : rune) : Prop :=
  (48 <= r <= 57) \/ (65 <= r <= 90) \/ (97 <= r <= 122) \/ r = 45.

(** ns-uri-char: word characters and #;/?:@&=+$,_.!~*'()[] in YAML; the code allows flow
    indicators {} as well and does not allow parentheses. *)
Definition code_uri_char (r : rune) : Prop :=
  word_char r \/ In r (t' "#;/?:@&=+$_.!~*',[]{}").
Definition code_tag_char (r : rune) : Prop :=
  (48 <= r <= 57) \/ (65 <= r <= 90) \/ (97 <= r <= 122) \/ In r (t' "#;/?:@&=+$_.~*'").
