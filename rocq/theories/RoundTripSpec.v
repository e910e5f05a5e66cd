(** Specification of writing and reading back: the trees considered and what is read for them. *)
From Coq Require Import String.
From Verif Require Import Base Ast.
Local Open Scope N_scope.

(** A character of a plain word: not a space, tab, line break or byte order mark, and none of the
    indicators exclamation mark, quotes, percent, comma, brackets and braces. *)
Definition plain_char (c : rune) : Prop :=
  ~ In c [9; 10; 13; 32; 65279; 33; 34; 37; 39; 44; 91; 93; 123; 125].
(** A word: it does not start with # & * | > , does not end with a colon and is not one of the
    indicators - ? and the markers --- and ... *)
Definition plain_word (w : text) : Prop :=
  w <> [] /\ Forall plain_char w /\ ~ In (hd 0 w) [35; 38; 42; 124; 62] /\ last w 0 <> 58 /\
  ~ In w [[45]; [63]; [45; 45; 45]; [46; 46; 46]].
(** Words separated by spaces. *)
Inductive plain_text : text -> Prop :=
| pt_word w : plain_word w -> plain_text w
| pt_more w n s : plain_word w -> plain_text s -> plain_text (w ++ repeat 32 (S n) ++ s).

(** Texts that single and double quotes can hold without any escape: printable characters and spaces
    (for single quotes also tabs), no quote of the same kind, no byte order mark. *)
Definition single_char (c : rune) : Prop := (c = 9 \/ 32 <= c <= 1114111) /\ ~ In c [39; 65279].
Definition double_char (c : rune) : Prop :=
  32 <= c <= 1114111 /\ ~ In c [34; 92; 133; 160; 8232; 8233; 65279].

Inductive simple_scalar : node -> Prop :=
| ss_plain s q : q = UnknownQuoting \/ q = AbsentQuoting -> plain_text s -> simple_scalar (NText s q)
| ss_single s : Forall single_char s -> simple_scalar (NText s SingleQuoting)
| ss_double s : Forall double_char s -> simple_scalar (NText s DoubleQuoting)
| ss_null : simple_scalar NNull.

(** Trees of such scalars (and nulls), non-empty sequences and non-empty mappings with scalar keys, nested at
    will. *)
Inductive simple : node -> Prop :=
| simple_scalar_ t : simple_scalar t -> simple t
| simple_sequence es : es <> [] -> Forall simple es -> simple (NSequence es)
| simple_mapping es : es <> [] -> Forall simple_entry es -> simple (NMapping es)
with simple_entry : node -> Prop :=
| simple_entry_ k v : simple_scalar k -> simple v -> simple_entry (NEntry k v).

(** What is read for a tree: the tree itself, except that a text requested without quotes comes back
    with the parser's label for unquoted text, and that a null comes back as the unquoted text null. *)
Fixpoint reread (t : node) : node :=
  match t with
  | NText s AbsentQuoting => NText s UnknownQuoting
  | NNull => NText (t' "null") UnknownQuoting
  | NSequence es => NSequence (map reread es)
  | NMapping es => NMapping (map reread es)
  | NEntry k v => NEntry (reread k) (reread v)
  | NContent p c => NContent p (reread c)
  | _ => t
  end.
