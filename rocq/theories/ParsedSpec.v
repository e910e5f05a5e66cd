(** Which trees documents have. *)
From Verif Require Import Base Ast.

(** A tag or an anchor or both; a part that was not found is nil or invalid. *)
Definition absent (n : node) : Prop := n = NNil \/ n = NInvalid.
Inductive properties : node -> Prop :=
| props_tag s a : absent a -> properties (NProperties (NTag s) a)
| props_anchor t s : absent t -> properties (NProperties t (NAnchor s))
| props_both s r : properties (NProperties (NTag s) (NAnchor r)).

(** A document is a scalar, a collection or an alias, and what is not an alias may have properties.  Elements of sequences
    are documents or single pairs, the keys and values of pairs are documents. *)
Inductive document : node -> Prop :=
| doc_alias s : document (NAlias s)
| doc_content c : content c -> document c
| doc_properties p c : properties p -> content c -> document (NContent p c)
with content : node -> Prop :=
| con_null : content NNull
| con_text s q : content (NText s q)
| con_seq l : Forall (fun n => document n \/ pair n) l -> content (NSequence l)
| con_map l : Forall pair l -> content (NMapping l)
with pair : node -> Prop :=
| a_pair k v : document k -> document v -> pair (NEntry k v).

(** Documents without aliases and without single pairs in sequences. *)
Inductive simple : node -> Prop :=
| simple_null : simple NNull
| simple_text s q : simple (NText s q)
| simple_seq l : Forall (fun n => simple n /\ ~ exists k v, n = NEntry k v) l -> simple (NSequence l)
| simple_map l : Forall simple l -> simple (NMapping l)
| simple_pair k v : simple k -> simple v -> simple (NEntry k v)
| simple_properties p c : simple c -> simple (NContent p c).
