(** Types in Go's notation. *)
From Coq Require Import String.
From Verif Require Import Base Generator TypeNames.
Local Open Scope N_scope.

Definition predeclared : list text :=
  [t' "any"; t' "bool"; t' "byte"; t' "comparable"; t' "complex64"; t' "complex128"; t' "error"; t' "float32";
   t' "float64"; t' "int"; t' "int8"; t' "int16"; t' "int32"; t' "int64"; t' "rune"; t' "string"; t' "uint";
   t' "uint8"; t' "uint16"; t' "uint32"; t' "uint64"; t' "uintptr"].

(** Characters that stand for themselves in names and paths: no dot, star, bracket, brace, blank,
    semicolon or back quote *)
Definition path_char (c : rune) : Prop :=
  c <> 42 /\ c <> 91 /\ c <> 93 /\ c <> 32 /\ c <> 59 /\ c <> 96 /\ c <> 125.
Definition name_char (c : rune) : Prop := c <> 46 /\ path_char c.
Definition name (n : text) : Prop := n <> [] /\ Forall name_char n /\ n <> t' "struct".

Definition gofield : Type := text * bool * gotyp * text.
Definition field_type (f : gofield) : gotyp := snd (fst f).

(** A field: embedded ones are called like their type; tags without back quotes *)
Inductive plain_field : gofield -> Prop :=
| pf_named n t tag : name n -> ~ In 96 tag -> plain_field (n, false, t, tag)
| pf_embedded p n tag : ~ In 96 tag -> plain_field (n, true, YName p n, tag)
| pf_pointer p n tag : ~ In 96 tag -> plain_field (n, true, YPtr (YName p n), tag).

(** The types looked at, seen from the package [own]: predeclared types, types declared in [own] under
    other names, types of packages outside of vendor directories, and what is made of them. *)
Inductive plain (own : text) : gotyp -> Prop :=
| pl_predeclared n : In n predeclared -> plain own (YName [] n)
| pl_own n : name n -> ~ In n predeclared -> plain own (YName own n)
| pl_other p n : p <> [] -> p <> own -> Forall path_char p -> (forall a b, p <> a ++ t' "/vendor/" ++ b) ->
    name n -> plain own (YName p n)
| pl_ptr t : plain own t -> plain own (YPtr t)
| pl_slice t : plain own t -> plain own (YSlice t)
| pl_array n t : plain own t -> plain own (YArray n t)
| pl_map k v : plain own k -> plain own v -> plain own (YMap k v)
| pl_struct fs : Forall (fun f => plain own (field_type f)) fs -> Forall plain_field fs -> plain own (YStruct fs).

(** A tag as a raw string, if there is one *)
Inductive tag_text : text -> text -> Prop :=
| tt_none : tag_text [] []
| tt_raw tag : tag <> [] -> tag_text tag (t' " `" ++ tag ++ t' "`").

(** [notation own im t s]: [s] is the type [t] in a file of the package [own] with the imports [im] *)
Inductive notation (own : text) (im : imports) : gotyp -> text -> Prop :=
| no_predeclared n : In n predeclared -> notation own im (YName [] n) n
| no_own n : notation own im (YName own n) n
| no_other p n a : p <> [] -> p <> own -> In (p, a) im -> notation own im (YName p n) (a ++ t' "." ++ n)
| no_ptr t s : notation own im t s -> notation own im (YPtr t) (t' "*" ++ s)
| no_slice t s : notation own im t s -> notation own im (YSlice t) (t' "[]" ++ s)
| no_array n t s : notation own im t s -> notation own im (YArray n t) (t' "[" ++ itoa n ++ t' "]" ++ s)
| no_map k v a b : notation own im k a -> notation own im v b ->
    notation own im (YMap k v) (t' "map[" ++ a ++ t' "]" ++ b)
| no_struct fs s : fields_notation own im fs s -> notation own im (YStruct fs) (t' "struct { " ++ s ++ t' " }")
with fields_notation (own : text) (im : imports) : list gofield -> text -> Prop :=
| fn_none : fields_notation own im [] []
| fn_last f s : field_notation own im f s -> fields_notation own im [f] s
| fn_more f g fs s ss : field_notation own im f s -> fields_notation own im (g :: fs) ss ->
    fields_notation own im (f :: g :: fs) (s ++ t' "; " ++ ss)
with field_notation (own : text) (im : imports) : gofield -> text -> Prop :=
| fn_named n t tag s tg : notation own im t s -> tag_text tag tg ->
    field_notation own im (n, false, t, tag) (n ++ t' " " ++ s ++ tg)
| fn_embedded n t tag s tg : notation own im t s -> tag_text tag tg ->
    field_notation own im (n, true, t, tag) (s ++ tg).
