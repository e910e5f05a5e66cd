(** Texts with directives before the first document: the version of the language, prefixes of tags, and directives that mean nothing. *)
From Coq Require Import String.
From Verif Require Import Base Ast RoundTripSpec TextSpec.
Local Open Scope N_scope.

Definition decimal (c : rune) : Prop := 48 <= c <= 57.
Inductive version_text : text -> Prop :=
| vn_pair a b : a <> [] -> Forall decimal a -> b <> [] -> Forall decimal b -> version_text (a ++ 46 :: b).
(** The characters of names and parameters: no blanks, no line breaks, no byte order mark. *)
Definition name_char (c : rune) : Prop := ~ In c [9; 10; 13; 32; 65279].
Inductive params_text : text -> Prop :=
| pm_none : params_text []
| pm_more n w s : w <> [] -> Forall name_char w -> params_text s -> params_text (spaces (S n) ++ w ++ s).
(** The characters of prefixes of tags, without escapes: those of tags, the dash, ! and the brackets and commas of flow
    collections. *)
Definition uri_char (c : rune) : Prop := tag_char c \/ In c [45; 33; 44; 91; 93; 123; 125].
Inductive handle_text : text -> Prop :=
| hd_primary : handle_text [33]
| hd_secondary : handle_text [33; 33]
| hd_named h : h <> [] -> Forall handle_char h -> handle_text (33 :: h ++ [33]).
(** A directive, up to the next line that counts. *)
Inductive directive_text : text -> Prop :=
| dv_version n v g : version_text v -> gap_text g -> directive_text (t' "%YAML" ++ spaces (S n) ++ v ++ g)
| dv_tag n h m c u l : handle_text h -> tag_char c -> Forall uri_char u -> idle_text l ->
    directive_text (t' "%TAG" ++ spaces (S n) ++ h ++ spaces (S m) ++ (c :: u) ++ 10 :: l)
| dv_other w ps l : w <> [] -> Forall name_char w -> w <> t' "YAML" -> w <> t' "TAG" -> params_text ps -> idle_text l ->
    directive_text (37 :: w ++ ps ++ 10 :: l).
Inductive directives_text : text -> Prop :=
| dv_one s : directive_text s -> directives_text s
| dv_more s s2 : directive_text s -> directives_text s2 -> directives_text (s ++ s2).
(** A stream whose first document follows directives and the mark of three dashes. *)
Inductive directed_text : list node -> text -> Prop :=
| dd_stream o l d t s ds s2 : idle_text l -> directives_text d -> marked_text o t s -> docs_text o ds s2 -> joins s s2 ->
    directed_text (t :: ds) (l ++ d ++ mark_text ++ s ++ s2).
