(** Specifications for the generator helpers, independent of their code. *)
From Coq Require Import String.
From Verif Require Import Base Generator.
Local Open Scope N_scope.

(** [parts s l]: [s] is the texts [l] with commas in between, and there are no other commas *)
Inductive parts : text -> list text -> Prop :=
| parts_one x : ~ In 44 x -> parts x [x]
| parts_more x s l : ~ In 44 x -> parts s l -> parts (x ++ 44 :: s) (x :: l).

(** the types that are needed for some types: these, and what generating a needed one asks for *)
Inductive needed {T} (asks : T -> option (list T)) (roots : list T) : T -> Prop :=
| need_root x : In x roots -> needed asks roots x
| need_more x l y : needed asks roots x -> asks x = Some l -> In y l -> needed asks roots y.

(** digits, a dot, digits *)
Definition version_text (digit : rune -> Prop) (s : text) : Prop :=
  exists a b, s = a ++ 46 :: b /\ a <> [] /\ b <> [] /\ Forall digit a /\ Forall digit b.

(** white space as Go sees it *)
Inductive blank : rune -> Prop :=
| bl_ascii c : 9 <= c <= 13 -> blank c
| bl_space : blank 32
| bl_wide c : In c [133; 160; 5760; 8192; 8193; 8194; 8195; 8196; 8197; 8198; 8199; 8200; 8201; 8202; 8232; 8233; 8239; 8287; 12288] -> blank c.
Definition no_comment (s : text) : Prop := forall a b, s <> a ++ 47 :: 47 :: b.
(** a line of a go.mod file that declares the module [path]; the path as it is or in quotes *)
Inductive declares : text -> text -> Prop :=
| decl_plain ws1 ws2 path ws3 comment :
    Forall blank ws1 -> Forall blank ws2 -> ws2 <> [] -> Forall blank ws3 ->
    comment = [] \/ (exists c, comment = 47 :: 47 :: c) ->
    path <> [] -> no_comment (path ++ ws3) -> Forall (fun c => ~ blank c) path ->
    (forall q r, path = q :: r -> q <> 34 /\ q <> 96 /\ q <> 40) -> last path 0 <> 47 ->
    declares (ws1 ++ t' "module" ++ ws2 ++ path ++ ws3 ++ comment) path
| decl_quoted ws1 ws2 q path ws3 comment :
    Forall blank ws1 -> Forall blank ws2 -> ws2 <> [] -> Forall blank ws3 ->
    comment = [] \/ (exists c, comment = 47 :: 47 :: c) ->
    q = 34 \/ q = 96 -> no_comment path -> Forall (fun c => ~ blank c /\ c <> 34 /\ c <> 92 /\ c <> 96) path ->
    declares (ws1 ++ t' "module" ++ ws2 ++ q :: path ++ q :: ws3 ++ comment) path.
(** a line that has nothing to do with it: no white space follows a leading word module *)
Definition other_line (s : text) : Prop :=
  forall ws c rest, Forall blank ws -> s = ws ++ t' "module" ++ c :: rest -> ~ blank c.

(** the path of a package as imported: what follows the last vendor directory in it, if there is one *)
Definition unvendored (path q : text) : Prop :=
  (exists a, path = a ++ t' "/vendor/" ++ q /\ forall b r, t' "/vendor/" ++ q = b ++ t' "/vendor/" ++ r -> b = [])
  \/ (q = path /\ forall a r, path <> a ++ t' "/vendor/" ++ r).

(** ** fields *)
Section FieldSpec.
  Context (upper : rune -> bool) (inline_embedded : bool) (tt : ttable).
  (** the field stands for the fields of its type *)
  Definition spread (f : sfield) : Prop :=
    (sf_embedded f = true /\ inline_embedded = true /\ exists opts, parts (snd f) ([] :: opts))
    \/ (exists name opts, parts (snd f) (name :: opts) /\ In (t' "inline") opts).
  Definition public (f : sfield) : Prop := exists c r, sf_name f = c :: r /\ upper c = true.
  (** a type, or what it is a pointer to *)
  Definition points_to (i j : nat) : Prop :=
    nth_error tt i = Some (TdPointer j) \/ (i = j /\ forall k, nth_error tt i <> Some (TdPointer k)).
  (** the fields that a struct type has of its own: the public ones, except those that stand for the fields of their type *)
  Definition own (i : nat) (f : sfield) : Prop :=
    exists fs, nth_error tt i = Some (TdStruct fs) /\ In f fs /\
    ((~ spread f /\ public f)
     \/ (spread f /\ (exists j, points_to (sf_type f) j /\ nth_error tt j = Some TdBasic) /\ (public f \/ In 46 (sf_name f)))).
  (** these and those of the structs that fields stand for *)
  Inductive candidate : nat -> sfield -> Prop :=
  | cand_own i f : own i f -> candidate i f
  | cand_inner i fs x j fs' f : nth_error tt i = Some (TdStruct fs) -> In x fs -> spread x -> points_to (sf_type x) j ->
      nth_error tt j = Some (TdStruct fs') -> candidate j f -> candidate i f.
  (** a rule of Go *)
  Definition distinct_fields : Prop := forall i fs, nth_error tt i = Some (TdStruct fs) -> NoDup (map sf_name fs).
End FieldSpec.
