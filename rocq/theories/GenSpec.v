(** Which Go values belong to a type, what the zero value is, and which values can survive being
    encoded and decoded again. *)
From Coq Require Import String.
From Verif Require Import Base Schema SchemaSpec Values Ast Writer Builder GBuilder Reader YReader GReader GenCode.
Local Open Scope nat_scope.

Section Types.
  Context (x : externs) (tb : structs).

  Definition nilable (t : gotype) : bool :=
    match t with TyBytes | TySlice _ | TyPtr _ | TyMap _ _ => true | _ => false end.

  (** [typed t v]: [v] is a value of the type.  The keys of a map are distinct, the names of the
      fields of a struct that are not left out are distinct. *)
  Inductive typed : gotype -> goval -> Prop :=
  | T_string s : typed TyString (GoString s)
  | T_bool b : typed TyBool (GoBool b)
  | T_int bits z : (1 <= bits)%N -> fits_int bits z = true -> typed (TyInt bits) (GoInt z)
  | T_uint bits n : fits_uint bits n = true -> typed (TyUint bits) (GoUint n)
  | T_float bits n : typed (TyFloat bits) (GoFloat n)
  | T_text k n : typed (TyText k) (GoText n)
  | T_bytes s : typed TyBytes (GoBytes s)
  | T_nil t : nilable t = true -> typed t GoNil
  | T_slice e l : Forall (typed e) l -> typed (TySlice e) (GoSlice l)
  | T_array e l : Forall (typed e) l -> typed (TyArray (length l) e) (GoArray l)
  | T_ptr e v : typed e v -> typed (TyPtr e) (GoPtr v)
  | T_map k e l : Forall (fun kv => typed k (fst kv) /\ typed e (snd kv)) l -> NoDup (map fst l) ->
      typed (TyMap k e) (GoMap l)
  | T_struct i fs l : nth_error tb i = Some fs ->
      NoDup (map fl_name (filter (fun d => negb (fl_skip d)) fs)) ->
      Forall2 (fun d v => typed (fl_type d) v) fs l -> typed (TyStruct i) (GoStruct l).

  Inductive zeroval : gotype -> goval -> Prop :=
  | Z_string : zeroval TyString (GoString [])
  | Z_bool : zeroval TyBool (GoBool false)
  | Z_int bits : zeroval (TyInt bits) (GoInt 0)
  | Z_uint bits : zeroval (TyUint bits) (GoUint 0)
  | Z_float bits : zeroval (TyFloat bits) (GoFloat 0)
  | Z_text k : zeroval (TyText k) (GoText (x_zero x k))
  | Z_nil t : nilable t = true -> zeroval t GoNil
  | Z_array e l : Forall (zeroval e) l -> zeroval (TyArray (length l) e) (GoArray l)
  | Z_struct i fs l : nth_error tb i = Some fs ->
      Forall2 (fun d v => zeroval (fl_type d) v) fs l -> zeroval (TyStruct i) (GoStruct l).

  (** false, 0, a nil pointer, and everything of length 0 *)
  Definition empty (v : goval) : Prop :=
    match v with
    | GoNil | GoString [] | GoBytes [] | GoSlice [] | GoMap [] | GoBool false | GoInt 0 | GoUint 0 => True
    | GoFloat n => n = 0%N \/ n = (2 ^ 63)%N
    | _ => False
    end.

  (** a nil, or a pointer to a nil: both are written as null *)
  Fixpoint null_like (v : goval) : Prop :=
    match v with GoNil => True | GoPtr v' => null_like v' | _ => False end.

  Section Survives.
  Context (o : oracle).
  Context (omitempty : bool).              (* the option *)

  (** [survives om t v] ([om]: the value is part of a field with omitempty): floats and texts come
      back from their texts, no pointer to a nil, no empty map where omitempty is in effect, nothing
      but the zero value in fields that are left out. *)
  Inductive survives : bool -> gotype -> goval -> Prop :=
  | S_simple om t v : match t with TyString | TyBool | TyInt _ | TyUint _ | TyBytes => True | _ => False end ->
      survives om t v
  | S_float om bits n : sc_is_float (x_float x n) = true -> o_float o (x_float x n) bits = Some n ->
      survives om (TyFloat bits) (GoFloat n)
  | S_text om k n s : x_marshal x k n = inl s -> x_unmarshal x k s = Some n -> survives om (TyText k) (GoText n)
  | S_nil om t : survives om t GoNil
  | S_slice om e l : Forall (survives om e) l -> survives om (TySlice e) (GoSlice l)
  | S_array om n e l : Forall (survives om e) l -> survives om (TyArray n e) (GoArray l)
  | S_ptr om e v : ~ null_like v -> survives om e v -> survives om (TyPtr e) (GoPtr v)
  | S_map om k e l : (om = true -> l <> []) ->
      Forall (fun kv => survives om k (fst kv) /\ survives om e (snd kv)) l -> survives om (TyMap k e) (GoMap l)
  | S_struct om i fs l : nth_error tb i = Some fs -> Forall2 field_survives fs l ->
      survives om (TyStruct i) (GoStruct l)
  with field_survives : field -> goval -> Prop :=
  | F_skipped d v : fl_skip d = true -> zeroval (fl_type d) v -> field_survives d v
  | F_omitted d v : omitempty || fl_omitempty d = true -> empty v -> zeroval (fl_type d) v ->
      field_survives d v
  | F_written d v : (omitempty || fl_omitempty d = true -> ~ empty v) -> fl_skip d = false ->
      survives (omitempty || fl_omitempty d) (fl_type d) v -> field_survives d v.
  End Survives.
End Types.

(** no type of the table and no part of [t] has text methods *)
Fixpoint no_text (t : gotype) : bool :=
  match t with
  | TyText _ => false
  | TySlice e | TyArray _ e | TyPtr e => no_text e
  | TyMap k e => no_text k && no_text e
  | _ => true
  end.
Definition no_texts (tb : structs) : Prop := Forall (Forall (fun d => no_text (fl_type d) = true)) tb.

(** every struct type that is mentioned is in the table *)
Fixpoint known (tb : structs) (t : gotype) : Prop :=
  match t with
  | TySlice e | TyArray _ e | TyPtr e => known tb e
  | TyMap k e => known tb k /\ known tb e
  | TyStruct i => i < length tb
  | _ => True
  end.
(** The types of a Go program: they mention types of the program, and no struct contains itself by
    value, so that it has a zero value. *)
Definition sensible (x : externs) (tb : structs) : Prop :=
  forall i fs, nth_error tb i = Some fs ->
    (exists z, zeroval x tb (TyStruct i) z) /\ Forall (fun d => known tb (fl_type d)) fs.

(** ** goyaml *)

(** the calls of the generated code, made on the Inserter of goyaml (it never inserts raw nodes) *)
Definition gop_of (b : bop) : gop :=
  match b with
  | OScalar s => GScalar s | ONull => GNull
  | OStartSeq => GStartSeq | OEndSeq => GEndSeq | OStartMap => GStartMap | OEndMap => GEndMap
  | ORaw _ => GRaw (GRawErr 0)
  | ORawText t e => GRawText t e
  end.

(** What is assumed about yaml.v3's Node.ShortTag, as a function of style, tag and value of a scalar:
    an explicit !!null is null, double-quoted text is not, and plain text is null only if the schema
    says so. *)
Definition short_ok (short : N -> text -> text -> text) : Prop :=
  (forall v, short 0%N (t' "!!null") v = t' "!!null")
  /\ (forall v, short 2%N [] v <> t' "!!null")
  /\ (forall v, short 0%N [] v = t' "!!null" -> yaml_null v).

(** the nodes reachable from a reference are those of the tree *)
Inductive holds (short : N -> text -> text -> text) (g : graph) : gref -> gnode -> Prop :=
| H_node i c k st tag v a ns : nth_error g i = Some c -> x_kind c = k ->
    (k = KScalar -> x_short c = short st tag v) -> x_value c = v ->
    Forall2 (holds short g) (x_content c) ns -> holds short g (Some i) (G k st tag v a ns).

(** ** running the generated functions *)
Definition no_errors {Nd K} (en : engine Nd K) (o : oracle) (f : nat) (r : rstate Nd K) : Prop :=
  do_call en o f DError r = Done (AErrors [], r).

(** decoding a yayamls node, or a node of a yaml.v3 graph, with the generated function for [t];
    [z] is what the destination holds before *)
Definition y_decode x tb omitempty strict o multi fuel t z n :=
  interp (y_engine o) o fuel (decode_top x tb omitempty strict fuel t z) (y_reader multi n, []).
Definition g_decode x tb omitempty strict o marshal multi fuel t z g i :=
  interp (g_engine marshal o) o fuel (decode_top x tb omitempty strict fuel t z) (r_new g multi i, []).
