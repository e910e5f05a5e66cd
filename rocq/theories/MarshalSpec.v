(** Which Go values are written as texts that the parser reads back. *)
From Verif Require Import Base Ast RoundTripSpec GenCode GenSpec.
Local Open Scope nat_scope.

Section Textual.
  Context (x : externs) (tb : structs) (omitempty : bool).

  Definition scalar_type (t : gotype) : bool :=
    match t with TyString | TyBool | TyInt _ | TyUint _ | TyFloat _ | TyText _ => true | _ => false end.

  (** the generated encoder leaves the field out *)
  Definition left_out (d : field) (v : goval) : Prop :=
    fl_skip d = true \/ (omitempty || fl_omitempty d = true /\ empty v).

  (** [textual t v]: the strings and names need no escapes in double quotes, floats are written as words,
      no slice, array or map is empty, the keys of maps are scalars, and no struct is written without any
      field.  Nils may be anywhere. *)
  Inductive textual : gotype -> goval -> Prop :=
  | X_string s : Forall double_char s -> textual TyString (GoString s)
  | X_bool b : textual TyBool (GoBool b)
  | X_int bits z : textual (TyInt bits) (GoInt z)
  | X_uint bits n : textual (TyUint bits) (GoUint n)
  | X_float bits n : plain_text (x_float x n) -> textual (TyFloat bits) (GoFloat n)
  | X_text k n s : x_marshal x k n = inl s -> Forall double_char s -> textual (TyText k) (GoText n)
  | X_bytes s : Forall double_char s -> textual TyBytes (GoBytes s)
  | X_nil t : textual t GoNil
  | X_slice e l : l <> [] -> Forall (textual e) l -> textual (TySlice e) (GoSlice l)
  | X_array n e l : l <> [] -> Forall (textual e) l -> textual (TyArray n e) (GoArray l)
  | X_ptr e v : textual e v -> textual (TyPtr e) (GoPtr v)
  | X_map k e l : l <> [] -> scalar_type k = true ->
      Forall (fun kv => textual k (fst kv) /\ textual e (snd kv)) l -> textual (TyMap k e) (GoMap l)
  | X_struct i fs l : nth_error tb i = Some fs -> Forall2 field_textual fs l ->
      (exists j d v, nth_error fs j = Some d /\ nth_error l j = Some v /\ ~ left_out d v) ->
      textual (TyStruct i) (GoStruct l)
  with field_textual : field -> goval -> Prop :=
  | FX_out d v : left_out d v -> field_textual d v
  | FX_in d v : Forall double_char (fl_name d) -> textual (fl_type d) v -> field_textual d v.
End Textual.
