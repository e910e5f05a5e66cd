(** What a document means as a value of a Go type, by recursion on the document: no readers, no calls,
    no loops over collection states. *)
From Coq Require Import String.
From Verif Require Import Base Schema Values Writer Reader ReadSpec GenCode GenSpec CursorSpec.
Local Open Scope nat_scope.

(** the document gives a value; or it is wrong, with the error to be reported; or it is one of the cases
    for which the generated code reads nodes of something else: a null instead of a struct, a list that is
    longer than the array, a mapping with a key but no value (the last does not exist in YAML) *)
Inductive meaning := Gives (v : goval) | Wrong (e : rerr) | Odd.

Definition and_then (m : meaning) (k : goval -> meaning) : meaning :=
  match m with Gives v => k v | _ => m end.

(** a scalar that has to be read as a type: its text is not of the type, is of the type but has no value
    (it is out of range), or has a value *)
Definition as_scalar {A} (e : expecter) (is : text -> bool) (to : text -> option A) (mk : A -> goval) (d : ytree) : meaning :=
  match d with
  | YNull s | YText s =>
      if is s then match to s with Some v => Gives (mk v) | None => Wrong (RConvert e s) end else Wrong (RDeny e)
  | _ => Wrong (RDeny e)
  end.

(** the first field of the name that is not left out *)
Fixpoint position (name : text) (fs : list field) : option nat :=
  match fs with
  | [] => None
  | d :: fs' => if negb (fl_skip d) && text_eqb name (fl_name d) then Some 0 else option_map S (position name fs')
  end.
Definition replace {A} (l : list A) (j : nat) (v : A) : list A := firstn j l ++ v :: skipn (S j) l.

Definition null_doc (d : ytree) : bool := match d with YNull _ => true | _ => false end.

(** the elements of a slice *)
Section Slice.
  Context (el : ytree -> meaning).
  Fixpoint slice_of (l : list ytree) (got : list goval) : meaning :=
    match l with
    | [] => Gives (GoSlice got)
    | d :: l' => and_then (el d) (fun v => slice_of l' (got ++ [v]))
    end.
End Slice.

(** the elements of an array: [old] is what the rest of the array holds *)
Section Array.
  Context (el : ytree -> goval -> meaning).
  Fixpoint array_of (l : list ytree) (got old : list goval) : meaning :=
    match l, old with
    | [], _ => Gives (GoArray (got ++ old))
    | _ :: _, [] => Odd
    | d :: l', z :: old' => and_then (el d z) (fun v => array_of l' (got ++ [v]) old')
    end.
End Array.

(** the entries of a map; a key that is there twice has its last value *)
Section Map.
  Context (key val : ytree -> meaning).
  Fixpoint map_of (l : list ytree) (got : list (goval * goval)) : meaning :=
    match l with
    | [] => Gives (GoMap got)
    | [_] => Odd
    | k :: d :: l' => and_then (key k) (fun w => and_then (val d) (fun v => map_of l' (go_assign w v got)))
    end.
End Map.

(** the entries of a struct; a null leaves its field as it is *)
Section Struct.
  Context (strict : bool) (el : ytree -> field -> goval -> meaning) (fs : list field).
  Fixpoint struct_of (l : list ytree) (got : list goval) : meaning :=
    match l with
    | [] => Gives (GoStruct got)
    | [_] => Odd
    | k :: d :: l' =>
        match k with
        | YText s =>
            if null_doc d then struct_of l' got
            else
              match position s fs with
              | Some j => and_then (el d (nth j fs (mkField [] TyString true false)) (nth j got GoNil))
                                   (fun v => struct_of l' (replace got j v))
              | None => if strict then Wrong (RUser 1) else struct_of l' got
              end
        | _ => Wrong (RDeny EString)
        end
    end.
End Struct.

Section Meaning.
  Context (x : externs) (tb : structs) (omitempty strict : bool) (o : oracle).
  (** the zero values *)
  Context (zero_of : gotype -> goval).

  (** [means d om t old]: what [d] means where the destination has the type [t] and holds [old]; [om]: the
      destination is part of a field with omitempty *)
  Fixpoint means (d : ytree) : bool -> gotype -> goval -> meaning :=
    fix go (om : bool) (t : gotype) (old : goval) {struct t} : meaning :=
      match t with
      | TyString => match d with YText s => Gives (GoString s) | _ => Wrong (RDeny EString) end
      | TyBool => as_scalar EBoolean sc_is_boolean sc_to_boolean GoBool d
      | TyInt b => as_scalar EInteger sc_is_integer (fun s => sc_to_integer s b) GoInt d
      | TyUint b => as_scalar EInteger sc_is_integer (fun s => sc_to_unsigned s b) GoUint d
      | TyFloat b => as_scalar EFloat sc_is_float (fun s => o_float o s b) GoFloat d
      | TyText k =>
          match d with
          | YText s => match x_unmarshal x k s with Some n => Gives (GoText n) | None => Wrong (RUser 0) end
          | _ => Wrong (RDeny EString)
          end
      | TyBytes => match d with YNull _ => Gives GoNil | YText s => Gives (GoBytes s) | _ => Wrong (RDeny EString) end
      | TySlice e =>
          match d with
          | YNull _ => Gives GoNil
          | YSeq l => slice_of (fun d' => means d' om e (zero_of e)) l []
          | _ => Wrong (RDeny ESequence)
          end
      | TyArray _ e =>
          match d with
          | YNull _ => Gives old
          | YSeq l => array_of (fun d' => means d' om e) l [] (match old with GoArray zs => zs | _ => [] end)
          | _ => Wrong (RDeny ESequence)
          end
      | TyPtr e =>
          match d with
          | YNull _ => Gives GoNil
          | _ => and_then (go om e (match old with GoPtr v => v | _ => zero_of e end)) (fun v => Gives (GoPtr v))
          end
      | TyMap k e =>
          match d with
          | YNull _ => Gives GoNil
          | YMap [] => Gives (if om then GoNil else GoMap [])
          | YMap l => map_of (fun d' => means d' om k (zero_of k)) (fun d' => means d' om e (zero_of e)) l []
          | _ => Wrong (RDeny EMapping)
          end
      | TyStruct i =>
          match d with
          | YNull _ => Odd
          | YMap l =>
              struct_of strict (fun d' f => means d' (omitempty || fl_omitempty f) (fl_type f)) (nth i tb []) l
                        (match old with GoStruct vs => vs | _ => [] end)
          | _ => Wrong (RDeny EMapping)
          end
      end.

  (** the document of UnmarshalYAML: a null leaves the destination as it is, unless it is a struct *)
  Definition meaning_of (t : gotype) (old : goval) (d : ytree) : meaning :=
    match t, d with
    | TyStruct _, _ => means d omitempty t old
    | _, YNull _ => Gives old
    | _, _ => means d omitempty t old
    end.
End Meaning.

(** [zero_of] gives the zero values of the types of the program *)
Definition zeros (x : externs) (tb : structs) (zero_of : gotype -> goval) : Prop :=
  forall t, known tb t -> zeroval x tb t (zero_of t).

(** the trees of ReadSpec.v as documents *)
Fixpoint doc (w : ReadSpec.tree) : ytree :=
  match w with
  | TNull => YNull (t' "null")
  | TText s => YText s
  | TSeq l => YSeq (map doc l)
  | TMap l => YMap (flat_map (fun kv => [doc (fst kv); doc (snd kv)]) l)
  end.
