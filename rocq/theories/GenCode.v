(** Model of the code that generator/decoder.go and generator/encoder.go write: what the generated
    functions do, as interpreters of the type they were generated for.

    The types are those for which the generated code compiles: scalars, types with MarshalText and
    UnmarshalText, []byte, slices, arrays, pointers, maps and structs.  Left out: interfaces (the
    generated code does not compile), arrays of bytes (the same), embedded pointers and types with
    marshalling methods of their own.  A named type that is not a struct is treated like the type it
    is defined by (generateDecoderBody and generateEncoderBody look at the kind only).

    Strings and byte slices are lists of runes. *)
From Coq Require Import String.
From Verif Require Import Base Schema Values Ast Writer Builder Reader.
Local Open Scope nat_scope.

(** ** types and values *)
Inductive gotype :=
| TyString | TyBool
| TyInt (bits : N) | TyUint (bits : N) | TyFloat (bits : N)
    (* int and uint have 64 bits; the generated size 0 means the same to strconv *)
| TyText (k : nat)                       (* a type with MarshalText and UnmarshalText, by number *)
| TyBytes                                (* a slice whose elements are the predeclared uint8 *)
| TySlice (e : gotype) | TyArray (n : nat) (e : gotype)
| TyPtr (e : gotype) | TyMap (k e : gotype)
| TyStruct (i : nat).                    (* the i-th struct type; struct types may be recursive *)

(** a field as getStructFields returns it, with its tags (tags.go); [fl_name] is the YAML name *)
Record field := mkField { fl_name : text; fl_type : gotype; fl_skip : bool; fl_omitempty : bool }.
Definition structs := list (list field).

Inductive goval :=
| GoString (s : text) | GoBool (b : bool) | GoInt (z : Z) | GoUint (n : N)
| GoFloat (x : N)                        (* the bits of the float64 *)
| GoText (x : N)                         (* an opaque value of a TyText type *)
| GoBytes (s : text)
| GoNil                                  (* a nil slice, pointer or map *)
| GoSlice (l : list goval) | GoArray (l : list goval)
| GoPtr (v : goval)
| GoMap (l : list (goval * goval))       (* in the order of the iteration *)
| GoStruct (l : list goval).

(** what is outside the repository: FromFloat (schema.go 114-125) and the text methods *)
Record externs := mkExterns {
  x_float : N -> text;
  x_marshal : nat -> N -> text + N;      (* MarshalText: the text or an error *)
  x_unmarshal : nat -> text -> option N; (* UnmarshalText *)
  x_zero : nat -> N                      (* the zero value *)
}.

(** == on map keys *)
Fixpoint goval_eqb (a b : goval) {struct a} : bool :=
  let all := fix all (l m : list goval) : bool :=
    match l, m with
    | [], [] => true
    | x :: l', y :: m' => goval_eqb x y && all l' m'
    | _, _ => false
    end in
  let pairs := fix pairs (l m : list (goval * goval)) : bool :=
    match l, m with
    | [], [] => true
    | (x, x') :: l', (y, y') :: m' => goval_eqb x y && goval_eqb x' y' && pairs l' m'
    | _, _ => false
    end in
  match a, b with
  | GoString s, GoString r | GoBytes s, GoBytes r => text_eqb s r
  | GoBool x, GoBool y => Bool.eqb x y
  | GoInt x, GoInt y => (x =? y)%Z
  | GoUint x, GoUint y | GoFloat x, GoFloat y | GoText x, GoText y => (x =? y)%N
  | GoNil, GoNil => true
  | GoSlice l, GoSlice m | GoArray l, GoArray m | GoStruct l, GoStruct m => all l m
  | GoPtr x, GoPtr y => goval_eqb x y
  | GoMap l, GoMap m => pairs l m
  | _, _ => false
  end.
(** m[k] = v *)
Fixpoint go_assign (k v : goval) (m : list (goval * goval)) : list (goval * goval) :=
  match m with
  | [] => [(k, v)]
  | (k', v') :: m' => if goval_eqb k k' then (k', v) :: m' else (k', v') :: go_assign k v m'
  end.

Section Code.
  Context (x : externs) (tb : structs).
  Context (omitempty strict : bool).     (* the options omitempty and disallowUnknownFields *)

  Definition fields_of (i : nat) : list field := nth i tb [].

  (** [var v T].  No Go type contains itself by value, but the table does not know. *)
  Fixpoint zero (fuel : nat) (t : gotype) {struct fuel} : option goval :=
    match fuel with
    | O => None
    | S f =>
        match t with
        | TyString => Some (GoString [])
        | TyBool => Some (GoBool false)
        | TyInt _ => Some (GoInt 0)
        | TyUint _ => Some (GoUint 0)
        | TyFloat _ => Some (GoFloat 0)
        | TyText k => Some (GoText (x_zero x k))
        | TyBytes | TySlice _ | TyPtr _ | TyMap _ _ => Some GoNil
        | TyArray n e => option_map (fun z => GoArray (repeat z n)) (match n with O => Some GoNil | _ => zero f e end)
        | TyStruct i =>
            option_map GoStruct
              ((fix go (l : list field) : option (list goval) :=
                  match l with
                  | [] => Some []
                  | d :: l' => match zero f (fl_type d), go l' with
                               | Some z, Some zs => Some (z :: zs) | _, _ => None end
                  end) (fields_of i))
        end
    end.

  (** ** encoder.go *)

  (** x != 0 on a float: neither zero is different from 0 *)
  Definition float_is_zero (n : N) : bool := (n =? 0)%N || (n =? 2 ^ 63)%N.

  (* encoder.go 134-152 *)
  Definition not_empty (t : gotype) (v : goval) : bool :=
    match t, v with
    | (TyBytes | TySlice _ | TyMap _ _), (GoNil | GoBytes [] | GoSlice [] | GoMap []) => false
    | TyPtr _, GoNil => false
    | TyBool, GoBool b => b
    | TyString, GoString [] => false
    | TyInt _, GoInt z => negb (z =? 0)%Z
    | TyUint _, GoUint n => negb (n =? 0)%N
    | TyFloat _, GoFloat n => negb (float_is_zero n)
    | _, _ => true
    end.

  (* encoder.go 154-344, the calls of the Inserter; [can_null] is canBeNull.  Without it, a nil
     slice or map is encoded like an empty one; a nil pointer does not get here. *)
  Fixpoint encode (can_null : bool) (t : gotype) (v : goval) {struct v} : list bop :=
    match t, v with
    | TyString, GoString s => [OScalar (SString s)]                       (* 12-27, 208-210 *)
    | TyBool, GoBool b => [OScalar (SBool b)]
    | TyInt _, GoInt z => [OScalar (SInt z)]
    | TyUint _, GoUint n => [OScalar (SUint n)]
    | TyFloat _, GoFloat n => [OScalar (SFloat (x_float x n))]
    | TyText k, GoText n =>                                               (* 184-188 *)
        [match x_marshal x k n with inl s => ORawText s None | inr e => ORawText [] (Some e) end]
    | TyBytes, GoNil => if can_null then [ONull] else [OScalar (SString [])]   (* 218-230 *)
    | TyBytes, GoBytes s => [OScalar (SString s)]
    | TySlice _, GoNil => if can_null then [ONull] else [OStartSeq; OEndSeq]   (* 218-243 *)
    | TySlice e, GoSlice l => OStartSeq :: flat_map (encode true e) l ++ [OEndSeq]
    | TyArray _ e, GoArray l => OStartSeq :: flat_map (encode true e) l ++ [OEndSeq]  (* 244-260 *)
    | TyPtr _, GoNil => [ONull]                                           (* 273-288 *)
    | TyPtr e, GoPtr v' => encode true e v'
    | TyMap _ _, GoNil => if can_null then [ONull] else [OStartMap; OEndMap]   (* 289-314 *)
    | TyMap k e, GoMap l =>
        OStartMap ::
        flat_map (fun kv => encode true k (fst kv) ++ encode true e (snd kv)) l ++ [OEndMap]
    | TyStruct i, GoStruct l =>                                           (* 75-132, 261-272 *)
        OStartMap ::
        (fix go (fs : list field) (l : list goval) {struct l} : list bop :=
           match fs, l with
           | d :: fs', y :: l' =>
               (if fl_skip d then []
                else if (omitempty || fl_omitempty d) && negb (not_empty (fl_type d) y) then []
                else OScalar (SString (fl_name d))
                     :: encode (negb (omitempty || fl_omitempty d)) (fl_type d) y) ++ go fs' l'
           | _, _ => []
           end) (fields_of i) l ++ [OEndMap]
    | _, _ => []                                                          (* not a value of the type *)
    end.

  (** The function generated for the target type: 54-105 *)
  Definition encode_top (t : gotype) (v : goval) : list bop := encode true t v.

  (** ** decoder.go: programs that use a Decoder *)
  Section Decoder.
  Context {Nd : Type}.

  (** [Open] is a call that returns a collection state; states are numbered in order of creation.
      [AddErr None] is AddError(nil).  [Stop]: the fuel of the interpreter is used up. *)
  Inductive prog (A : Type) :=
  | Ret (a : A)
  | Call (c : call) (k : answer Nd -> prog A)
  | Open (c : call) (k : nat -> prog A)
  | Size (h : nat) (k : nat -> prog A)
  | More (h : nat) (k : bool -> prog A)
  | AddErr (e : option rerr) (k : prog A)
  | Stop | Crash.

  Fixpoint bind {A B} (p : prog A) (f : A -> prog B) : prog B :=
    match p with
    | Ret _ a => f a
    | Call _ c k => Call B c (fun a => bind (k a) f)
    | Open _ c k => Open B c (fun h => bind (k h) f)
    | Size _ h k => Size B h (fun n => bind (k n) f)
    | More _ h k => More B h (fun b => bind (k b) f)
    | AddErr _ e k => AddErr B e (bind k f)
    | Stop _ => Stop B
    | Crash _ => Crash B
    end.
  Arguments Ret {A}. Arguments Call {A}. Arguments Open {A}. Arguments Size {A}.
  Arguments More {A}. Arguments AddErr {A}. Arguments Stop {A}. Arguments Crash {A}.

  Definition txt (a : answer Nd) : text := match a with AText s => s | _ => [] end.
  Definition yes (a : answer Nd) : bool := match a with ABool b => b | _ => false end.
  Definition int (a : answer Nd) : Z := match a with AInt z => z | _ => 0%Z end.
  Definition uint (a : answer Nd) : N := match a with AUint n => n | _ => 0%N end.
  Definition flo (a : answer Nd) : N := match a with AFloat n => n | _ => 0%N end.

  Definition of_option {A} (a : option A) : prog A := match a with Some v => Ret v | None => Stop end.

  (** for h.HasUnprocessedItems() && cond { body } *)
  Fixpoint while {A} (fuel : nat) (h : nat) (cond : A -> bool) (body : A -> prog A) (a : A) : prog A :=
    match fuel with
    | O => Stop
    | S f => More h (fun b => if b && cond a then bind (body a) (while f h cond body) else Ret a)
    end.

  Definition elems (v : goval) : list goval :=
    match v with GoSlice l | GoArray l | GoStruct l => l | _ => [] end.
  Fixpoint set_nth {A} (l : list A) (i : nat) (a : A) : list A :=
    match l, i with
    | [], _ => []
    | _ :: l', O => a :: l'
    | y :: l', S i' => y :: set_nth l' i' a
    end.
  (** the case of the switch, by name: its number, and the field *)
  Fixpoint case_of (key : text) (fs : list field) (i : nat) : option (nat * field) :=
    match fs with
    | [] => None
    | d :: fs' => if negb (fl_skip d) && text_eqb key (fl_name d) then Some (i, d) else case_of key fs' (S i)
    end.

  (* decoder.go 134-336; [cur] is what the destination holds before.  [omit] is
     g.omitempty || tags.omitempty: the tags of a field are handed down to its elements. *)
  Fixpoint decode (fuel : nat) (omit : bool) (t : gotype) (cur : goval) {struct fuel} : prog goval :=
    match fuel with
    | O => Stop
    | S f =>
        let null_or (p : prog goval) : prog goval :=
          Call DTryNull (fun a => if yes a then Ret GoNil else p) in
        match t with
        | TyString => Call DString (fun a => Ret (GoString (txt a)))          (* 13-28, 190-193 *)
        | TyBool => Call DBoolean (fun a => Ret (GoBool (yes a)))
        | TyInt b => Call (DInteger b) (fun a => Ret (GoInt (int a)))
        | TyUint b => Call (DUnsigned b) (fun a => Ret (GoUint (uint a)))
        | TyFloat b => Call (DFloat b) (fun a => Ret (GoFloat (flo a)))
        | TyText k =>                                                         (* 164-168 *)
            Call DString (fun a =>
              match x_unmarshal x k (txt a) with
              | Some n => AddErr None (Ret (GoText n))
              | None => AddErr (Some (RUser 0)) (Ret cur)
              end)
        | TyBytes => null_or (Call DString (fun a => Ret (GoBytes (txt a))))   (* 198-203 *)
        | TySlice e =>                                                        (* 204-222 *)
            null_or (Open DSequence (fun h => Size h (fun _ =>
              bind (while f h (fun _ => true)
                      (fun l => bind (of_option (zero f e)) (fun z =>
                                bind (decode f omit e z) (fun v => Ret (l ++ [v])))) [])
                   (fun l => Ret (GoSlice l)))))
        | TyArray n e =>                                                      (* 223-245 *)
            Call DTryNull (fun a =>
              if yes a then Ret cur
              else Open DSequence (fun h =>
                bind (while f h (fun s => fst s <? n)
                        (fun s => bind (of_option (nth_error (snd s) (fst s))) (fun z =>
                                  bind (decode f omit e z) (fun v =>
                                  Ret (S (fst s), set_nth (snd s) (fst s) v)))) (0, elems cur))
                     (fun s => Ret (GoArray (snd s)))))
        | TyPtr e =>                                                          (* 255-269 *)
            null_or (bind (match cur with
                           | GoPtr v => Ret v
                           | _ => of_option (zero f e)
                           end) (fun z =>
                     bind (decode f omit e z) (fun v => Ret (GoPtr v))))
        | TyMap k e =>                                                        (* 270-306 *)
            null_or (Open DMapping (fun h => Size h (fun n =>
              while f h (fun _ => true)
                (fun m => bind (of_option (zero f k)) (fun zk =>
                          bind (of_option (zero f e)) (fun ze =>
                          bind (decode f omit k zk) (fun key =>
                          bind (decode f omit e ze) (fun v =>
                          match m with
                          | GoMap l => Ret (GoMap (go_assign key v l))
                          | _ => Crash                        (* assignment to an entry of a nil map *)
                          end)))))
                (if omit && (n =? 0) then GoNil else GoMap []))))
        | TyStruct i =>                                                       (* 68-132, 246-254 *)
            Call DTryNull (fun a =>
              bind (if yes a then of_option (zero f t) else Ret cur) (fun cur =>   (* no return here *)
              Open DMapping (fun h =>
                while f h (fun _ => true)
                  (fun s =>
                     Call DString (fun key =>
                     Call DTryNull (fun a =>
                       if yes a then Ret s
                       else match case_of (txt key) (fields_of i) 0 with
                            | Some (j, d) =>
                                bind (of_option (nth_error (elems s) j)) (fun z =>
                                bind (decode f (omitempty || fl_omitempty d) (fl_type d) z) (fun v =>
                                Ret (GoStruct (set_nth (elems s) j v))))
                            | None =>
                                if strict then AddErr (Some (RUser 1)) (Ret s)
                                else Call DSkip (fun _ => Ret s)
                            end)))
                  cur)))
        end
    end.

  (** The function generated for the target type (52-66): for a type that is not a struct, null
      leaves the destination as it is. *)
  Definition decode_top (fuel : nat) (t : gotype) (cur : goval) : prog goval :=
    match t with
    | TyStruct _ => decode fuel omitempty t cur
    | _ => Call DTryNull (fun a => if yes a then Ret cur else decode fuel omitempty t cur)
    end.
  End Decoder.
End Code.
Arguments prog : clear implicits.
Arguments Ret {Nd A}. Arguments Call {Nd A}. Arguments Open {Nd A}. Arguments Size {Nd A}.
Arguments More {Nd A}. Arguments AddErr {Nd A}. Arguments Stop {Nd A}. Arguments Crash {Nd A}.

(** ** running a program with a reader *)
Section Run.
  Context {Nd K : Type} (en : engine Nd K) (o : oracle).

  (** AddError(nil): yayamls 643-647 stores the nil; [g] 547-562 also reads all iterators to their end *)
  Definition add_nil_error (r : rstate Nd K) : rstate Nd K :=
    if has_fatal r then r else if en_drains en then drain r else r.

  Fixpoint interp {A} (fuel : nat) (p : prog Nd A) (s : client Nd K) : outcome (A * client Nd K) :=
    match p with
    | Ret a => Done (a, s)
    | Call c k =>
        obind (do_call en o fuel c (fst s)) (fun y =>
        interp fuel (k (fst y)) (snd y, snd s ++ colls_of (fst y)))
    | Open c k =>
        obind (do_call en o fuel c (fst s)) (fun y =>
        interp fuel (k (length (snd s))) (snd y, snd s ++ colls_of (fst y)))
    | Size h k => obind (coll_size (nth h (snd s) CollNil)) (fun n => interp fuel (k n) s)
    | More h k => obind (coll_more (fst s) (nth h (snd s) CollNil)) (fun b => interp fuel (k b) s)
    | AddErr (Some e) k =>
        obind (do_call en o fuel (DAddError e) (fst s)) (fun y => interp fuel k (snd y, snd s))
    | AddErr None k => interp fuel k (add_nil_error (fst s), snd s)
    | Stop => NoFuel
    | Crash => Panics
    end.
End Run.
