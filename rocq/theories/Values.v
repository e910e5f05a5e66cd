(** What decoding yields: errors, generic values, answers; and the conversions that are external to
    the repository (strconv.ParseFloat, time.Parse, fmt.Sprint), as oracles. *)
From Verif Require Import Base Schema.
Local Open Scope nat_scope.

(** Generic Go values produced by Any.  A float64 is its bit pattern, a time.Time an opaque number.
    A map is a list of distinct keys with their values; the order is not significant. *)
Inductive value :=
| VNil | VTime (t : N) | VUint (n : N) | VInt (z : Z) | VFloat (bits : N) | VBool (b : bool)
| VStr (s : text) | VSeq (l : list value) | VMap (m : list (text * value)).

Record oracle := mkOracle {
  o_float : text -> N -> option N;        (* strconv.ParseFloat and the special names *)
  o_time : text -> option N;              (* the layouts of schema.go 156-164 tried in order *)
  o_time_zero : N;                        (* time.Time{} *)
  o_sprint : value -> text                (* fmt.Sprint; maps print in key order *)
}.

(* schema.go 167-175, 183-191: both try the same layouts *)
Definition sc_is_timestamp (o : oracle) (s : text) : bool :=
  match o_time o s with Some _ => true | None => false end.

(* decode/expected.go; expectNode is the same type as expectRaw *)
Inductive expecter :=
| ENull | EInteger | EBoolean | EFloat | EString | ETimestamp | ESequence | EMapping | EAny | ERaw | ESkip.

(** Error values, by kind.  Messages (the denied node's type or text) are left out. *)
Inductive rerr :=
| RDeny (e : expecter)              (* yamly.DenyError of a denyError *)
| REnd                              (* yamly.ErrEndOfStream *)
| RAlias (name : text)              (* AliasDereferenceError *)
| RConvert (e : expecter) (s : text)(* a conversion of schema.go failed *)
| RAny (es : list rerr)             (* joined errors of the value builder *)
| RStreamInAny                      (* any.go 38-40 *)
| RRaw (es : list N)                (* serialising failed *)
| RUser (n : N)                     (* AddError from outside, not a deny error *)
| RUserDeny (n : N)                 (* AddError from outside with a deny error *)
| RConclusion.                      (* unexpected conclusion *)

(** maps *)
Fixpoint map_get (k : text) (m : list (text * value)) : option value :=
  match m with
  | [] => None
  | (k', v) :: m' => if text_eqb k k' then Some v else map_get k m'
  end.
(** m[k] = v *)
Fixpoint map_set (k : text) (v : value) (m : list (text * value)) : list (text * value) :=
  match m with
  | [] => [(k, v)]
  | (k', v') :: m' => if text_eqb k k' then (k', v) :: m' else (k', v') :: map_set k v m'
  end.
(** mergeMaps(dst, src): any.go 110-116 of either engine.  The iteration order over src does not
    matter because its keys are distinct. *)
Definition merge_maps (dst src : list (text * value)) : list (text * value) :=
  fold_left (fun d kv => match map_get (fst kv) d with Some _ => d | None => map_set (fst kv) (snd kv) d end)
            src dst.
